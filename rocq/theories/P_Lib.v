(** Property theorems C112: libraries loaded at run time and the functions found in
    them.  [file] and [sym] are what the system has; a program is a list of steps
    on variables that hold libraries and functions (Lib_Model.v). *)
From Verif Require Import Base Lib_Model Lib_Spec Lib_Proofs.
Local Open Scope Z_scope.

(** ** C112 *)
(** After every program a library is open exactly if the program still has a handle
    of it or a function from it. *)
Theorem C112_open_while_used : forall file sym l s bs,
  lrun file sym lstart l = LFine (s, bs) -> forall h, h <> 0 -> ((0 < opened s h)%nat <-> in_use s h).
Proof. intros file sym l s bs E h. exact (open_iff (run_inv (good_start file) E)). Qed.
Print Assumptions C112_open_while_used.
(** A function can be called for as long as the program has it, whatever became of
    the handle it was got from. *)
Theorem C112_call : forall file sym l s bs,
  lrun file sym lstart l = LFine (s, bs) ->
  forall x j n a, nth_error (vars s) x = Some (VFun (Some j) n a) -> lstep file sym s (OCall x) = LFine (s, SCalled a).
Proof.
  intros file sym l s bs E x j n a Ex. pose proof (run_inv (good_start file) E) as G.
  destruct (@held_live file s x _ j G Ex eq_refl) as (name & h & c & Ei). exact (@function_called file sym s x j n a name h c G Ex Ei).
Qed.
Print Assumptions C112_call.
(** A program all of whose libraries and symbols exist does nothing undefined: no
    library is closed too often, and nothing that was freed is used. *)
Theorem C112_safe_partial : forall file sym, proper file -> forall l,
  (forall n, In (OLoad n) l -> file n <> None) -> (forall x n h, In (OSym x n) l -> sym h n <> None) ->
  exists s bs, lrun file sym lstart l = LFine (s, bs).
Proof.
  intros file sym OK l. apply (run_fine OK); [exact (good_start file)|]. intros [|j] n h c; discriminate.
Qed.
Print Assumptions C112_safe_partial.
(** A function knows its name and the library it came from. *)
Theorem C112_parts : forall file sym s x i n s' b,
  nth_error (vars s) x = Some (VLib i) -> lstep file sym s (OSym x n) = LFine (s', b) ->
  exists a h, handle_of s i = LFine h /\ sym h n = Some a /\ nth_error (vars s') (length (vars s)) = Some (VFun i n a) /\
    lstep file sym s' (OName (length (vars s))) = LFine (s', SName n) /\
    forall s2 b2, lstep file sym s' (OLib (length (vars s))) = LFine (s2, b2) ->
      nth_error (vars s2) (S (length (vars s))) = Some (VLib i).
Proof. exact symbol_parts. Qed.
Print Assumptions C112_parts.
(** One library under two names, a function that outlives both handles. *)
Example C112_case :
  let file n := if n <? 3 then Some 7 else None in
  let sym h n := Some (100 * h + n) in
  match lrun file sym lstart [OLoad 1; OLoad 2; OSym 0 5; ODrop 0; ODrop 1; OCall 2; OName 2; OLib 2; OOk 3] with
  | LFine (s, bs) => bs = [SNothing; SNothing; SNothing; SNothing; SNothing; SCalled 705; SName 5; SNothing; SBool true] /\
      opened s 7 = 1%nat
  | LWild => False
  end /\
  match lrun file sym lstart [OLoad 1; OLoad 2; OSym 0 5; ODrop 0; ODrop 1; ODrop 2] with
  | LFine (s, _) => opened s 7 = 0%nat
  | LWild => False
  end.
Proof. vm_compute. repeat split. Qed.

(** After a library could not be loaded, its handle says so, and the end of the
    handle closes the null handle, which was never opened. *)
Theorem C112_missing_library_undefined : forall file sym l s bs n,
  lrun file sym lstart l = LFine (s, bs) -> file n = None ->
  lrun file sym s [OLoad n; OOk (length (vars s)); ODrop (length (vars s))] = LWild /\
  exists s' b, lrun file sym s [OLoad n; OOk (length (vars s))] = LFine (s', [SNothing; b]) /\ b = SBool false.
Proof. intros file sym l s bs n E. exact (missing_library sym (run_inv (good_start file) E)). Qed.
Print Assumptions C112_missing_library_undefined.
(** Asking for a function that the library does not have is undefined. *)
Theorem C112_missing_symbol_undefined : forall file sym s x i h n,
  nth_error (vars s) x = Some (VLib i) -> handle_of s i = LFine h -> sym h n = None ->
  lstep file sym s (OSym x n) = LWild.
Proof. exact missing_symbol. Qed.
Print Assumptions C112_missing_symbol_undefined.
(** A library that could not be loaded has the functions of the program itself. *)
Theorem C112_own_symbol_wrong : forall file sym s n m a, file n = None -> sym 0 m = Some a ->
  exists s', lrun file sym s [OLoad n; OSym (length (vars s)) m; OCall (S (length (vars s)))] =
    LFine (s', [SNothing; SNothing; SCalled a]).
Proof. exact own_symbol. Qed.
Print Assumptions C112_own_symbol_wrong.
Example C112_wrong_case :
  let file (n : Z) := if n <? 3 then Some 7 else None in
  let sym h n := if n =? 9 then None else Some (100 * h + n) in
  lrun file sym lstart [OLoad 4; ODrop 0] = LWild /\ lrun file sym lstart [OLoad 1; OSym 0 9] = LWild /\
  match lrun file sym lstart [OLoad 4; OSym 0 5; OCall 1] with LFine (_, bs) => bs = [SNothing; SNothing; SCalled 5] | LWild => False end.
Proof. vm_compute. repeat split. Qed.
