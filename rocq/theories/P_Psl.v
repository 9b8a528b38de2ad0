(** Property theorems C117: the loader of package symbols.  [file] and [sym] are what
    the system has, [there] which files exist, [name] the system's name for a text;
    a program is a list of steps as in C112 (Lib_Model.v). *)
From Verif Require Import Base Lib_Model Lib_Spec Lib_Proofs Psl_Model Psl_Spec Psl_Proofs.
From Coq Require Import String.
Local Open Scope Z_scope.
Local Open Scope list_scope.

(** ** C117 *)
(** Whatever the program did before, a loader is made from the library at its place
    if that has both functions; and whatever the program does with other variables
    afterwards, the loader keeps the library open and calls those two functions,
    and it can be ended, after which a library is open exactly if something else
    of the program uses it. *)
Theorem C117_loader : forall file sym name there, proper file -> forall l0 s bs0 p h a b,
  lrun file sym lstart l0 = LFine (s, bs0) -> library_file there p -> file (name p) = Some h ->
  sym h (name "load_interface"%string) = Some a -> sym h (name "load_error_interface"%string) = Some b ->
  exists s1 x, make_loader file sym name there s = Made s1 x /\
    forall l s2 bs, leaves x l -> lrun file sym s1 l = LFine (s2, bs) ->
      load_symbol file sym s2 x = LFine (s2, SCalled a) /\ get_load_error file sym s2 x = LFine (s2, SCalled b) /\
      (0 < opened s2 h)%nat /\
      exists s3 bs3, end_loader file sym s2 x = LFine (s3, bs3) /\
        forall h', h' <> 0 -> ((0 < opened s3 h')%nat <-> used_elsewhere s2 x h').
Proof.
  intros file sym name there OK l0 s bs0 p h a b E P. rewrite (library_file_unique P).
  exact (@whole file sym OK name there s h a b (run_inv (good_start file) E)).
Qed.
Print Assumptions C117_loader.
(** Without the library the program ends with a message. *)
Theorem C117_no_library : forall file sym name there l0 s bs0 p,
  lrun file sym lstart l0 = LFine (s, bs0) -> library_file there p -> file (name p) = None ->
  make_loader file sym name there s = Died.
Proof.
  intros file sym name there l0 s bs0 p E P. rewrite (library_file_unique P).
  exact (@no_library file sym name there s (run_inv (good_start file) E)).
Qed.
Print Assumptions C117_no_library.
(** A library without one of the functions does not end the program with the message
    there is for it: the effect is undefined. *)
Theorem C117_no_function_undefined : forall file sym name there, proper file -> forall l0 s bs0 p h,
  lrun file sym lstart l0 = LFine (s, bs0) -> library_file there p -> file (name p) = Some h ->
  sym h (name "load_interface"%string) = None \/ sym h (name "load_error_interface"%string) = None ->
  make_loader file sym name there s = MWild.
Proof.
  intros file sym name there OK l0 s bs0 p h E P. rewrite (library_file_unique P).
  exact (@no_function file sym OK name there s h (run_inv (good_start file) E)).
Qed.
Print Assumptions C117_no_function_undefined.

(** The library is also opened and closed by the program itself. *)
Example C117_case :
  let there (p : string) := String.eqb p "/usr/lib/elc/flag" in
  let name (p : string) := if String.eqb p "/usr/lib/elc/package_symbol_loader.so" then 1
    else if String.eqb p "load_interface" then 2 else if String.eqb p "load_error_interface" then 3 else 4 in
  let file n := if n =? 1 then Some 7 else None in
  let sym h n := Some (100 * h + n) in
  library_file there "/usr/lib/elc/package_symbol_loader.so" /\
  match lrun file sym lstart [OLoad 1] with
  | LFine (s, _) =>
    match make_loader file sym name there s with
    | Made s1 x => leaves x [ODrop 0] /\
      match lrun file sym s1 [ODrop 0] with
      | LFine (s2, _) => opened s1 7 = 2%nat /\ opened s2 7 = 1%nat /\
        match load_symbol file sym s2 x with LFine (_, b) => b = SCalled 702 | LWild => False end /\
        match get_load_error file sym s2 x with LFine (_, b) => b = SCalled 703 | LWild => False end /\
        match end_loader file sym s2 x with LFine (s3, _) => opened s3 7 = 0%nat | LWild => False end
      | LWild => False
      end
    | _ => False
    end
  | LWild => False
  end /\
  make_loader file sym name (fun _ => false) lstart = Died /\
  make_loader file (fun h n => if n =? 2 then None else Some 5) name there lstart = MWild.
Proof.
  cbv zeta. split; [left; vm_compute; split; reflexivity|].
  split; [|vm_compute; split; reflexivity].
  vm_compute. repeat split; intros [Q|[]]; discriminate.
Qed.
