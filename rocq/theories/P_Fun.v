(** Property theorems C84-C85: function objects and the function pointers made from them. *)
From Verif Require Import Base Fun_Model Fun_Spec Fun_Proofs.
Local Open Scope nat_scope.

(** ** C84: function objects share callables and nothing else *)
(** Full statement: a program that only uses function objects that exist never touches
    freed memory; copying and assigning share the callable, moving hands it over,
    every call runs the callable with its present state; a callable is destroyed once,
    and exactly when no function object holds it; a deep copy is independent; a
    function is equal to its copies.  The last two are false, see below. *)
Theorem C84_functions_partial :
  forall {V A R : Type} (run : Z -> V -> A -> V * option R) (nothing : R) (comparable : Z -> bool)
    (same : Z -> V -> V -> bool) (plain : Z -> V -> option Z) (run_plain : Z -> A -> option R)
    (part_at : Z -> Z) (null_part_at off : Z) (os : list (op (V := V) (A := A))),
  Forall ordinary os -> proper os [] ->
  exists s a r,
    steps run nothing comparable same plain run_plain part_at null_part_at os (start off) = FFine (s, r) /\
    asteps run nothing comparable same plain run_plain os (mka [] []) a r /\ vars s = shows a /\
    NoDup (log s) /\ (forall p, In p (log s) <-> p < length (things a) /\ ~ shown a p).
Proof. intros; apply functions_share; assumption. Qed.
Print Assumptions C84_functions_partial.

(** What is expected of a program is one thing, so the above says all of it. *)
Theorem C84_one_expectation :
  forall {V A R : Type} (run : Z -> V -> A -> V * option R) (nothing : R) (comparable : Z -> bool)
    (same : Z -> V -> V -> bool) (plain : Z -> V -> option Z) (run_plain : Z -> A -> option R) (os : list (op (V := V) (A := A)))
    a a1 r1 a2 r2,
  asteps run nothing comparable same plain run_plain os a a1 r1 ->
  asteps run nothing comparable same plain run_plain os a a2 r2 -> a1 = a2 /\ r1 = r2.
Proof. intros; eapply (asteps_det (fun _ => 0%Z) 0%Z); eassumption. Qed.
Print Assumptions C84_one_expectation.

(** A counter that adds its argument: two objects count together, the third after the
    move, the callable goes with the last of them. *)
Example C84_functions_case :
  let os := [OMake (mkc 0%Z 10%Z); OCopy 0; OCall 0 1%Z; OCall 1 2%Z; OMove 0; OBool 0; OCall 2 3%Z;
             OEqual 1 2; OSet 1 (mkc 0%Z 5%Z); OEqual 1 2; OCall 0 9%Z; ODrop 2; OSwap 0 1; OCall 0 1%Z] in
  Forall ordinary os /\ proper os [] /\
  match steps (fun _ v a => ((v + a)%Z, Some (v + a)%Z)) 0%Z (fun _ => true) (fun _ => Z.eqb) (fun _ _ => None)
          (fun _ _ => None) (fun _ => 8%Z) 8%Z os (start 0%Z) with
  | FFine (s, r) => r = [RCall (Some 11%Z); RCall (Some 13%Z); RBool false; RCall (Some 16%Z); RBool true;
                         RBool false; RCall (Some 0%Z); RCall (Some 6%Z)] /\ log s = [0] /\
                    vars s = [Some (Some 1); Some None; None]
  | _ => False
  end.
Proof.
  split; [repeat constructor|]. split; [|vm_compute; auto].
  repeat (split; [repeat constructor|]). exact I.
Qed.

(** A deep copy is undefined or another name for the same callable: a call of the copy
    is seen by the next call of the original. *)
Theorem C84_deep_copy_wrong :
  forall {V A R : Type} (run : Z -> V -> A -> V * option R) (nothing : R) (comparable : Z -> bool)
    (same : Z -> V -> V -> bool) (plain : Z -> V -> option Z) (run_plain : Z -> A -> option R)
    (part_at : Z -> Z) (null_part_at off : Z) (os : list (op (V := V) (A := A))) s a r w p,
  let step := step run nothing comparable same plain run_plain part_at null_part_at in
  let steps := steps run nothing comparable same plain run_plain part_at null_part_at in
  Forall ordinary os -> proper os [] -> steps os (start off) = FFine (s, r) ->
  asteps run nothing comparable same plain run_plain os (mka [] []) a r -> has a w (Some p) ->
  step (ODeep w) s = FWild \/
  exists s', step (ODeep w) s = FFine (s', []) /\
    nth_error (vars s') (length (vars s)) = Some (Some (Some p)) /\
    nth_error (vars s') w = Some (Some (Some p)) /\
    forall x y, exists s2 ts r1 ts' r2,
      steps [OCall (length (vars s)) x; OCall w y] s' = FFine (s2, [RCall r1; RCall r2]) /\
      answers run nothing a (Some p) x ts r1 /\
      answers run nothing (mka ts (shows a)) (Some p) y ts' r2.
Proof. intros; eapply deep_copy_shares; eassumption. Qed.
Print Assumptions C84_deep_copy_wrong.

(** Both outcomes occur, by what the last use of [off_set] left behind. *)
Example C84_deep_copy_case :
  let os := [OMake (mkc 0%Z 10%Z); ODeep 0; OCall 1 1%Z; OCall 0 1%Z] in
  let run := steps (fun _ v a => ((v + a)%Z, Some (v + a)%Z)) 0%Z (fun _ => true) (fun _ => Z.eqb) (fun _ _ => None)
          (fun _ _ => None) (fun _ => 8%Z) 16%Z os in
  run (start 0%Z) = FWild /\
  match run (start 8%Z) with FFine (_, r) => r = [RCall (Some 11%Z); RCall (Some 12%Z)] | _ => False end.
Proof. vm_compute; auto. Qed.

(** A function holding a callable whose type has no [==] is not equal to itself. *)
Theorem C84_equal_itself_wrong :
  forall {V A R : Type} (run : Z -> V -> A -> V * option R) (nothing : R) (comparable : Z -> bool)
    (same : Z -> V -> V -> bool) (plain : Z -> V -> option Z) (run_plain : Z -> A -> option R)
    (part_at : Z -> Z) (null_part_at off : Z) (os : list (op (V := V) (A := A))) s a r v p c,
  Forall ordinary os -> proper os [] ->
  steps run nothing comparable same plain run_plain part_at null_part_at os (start off) = FFine (s, r) ->
  asteps run nothing comparable same plain run_plain os (mka [] []) a r ->
  has a v (Some p) -> nth_error (things a) p = Some c -> comparable (tag c) = false ->
  step run nothing comparable same plain run_plain part_at null_part_at (OEqual v v) s = FFine (s, [RBool false]).
Proof. intros; eapply equal_self; eassumption. Qed.
Print Assumptions C84_equal_itself_wrong.

Example C84_equal_itself_case :
  match steps (fun _ v (a : Z) => (v, Some a)) 0%Z (fun _ => false) (fun _ => Z.eqb) (fun _ _ => None)
          (fun _ _ => None) (fun _ => 8%Z) 8%Z [OMake (mkc 3%Z 10%Z); OCopy 0; OEqual 0 0; OEqual 0 1] (start 0%Z) with
  | FFine (_, r) => r = [RBool false; RBool false] | _ => False end.
Proof. vm_compute; auto. Qed.

(** ** C85: a function pointer made from a function object behaves as the object *)
(** Full statement (the comments at H/base/container/function/base_function_t.hpp:466-468):
    the pointer behaves as the function object until the thread makes another pointer of
    that type or the object is destroyed; in a new thread it behaves as the pointer made
    last before the call.  Proved: in the thread that made it, whatever other
    threads convert, the pointer runs the callable the object had then, as long as some function object holds that callable;
    after that calling it is undefined, and an exception ends the program.  The
    statement itself is false, see below. *)
Theorem C85_pointer_partial :
  forall {V A R : Type} (run : Z -> V -> A -> V * option R) (nothing : R) (comparable : Z -> bool)
    (same : Z -> V -> V -> bool) (plain : Z -> V -> option Z) (run_plain : Z -> A -> option R)
    (part_at : Z -> Z) (null_part_at off : Z) (os1 os2 : list (op (V := V) (A := A))) t v x,
  let step := step run nothing comparable same plain run_plain part_at null_part_at in
  let steps := steps run nothing comparable same plain run_plain part_at null_part_at in
  Forall ordinary os1 -> Forall (quiet t) os2 -> proper (os1 ++ OPointer t v :: os2) [] ->
  exists s1 a1 r1 h, steps os1 (start off) = FFine (s1, r1) /\
    asteps run nothing comparable same plain run_plain os1 (mka [] []) a1 r1 /\ has a1 v h /\
  ((forall c, look a1 h = Some c -> plain (tag c) (val c) = None) ->
  exists s2 a2 r2, steps (os1 ++ OPointer t v :: os2) (start off) = FFine (s2, r1 ++ RPointer None :: r2) /\
    asteps run nothing comparable same plain run_plain os2 a1 a2 r2 /\ vars s2 = shows a2 /\
    match h with
    | None => exists s', step (OCallPointer t x) s2 = FFine (s', [RCall (Some nothing)]) /\ vars s' = shows a2
    | Some p => exists c, nth_error (things a2) p = Some c /\
        (shown a2 p ->
          match run (tag c) (val c) x with
          | (w, Some y) => exists s', step (OCallPointer t x) s2 = FFine (s', [RCall (Some y)]) /\
              vars s' = shows a2 /\
              exists n, nth_error (cells s') p = Some (Live (mkc (tag c) w) n)
          | (_, None) => step (OCallPointer t x) s2 = FDies
          end) /\
        (~ shown a2 p -> step (OCallPointer t x) s2 = FWild)
    end).
Proof. intros; apply pointer_ok; assumption. Qed.
Print Assumptions C85_pointer_partial.

(** The object is moved away and called between: the pointer still counts with it.  A
    callable that throws through the pointer ends the program. *)
Example C85_pointer_case :
  let os1 := [OMake (mkc 0%Z 10%Z)] in let os2 := [OMove 0; OCall 1 5%Z; OMake (mkc 1%Z 0%Z); OPointer 3 2] in
  let run := steps (fun t v a => if (t =? 1)%Z then (v, None) else ((v + a)%Z, Some (v + a)%Z)) 0%Z (fun _ => true)
          (fun _ => Z.eqb) (fun _ _ => None) (fun _ _ => None) (fun _ => 8%Z) 8%Z in
  Forall ordinary os1 /\ Forall (quiet 4) os2 /\ proper (os1 ++ OPointer 4 0 :: os2) [] /\
  match run (os1 ++ OPointer 4 0 :: os2 ++ [OCallPointer 4 1%Z; OCall 1 1%Z]) (start 0%Z) with
  | FFine (_, r) => r = [RPointer None; RCall (Some 15%Z); RPointer None; RCall (Some 16%Z); RCall (Some 17%Z)] | _ => False end /\
  run (os1 ++ OPointer 4 0 :: os2 ++ [OPointer 4 2; OCallPointer 4 1%Z]) (start 0%Z) = FDies.
Proof.
  split; [repeat constructor|]. split; [repeat constructor; discriminate|]. split; [|vm_compute; auto].
  repeat (split; [repeat constructor|]). exact I.
Qed.

(** A callable that is a plain function gives that function. *)
Theorem C85_plain_pointer :
  forall {V A R : Type} (run : Z -> V -> A -> V * option R) (nothing : R) (comparable : Z -> bool)
    (same : Z -> V -> V -> bool) (plain : Z -> V -> option Z) (run_plain : Z -> A -> option R)
    (part_at : Z -> Z) (null_part_at off : Z) (os : list (op (V := V) (A := A))) s a r t v p c k,
  let step := step run nothing comparable same plain run_plain part_at null_part_at in
  Forall ordinary os -> proper os [] ->
  steps run nothing comparable same plain run_plain part_at null_part_at os (start off) = FFine (s, r) ->
  asteps run nothing comparable same plain run_plain os (mka [] []) a r ->
  has a v (Some p) -> nth_error (things a) p = Some c -> plain (tag c) (val c) = Some k ->
  step (OPointer t v) s = FFine (s, [RPointer (Some k)]) /\
  forall s' x, step (OCallPlain k x) s' = FFine (s', [RCall (run_plain k x)]).
Proof. intros; eapply plain_pointer; eassumption. Qed.
Print Assumptions C85_plain_pointer.

Example C85_plain_pointer_case :
  match steps (fun _ v a => (v, Some (v * a)%Z)) 0%Z (fun _ => true) (fun _ => Z.eqb) (fun _ v => Some v)
          (fun k a => Some (k * a)%Z) (fun _ => 8%Z) 8%Z
          [OMake (mkc 2%Z 7%Z); OPointer 0 0; ODrop 0; OCallPlain 7%Z 6%Z] (start 0%Z) with
  | FFine (_, r) => r = [RPointer (Some 7%Z); RCall (Some 42%Z)] | _ => False end.
Proof. vm_compute; auto. Qed.

(** The object lives and no other pointer was made, but it was given another callable:
    the pointer does not follow it, and is undefined to call. *)
Theorem C85_reassigned_refuted :
  exists (run : Z -> Z -> Z -> Z * option Z) (os : list (op (V := Z) (A := Z))) s r,
  proper os [] /\ os = [OMake (mkc 0%Z 1%Z); OPointer 0 0; OSet 0 (mkc 0%Z 2%Z)] /\
  let step := step run 0%Z (fun _ => true) (fun _ => Z.eqb) (fun _ _ => None) (fun _ _ => None) (fun _ => 8%Z) 8%Z in
  steps run 0%Z (fun _ => true) (fun _ => Z.eqb) (fun _ _ => None) (fun _ _ => None) (fun _ => 8%Z) 8%Z os (start 0%Z)
    = FFine (s, r) /\
  (exists s', step (OCall 0 5%Z) s = FFine (s', [RCall (Some 7%Z)])) /\ step (OCallPointer 0 5%Z) s = FWild.
Proof.
  exists (fun _ v a => ((v + a)%Z, Some (v + a)%Z)), [OMake (mkc 0%Z 1%Z); OPointer 0 0; OSet 0 (mkc 0%Z 2%Z)].
  eexists _, _. split; [repeat (split; [repeat constructor|]); exact I|]. split; [reflexivity|].
  split; [vm_compute; reflexivity|]. split; [eexists; vm_compute; reflexivity|vm_compute; reflexivity].
Qed.
Print Assumptions C85_reassigned_refuted.

(** A thread without pointers of its own keeps the pointer it found at its first call:
    at the second call it does not run the function converted last. *)
Theorem C85_new_thread_refuted :
  exists (run : Z -> Z -> Z -> Z * option Z) (os : list (op (V := Z) (A := Z))) s,
  proper os [] /\
  os = [OMake (mkc 0%Z 1%Z); OMake (mkc 0%Z 100%Z); OPointer 0 0; OCallPointer 1 0%Z; OPointer 0 1; OCallPointer 1 0%Z] /\
  steps run 0%Z (fun _ => true) (fun _ => Z.eqb) (fun _ _ => None) (fun _ _ => None) (fun _ => 8%Z) 8%Z os (start 0%Z)
    = FFine (s, [RPointer None; RCall (Some 1%Z); RPointer None; RCall (Some 1%Z)]).
Proof.
  exists (fun _ v a => ((v + a)%Z, Some (v + a)%Z)),
    [OMake (mkc 0%Z 1%Z); OMake (mkc 0%Z 100%Z); OPointer 0 0; OCallPointer 1 0%Z; OPointer 0 1; OCallPointer 1 0%Z].
  eexists. split; [repeat (split; [repeat constructor|]); exact I|]. split; [reflexivity|].
  vm_compute; reflexivity.
Qed.
Print Assumptions C85_new_thread_refuted.
