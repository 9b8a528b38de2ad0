(** Properties of copy-on-write handles (C36). *)
From Verif Require Import Base Ref_Model Cow_Model Cow_Spec Cow_Proofs.
Local Open Scope nat_scope.

(** For every history of creations, copies, assignments, swaps, updates,
    comparisons, reads and destructions, with a [==] that holds of identical
    values only: every operation is defined, the answers and the values seen
    are those of independent values, and exactly the blocks in use exist.
    Missing: construction from arguments (undefined, below), references kept
    across operations (refuted below), and a coarser [==] (below). *)
Theorem C36_values_partial : forall (T : Type) (def : T) (eqb : T -> T -> bool),
  (forall x y, eqb x y = true -> x = y) ->
  forall os, clegal_run def eqb [] os ->
  exists s, c_run def eqb (cow0 T) os = Some (s, snd (s_run def eqb [] os)) /\
    (forall i, seen s i = val (fst (s_run def eqb [] os)) i) /\
    (forall p, getB (bl s) p <> None <-> exists i, blk_of s i = Some p).
Proof. exact cow_history. Qed.
Print Assumptions C36_values_partial.

(** Whatever [==] is: in every state a program reaches, an operation changes
    what is seen through no handle other than the ones it is applied to. *)
Theorem C36_isolated : forall (T : Type) (def : T) (eqb : T -> T -> bool) os s q o s' a,
  c_run def eqb (cow0 T) os = Some (s, q) -> c_op def eqb s o = Some (s', a) ->
  forall i, i < length (vs s) -> ~ target o i -> seen s' i = seen s i.
Proof. exact isolated. Qed.
Print Assumptions C36_isolated.

(** Whatever [==] is: operations on live handles are defined, construction
    from arguments excepted. *)
Theorem C36_defined_partial : forall (T : Type) (def : T) (eqb : T -> T -> bool) os s q o,
  c_run def eqb (cow0 T) os = Some (s, q) -> (forall i, mentions o i -> seen s i <> None) ->
  (forall v, o <> CNewFrom v) -> c_op def eqb s o <> None.
Proof. exact defined_on_live. Qed.
Print Assumptions C36_defined_partial.

(** Comparison answers [==] of the values, and gives the left handle the value
    of the right one if they are equal. *)
Theorem C36_compare : forall (T : Type) (def : T) (eqb : T -> T -> bool) os s q i j x y,
  c_run def eqb (cow0 T) os = Some (s, q) -> seen s i = Some x -> seen s j = Some y ->
  exists s', c_op def eqb s (CEq T i j) = Some (s', ABool T (eqb x y)) /\
    seen s' i = Some (if eqb x y then y else x) /\ seen s' j = Some y.
Proof. exact compare_keeps. Qed.
Print Assumptions C36_compare.

(** Construction from arguments is undefined in every state. *)
Theorem C36_construct_undefined : forall (T : Type) (def : T) (eqb : T -> T -> bool) s v,
  c_op def eqb s (CNewFrom v) = None.
Proof. exact new_from_undefined. Qed.
Print Assumptions C36_construct_undefined.

(** Values [0..]; [==] as identity. *)
Example C36_case :
  let os := [CNew nat; CUpdate 0 (fun _ => 5); CCopy nat 0; CUpdate 1 S; CNew nat; CUpdate 2 (fun _ => 6);
             CEq nat 1 2; CSwap nat 0 2; CAssign nat 1 0; CUpdate 1 S; CDrop nat 0; CRead nat 1; CRead nat 2; CEq nat 2 1] in
  clegal_run 0 Nat.eqb [] os /\
  (forall x y, Nat.eqb x y = true -> x = y) /\
  snd (s_run 0 Nat.eqb [] os) =
    [ANone nat; ANone nat; ANone nat; ANone nat; ANone nat; ANone nat; ABool nat true; ANone nat; ANone nat; ANone nat; ANone nat;
     AVal 7; AVal 5; ABool nat false].
Proof.
  cbn zeta. split; [repeat split; vm_compute; discriminate|]. split; [intros; apply Nat.eqb_eq; auto|vm_compute; reflexivity].
Qed.
(** A state where two handles share a block, and an update through one of them. *)
Example C36_case_isolated :
  exists s q s' a, c_run 0 Nat.eqb (cow0 nat) [CNew nat; CUpdate 0 (fun _ => 5); CCopy nat 0] = Some (s, q) /\
    blk_of s 0 = blk_of s 1 /\ c_op 0 Nat.eqb s (CUpdate 1 S) = Some (s', a) /\
    ~ target (CUpdate 1 S) 0 /\ seen s' 0 = Some 5 /\ seen s' 1 = Some 6.
Proof. do 4 eexists. vm_compute. repeat split; auto; discriminate. Qed.

(** [T&x=a; auto b=a; x=9;] changes [b]. *)
Theorem C36_kept_reference_refuted : exists s q s1 r s2 a s3,
  c_run 0 Nat.eqb (cow0 nat) [CNew nat; CUpdate 0 (fun _ => 5)] = Some (s, q) /\
  take_ref s 0 = Some (s1, r) /\ c_op 0 Nat.eqb s1 (CCopy nat 0) = Some (s2, a) /\
  ref_write s2 r 9 = Some s3 /\ seen s2 1 = Some 5 /\ seen s3 1 = Some 9.
Proof. do 7 eexists. vm_compute. repeat split. Qed.
Print Assumptions C36_kept_reference_refuted.

(** [const T&x=a; a==b;] leaves [x] dangling when the values are equal. *)
Theorem C36_compare_dangles_refuted : exists s q r s1 a,
  c_run 0 Nat.eqb (cow0 nat) [CNew nat; CNew nat] = Some (s, q) /\
  take_cref s 0 = Some r /\ ref_read s r = Some 0 /\
  c_op 0 Nat.eqb s (CEq nat 0 1) = Some (s1, a) /\ ref_read s1 r = None.
Proof. do 5 eexists. vm_compute. repeat split. Qed.
Print Assumptions C36_compare_dangles_refuted.

(** [a==b] changes [a] when [==] holds of different values (here: parity). *)
Theorem C36_compare_changes_refuted : exists s q s1,
  let par := fun x y => Bool.eqb (Nat.even x) (Nat.even y) in
  c_run 0 par (cow0 nat) [CNew nat; CNew nat; CUpdate 1 (fun _ => 2)] = Some (s, q) /\
  c_op 0 par s (CEq nat 0 1) = Some (s1, ABool nat true) /\ seen s 0 = Some 0 /\ seen s1 0 = Some 2.
Proof. do 3 eexists. vm_compute. repeat split. Qed.
Print Assumptions C36_compare_changes_refuted.
