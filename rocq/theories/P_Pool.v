(** Properties of the object pool (C39). *)
From Verif Require Import Base Ref_Model Pool_Model Pool_Spec Pool_Proofs.
Local Open Scope nat_scope.

(** For every unit size [n], object size [z] and sequence of allocations,
    releases, shrinks and size queries in which only slots that begin below
    byte [n-1] of their unit are released: each operation is defined; an
    allocation is a slot that is not live; a new unit is made only when every
    slot is live, so released slots are used again; shrinking keeps exactly
    the units with live slots.  Missing: release of the other slots, which is
    undefined (below). *)
Theorem C39_behaves_partial : forall n z, n >= 2 -> forall os,
  behaves n (fun p => snd p * z < n - 1) (p_op n z) [] pool0 os.
Proof. exact pool_behaves. Qed.
Print Assumptions C39_behaves_partial.

(** In every state reached, live allocations are different slots of existing
    units. *)
Theorem C39_disjoint_partial : forall n z, n >= 2 -> forall s l,
  preach (fun p => snd p * z < n - 1) (p_op n z) s l ->
  NoDup l /\ forall p, In p l -> snd p < n /\ In (fst p) (map mid (ms s)).
Proof. exact live_disjoint. Qed.
Print Assumptions C39_disjoint_partial.

(** In any state, releasing a slot that begins at or after byte [n-1] of its
    unit is undefined, and so is asking for its size. *)
Theorem C39_release_undefined : forall n z s p, n - 1 <= snd p * z -> p_op n z s (PFree p) = None.
Proof. exact release_unknown. Qed.
Print Assumptions C39_release_undefined.
Theorem C39_size_undefined : forall n z s p, n - 1 <= snd p * z -> p_op n z s (PSize p) = None.
Proof. exact size_unknown. Qed.
Print Assumptions C39_size_undefined.

(** For all sizes, the first allocation of a pool is such a slot. *)
Theorem C39_first_release_undefined : forall n z, n >= 2 -> z >= 1 ->
  exists s p, p_op n z pool0 PGet = Some (s, PPtr (Some p)) /\ p_op n z s (PFree p) = None.
Proof. exact first_release. Qed.
Print Assumptions C39_first_release_undefined.

(** Units of 4 one-byte objects: two allocations, a release, and the slot is
    used again; then the unit is filled and another one made. *)
Example C39_case :
  let st o s := match p_op 4 1 s o with Some (s', _) => s' | None => pool0 end in
  let an o s := match p_op 4 1 s o with Some (_, a) => Some a | None => None end in
  let s1 := st PGet (st PGet pool0) in
  let s2 := st (PFree (0, 2)) s1 in
  let s3 := st PGet (st PGet (st PGet s2)) in
  an PGet pool0 = Some (PPtr (Some (0, 3))) /\ an PGet (st PGet pool0) = Some (PPtr (Some (0, 2))) /\
  an (PFree (0, 2)) s1 = Some PNone /\ an PGet s2 = Some (PPtr (Some (0, 2))) /\
  an PGet s3 = Some (PPtr (Some (1, 3))) /\ an (PSize (0, 1)) s3 = Some (PNum 1) /\
  p_op 4 1 s3 (PFree (0, 3)) = None.
Proof. vm_compute. repeat split. Qed.
Example C39_case_reached :
  exists s, preach (fun p => snd p * 1 < 4 - 1) (p_op 4 1) s [(0, 2); (0, 3)] /\ map mid (ms s) = [0].
Proof.
  eexists. split.
  - assert (R : exists s, preach (fun p => snd p * 1 < 4 - 1) (p_op 4 1) s [(0, 3)] /\ s = mkPool [mkMent 0 [0; 1; 2; 3] 3] 1).
    { eexists. split; [|reflexivity]. apply (@preach1 _ _ pool0 [] PGet _ (PPtr (Some (0, 3)))); [apply preach0|exact I|reflexivity]. }
    destruct R as (s & R & ->). apply (@preach1 _ _ _ _ PGet (mkPool [mkMent 0 [0; 1; 2; 3] 2] 1) (PPtr (Some (0, 2))) R); [exact I|reflexivity].
  - reflexivity.
Qed.
