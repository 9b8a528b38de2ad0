(** Property theorems C23: sorting. *)
From Verif Require Import Base Sort_Model Sort_Spec Sort_Proofs.

(** ** C23 *)
(** [sort] on any part [b, e) of any array, with any depth limit the logarithm may
    have produced: defined, ordered, a rearrangement, and the rest untouched. *)
Theorem C23_sort_exact : forall A (cmp : A -> A -> comparison), total_preorder cmp ->
  forall d a b e, b <= e -> e <= length a ->
  exists a' m, sort cmp d a b e = Some a' /\ rearranged b e a a' m /\ ordered cmp m.
Proof.
  intros A cmp TP d a b e Hb He.
  exact (final_sorted Hb He (sort_safe cmp d Hb He) (fun a' => sort_sorted TP Hb He)).
Qed.
Print Assumptions C23_sort_exact.
(** Sorting a whole array. *)
Theorem C23_sort_all_exact : forall A (cmp : A -> A -> comparison), total_preorder cmp ->
  forall d a, exists a', sort_all cmp d a = Some a' /\ Permutation a a' /\ ordered cmp a'.
Proof.
  intros A cmp TP d a.
  exact (final_all (C23_sort_exact TP d (Nat.le_0_l _) (le_n (length a)))).
Qed.
Print Assumptions C23_sort_all_exact.
(** Even a comparator that is no order at all cannot make [sort] leave the range,
    lose or duplicate an element, or fail to terminate. *)
Theorem C23_sort_any_comparator : forall A (cmp : A -> A -> comparison),
  forall d a b e, b <= e -> e <= length a ->
  exists a' m, sort cmp d a b e = Some a' /\ rearranged b e a a' m.
Proof. intros A cmp d a b e Hb He. exact (final_safe cmp Hb He (sort_safe cmp d Hb He)). Qed.
Print Assumptions C23_sort_any_comparator.
Theorem C23_heapsort_exact : forall A (cmp : A -> A -> comparison), total_preorder cmp ->
  forall a b e, b <= e -> e <= length a ->
  exists a' m, heapsort cmp a b e = Some a' /\ rearranged b e a a' m /\ ordered cmp m.
Proof.
  intros A cmp TP a b e Hb He.
  exact (final_sorted Hb He (heapsort_safe cmp Hb He) (fun a' => heapsort_sorted TP Hb He)).
Qed.
Print Assumptions C23_heapsort_exact.
Theorem C23_quicksort_exact : forall A (cmp : A -> A -> comparison), total_preorder cmp ->
  forall f a b e, b <= e -> e <= length a -> e - b < f ->
  exists a' m, quicksort cmp f a b e = Some a' /\ rearranged b e a a' m /\ ordered cmp m.
Proof.
  intros A cmp TP f a b e Hb He Hf.
  exact (final_sorted Hb He (quicksort_safe cmp Hb He Hf) (fun a' => quicksort_sorted TP Hb He Hf)).
Qed.
Print Assumptions C23_quicksort_exact.
Theorem C23_insertion_sort_exact : forall A (cmp : A -> A -> comparison), total_preorder cmp ->
  forall a b e, b <= e -> e <= length a ->
  exists a' m, insertion_sort cmp a b e = Some a' /\ rearranged b e a a' m /\ ordered cmp m.
Proof.
  intros A cmp TP a b e Hb He.
  exact (final_sorted Hb He (insertion_sort_safe cmp Hb He) (fun a' => insertion_sort_sorted TP Hb He)).
Qed.
Print Assumptions C23_insertion_sort_exact.
(** The hypotheses are met by the usual order of the numbers; all three paths of
    [introsort] (insertion sort, partitioning, heap sort on exhausted depth) run. *)
Example C23_order : total_preorder Z.compare.
Proof.
  split; [intros; apply Z.compare_antisym|].
  intros x y z H1 H2. change (x <= y)%Z in H1. change (y <= z)%Z in H2. change (x <= z)%Z. lia.
Qed.
Example C23_case :
  let a := [5;3;9;1;7;2;8;6;4;0;15;13;19;11;17;12;18;16;14;10;3;3]%Z in
  let s := [0;1;2;3;3;3;4;5;6;7;8;9;10;11;12;13;14;15;16;17;18;19]%Z in
  sort_all Z.compare 9 a = Some s /\ sort_all Z.compare 0 a = Some s /\ sort_all Z.compare 1 a = Some s /\
  quicksort Z.compare 23 a 0 22 = Some s /\ insertion_sort Z.compare a 0 22 = Some s /\
  sort Z.compare 4 [5;4;3;2;1]%Z 1 4 = Some [5;2;3;4;1]%Z /\
  sort_all (fun _ _ => Gt) 3 [1;2;3]%Z = Some [3;2;1]%Z.
Proof. vm_compute. repeat split. Qed.
