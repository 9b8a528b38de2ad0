(** What sorting means, independently of the sorting code. *)
From Coq Require Export Sorting.Permutation.
From Verif Require Import Base.

(** A comparator describing a total preorder. *)
Record total_preorder {A} (cmp : A -> A -> comparison) : Prop := {
  tp_sym : forall x y, cmp y x = CompOpp (cmp x y);
  tp_trans : forall x y z, cmp x y <> Gt -> cmp y z <> Gt -> cmp x z <> Gt }.

(** Adjacent or distant, no earlier element is greater than a later one. *)
Definition ordered {A} (cmp : A -> A -> comparison) (l : list A) : Prop :=
  forall i j x y, i < j -> nth_error l i = Some x -> nth_error l j = Some y -> cmp x y <> Gt.

(** The part [b, e) of [l] was rearranged into [m']; everything else is in place. *)
Definition rearranged {A} (b e : nat) (l l' : list A) (m' : list A) : Prop :=
  exists p m s, l = p ++ m ++ s /\ l' = p ++ m' ++ s /\ length p = b /\
                length m = e - b /\ Permutation m m'.
