(** What comparing two sequences means. *)
From Verif Require Import Base.

Section Spec.
Variable A : Type.
(** A strict total order on the elements. *)
Variable lt : A -> A -> Prop.
Record strict_total : Prop := {
  st_irrefl : forall x, ~ lt x x;
  st_trans : forall x y z, lt x y -> lt y z -> lt x z;
  st_total : forall x y, lt x y \/ x = y \/ lt y x }.

(** Dictionary order: a proper prefix comes first; otherwise the first difference
    decides. *)
Definition dict (a b : list A) : Prop :=
  (exists y t, b = a ++ y :: t) \/
  (exists p x y s t, a = p ++ x :: s /\ b = p ++ y :: t /\ lt x y).
(** Shorter first, then dictionary order. *)
Definition shorter_first (a b : list A) : Prop :=
  (length a < length b)%nat \/ (length a = length b /\ dict a b).

(** The result [c] of a three-way comparison reports the order [R] of two values. *)
Definition reports {X : Type} (R : X -> X -> Prop) (c : comparison) (x y : X) : Prop :=
  match c with Lt => R x y | Eq => x = y | Gt => R y x end.

(** The memory at a pointer: a string without zeros, its terminator, and what
    follows. *)
Definition string_at (zero : A) (mem s : list A) : Prop :=
  ~ In zero s /\ exists rest, mem = s ++ zero :: rest.
(** At least [n] elements, [s] being the first [n]. *)
Definition block_at (mem : list A) (n : nat) (s : list A) : Prop :=
  length s = n /\ exists rest, mem = s ++ rest.
End Spec.

(** [lt] is a strict total order of the elements; [eqb] and [cmp] are [==] and
    [<=>] on them. *)
Definition elements_ok {A} (eqb : A -> A -> bool) (cmp : A -> A -> comparison) (lt : A -> A -> Prop) : Prop :=
  strict_total lt /\ (forall x y, eqb x y = true <-> x = y) /\ (forall x y, reports lt (cmp x y) x y).
