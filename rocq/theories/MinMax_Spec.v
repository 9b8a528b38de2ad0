(** Specification of the largest and the smallest of some values. *)
From Verif Require Import Base MinMax_Model.
Local Open Scope Z_scope.

(** [cmp] is the three-way comparison of the total preorder [le]. *)
Record three_way {A} (le : A -> A -> Prop) (cmp : A -> A -> option comparison) : Prop := {
  tw_total : forall a b, le a b \/ le b a;
  tw_trans : forall a b c, le a b -> le b c -> le a c;
  tw_cmp : forall a b, match cmp a b with
    | Some Lt => ~ le b a | Some Eq => le a b /\ le b a | Some Gt => ~ le a b | None => False end }.
(** [r] is the first of the largest elements of [l]; the last one. *)
Definition first_best {A} (le : A -> A -> Prop) (l : list A) (r : A) : Prop :=
  exists pre post, l = pre ++ r :: post /\ (forall x, In x pre -> ~ le r x) /\ (forall x, In x post -> le x r).
Definition last_best {A} (le : A -> A -> Prop) (l : list A) (r : A) : Prop :=
  exists pre post, l = pre ++ r :: post /\ (forall x, In x pre -> le x r) /\ (forall x, In x post -> ~ le r x).
(** The smallest elements are the largest ones of the reverse order. *)
Definition ge {A} (le : A -> A -> Prop) (a b : A) : Prop := le b a.

(** The values of an integer type. *)
Definition in_type (t : ity) (z : Z) : Prop :=
  if sgn t then - 2 ^ (bits t - 1) <= z < 2 ^ (bits t - 1) else 0 <= z < 2 ^ bits t.
Definition fits (v : ival) : Prop := 0 < bits (vty v) /\ in_type (vty v) (num v).
(** [z] is the largest, the smallest of some numbers. *)
Definition largest (l : list Z) (z : Z) : Prop := In z l /\ forall x, In x l -> x <= z.
Definition smallest (l : list Z) (z : Z) : Prop := In z l /\ forall x, In x l -> z <= x.
