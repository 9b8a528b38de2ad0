(** Roundings to integers. *)
From Verif Require Import Base.
From Coq Require Import QArith.
Local Open Scope Z_scope.

(** [z] is [x] without its fraction. *)
Definition is_trunc (x : Q) (z : Z) : Prop :=
  ((0 <= x)%Q -> (inject_Z z <= x)%Q /\ (x < inject_Z (z + 1))%Q) /\
  ((x < 0)%Q -> (inject_Z (z - 1) < x)%Q /\ (x <= inject_Z z)%Q).
(** [z] is the greatest integer not above [x]. *)
Definition is_floor (x : Q) (z : Z) : Prop := (inject_Z z <= x)%Q /\ (x < inject_Z (z + 1))%Q.
(** [z] is the least integer not below [x]. *)
Definition is_ceil (x : Q) (z : Z) : Prop := (inject_Z (z - 1) < x)%Q /\ (x <= inject_Z z)%Q.
(** [x] is an integer. *)
Definition integral (x : Q) : Prop := exists z, (x == inject_Z z)%Q.

