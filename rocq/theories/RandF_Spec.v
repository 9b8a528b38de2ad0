(** Finite numbers of a floating-point format, independently of the code. *)
From Verif Require Import Base Float_Spec.
From Coq Require Import QArith.
Local Open Scope Z_scope.

(** [x] is a finite number of the format. *)
Definition number (f : fmt) (x : Q) : Prop :=
  exists r, 0 <= r < inf_bits f /\ ((x == fabs f r)%Q \/ (x == - fabs f r)%Q).
