(** Nearest numbers of 53 binary digits and powers, independently of the code. *)
From Verif Require Import Base Float_Spec.
From Coq Require Import QArith Qabs.
Local Open Scope Z_scope.

(** The numbers of 53 binary digits. *)
Definition digits53 (x : Q) : Prop := exists m e, Z.abs m < 2 ^ 53 /\ (x == scaled m e)%Q.
(** [y] is such a number and no other is nearer to [x]. *)
Definition nearest53 (x y : Q) : Prop :=
  digits53 y /\ forall s, digits53 s -> (Qabs (y - x) <= Qabs (s - x))%Q.
