(** What fractional positions mean, independently of the code. *)
From Coq Require Import QArith.
From Verif Require Import Base.
Local Open Scope Z_scope.

(** A rounding: never changes the order, leaves integers of up to [m] in place. *)
Definition rounding (m : Z) (f : Q -> Q) : Prop :=
  (forall a b, a <= b -> f a <= f b)%Q /\
  (forall z, Z.abs z <= m -> (f (inject_Z z) == inject_Z z)%Q).

(** The straight line through (i, y1) and (i+1, y2) at position q. *)
Definition on_line (y1 y2 i : Z) (q : Q) : Q :=
  ((inject_Z (i + 1) - q) * inject_Z y1 + (q - inject_Z i) * inject_Z y2)%Q.
