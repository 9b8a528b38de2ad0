(** Specification of fractions: the rational number a numerator and a denominator
    denote ([Q] of the standard library).  Independent of the algorithms. *)
From Coq Require Import QArith.
From Verif Require Import Base UBig_Spec Frac_Model.
Local Open Scope Z_scope.

(** The rational denoted; meaningful when the denominator is positive. *)
Definition qval (B : Z) (a : uf) : Q := Qmake (val B (num a)) (Z.to_pos (val B (den a))).
(** Canonical digits and a non-zero denominator. *)
Definition fcanon (B : Z) (a : uf) : Prop :=
  canon B (num a) /\ canon B (den a) /\ 0 < val B (den a).
Definition sval (B : Z) (a : sf) : Q := if sneg a then (- qval B (smag a))%Q else qval B (smag a).
Definition scanon (B : Z) (a : sf) : Prop := fcanon B (smag a).
(** No negative zero. *)
Definition snorm (B : Z) (a : sf) : Prop := sneg a = true -> 0 < val B (num (smag a)).
(** Small enough for every product with it to avoid the fast multiplication. *)
Definition fsmall (a : uf) : Prop := (length (num a) < 64)%nat /\ (length (den a) < 64)%nat.
