(** What the approximating functions are to give: real numbers, from the standard
    library. *)
From Verif Require Import Base.
From Coq Require Import QArith Qreals Reals.
Local Open Scope R_scope.

(** [r] is no farther than [e] from the real number [x]. *)
Definition near (r : Q) (x : R) (e : Q) : Prop := Rabs (Q2R r - x) <= Q2R e.
(** The rational [v] is not the square of a rational. *)
Definition no_square (v : Q) : Prop := forall q : Q, ~ (q * q == v)%Q.
