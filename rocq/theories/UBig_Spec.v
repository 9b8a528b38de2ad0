(** Specification vocabulary for arbitrary precision naturals: what number a
    digit sequence denotes, and when a sequence is the canonical one.
    Independent of the model of the algorithms. *)
From Verif Require Import Base.
Local Open Scope Z_scope.

Section Spec.
Variable B : Z.

(** The number denoted by digits [l], least significant first. *)
Fixpoint val (l : list Z) : Z :=
  match l with [] => 0 | x :: r => x + B * val r end.

(** Every digit is a value of the digit type. *)
Definition digits_ok (l : list Z) : Prop := Forall (fun x => 0 <= x < B) l.

(** Canonical: valid digits, no high zero digit. *)
Definition canon (l : list Z) : Prop := digits_ok l /\ last l 1 <> 0.

(** Executable form of [canon], for concrete cases. *)
Definition canonb (l : list Z) : bool :=
  forallb (fun x => (0 <=? x) && (x <? B)) l && negb (last l 1 =? 0).

(** Result [r] of an operation is defined, canonical and denotes [n]. *)
Definition denotes (r : option (list Z)) (n : Z) : Prop :=
  exists l, r = Some l /\ canon l /\ val l = n.
End Spec.
