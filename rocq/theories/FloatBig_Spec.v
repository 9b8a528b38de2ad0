(** Conversions between floating-point numbers and fractions, independently of the
    code: nearest and neighbouring floating-point numbers. *)
From Verif Require Import Base Float_Spec.
From Coq Require Import QArith Qround Qabs.
Local Open Scope Z_scope.

(** The value of a fraction with a denominator that is not zero. *)
Definition ratio (n d : Z) : Q := (inject_Z n / inject_Z d)%Q.
(** 2^e. *)
Definition pow2 (e : Z) : Q := ((2 # 1) ^ e)%Q.

(** A number with its sign, the first of its bits. *)
Definition fsigned (f : fmt) (d : Z) : Q :=
  if 2 ^ (all_bits f - 1) <=? d then (- fabs f d)%Q else fabs f d.

(** [r] is a finite number such that no other finite number is nearer to [x]. *)
Definition nearest (f : fmt) (x : Q) (r : Z) : Prop :=
  0 <= r < inf_bits f /\
  forall s, 0 <= s < inf_bits f -> (Qabs (fabs f r - x) <= Qabs (fabs f s - x))%Q.

(** [r] is finite, the number before it is below [x], the number after it above:
    [r] is [x] if [x] is a floating-point number, one of the two neighbours of [x]
    otherwise. *)
Definition faithful (f : fmt) (x : Q) (r : Z) : Prop :=
  0 <= r < inf_bits f /\ (r = 0 \/ (fabs f (r - 1) < x)%Q) /\ (x < fabs f (r + 1))%Q.

(** [x] is just below a power of two: the first [n] binary digits of [x] are ones
    and there is a one behind them. *)
Definition just_below_power (n : Z) (x : Q) : Prop :=
  exists l, (pow2 (l + 1) - pow2 (l + 1 - n) < x)%Q /\ (x < pow2 (l + 1))%Q.
