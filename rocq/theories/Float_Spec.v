(** IEEE 754 binary formats and their values, independently of the code. *)
From Verif Require Import Base.
From Coq Require Import QArith.
Local Open Scope Z_scope.

(** A format: the number of stored significand bits and of exponent bits. *)
Record fmt := mkFmt { fm : Z; fe : Z }.
Definition binary16 := mkFmt 10 5.
Definition binary32 := mkFmt 23 8.
Definition binary64 := mkFmt 52 11.
Definition binary128 := mkFmt 112 15.
Definition bfloat16 := mkFmt 7 8.

Section Format.
Variable f : fmt.
Definition bias : Z := 2 ^ (fe f - 1) - 1.
(** The fields of a number given by its bits. *)
Definition frac_field (d : Z) : Z := d mod 2 ^ fm f.
Definition exp_field (d : Z) : Z := (d / 2 ^ fm f) mod 2 ^ fe f.
(** All bits of the number: the sign, the exponent, the significand. *)
Definition all_bits : Z := 1 + fe f + fm f.
Definition is_data (d : Z) : Prop := 0 <= d < 2 ^ all_bits.
(** Neither infinite nor not a number. *)
Definition finite (d : Z) : Prop := is_data d /\ exp_field d <> 2 ^ fe f - 1.
(** The bits of +infinity. *)
Definition inf_bits : Z := (2 ^ fe f - 1) * 2 ^ fm f.
(** Every finite number is a multiple of the smallest positive one, which is
    2 to this power. *)
Definition tiny : Z := 1 - bias - fm f.
(** The absolute value as a multiple of it. *)
Definition units (d : Z) : Z :=
  if exp_field d =? 0 then frac_field d
  else (2 ^ fm f + frac_field d) * 2 ^ (exp_field d - 1).
(** The absolute value. *)
Definition fabs (d : Z) : Q := (inject_Z (units d) * (2 # 1) ^ tiny)%Q.
(** The bits of the same number without sign. *)
Definition clear_sign (d : Z) : Z := d mod 2 ^ (all_bits - 1).
End Format.

(** n * 2^e. *)
Definition scaled (n e : Z) : Q := (inject_Z n * (2 # 1) ^ e)%Q.

(** [r] is the greatest non-negative finite number that is not above [x], given
    that [x] is below 2 to the power of the number of exponents. *)
Definition truncated (f : fmt) (x : Q) (r : Z) : Prop :=
  0 <= r < inf_bits f /\ (fabs f r <= x)%Q /\ (x < fabs f (r + 1))%Q.
