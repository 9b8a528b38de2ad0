(** Conversions between floating-point numbers and big numbers.
    Models the constructors of ubigint, bigint and ubigfloat from floating-point
    numbers and the conversion of ubigfloat to them
    (H/bignum/bignum/ubigint.hpp:79-86, bigint.hpp:58-59, ubigfloat.hpp:44-73 and
    95-153; S/basic_environment/after_math.hpp:281-317).

    A floating-point number is the integer that has its bits (Float_Model).  Big
    unsigned integers are given by their values; that the digit algorithms compute
    these values is proved elsewhere (C01-C17, C46, C50).
    Simplification: machine arithmetic is IEEE 754 in the format of the type,
    rounding to nearest, ties to even ([rn]); numbers that are only computed with
    are given by their rational values. *)
From Verif Require Import Base Float_Model Float_Spec Ref_Model.
From Coq Require Import QArith Qround Qabs.
Local Open Scope Z_scope.

Section Conv.
Variables (F : finfo) (f : fmt).

(** Language semantics: the bits of a non-negative rational number rounded to
    nearest, ties to even; infinity from half way behind the largest number on. *)
Definition rn (x : Q) : Z :=
  let y := (x * (2 # 1) ^ (- tiny f))%Q in
  let u := Qfloor y in
  let k := Z.max 0 (Z.log2 u - fm f) in
  let r := k * 2 ^ fm f + u / 2 ^ k in
  let low := inject_Z (u / 2 ^ k * 2 ^ k) in
  let mid := (low + inject_Z (2 ^ k) * (1 # 2))%Q in
  let r := match (y ?= mid)%Q with
    | Lt => r
    | Eq => if Z.even r then r else r + 1
    | Gt => r + 1 end in
  Z.min r (inf_bits f).

(** Its value. *)
Definition rv (x : Q) : Q := fabs f (rn x).

(** Language semantics: exponent field all ones. *)
Definition special (d : Z) : bool := exp_field f d =? 2 ^ fe f - 1.
(** std::isnan, std::isinf (arithmetic_type_info_prover.hpp isNaN, isInf). *)
Definition isNaN (d : Z) : bool := special d && negb (frac_field f d =? 0).
Definition isInf (d : Z) : bool := special d && (frac_field f d =? 0).

(** std::modf: the integer part of a number (the sign is not modelled: it is
    ignored by all users); an infinity is its own integer part. *)
Definition modf_int (d : Z) : Z :=
  if special d then clear_sign f d else rn (inject_Z (Qfloor (fabs f d))).

(** ubigint.hpp:1074-1078: [<<=] with a signed operand. *)
Definition shl_signed (n e : Z) : Z := if e <? 0 then Z.shiftr n (- e) else Z.shiftl n e.

(** ubigint.hpp:79-86. *)
Definition ubigint_of_float (d : Z) : Z :=
  let int_part := modf_int d in
  shl_signed (get_precision F int_part) (get_exponent F int_part).

(** Language semantics: [value < 0] (false for -0 and for not-a-number). *)
Definition is_negative (d : Z) : bool :=
  (2 ^ (all_bits f - 1) <=? d) && negb (clear_sign f d =? 0) && negb (isNaN d).
(** bigint.hpp:58-59: sign and magnitude. *)
Definition bigint_of_float (d : Z) : bool * Z :=
  (is_negative d, ubigint_of_float (clear_sign f d)).
(** bigint.hpp:64-68: == of two big integers. *)
Definition bigint_eq (a b : bool * Z) : bool :=
  if negb (Bool.eqb (fst a) (fst b)) then false else snd a =? snd b.

(** Width of size_t and uintmax_t. *)
Variable sw : Z.

(** math.hpp:98-116 [to_size_t] of a non-negative number: the conversion of a
    number that does not fit is undefined ([None]). *)
Definition to_size_t (x : Q) : option Z :=
  if Qfloor x <? 2 ^ sw then Some (Qfloor x) else None.

(** math.hpp:203-209 [is_close]; epsilon is 2^-fm. *)
Definition is_close (a b : Q) : bool := Qle_bool (rv (Qabs (a - b))) ((2 # 1) ^ (- fm f)).

(** after_math.hpp:300-315, the search for a fraction; [n] is the number of
    numerators left.  [None]: undefined; [Some None]: no success. *)
Fixpoint try_fractions (n : nat) (integer_part fraction_part : Q) (numerator : Z)
  : option (option (Q * Z)) :=
  match n with
  | O => Some None
  | S n' =>
    match to_size_t (rv (inject_Z numerator / fraction_part)) with
    | None => None
    | Some denominator =>
      let next := try_fractions n' integer_part fraction_part (numerator + 1) in
      if denominator <=? 2 ^ 17 then
        if is_close (rv (inject_Z numerator / inject_Z denominator)) fraction_part then
          if Z.gcd numerator denominator =? 1 then
            let numerator_with_inter :=
              rv (rv (integer_part * inject_Z denominator) + inject_Z numerator) in
            let f_test := rv (numerator_with_inter / inject_Z denominator) in
            if Qeq_bool f_test fraction_part then Some (Some (numerator_with_inter, denominator))
            else next
          else next
        else next
      else next
    end
  end.

(** after_math.hpp:281-317 [to_divide] with its default limits 2^7 and 2^17; the
    integer part and the fraction part come from std::modf and are exact. *)
Definition to_divide (v : Q) : option (option (Q * Z)) :=
  let integer_part := inject_Z (Qfloor v) in
  let fraction_part := (v - integer_part)%Q in
  if Qeq_bool fraction_part 0 then Some (Some (integer_part, 1))
  else try_fractions 127 integer_part fraction_part 1.

(** ubigfloat.hpp:44-73: numerator and denominator; simplify (462-466) divides
    both by their gcd. *)
Definition ubigfloat_of_float (d : Z) : option (Z * Z) :=
  if isNaN d then Some (0, 1)
  else if isInf d then Some (1, 0)
  else
    let num := clear_sign f d in
    let precision := get_precision F num in
    let exponent := get_exponent F num in
    let exact :=
      let n := if 0 <? exponent then Z.shiftl precision exponent else precision in
      let q := if exponent <? 0 then Z.shiftl 1 (Z.abs exponent) else 1 in
      (n / Z.gcd n q, q / Z.gcd n q) in
    if exponent <? 0 then
      match to_divide (fabs f num) with
      | None => None
      | Some (Some (p, q)) => Some (ubigint_of_float (rn p), q)
      | Some None => Some exact
      end
    else Some exact.

(** ubigint.hpp:1192-1206 [countr_zero] by value: 0 for the number 0. *)
Fixpoint ptz (p : positive) : Z := match p with xO p => 1 + ptz p | _ => 0 end.
Definition tz (n : Z) : Z := match n with Zpos p => ptz p | _ => 0 end.
(** ubigint.hpp:1216-1220 [get_bitnum] by value. *)
Definition bitnum (n : Z) : Z := if n =? 0 then 0 else Z.log2 n + 1.

(** Width of float_exponent_t<T> (after_math.hpp:184). *)
Variable ew : Z.

(** ubigfloat.hpp:123-128, the loop: the last quotient and the exponent.  [Out]:
    [fuel] turns were not enough. *)
Fixpoint scale (fuel : nat) (numerator denominator exp : Z) : res (Z * Z) :=
  let quot := numerator / denominator in
  if negb (numerator mod denominator =? 0) && (Z.shiftr quot (bw F) =? 0) then
    match fuel with
    | O => Out
    | S fuel' => scale fuel' (Z.shiftl numerator (bw F)) denominator (exp - bw F)
    end
  else Ok (quot, exp).

(** ubigfloat.hpp:95-153 [convert_to] a floating-point type; [inf] is the bits of
    its infinity.  The conversion to the unsigned type of 145 keeps the low bits
    (ubigint.hpp:108-121).
    Simplification: exp (107) does not overflow (it is at least as wide as
    ptrdiff_t). *)
Definition convert_to_float (fuel : nat) (numerator denominator : Z) : res Z :=
  if denominator =? 0 then Ok (inf_bits f)
  else
    let exp := tz numerator - tz denominator in
    let numerator := Z.shiftr numerator (tz numerator) in
    let denominator := Z.shiftr denominator (tz denominator) in
    match scale fuel numerator denominator exp with
    | Ok (numerator, exp) =>
      let exp := exp + tz numerator in
      let numerator := Z.shiftr numerator (tz numerator) in
      let diff := bitnum numerator - bw F in
      let '(numerator, exp) :=
        if 0 <? diff then (Z.shiftr numerator diff + 1, exp + diff) else (numerator, exp) in
      match make_float F (numerator mod 2 ^ bw F) (wrap_signed ew exp) with
      | Some r => Ok r
      | None => Ub
      end
    | Ub => Ub
    | Out => Out
    end.
End Conv.

(** The widths that occur: 64-bit size_t, 16-bit float_exponent_t. *)
Definition f32_of_float d := ubigfloat_of_float float32_info binary32 64 d.
Definition f64_of_float d := ubigfloat_of_float float64_info binary64 64 d.
