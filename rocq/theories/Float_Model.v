(** Taking floating-point numbers apart and putting them together.
    Models S/basic_environment/float_info.hpp:55-195 and
    S/basic_environment/after_math.hpp:146-279 (S = parts/_share).

    A floating-point number is the unsigned integer that has its bits
    (after_math.hpp:147-164 reads and writes it through a union).  Shifting by
    the width of the shifted type or more is undefined ([None]).
    Simplification: the type float_exponent_t<T> (184) is unbounded; values in it
    stay far inside the range of int for all exponents up to 2^30. *)
From Verif Require Import Base.
Local Open Scope Z_scope.

(** The constants of one floating-point type (float_info.hpp:56-82 and its
    copies); [bw] is the number of bits of data_type, [xw] of
    exponent_unsigned_type and exponent_signed_type. *)
Record finfo := mkFi {
  precision_mask : Z; bw : Z; precision_base : Z; precision_base_bit : Z;
  exponent_diff : Z; exponent_min : Z; exponent_max : Z; xw : Z; exponent_mask : Z }.

(** float_info.hpp:55-81. *)
Definition float16_info := mkFi 0x07FF 16 0x0800 11 15 (-14) 15 8 0x7FFF.
(** float_info.hpp:83-109. *)
Definition float32_info := mkFi 0x007FFFFF 32 0x800000 23 127 (-126) 127 8 0x7FFFFFFF.
(** float_info.hpp:111-137. *)
Definition float64_info :=
  mkFi 0x000FFFFFFFFFFFFF 64 0x10000000000000 52 1023 (-1022) 1023 16 0x7FFFFFFFFFFFFFFF.
(** float_info.hpp:139-165. *)
Definition float128_info :=
  mkFi 0x0000FFFFFFFFFFFFFFFFFFFFFFFFFFFF 128 0x10000000000000000000000000000 112
    16383 (-16382) 16383 16 0x7FFFFFFFFFFFFFFFFFFFFFFFFFFFFFFF.
(** float_info.hpp:168-194. *)
Definition bfloat16_info := mkFi 0x00FF 16 0x0100 8 127 (-126) 127 8 0x7FFF.

(** Conversion to a signed integer type of [n] bits (language semantics). *)
Definition wrap_signed (n x : Z) : Z := (x + 2 ^ (n - 1)) mod 2 ^ n - 2 ^ (n - 1).

Section Float.
Variable F : finfo.

(** after_math.hpp:167-173 [get_native_precision]. *)
Definition get_native_precision (d : Z) : Z := Z.land d (precision_mask F).
(** after_math.hpp:186-193 [base_get_exponent]. *)
Definition base_get_exponent (d : Z) : Z :=
  Z.shiftr (Z.land d (exponent_mask F)) (precision_base_bit F) mod 2 ^ xw F.
(** after_math.hpp:195-201 [get_native_exponent]. *)
Definition get_native_exponent (d : Z) : Z :=
  let tmp := base_get_exponent d in
  if tmp =? 0 then exponent_min F
  else wrap_signed (xw F) (wrap_signed (xw F) tmp - exponent_diff F).
(** after_math.hpp:203-208 [get_base_num]. *)
Definition get_base_num (d : Z) : Z :=
  if base_get_exponent d =? 0 then 0 else precision_base F.
(** after_math.hpp:210-213 [get_precision]; the sum is in data_type. *)
Definition get_precision (d : Z) : Z :=
  (get_native_precision d + get_base_num d) mod 2 ^ bw F.
(** after_math.hpp:215-219 [get_exponent]. *)
Definition get_exponent (d : Z) : Z := get_native_exponent d - precision_base_bit F.

(** countl_zero of a value of data_type (std::countl_zero). *)
Definition clz (x : Z) : Z := if x =? 0 then bw F else bw F - (Z.log2 x + 1).

(** The width in which a value of data_type is shifted: at least that of int
    (integer promotion). *)
Definition shift_width : Z := Z.max (bw F) 32.

(** after_math.hpp:237-279 [make_float]. *)
Definition make_float (base_num exponent : Z) : option Z :=
  let shift := clz base_num - (bw F - (precision_base_bit F + 1)) in
  let '(base_num, exponent) :=
    if 0 <? shift then (Z.shiftl base_num shift mod 2 ^ bw F, exponent - shift)
    else if shift <? 0 then (Z.shiftr base_num (- shift), exponent - shift)
    else (base_num, exponent) in
  let exponent := exponent + precision_base_bit F in
  let diff := exponent_min F - exponent in
  if (0 <? diff) && (shift_width <=? diff) then None
  else
    let small := 0 <? diff in
    let base_num := if small then Z.shiftr base_num diff else base_num in
    let exponent := if small then exponent + diff else exponent in
    if small && (base_num =? 0) then Some 0
    else if exponent_max F <? exponent then Some 0
    else if Z.shiftr base_num (precision_base_bit F) =? 0 then Some base_num
    else
      let exp := (exponent + exponent_diff F) mod 2 ^ xw F in
      Some (Z.lor (base_num - precision_base F) (Z.shiftl exp (precision_base_bit F))).
End Float.
