(** C97-C99: conversions and roundings of built-in numbers, signs and differences of
    built-in integers. *)
From Coq Require Import QArith Qround Qabs.
From Verif Require Import Base Float_Model Float_Spec Float_Proofs FloatBig_Model FloatBig_Spec FloatOut_Proofs
  MinMax_Model MinMax_Spec Cast_Model Cast_Spec Cast_Proofs.
Local Open Scope Z_scope.

(** ** C97: from floating-point numbers to integers *)

(** To an unsigned type of n bits: the number without its fraction modulo 2^n, if that
    is a number of intmax_t or uintmax_t (of sw bits); otherwise undefined. *)
Theorem C97_unsigned_partial : forall F f sw,
  In (F, f) [(float32_info, binary32); (float64_info, binary64); (float128_info, binary128)] -> 0 < sw ->
  forall n d z, finite f d -> is_trunc (fsigned f d) z ->
  (- 2 ^ (sw - 1) <= z < 2 ^ sw -> cast_unsigned f sw n d = Some (z mod 2 ^ n)) /\
  (z < - 2 ^ (sw - 1) \/ 2 ^ sw <= z -> cast_unsigned f sw n d = None).
Proof. exact cast_unsigned_all. Qed.
Print Assumptions C97_unsigned_partial.
(** -3.75 becomes 253 in eight bits, 300.0 becomes 44. *)
Example C97_unsigned_case :
  finite binary64 0xC00E000000000000 /\ is_trunc (fsigned binary64 0xC00E000000000000) (-3) /\
  cast_unsigned binary64 64 8 0xC00E000000000000 = Some 253 /\
  cast_unsigned binary64 64 8 0x4072C00000000000 = Some 44.
Proof. vm_compute. repeat split; congruence. Qed.

(** To a signed type of n bits: the number without its fraction if it fits, otherwise
    undefined, although the cast is there to avoid that. *)
Theorem C97_signed_partial : forall f n d z, finite f d -> is_trunc (fsigned f d) z ->
  (- 2 ^ (n - 1) <= z < 2 ^ (n - 1) -> cast_signed f n d = Some z) /\
  (z < - 2 ^ (n - 1) \/ 2 ^ (n - 1) <= z -> cast_signed f n d = None).
Proof. exact cast_signed_all. Qed.
Print Assumptions C97_signed_partial.
Example C97_signed_case : finite binary32 0xC3960000 /\ is_trunc (fsigned binary32 0xC3960000) (-300) /\
  cast_signed binary32 16 0xC3960000 = Some (-300) /\ cast_signed binary32 8 0xC3960000 = None.
Proof. vm_compute. repeat split; congruence. Qed.

(** Infinities and not-a-number: no conversion and no rounding is defined. *)
Theorem C97_special_undefined : forall f sw n d, is_data f d -> ~ finite f d ->
  cast_unsigned f sw n d = None /\ cast_signed f n d = None /\
  const_trunc f sw d = None /\ const_ceil f sw d = None /\ const_floor f sw d = None.
Proof. exact special_all. Qed.
Print Assumptions C97_special_undefined.
Example C97_special_case : is_data binary64 0x7FF0000000000000 /\ ~ finite binary64 0x7FF0000000000000.
Proof. split; [vm_compute; split; discriminate || reflexivity|]. intros [_ H]. apply H. reflexivity. Qed.

(** The cast is not defined for all numbers: 2^64, -2^64. *)
Theorem C97_defined_refuted : exists d1 d2, finite binary64 d1 /\ finite binary64 d2 /\
  cast_unsigned binary64 64 64 d1 = None /\ cast_unsigned binary64 64 64 d2 = None.
Proof. exists 0x43F0000000000000, 0xC3F0000000000000. vm_compute. repeat split; congruence. Qed.
Print Assumptions C97_defined_refuted.

(** ** C98: roundings during constant evaluation *)

(** trunc is right for all numbers whose integer part is in intmax_t, and undefined for
    the others. *)
Theorem C98_trunc_partial : forall F f sw,
  In (F, f) [(float32_info, binary32); (float64_info, binary64); (float128_info, binary128)] ->
  forall d z, finite f d -> is_trunc (fsigned f d) z ->
  (- 2 ^ (sw - 1) <= z < 2 ^ (sw - 1) -> exists r, const_trunc f sw d = Some r /\ (r == inject_Z z)%Q) /\
  (z < - 2 ^ (sw - 1) \/ 2 ^ (sw - 1) <= z -> const_trunc f sw d = None).
Proof. exact trunc_all. Qed.
Print Assumptions C98_trunc_partial.
Example C98_trunc_case : finite binary64 0xC00E000000000000 /\ is_trunc (fsigned binary64 0xC00E000000000000) (-3) /\
  option_map Qred (const_trunc binary64 64 0xC00E000000000000) = Some (-3 # 1)%Q.
Proof. vm_compute. repeat split; congruence. Qed.

(** ceil is right for negative numbers, integers and fractions above ε, the step of the
    format behind 1; it is one too small for the smaller fractions. *)
Theorem C98_ceil_partial : forall F f sw,
  In (F, f) [(float32_info, binary32); (float64_info, binary64); (float128_info, binary128)] -> 0 < sw ->
  forall d z, finite f d -> is_ceil (fsigned f d) z -> - 2 ^ sw < z < 2 ^ sw ->
  exists r, const_ceil f sw d = Some r /\
    ((fsigned f d < 0)%Q \/ (fsigned f d == inject_Z z)%Q \/ (inject_Z (z - 1) + pow2 (- fm f) < fsigned f d)%Q -> (r == inject_Z z)%Q) /\
    ((0 <= fsigned f d)%Q -> (fsigned f d <= inject_Z (z - 1) + pow2 (- fm f))%Q -> (r == inject_Z (z - 1))%Q).
Proof. exact ceil_all. Qed.
Print Assumptions C98_ceil_partial.
(** ceil(-3.75) = -3, ceil(1.5) = 2, ceil(3) = 3. *)
Example C98_ceil_case : is_ceil (fsigned binary64 0x3FF8000000000000) 2 /\
  (inject_Z (2 - 1) + pow2 (- fm binary64) < fsigned binary64 0x3FF8000000000000)%Q /\
  option_map Qred (const_ceil binary64 64 0xC00E000000000000) = Some (-3 # 1)%Q /\
  option_map Qred (const_ceil binary64 64 0x3FF8000000000000) = Some (2 # 1)%Q /\
  option_map Qred (const_ceil binary64 64 0x4008000000000000) = Some (3 # 1)%Q.
Proof. vm_compute. repeat split; congruence. Qed.
(** ceil(1+ε) is 1. *)
Theorem C98_ceil_refuted : exists d r, finite binary64 d /\ (1 < fsigned binary64 d)%Q /\
  const_ceil binary64 64 d = Some r /\ (r == 1)%Q.
Proof. exists 0x3FF0000000000001. eexists. vm_compute. repeat split; congruence. Qed.
Print Assumptions C98_ceil_refuted.

(** floor of a number not negative is right exactly for fractions up to ε; otherwise one
    too small. *)
Theorem C98_floor_wrong : forall F f sw,
  In (F, f) [(float32_info, binary32); (float64_info, binary64); (float128_info, binary128)] -> 0 < sw ->
  forall d z, finite f d -> (0 <= fsigned f d)%Q -> is_floor (fsigned f d) z -> z < 2 ^ sw ->
  exists r, const_floor f sw d = Some r /\
    ((fsigned f d <= inject_Z z + pow2 (- fm f))%Q -> (r == inject_Z z)%Q) /\
    ((inject_Z z + pow2 (- fm f) < fsigned f d)%Q -> (r == inject_Z (z - 1))%Q).
Proof. exact floor_all. Qed.
Print Assumptions C98_floor_wrong.
(** floor(1.5) = 0, floor(0.5) = -1. *)
Example C98_floor_case : is_floor (fsigned binary64 0x3FF8000000000000) 1 /\
  option_map Qred (const_floor binary64 64 0x3FF8000000000000) = Some (0 # 1)%Q /\
  option_map Qred (const_floor binary64 64 0x3FE0000000000000) = Some (-1 # 1)%Q /\
  option_map Qred (const_floor binary64 64 0x4008000000000000) = Some (3 # 1)%Q.
Proof. vm_compute. repeat split; congruence. Qed.

(** floor of a negative number v such that 1-v is a number of the type: right for
    fractions, one too small for integers. *)
Theorem C98_floor_negative_partial : forall F f sw,
  In (F, f) [(float32_info, binary32); (float64_info, binary64); (float128_info, binary128)] -> 0 < sw ->
  forall d s z, finite f d -> (fsigned f d < 0)%Q -> is_floor (fsigned f d) z -> - 2 ^ sw + 1 < z ->
  0 <= s < inf_bits f -> (fabs f s == 1 - fsigned f d)%Q ->
  exists r, const_floor f sw d = Some r /\
    (~ (fsigned f d == inject_Z z)%Q -> (r == inject_Z z)%Q) /\
    ((fsigned f d == inject_Z z)%Q -> (r == inject_Z (z - 1))%Q).
Proof. exact floor_neg_all. Qed.
Print Assumptions C98_floor_negative_partial.
(** floor(-2.5) = -3 (1-v is 3.5), floor(-3) = -4. *)
Example C98_floor_negative_case : is_floor (fsigned binary64 0xC004000000000000) (-3) /\
  (fabs binary64 0x400C000000000000 == 1 - fsigned binary64 0xC004000000000000)%Q /\
  option_map Qred (const_floor binary64 64 0xC004000000000000) = Some (-3 # 1)%Q /\
  option_map Qred (const_floor binary64 64 0xC008000000000000) = Some (-4 # 1)%Q.
Proof. vm_compute. repeat split; congruence. Qed.
(** When 1-v is rounded up, the result is too small too: v just above -1. *)
Theorem C98_floor_negative_refuted : exists d r, finite binary64 d /\ is_floor (fsigned binary64 d) (-1) /\
  const_floor binary64 64 d = Some r /\ (r == -2)%Q.
Proof. exists 0xBFEFFFFFFFFFFFFF. eexists. vm_compute. repeat split; congruence. Qed.
Print Assumptions C98_floor_negative_refuted.

(** Numbers from 2^sw on are refused. *)
Theorem C98_large_undefined : forall F f sw,
  In (F, f) [(float32_info, binary32); (float64_info, binary64); (float128_info, binary128)] ->
  forall d z, finite f d -> (0 <= fsigned f d)%Q -> is_floor (fsigned f d) z -> 2 ^ sw <= z ->
  const_ceil f sw d = None /\ const_floor f sw d = None.
Proof. exact large_all. Qed.
Print Assumptions C98_large_undefined.
Example C98_large_case : finite binary64 0x4400000000000000 /\ is_floor (fsigned binary64 0x4400000000000000) (2 ^ 65).
Proof. vm_compute. repeat split; congruence. Qed.

(** ** C99: signs and differences of built-in integers *)

(** copy_as_negative of a number not negative, of a signed or a narrow type, is its
    opposite, in int or the wider type of the number. *)
Theorem C99_negative_partial : forall x, fits x -> sgn (vty x) = true \/ bits (vty x) < 32 ->
  copy_as_negative x false = Some {| vty := {| sgn := true; bits := Z.max 32 (bits (vty x)) |}; num := num x |} /\
  (- num x < 2 ^ (Z.max 32 (bits (vty x)) - 1) ->
    copy_as_negative x true = Some {| vty := {| sgn := true; bits := Z.max 32 (bits (vty x)) |}; num := - num x |}) /\
  (num x = - 2 ^ (Z.max 32 (bits (vty x)) - 1) -> copy_as_negative x true = None).
Proof. exact negative_spec. Qed.
Print Assumptions C99_negative_partial.
(** 200 of eight unsigned bits; the smallest int is undefined. *)
Example C99_negative_case : fits {| vty := {| sgn := false; bits := 8 |}; num := 200 |} /\
  copy_as_negative {| vty := {| sgn := false; bits := 8 |}; num := 200 |} true =
    Some {| vty := {| sgn := true; bits := 32 |}; num := -200 |} /\
  copy_as_negative {| vty := {| sgn := true; bits := 32 |}; num := -2147483648 |} true = None.
Proof. vm_compute. repeat split; congruence. Qed.

(** A number that is negative already becomes positive. *)
Theorem C99_negative_wrong : forall x, fits x -> num x < 0 -> - num x < 2 ^ (Z.max 32 (bits (vty x)) - 1) ->
  exists r, copy_as_negative x true = Some r /\ num r = - num x /\ 0 < num r.
Proof. exact negative_negated. Qed.
Print Assumptions C99_negative_wrong.
Example C99_negative_wrong_case : fits {| vty := {| sgn := true; bits := 32 |}; num := -5 |} /\
  copy_as_negative {| vty := {| sgn := true; bits := 32 |}; num := -5 |} true = Some {| vty := {| sgn := true; bits := 32 |}; num := 5 |}.
Proof. vm_compute. repeat split; congruence. Qed.

(** A number of a wide unsigned type gives a positive one of that type, never a negative
    one. *)
Theorem C99_unsigned_wrong : forall x, fits x -> sgn (vty x) = false -> 32 <= bits (vty x) -> 0 < num x ->
  copy_as_negative x true = Some {| vty := vty x; num := 2 ^ bits (vty x) - num x |} /\ 0 < 2 ^ bits (vty x) - num x.
Proof. exact unsigned_negated. Qed.
Print Assumptions C99_unsigned_wrong.
Example C99_unsigned_wrong_case : fits {| vty := {| sgn := false; bits := 32 |}; num := 5 |} /\
  copy_as_negative {| vty := {| sgn := false; bits := 32 |}; num := 5 |} true =
    Some {| vty := {| sgn := false; bits := 32 |}; num := 4294967291 |}.
Proof. vm_compute. repeat split; congruence. Qed.

(** reverse_sign of a number not negative is its opposite; a negative one comes back as
    it is. *)
Theorem C99_reverse_partial : forall x, fits x -> sgn (vty x) = true \/ bits (vty x) < 32 -> 0 <= num x ->
  reverse_sign x = Some {| vty := {| sgn := true; bits := Z.max 32 (bits (vty x)) |}; num := - num x |}.
Proof. exact reverse_positive. Qed.
Print Assumptions C99_reverse_partial.
Example C99_reverse_case : fits {| vty := {| sgn := true; bits := 64 |}; num := 7 |} /\
  reverse_sign {| vty := {| sgn := true; bits := 64 |}; num := 7 |} = Some {| vty := {| sgn := true; bits := 64 |}; num := -7 |}.
Proof. vm_compute. repeat split; congruence. Qed.
Theorem C99_reverse_wrong : forall x, fits x -> num x < 0 ->
  exists r, reverse_sign x = Some r /\ num r = num x.
Proof. exact reverse_kept. Qed.
Print Assumptions C99_reverse_wrong.
Example C99_reverse_wrong_case : fits {| vty := {| sgn := true; bits := 16 |}; num := -7 |} /\
  reverse_sign {| vty := {| sgn := true; bits := 16 |}; num := -7 |} = Some {| vty := {| sgn := true; bits := 32 |}; num := -7 |}.
Proof. vm_compute. repeat split; congruence. Qed.

(** sub of two numbers that are numbers of the wider signed type: their difference, or
    undefined if it does not fit. *)
Theorem C99_sub_partial : forall a b, fits a -> fits b -> let w := Z.max 32 (Z.max (bits (vty a)) (bits (vty b))) in
  - 2 ^ (w - 1) <= num a < 2 ^ (w - 1) -> - 2 ^ (w - 1) <= num b < 2 ^ (w - 1) ->
  sub_ints a b = if (- 2 ^ (w - 1) <=? num a - num b) && (num a - num b <? 2 ^ (w - 1))
    then Some {| vty := {| sgn := true; bits := w |}; num := num a - num b |} else None.
Proof. exact sub_spec. Qed.
Print Assumptions C99_sub_partial.
(** 3u - 5 is -2; the smallest int minus 1 is undefined. *)
Example C99_sub_case : fits {| vty := {| sgn := false; bits := 32 |}; num := 3 |} /\
  sub_ints {| vty := {| sgn := false; bits := 32 |}; num := 3 |} {| vty := {| sgn := true; bits := 32 |}; num := 5 |} =
    Some {| vty := {| sgn := true; bits := 32 |}; num := -2 |} /\
  sub_ints {| vty := {| sgn := true; bits := 32 |}; num := -2147483648 |} {| vty := {| sgn := true; bits := 8 |}; num := 1 |} = None.
Proof. vm_compute. repeat split; congruence. Qed.
(** A large unsigned number minus a smaller one is negative. *)
Theorem C99_sub_wrong : forall a b, fits a -> fits b -> let w := Z.max 32 (Z.max (bits (vty a)) (bits (vty b))) in
  2 ^ (w - 1) <= num a -> 0 <= num b <= num a - 2 ^ (w - 1) ->
  sub_ints a b = Some {| vty := {| sgn := true; bits := w |}; num := num a - num b - 2 ^ w |} /\ num a - num b - 2 ^ w < 0.
Proof. exact sub_wrong. Qed.
Print Assumptions C99_sub_wrong.
Example C99_sub_wrong_case : fits {| vty := {| sgn := false; bits := 32 |}; num := 3000000000 |} /\
  sub_ints {| vty := {| sgn := false; bits := 32 |}; num := 3000000000 |} {| vty := {| sgn := false; bits := 32 |}; num := 0 |} =
    Some {| vty := {| sgn := true; bits := 32 |}; num := -1294967296 |}.
Proof. vm_compute. repeat split; congruence. Qed.
