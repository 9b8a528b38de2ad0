(** C65: conversions between floating-point numbers and big numbers. *)
From Verif Require Import Base Float_Model Float_Spec Ref_Model FloatBig_Model FloatBig_Spec FloatBig_Proofs FloatOut_Proofs.
From Coq Require Import QArith Qround.
Local Open Scope Z_scope.

(** The big unsigned integer made of a finite number is its absolute value without
    the fraction part. *)
Theorem C65_to_integer : forall F f d,
  In (F, f) [(float32_info, binary32); (float64_info, binary64); (float128_info, binary128)] ->
  finite f d -> ubigint_of_float F f d = Qfloor (fabs f d).
Proof. exact to_integer_all. Qed.
Print Assumptions C65_to_integer.
(** Pi, 2^65 and -0.75; the infinities give 0 and 2^1024. *)
Example C65_to_integer_case :
  ubigint_of_float float32_info binary32 0x40490FDB = 3 /\
  ubigint_of_float float32_info binary32 0x60000000 = 2 ^ 65 /\
  ubigint_of_float float64_info binary64 0xBFE8000000000000 = 0 /\
  ubigint_of_float float32_info binary32 0x7F800000 = 0 /\
  ubigint_of_float float64_info binary64 0x7FF0000000000000 = 2 ^ 1024.
Proof. vm_compute. repeat split; reflexivity. Qed.

(** The signed one has the sign of the number and this magnitude.  Missing: equality
    with the integer, see below. *)
Theorem C65_to_signed_partial : forall F f d,
  In (F, f) [(float32_info, binary32); (float64_info, binary64); (float128_info, binary128)] ->
  finite f d ->
  exists b, bigint_of_float F f d = (b, Qfloor (fabs f d)) /\ (b = true <-> (fsigned f d < 0)%Q).
Proof. exact to_signed_spec. Qed.
Print Assumptions C65_to_signed_partial.
(** -pi and -0. *)
Example C65_to_signed_case :
  bigint_of_float float32_info binary32 0xC0490FDB = (true, 3) /\
  bigint_of_float float32_info binary32 0x80000000 = (false, 0).
Proof. vm_compute. split; reflexivity. Qed.

(** Every negative number above -1 gives a zero that is not equal to zero. *)
Theorem C65_negative_zero_wrong : forall F f d,
  In (F, f) [(float32_info, binary32); (float64_info, binary64); (float128_info, binary128)] ->
  finite f d -> (-1 < fsigned f d)%Q -> (fsigned f d < 0)%Q ->
  bigint_of_float F f d = (true, 0) /\ bigint_eq (bigint_of_float F f d) (false, 0) = false.
Proof. exact negative_zero_all. Qed.
Print Assumptions C65_negative_zero_wrong.
(** -0.5f *)
Example C65_negative_zero_case :
  finite binary32 0xBF000000 /\ (fsigned binary32 0xBF000000 == - (1 # 2))%Q.
Proof. vm_compute. repeat split; try reflexivity; discriminate. Qed.

(** The fraction made of a finite number is exact, or (only below one) a fraction
    with numerator below 128 and denominator up to 2^17 to which the number is a
    nearest one. *)
Theorem C65_to_fraction : forall F f sw d n q,
  In (F, f) [(float32_info, binary32); (float64_info, binary64); (float128_info, binary128)] ->
  finite f d -> ubigfloat_of_float F f sw d = Some (n, q) ->
  0 < q /\
  ((ratio n q == fabs f d)%Q \/
   (fabs f d < 1)%Q /\ 0 < n < 128 /\ q <= 2 ^ 17 /\ nearest f (ratio n q) (clear_sign f d)).
Proof. exact to_fraction_all. Qed.
Print Assumptions C65_to_fraction.
(** 0.1f is guessed, the float after it is exact. *)
Example C65_to_fraction_case :
  ubigfloat_of_float float32_info binary32 64 0x3DCCCCCD = Some (1, 10) /\
  ubigfloat_of_float float32_info binary32 64 0x3DCCCCCE = Some (6710887, 67108864).
Proof. vm_compute. split; reflexivity. Qed.

(** From one on it is always exact. *)
Theorem C65_to_fraction_exact : forall F f d,
  In (F, f) [(float32_info, binary32); (float64_info, binary64)] ->
  finite f d -> (1 <= fabs f d)%Q ->
  exists n q, ubigfloat_of_float F f 64 d = Some (n, q) /\ 0 < q /\ (ratio n q == fabs f d)%Q.
Proof. exact to_fraction_exact_all. Qed.
Print Assumptions C65_to_fraction_exact.
Example C65_to_fraction_exact_case :
  ubigfloat_of_float float32_info binary32 64 0x40490FDB = Some (13176795, 4194304).
Proof. vm_compute. reflexivity. Qed.

(** Between 2^-56 and one there is a result; up to 2^-64 the constructor is
    undefined (a conversion to size_t of a number that does not fit). *)
Theorem C65_to_fraction_defined_partial : forall F f d,
  In (F, f) [(float32_info, binary32); (float64_info, binary64); (float128_info, binary128)] ->
  finite f d -> (pow2 (-56) <= fabs f d)%Q -> (fabs f d < 1)%Q ->
  exists n q, ubigfloat_of_float F f 64 d = Some (n, q).
Proof. exact to_fraction_defined_all. Qed.
Print Assumptions C65_to_fraction_defined_partial.
Theorem C65_to_fraction_undefined : forall F f d,
  In (F, f) [(float32_info, binary32); (float64_info, binary64); (float128_info, binary128)] ->
  finite f d -> (0 < fabs f d)%Q -> (fabs f d <= pow2 (-64))%Q ->
  ubigfloat_of_float F f 64 d = None.
Proof. exact to_fraction_undefined_all. Qed.
Print Assumptions C65_to_fraction_undefined.
(** 2^-50 and 1e-30f. *)
Example C65_to_fraction_defined_case :
  (fabs binary32 0x26800000 == pow2 (-50))%Q /\
  ubigfloat_of_float float32_info binary32 64 0x26800000 = Some (1, 2 ^ 50) /\
  ubigfloat_of_float float32_info binary32 64 0x0DA24260 = None.
Proof. vm_compute. repeat split; reflexivity. Qed.

(** A fraction in range converts to itself if it is a floating-point number and to
    one of its neighbours otherwise.  Missing: fractions just below a power of two
    and fractions out of range, see below. *)
Theorem C65_from_fraction_partial : forall F f ew,
  In (F, f) [(float32_info, binary32); (float64_info, binary64); (float128_info, binary128)] ->
  16 <= ew -> forall fuel n d,
  0 < n -> 0 < d -> Z.log2 d + 2 <= Z.of_nat fuel ->
  (pow2 (2 - bias f - all_bits f) <= ratio n d)%Q -> (ratio n d < pow2 (bias f + 1))%Q ->
  ~ just_below_power (all_bits f) (ratio n d) ->
  exists r, convert_to_float F f ew fuel n d = Ok r /\ faithful f (ratio n d) r.
Proof. exact from_fraction_all. Qed.
Print Assumptions C65_from_fraction_partial.
(** 1/3: the neighbour below, which is not the nearest one. *)
Example C65_from_fraction_case :
  convert_to_float float32_info binary32 16 4 1 3 = Ok 0x3EAAAAAA /\ rn binary32 (1 # 3) = 0x3EAAAAAB.
Proof. vm_compute. split; reflexivity. Qed.

(** Integers and other dyadic fractions just below a power of two become zero. *)
Theorem C65_from_fraction_below_wrong : forall F f ew,
  In (F, f) [(float32_info, binary32); (float64_info, binary64); (float128_info, binary128)] ->
  16 <= ew -> forall fuel n k,
  0 < n -> 0 <= k -> k + 2 <= Z.of_nat fuel ->
  (pow2 (3 - bias f) <= ratio n (2 ^ k))%Q -> (ratio n (2 ^ k) < pow2 (bias f + 1))%Q ->
  just_below_power (all_bits f) (ratio n (2 ^ k)) ->
  convert_to_float F f ew fuel n (2 ^ k) = Ok 0.
Proof. exact from_below_all. Qed.
Print Assumptions C65_from_fraction_below_wrong.
(** 2^33-1, and 2^65-1 for double. *)
Example C65_from_fraction_below_case :
  just_below_power 32 (ratio (2 ^ 33 - 1) (2 ^ 0)) /\
  convert_to_float float32_info binary32 16 2 (2 ^ 33 - 1) 1 = Ok 0 /\
  convert_to_float float64_info binary64 16 2 (2 ^ 65 - 1) 1 = Ok 0 /\
  convert_to_float float32_info binary32 16 2 (2 ^ 33 - 3) 1 = Ok 0x4FFFFFFF.
Proof. split; [exists 32|]; vm_compute; repeat split; reflexivity. Qed.

(** Numbers that are too large become zero, numbers that are too small are
    undefined. *)
Theorem C65_from_fraction_large_wrong : forall F f ew,
  In (F, f) [(float32_info, binary32); (float64_info, binary64); (float128_info, binary128)] ->
  16 <= ew -> forall fuel n d,
  0 < n -> 0 < d -> Z.log2 d + 2 <= Z.of_nat fuel ->
  (pow2 (bias f + 1) <= ratio n d)%Q -> (ratio n d < pow2 (2 ^ (ew - 1)))%Q ->
  convert_to_float F f ew fuel n d = Ok 0.
Proof. exact from_large_all. Qed.
Print Assumptions C65_from_fraction_large_wrong.
Theorem C65_from_fraction_small_undefined : forall F f ew,
  In (F, f) [(float32_info, binary32); (float64_info, binary64); (float128_info, binary128)] ->
  16 <= ew -> forall fuel n d,
  0 < n -> 0 < d -> Z.log2 d + 2 <= Z.of_nat fuel ->
  (pow2 (all_bits f - 2 ^ (ew - 1)) <= ratio n d)%Q -> (ratio n d < pow2 (1 - bias f - all_bits f))%Q ->
  convert_to_float F f ew fuel n d = Ub.
Proof. exact from_small_all. Qed.
Print Assumptions C65_from_fraction_small_undefined.
(** 10^39 and 10^-60 to float. *)
Example C65_from_fraction_range_case :
  convert_to_float float32_info binary32 16 2 (10 ^ 39) 1 = Ok 0 /\
  convert_to_float float32_info binary32 16 202 1 (10 ^ 60) = Ub.
Proof. vm_compute. split; reflexivity. Qed.

(** A number that was converted to an exact fraction converts back to itself (up to
    the sign).  Missing: guessed fractions. *)
Theorem C65_roundtrip_partial : forall F f ew,
  In (F, f) [(float32_info, binary32); (float64_info, binary64); (float128_info, binary128)] ->
  16 <= ew -> forall sw fuel d n q,
  finite f d -> ubigfloat_of_float F f sw d = Some (n, q) -> (ratio n q == fabs f d)%Q ->
  Z.log2 q + 2 <= Z.of_nat fuel ->
  convert_to_float F f ew fuel n q = Ok (clear_sign f d).
Proof. exact there_and_back_all. Qed.
Print Assumptions C65_roundtrip_partial.
Example C65_roundtrip_case :
  convert_to_float float32_info binary32 16 24 13176795 4194304 = Ok 0x40490FDB.
Proof. vm_compute. reflexivity. Qed.

(** 0.1f becomes 1/10, which converts to another float. *)
Theorem C65_roundtrip_refuted : exists d n q, finite binary32 d /\
  ubigfloat_of_float float32_info binary32 64 d = Some (n, q) /\
  convert_to_float float32_info binary32 16 100 n q <> Ok (clear_sign binary32 d) /\
  convert_to_float float32_info binary32 16 100 n q <> Out.
Proof. exact there_and_back_refuted. Qed.
Print Assumptions C65_roundtrip_refuted.

(** Infinities become the fraction 1/0, whatever their sign, and not-a-numbers
    become 0. *)
Theorem C65_infinity_nan : forall F f sw d,
  In (F, f) [(float32_info, binary32); (float64_info, binary64); (float128_info, binary128)] ->
  (clear_sign f d = inf_bits f -> ubigfloat_of_float F f sw d = Some (1, 0)) /\
  (inf_bits f < clear_sign f d -> ubigfloat_of_float F f sw d = Some (0, 1)).
Proof.
  intros F f sw d [E|[E|[E|[]]]]; injection E as <- <-; apply special_all; vm_compute; discriminate.
Qed.
Print Assumptions C65_infinity_nan.

Example C65_infinity_nan_case :
  clear_sign binary32 0xFF800000 = inf_bits binary32 /\
  ubigfloat_of_float float32_info binary32 64 0xFF800000 = Some (1, 0) /\
  inf_bits binary32 < clear_sign binary32 0x7FC00000 /\
  ubigfloat_of_float float32_info binary32 64 0x7FC00000 = Some (0, 1).
Proof. vm_compute. repeat split; reflexivity. Qed.
