(** C69: built-in floating-point numbers as text and back. *)
From Coq Require Import QArith Qround Lqa.
From Verif Require Import Base NumRepr_Model NumRepr_Spec NumRepr_Proofs NumRepr_Frac FracText_Model FracText_Spec FracText_Proofs
  Float_Model Float_Spec Float_Proofs Ref_Model FloatBig_Model FloatBig_Spec FloatBig_Proofs FloatOut_Proofs
  FloatText_Model FloatText_Spec FloatText_Proofs FloatRead_Proofs FloatShow_Proofs FloatDouble_Proofs.
Local Open Scope Z_scope.

(** The text of a finite number says a value that belongs to the number: the number is
    one of the two neighbours of the value.  Even radices; missing: odd radices and the
    numbers for which the guess of a fraction is a wrong one, see below. *)
Theorem C69_text_close_partial : forall F f,
  In (F, f) [(float32_info, binary32); (float64_info, binary64); (float128_info, binary128)] ->
  forall ew R M limit_digits, text_setting f ew R M limit_digits ->
  forall d s, radix R mod 2 = 0 -> finite f d -> clear_sign f d <> 0 ->
  plain_guess f (radix R) (clear_sign f d) ->
  print_float F f 64 ew R M limit_digits d = Ok s ->
  exists t v, s = (if 2 ^ (all_bits f - 1) <=? d then m_minus M :: t else t) /\
    denotes R M t v /\ faithful f v (clear_sign f d).
Proof. exact show_close. Qed.
Print Assumptions C69_text_close_partial.
(** "-3.1415927" in decimal, "-3.243f6c" in radix sixteen. *)
Example C69_text_close_case :
  text_setting binary32 16 decimal decimal_marks 10 /\ text_setting binary64 16 decimal decimal_marks 20 /\
  text_setting binary32 16 hexadecimal hexadecimal_marks 8 /\ text_setting binary64 16 hexadecimal hexadecimal_marks 16 /\
  text_setting binary128 16 decimal decimal_marks 39 /\
  plain_guess binary32 10 (clear_sign binary32 0xC0490FDB) /\
  print_float float32_info binary32 64 16 decimal decimal_marks 10 0xC0490FDB =
    Ok [45; 51; 46; 49; 52; 49; 53; 57; 50; 55] /\
  print_float float32_info binary32 64 16 hexadecimal hexadecimal_marks 8 0xC0490FDB =
    Ok [45; 51; 46; 50; 52; 51; 102; 54; 99].
Proof.
  destruct std_usable as (U1 & _ & _ & _ & U2 & _). destruct std_tables as (T1 & _ & _ & _ & T2 & _).
  unfold text_setting.
  refine (conj _ (conj _ (conj _ (conj _ (conj _ (conj _ (conj _ _))))))).
  1-5: refine (conj _ (conj _ (conj _ (conj _ (conj _ (conj _ _)))))); try assumption; try exact decimal_ok; try exact hexadecimal_ok;
    vm_compute; (reflexivity || discriminate).
  - apply large_plain. vm_compute. discriminate.
  - vm_compute. reflexivity.
  - vm_compute. reflexivity.
Qed.

(** The conditions on guesses: below one, for double and wider, at most one fraction in
    lowest terms with numerator below 128 and denominator up to 2^17 is rounded to a
    number; from one on there are no conditions. *)
Theorem C69_guess_unique : forall F f,
  In (F, f) [(float32_info, binary32); (float64_info, binary64); (float128_info, binary128)] ->
  forall r x a b, 36 <= fm f -> short_fraction f x a b ->
  (factors_in r b -> no_guess f r x) /\
  (factors_in r b \/ factors_out r b /\ ~ (r ^ 3 | a) -> plain_guess f r x).
Proof. exact short_plain. Qed.
Print Assumptions C69_guess_unique.
(** 0.1 is shown as 0.10000000000000001; 1/3 as 1/3. *)
Example C69_guess_unique_case :
  short_fraction binary64 0x3FB999999999999A 1 10 /\
  print_double 0x3FB999999999999A = Ok [48;46;49;48;48;48;48;48;48;48;48;48;48;48;48;48;48;48;49] /\
  short_fraction binary64 0x3FD5555555555555 1 3 /\ print_double 0x3FD5555555555555 = Ok [49; 47; 51].
Proof.
  assert (Fit := afit (@good_all float64_info binary64 (or_intror (or_introl eq_refl)))).
  refine (conj _ (conj _ (conj _ _))).
  - refine (conj _ (conj _ (conj _ (conj _ _)))); [vm_compute; reflexivity|lia|lia|reflexivity|].
    replace 0x3FB999999999999A with (rn binary64 (ratio 1 10)) by (vm_compute; reflexivity).
    apply (rn_nearest Fit); [discriminate|vm_compute; reflexivity].
  - vm_compute. reflexivity.
  - refine (conj _ (conj _ (conj _ (conj _ _)))); [vm_compute; reflexivity|lia|lia|reflexivity|].
    replace 0x3FD5555555555555 with (rn binary64 (ratio 1 3)) by (vm_compute; reflexivity).
    apply (rn_nearest Fit); [discriminate|vm_compute; reflexivity].
  - vm_compute. reflexivity.
Qed.

(** Printing is defined for all numbers from 2^-56 on but 2^64. *)
Theorem C69_defined : forall F f,
  In (F, f) [(float32_info, binary32); (float64_info, binary64); (float128_info, binary128)] ->
  forall ew R M limit_digits, text_setting f ew R M limit_digits ->
  forall d, radix R mod 2 = 0 -> finite f d ->
  (1 <= fabs f d)%Q /\ fm f <= 56 \/ (pow2 (-56) <= fabs f d)%Q /\ (fabs f d < 1)%Q ->
  ~ (fabs f d == pow2 64)%Q ->
  exists s, print_float F f 64 ew R M limit_digits d = Ok s.
Proof. exact show_defined. Qed.
Print Assumptions C69_defined.
Example C69_defined_case : finite binary64 0x400921FB54442D18 /\ (1 <= fabs binary64 0x400921FB54442D18)%Q /\
  fm binary64 <= 56 /\ ~ (fabs binary64 0x400921FB54442D18 == pow2 64)%Q.
Proof. refine (conj _ (conj _ (conj _ _))); [split; [split|]|..]; vm_compute; (reflexivity || discriminate). Qed.

(** Undefined: positive magnitudes up to 2^-64 ... *)
Theorem C69_tiny_undefined : forall F f,
  In (F, f) [(float32_info, binary32); (float64_info, binary64); (float128_info, binary128)] ->
  forall ew R M limit_digits, text_setting f ew R M limit_digits ->
  forall d, finite f d -> (0 < fabs f d)%Q -> (fabs f d <= pow2 (-64))%Q ->
  print_float F f 64 ew R M limit_digits d = Ub.
Proof. exact tiny_undefined. Qed.
Print Assumptions C69_tiny_undefined.
(** The smallest normal float. *)
Example C69_tiny_case : finite binary32 0x00800000 /\ (0 < fabs binary32 0x00800000)%Q /\
  (fabs binary32 0x00800000 <= pow2 (-64))%Q.
Proof. refine (conj _ (conj _ _)); [split; [split|]|..]; vm_compute; (reflexivity || discriminate). Qed.

(** ... and 2^64 itself. *)
Theorem C69_size_limit_undefined : forall F f,
  In (F, f) [(float32_info, binary32); (float64_info, binary64); (float128_info, binary128)] ->
  forall ew R M limit_digits, text_setting f ew R M limit_digits ->
  forall d, fm f < 63 -> finite f d -> (fabs f d == pow2 64)%Q ->
  print_float F f 64 ew R M limit_digits d = Ub.
Proof. exact size_limit_undefined. Qed.
Print Assumptions C69_size_limit_undefined.
Example C69_size_limit_case : finite binary64 0x43F0000000000000 /\ (fabs binary64 0x43F0000000000000 == pow2 64)%Q.
Proof. split; [split; [split|]|]; vm_compute; (reflexivity || discriminate). Qed.

(** Reading the text of a number gives the number, or a neighbour of it, or zero if the
    text says a value just below a power of two. *)
Theorem C69_near_round_trip_partial : forall F f,
  In (F, f) [(float32_info, binary32); (float64_info, binary64); (float128_info, binary128)] ->
  forall ew R M limit_digits, text_setting f ew R M limit_digits ->
  forall d s, radix R mod 2 = 0 -> finite f d -> clear_sign f d <> 0 ->
  plain_guess f (radix R) (clear_sign f d) ->
  print_float F f 64 ew R M limit_digits d = Ok s ->
  exists y, parse_float F f ew R M s = Got y /\
    (next_to y d \/
     clear_sign f y = 0 /\
     exists t v, (t = s \/ m_minus M :: t = s) /\ denotes R M t v /\ just_below_power (all_bits f) v).
Proof. exact show_near. Qed.
Print Assumptions C69_near_round_trip_partial.
Example C69_near_round_trip_case :
  parse_float float32_info binary32 16 decimal decimal_marks [45; 51; 46; 49; 52; 49; 53; 57; 50; 55] = Got 0xC0490FDA /\
  next_to 0xC0490FDA 0xC0490FDB.
Proof. split; [vm_compute; reflexivity|unfold next_to; lia]. Qed.

(** If the radix is a power of two, the number is read back exactly. *)
Theorem C69_power_round_trip_partial : forall F f,
  In (F, f) [(float32_info, binary32); (float64_info, binary64); (float128_info, binary128)] ->
  forall ew R M limit_digits, text_setting f ew R M limit_digits ->
  forall j d s, 1 <= j -> radix R = 2 ^ j -> finite f d -> clear_sign f d <> 0 ->
  no_guess f (radix R) (clear_sign f d) ->
  print_float F f 64 ew R M limit_digits d = Ok s -> parse_float F f ew R M s = Got d.
Proof. exact show_power. Qed.
Print Assumptions C69_power_round_trip_partial.
Example C69_power_round_trip_case :
  no_guess binary32 16 (clear_sign binary32 0xC0490FDB) /\
  parse_float float32_info binary32 16 hexadecimal hexadecimal_marks [45; 51; 46; 50; 52; 51; 102; 54; 99] = Got 0xC0490FDB.
Proof. split; [apply large_plain; vm_compute; discriminate|vm_compute; reflexivity]. Qed.

(** Doubles of magnitude at least one other than 2^64, with the default representation:
    always shown, and read back as the number or a neighbour of it (or zero, if the text
    says a value just below a power of two). *)
Theorem C69_double_partial : forall d,
  finite binary64 d -> (1 <= fabs binary64 d)%Q -> ~ (fabs binary64 d == pow2 64)%Q ->
  exists s y, print_double d = Ok s /\ parse_double s = Got y /\
    (next_to y d \/ clear_sign binary64 y = 0 /\
     exists t v, (t = s \/ m_minus decimal_marks :: t = s) /\ denotes decimal decimal_marks t v /\ just_below_power 64 v).
Proof. exact double_decimal_near. Qed.
Print Assumptions C69_double_partial.
(** In radix sixteen they are read back exactly. *)
Theorem C69_double_hexadecimal : forall d,
  finite binary64 d -> (1 <= fabs binary64 d)%Q -> ~ (fabs binary64 d == pow2 64)%Q ->
  exists s, print_float float64_info binary64 64 16 hexadecimal hexadecimal_marks 16 d = Ok s /\
    parse_float float64_info binary64 16 hexadecimal hexadecimal_marks s = Got d.
Proof. exact double_hexadecimal_exact. Qed.
Print Assumptions C69_double_hexadecimal.
(** -3.125. *)
Example C69_double_case : finite binary64 0xC009000000000000 /\ (1 <= fabs binary64 0xC009000000000000)%Q /\
  ~ (fabs binary64 0xC009000000000000 == pow2 64)%Q /\
  print_double 0xC009000000000000 = Ok [45; 51; 46; 49; 50; 53] /\
  parse_double [45; 51; 46; 49; 50; 53] = Got 0xC009000000000000.
Proof.
  refine (conj _ (conj _ (conj _ (conj _ _)))); [split; [split|]|..]; vm_compute; (reflexivity || discriminate).
Qed.

(** Both zeros are shown as "0", which is the positive one. *)
Theorem C69_negative_zero_wrong : forall F f,
  In (F, f) [(float32_info, binary32); (float64_info, binary64); (float128_info, binary128)] ->
  forall ew R M limit_digits, text_setting f ew R M limit_digits ->
  forall d, finite f d -> clear_sign f d = 0 ->
  print_float F f 64 ew R M limit_digits d = Ok (utext R 0) /\ parse_float F f ew R M (utext R 0) = Got 0.
Proof. exact show_zero. Qed.
Print Assumptions C69_negative_zero_wrong.
Example C69_negative_zero_case : finite binary32 0x80000000 /\ clear_sign binary32 0x80000000 = 0 /\
  utext decimal 0 = [48].
Proof. refine (conj _ (conj _ _)); [split; [split|]|..]; vm_compute; (reflexivity || discriminate). Qed.

(** The infinities are read back. *)
Theorem C69_infinity : forall F f,
  In (F, f) [(float32_info, binary32); (float64_info, binary64); (float128_info, binary128)] ->
  forall ew R M limit_digits, text_setting f ew R M limit_digits -> exists s,
  print_float F f 64 ew R M limit_digits (inf_bits f) = Ok s /\ parse_float F f ew R M s = Got (inf_bits f) /\
  print_float F f 64 ew R M limit_digits (inf_bits f + 2 ^ (all_bits f - 1)) = Ok (m_minus M :: s) /\
  parse_float F f ew R M (m_minus M :: s) = Got (inf_bits f + 2 ^ (all_bits f - 1)).
Proof. exact infinity_text. Qed.
Print Assumptions C69_infinity.
Example C69_infinity_case : inf_bits binary32 = 0x7F800000 /\
  print_float float32_info binary32 64 16 decimal decimal_marks 10 0x7F800000 = Ok (m_inf decimal_marks).
Proof. vm_compute. split; reflexivity. Qed.

(** Reading a text that says [v] gives a neighbour of [v] ... *)
Theorem C69_reading_value_partial : forall F f,
  In (F, f) [(float32_info, binary32); (float64_info, binary64); (float128_info, binary128)] ->
  forall ew R M limit_digits, text_setting f ew R M limit_digits ->
  forall s v, number_text R M s v ->
  (pow2 (2 - bias f - all_bits f) <= v)%Q -> (v < pow2 (bias f + 1))%Q -> ~ just_below_power (all_bits f) v ->
  exists y, parse_float F f ew R M s = Got y /\ faithful f v y.
Proof. exact scan_value. Qed.
Print Assumptions C69_reading_value_partial.
(** "3.25/5e2" *)
Example C69_reading_value_case :
  parse_float float32_info binary32 16 decimal decimal_marks [51;46;50;53;47;53;101;50] = Got 0x42820000 /\
  (fabs binary32 0x42820000 == 65)%Q.
Proof. vm_compute. split; reflexivity. Qed.

(** ... with the sign in front of it ... *)
Theorem C69_reading_sign : forall F f ew R M limit_digits, text_setting f ew R M limit_digits ->
  forall s v y, number_text R M s v -> s <> [] -> parse_float F f ew R M s = Got y ->
  parse_float F f ew R M (m_minus M :: s) = Got (clear_sign f y + 2 ^ (all_bits f - 1)) /\
  parse_float F f ew R M (m_plus M :: s) = Got y.
Proof. exact scan_sign. Qed.
Print Assumptions C69_reading_sign.
(** "-0.5" *)
Example C69_reading_sign_case :
  parse_float float32_info binary32 16 decimal decimal_marks [45;48;46;53] = Got 0xBF000000.
Proof. vm_compute. reflexivity. Qed.

(** ... but zero, not infinity, if [v] is too large, ... *)
Theorem C69_reading_large_wrong : forall F f,
  In (F, f) [(float32_info, binary32); (float64_info, binary64); (float128_info, binary128)] ->
  forall ew R M limit_digits, text_setting f ew R M limit_digits ->
  forall s v, number_text R M s v ->
  (pow2 (bias f + 1) <= v)%Q -> (v < pow2 (2 ^ (ew - 1)))%Q -> parse_float F f ew R M s = Got 0.
Proof. exact scan_large. Qed.
Print Assumptions C69_reading_large_wrong.
(** "1e39" *)
Example C69_reading_large_case :
  parse_float float32_info binary32 16 decimal decimal_marks [49;101;51;57] = Got 0 /\
  (pow2 (bias binary32 + 1) <= inject_Z (10 ^ 39))%Q.
Proof. vm_compute. split; [reflexivity|discriminate]. Qed.

(** ... and undefined if it is too small. *)
Theorem C69_reading_small_undefined : forall F f,
  In (F, f) [(float32_info, binary32); (float64_info, binary64); (float128_info, binary128)] ->
  forall ew R M limit_digits, text_setting f ew R M limit_digits ->
  forall s v, number_text R M s v ->
  (pow2 (all_bits f - 2 ^ (ew - 1)) <= v)%Q -> (v < pow2 (1 - bias f - all_bits f))%Q ->
  parse_float F f ew R M s = Bad.
Proof. exact scan_small. Qed.
Print Assumptions C69_reading_small_undefined.
(** "1e-50" *)
Example C69_reading_small_case :
  parse_float float32_info binary32 16 decimal decimal_marks [49;101;45;53;48] = Bad /\
  (1 # 10 ^ 50 < pow2 (1 - bias binary32 - all_bits binary32))%Q.
Proof. vm_compute. split; reflexivity. Qed.

(** Findings.  In decimal numbers need not be read back: pi is not. *)
Theorem C69_decimal_round_trip_refuted : exists d s y, finite binary32 d /\
  print_float float32_info binary32 64 16 decimal decimal_marks 10 d = Ok s /\
  parse_float float32_info binary32 16 decimal decimal_marks s = Got y /\ y <> d.
Proof. exact decimal_round_trip_refuted. Qed.
Print Assumptions C69_decimal_round_trip_refuted.

(** 2^100 is read back as zero. *)
Theorem C69_reads_zero_refuted : exists d s, finite binary32 d /\ (fabs binary32 d == pow2 100)%Q /\
  print_float float32_info binary32 64 16 decimal decimal_marks 10 d = Ok s /\
  parse_float float32_info binary32 16 decimal decimal_marks s = Got 0.
Proof. exact reads_zero_refuted. Qed.
Print Assumptions C69_reads_zero_refuted.

(** The double next to 1/6 is shown as "1/15". *)
Theorem C69_fraction_text_refuted : exists d, finite binary64 d /\ nearest binary64 (1 # 6) d /\
  print_double d = Ok [49; 47; 49; 53].
Proof. exact fraction_text_refuted. Qed.
Print Assumptions C69_fraction_text_refuted.

(** In radix three 40.5 has a text that is no number and is refused. *)
Theorem C69_odd_radix_refuted : exists d s, finite binary32 d /\ (fabs binary32 d == 81 # 2)%Q /\
  print_float float32_info binary32 64 16 trinary trinary_marks 21 d = Ok s /\
  (forall v, ~ number_text trinary trinary_marks s v) /\
  parse_float float32_info binary32 16 trinary trinary_marks s = Err.
Proof. exact odd_radix_refuted. Qed.
Print Assumptions C69_odd_radix_refuted.
