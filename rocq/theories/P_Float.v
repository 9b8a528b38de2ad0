(** C64: taking floating-point numbers apart and putting them together. *)
From Verif Require Import Base Float_Model Float_Spec Float_Proofs.
From Coq Require Import QArith.
Local Open Scope Z_scope.

(** The significand and the exponent that are taken from a finite float, double or
    quadruple number have exactly its absolute value. *)
Theorem C64_decompose_exact : forall F f d,
  In (F, f) [(float32_info, binary32); (float64_info, binary64); (float128_info, binary128)] ->
  finite f d ->
  (fabs f d == scaled (get_precision F d) (get_exponent F d))%Q.
Proof. exact decompose_all. Qed.
Print Assumptions C64_decompose_exact.
(** 0.1f, the smallest positive float, and -2.5 as a double. *)
Example C64_decompose_case :
  (finite binary32 0x3DCCCCCD /\ get_precision float32_info 0x3DCCCCCD = 13421773 /\
   get_exponent float32_info 0x3DCCCCCD = -27) /\
  (finite binary32 1 /\ get_precision float32_info 1 = 1 /\ get_exponent float32_info 1 = -149) /\
  (finite binary64 0xC004000000000000 /\ get_precision float64_info 0xC004000000000000 = 5 * 2 ^ 50 /\
   get_exponent float64_info 0xC004000000000000 = -51).
Proof. vm_compute. repeat split; discriminate. Qed.

(** Put together again they give the number without its sign. *)
Theorem C64_roundtrip : forall F f d,
  In (F, f) [(float32_info, binary32); (float64_info, binary64); (float128_info, binary128)] ->
  finite f d ->
  make_float F (get_precision F d) (get_exponent F d) = Some (clear_sign f d).
Proof. exact roundtrip_all. Qed.
Print Assumptions C64_roundtrip.
Example C64_roundtrip_case :
  make_float float32_info 13421773 (-27) = Some 0x3DCCCCCD /\ make_float float32_info 1 (-149) = Some 1.
Proof. vm_compute. split; reflexivity. Qed.

(** The number that is made of a significand and an exponent is the greatest one
    that is not above.  Missing: a result for all exponents (see below). *)
Theorem C64_make_truncates_partial : forall F f n e,
  In (F, f) [(float32_info, binary32); (float64_info, binary64); (float128_info, binary128)] ->
  0 < n < 2 ^ all_bits f ->
  1 - bias f - all_bits f < e + Z.log2 n <= bias f ->
  exists r, make_float F n e = Some r /\ truncated f (scaled n e) r.
Proof. exact make_truncates_all. Qed.
Print Assumptions C64_make_truncates_partial.
(** 2^32-1 does not fit a float; it is cut to 2^32-2^8. *)
Example C64_make_case :
  make_float float32_info (2 ^ 32 - 1) 0 = Some 0x4F7FFFFF /\
  (fabs binary32 0x4F7FFFFF == scaled (2 ^ 32 - 2 ^ 8) 0)%Q /\
  make_float float32_info 3 (-150) = Some 1.
Proof. vm_compute. repeat split; reflexivity. Qed.

(** Every number that is too large becomes zero. *)
Theorem C64_make_large_wrong : forall F f n e,
  In (F, f) [(float32_info, binary32); (float64_info, binary64); (float128_info, binary128)] ->
  0 < n < 2 ^ all_bits f -> bias f < e + Z.log2 n -> make_float F n e = Some 0.
Proof. exact make_large_all. Qed.
Print Assumptions C64_make_large_wrong.
Example C64_make_large_case : make_float float32_info 1 127 = Some 0x7F000000 /\ make_float float32_info 1 128 = Some 0.
Proof. vm_compute. split; reflexivity. Qed.

(** Every number that is far too small is undefined: a shift by the width of the
    type or more. *)
Theorem C64_make_small_undefined : forall F f n e,
  In (F, f) [(float32_info, binary32); (float64_info, binary64); (float128_info, binary128)] ->
  0 < n < 2 ^ all_bits f -> e + Z.log2 n <= 1 - bias f - all_bits f -> make_float F n e = None.
Proof. exact make_small_all. Qed.
Print Assumptions C64_make_small_undefined.
Example C64_make_small_case : make_float float32_info 1 (-200) = None.
Proof. vm_compute. reflexivity. Qed.

(** The parts of half-precision numbers and of bfloat16 numbers are wrong: the
    constants have one stored bit too many.  1.0 is taken for another number. *)
Theorem C64_half_refuted :
  exists d, finite binary16 d /\
    ~ (fabs binary16 d == scaled (get_precision float16_info d) (get_exponent float16_info d))%Q.
Proof. exact half_refuted. Qed.
Print Assumptions C64_half_refuted.
Theorem C64_bfloat_refuted :
  exists d, finite bfloat16 d /\
    ~ (fabs bfloat16 d == scaled (get_precision bfloat16_info d) (get_exponent bfloat16_info d))%Q.
Proof. exact bfloat_refuted. Qed.
Print Assumptions C64_bfloat_refuted.
