(** Property theorems C24-C27: UTF conversions.  A result [Some (ok, n, out)] is
    (success flag, number of input units processed, output); [None] is an
    out-of-range read. *)
From Verif Require Import Base Utf_Model Utf_Spec Utf_Proofs.
Local Open Scope Z_scope.

(** ** C24 *)
Theorem C24_utf8_encode_decode : forall cs, Forall code_point cs ->
  exists bs, utf32_to_utf8 cs = Some (true, length cs, bs) /\ Forall unit8 bs /\ text seq8 bs cs /\
             utf8_to_utf32 bs = Some (true, length bs, cs).
Proof. exact utf8_round_trip. Qed.
Print Assumptions C24_utf8_encode_decode.
Theorem C24_utf8_decode_encode : forall bs cs, Forall unit8 bs ->
  utf8_to_utf32 bs = Some (true, length bs, cs) -> utf32_to_utf8 cs = Some (true, length cs, bs).
Proof. exact utf8_decode_encode. Qed.
Print Assumptions C24_utf8_decode_encode.
Example C24_case : Forall code_point [0x41; 0xE9; 0x20AC; 0x1F600] /\
  utf32_to_utf8 [0x41; 0xE9; 0x20AC; 0x1F600] =
    Some (true, 4%nat, [0x41; 0xC3; 0xA9; 0xE2; 0x82; 0xAC; 0xF0; 0x9F; 0x98; 0x80]) /\
  utf8_to_utf32 [0x41; 0xC3; 0xA9; 0xE2; 0x82; 0xAC; 0xF0; 0x9F; 0x98; 0x80] =
    Some (true, 10%nat, [0x41; 0xE9; 0x20AC; 0x1F600]).
Proof. split; [unfold code_point; repeat constructor; lia|]. vm_compute. auto. Qed.

(** ** C25.  Exact up to surrogates: accepted iff every character is a
    shortest-form sequence for a code point up to U+10FFFF; no byte is read
    outside the input; on rejection the reported prefix is the longest convertible
    one.  Missing for the full statement: surrogates (see the refutation). *)
Theorem C25_utf8_decoder_partial : forall bs, Forall unit8 bs ->
  (forall cs, utf8_to_utf32 bs = Some (true, length bs, cs) <-> text seq8 bs cs) /\
  (forall cs, Forall (fun c => ~ surrogate c) cs ->
     (utf8_to_utf32 bs = Some (true, length bs, cs) <-> text wf8 bs cs)) /\
  exists ok n cs, utf8_to_utf32 bs = Some (ok, n, cs) /\ text seq8 (firstn n bs) cs /\
    (if ok then n = length bs
     else skipn n bs <> [] /\ forall b c r, skipn n bs = b ++ r -> ~ seq8 b c).
Proof.
  intros bs Hu. exact (conj (fun cs => u8_u32' cs Hu) (conj (fun cs => @utf8_accepts bs cs Hu) (utf8_total Hu))).
Qed.
Print Assumptions C25_utf8_decoder_partial.
(** Overlong, truncated and out-of-range sequences are rejected. *)
Example C25_case : Forall unit8 [0x41; 0xC0; 0x80] /\
  utf8_to_utf32 [0x41; 0xC0; 0x80] = Some (false, 1%nat, [0x41]) /\
  utf8_to_utf32 [0xE0; 0x9F; 0xBF] = Some (false, 0%nat, []) /\
  utf8_to_utf32 [0xE2; 0x82] = Some (false, 0%nat, []) /\
  utf8_to_utf32 [0xF4; 0x90; 0x80; 0x80] = Some (false, 0%nat, []).
Proof. split; [unfold unit8; repeat constructor; lia|]. vm_compute. auto. Qed.
(** U+D800 written as ED A0 80 is accepted. *)
Theorem C25_surrogate_refuted : exists bs cs, Forall unit8 bs /\
  utf8_to_utf32 bs = Some (true, length bs, cs) /\ ~ text wf8 bs cs.
Proof.
  exists [0xED; 0xA0; 0x80], [0xD800]. split; [unfold unit8; repeat constructor; lia|].
  split; [vm_compute; reflexivity|]. intros H. destruct (text_and_inv H) as [_ F]. inversion F as [|? ? Hs _].
  apply Hs. unfold surrogate. lia.
Qed.
Print Assumptions C25_surrogate_refuted.

(** ** C26.  Missing for the full statement: surrogate code points and lone low
    surrogates (see the refutations). *)
Theorem C26_utf16_encode_decode_partial : forall cs, Forall scalar cs ->
  exists us, utf32_to_utf16 cs = Some (true, length cs, us) /\ Forall unit16 us /\ text wf16 us cs /\
             utf16_to_utf32 us = Some (true, length us, cs).
Proof. exact utf16_round_trip. Qed.
Print Assumptions C26_utf16_encode_decode_partial.
Theorem C26_utf16_decode_encode : forall us cs, Forall unit16 us ->
  utf16_to_utf32 us = Some (true, length us, cs) -> utf32_to_utf16 cs = Some (true, length cs, us).
Proof. exact utf16_decode_encode. Qed.
Print Assumptions C26_utf16_decode_encode.
Theorem C26_utf16_high_surrogate_rejected_partial : forall us cs pre h rest, Forall unit16 us ->
  us = pre ++ h :: rest -> 0xD800 <= h < 0xDC00 ->
  (forall l t, rest = l :: t -> ~ (0xDC00 <= l < 0xE000)) ->
  utf16_to_utf32 us <> Some (true, length us, cs).
Proof. exact utf16_high_rejected. Qed.
Print Assumptions C26_utf16_high_surrogate_rejected_partial.
(** Converting between UTF-8 and UTF-16 directly is converting through code points. *)
Theorem C26_direct_conversions : forall bs us, Forall unit8 bs -> Forall unit16 us ->
  (utf8_to_utf16 bs = Some (true, length bs, us) <->
   exists cs, utf8_to_utf32 bs = Some (true, length bs, cs) /\ utf32_to_utf16 cs = Some (true, length cs, us)) /\
  (utf16_to_utf8 us = Some (true, length us, bs) <->
   exists cs, utf16_to_utf32 us = Some (true, length us, cs) /\ utf32_to_utf8 cs = Some (true, length cs, bs)).
Proof. intros bs us H1 H2. exact (conj (utf8_utf16_via32 us H1) (utf16_utf8_via32 bs H2)). Qed.
Print Assumptions C26_direct_conversions.
(** From code points to code points, every sequence is copied and none refused. *)
Theorem C26_utf32_copy : forall cs, utf32_to_utf32 cs = Some (true, length cs, cs).
Proof. exact utf32_copy. Qed.
Print Assumptions C26_utf32_copy.
Example C26_copy_case : utf32_to_utf32 [0x41; 0xD800; 0x110000] = Some (true, 3%nat, [0x41; 0xD800; 0x110000]).
Proof. exact (C26_utf32_copy [0x41; 0xD800; 0x110000]). Qed.
Example C26_case : Forall scalar [0x41; 0xFFFD; 0x1F600] /\
  utf32_to_utf16 [0x41; 0xFFFD; 0x1F600] = Some (true, 3%nat, [0x41; 0xFFFD; 0xD83D; 0xDE00]) /\
  utf16_to_utf32 [0x41; 0xFFFD; 0xD83D; 0xDE00] = Some (true, 4%nat, [0x41; 0xFFFD; 0x1F600]) /\
  utf16_to_utf32 [0x41; 0xD83D; 0x41] = Some (false, 1%nat, [0x41]) /\
  utf8_to_utf16 [0xF0; 0x9F; 0x98; 0x80] = Some (true, 4%nat, [0xD83D; 0xDE00]) /\
  utf16_to_utf8 [0xD83D; 0xDE00] = Some (true, 2%nat, [0xF0; 0x9F; 0x98; 0x80]).
Proof. split; [unfold scalar, code_point, surrogate; repeat constructor; lia|]. vm_compute. repeat split. Qed.
Theorem C26_low_surrogate_refuted : exists us cs, Forall unit16 us /\
  utf16_to_utf32 us = Some (true, length us, cs) /\ ~ text wf16 us cs.
Proof.
  exists [0xDC00], [0xDC00]. split; [unfold unit16; repeat constructor; lia|].
  split; [vm_compute; reflexivity|]. intros H. destruct (text_and_inv H) as [_ F]. inversion F as [|? ? Hs _].
  apply Hs. unfold surrogate. lia.
Qed.
Print Assumptions C26_low_surrogate_refuted.
(** Two code points come back as one. *)
Theorem C26_encode_decode_refuted : exists cs us cs', Forall code_point cs /\
  utf32_to_utf16 cs = Some (true, length cs, us) /\ utf16_to_utf32 us = Some (true, length us, cs') /\ cs' <> cs.
Proof.
  exists [0xD800; 0xDC00], [0xD800; 0xDC00], [0x10000].
  split; [unfold code_point; repeat constructor; lia|]. vm_compute. repeat split. discriminate.
Qed.
Print Assumptions C26_encode_decode_refuted.

(** ** C27.  [size_of_conv r] is the length of the output if the conversion [r]
    succeeds and [npos] if it fails.  Exact for four of the six predictions. *)
Theorem C27_sizes_partial : forall us cs, Forall unit16 us -> Forall unit32 cs ->
  get_utf16_to_utf8_size us = size_of_conv (utf16_to_utf8 us) /\
  get_utf16_to_utf32_size us = size_of_conv (utf16_to_utf32 us) /\
  get_utf32_to_utf8_size cs = size_of_conv (utf32_to_utf8 cs) /\
  get_utf32_to_utf16_size cs = size_of_conv (utf32_to_utf16 cs).
Proof.
  intros us cs Hu Hc. exact (conj (size_16_8 Hu) (conj (size_16_32 Hu) (conj (size_32_8 Hc) (size_32_16 Hc)))).
Qed.
Print Assumptions C27_sizes_partial.
(** UTF-8 to UTF-32: exact whenever the conversion succeeds. *)
Theorem C27_utf8_to_utf32_size_partial : forall bs cs, Forall unit8 bs ->
  utf8_to_utf32 bs = Some (true, length bs, cs) -> get_utf8_to_utf32_size bs = SLen (length cs).
Proof. exact size_8_32. Qed.
Print Assumptions C27_utf8_to_utf32_size_partial.
Example C27_case : Forall unit16 [0x41; 0xD83D; 0xDE00] /\ Forall unit32 [0x41; 0x1F600] /\
  get_utf16_to_utf8_size [0x41; 0xD83D; 0xDE00] = SLen 5 /\ get_utf16_to_utf32_size [0x41; 0xD83D; 0xDE00] = SLen 2 /\
  get_utf32_to_utf8_size [0x41; 0x1F600] = SLen 5 /\ get_utf32_to_utf16_size [0x41; 0x1F600] = SLen 3 /\
  get_utf32_to_utf8_size [0x110000] = SNpos /\
  utf8_to_utf32 [0xC3; 0xA9] = Some (true, 2%nat, [0xE9]) /\ get_utf8_to_utf32_size [0xC3; 0xA9] = SLen 1.
Proof.
  split; [unfold unit16; repeat constructor; lia|]. split; [unfold unit32; repeat constructor; lia|].
  vm_compute. repeat split.
Qed.
(** Malformed input: a size is predicted although the conversion fails. *)
Theorem C27_utf8_to_utf32_size_refuted : exists bs, Forall unit8 bs /\
  get_utf8_to_utf32_size bs = SLen 1 /\ size_of_conv (utf8_to_utf32 bs) = SNpos.
Proof. exists [0xC3]. split; [unfold unit8; repeat constructor; lia|]. vm_compute. auto. Qed.
Print Assumptions C27_utf8_to_utf32_size_refuted.
(** UTF-8 to UTF-16: undefined for every convertible input (no return statement). *)
Theorem C27_utf8_to_utf16_size_refuted : forall bs us, Forall unit8 bs ->
  utf8_to_utf16 bs = Some (true, length bs, us) -> get_utf8_to_utf16_size bs = SUB.
Proof. exact size_8_16_ub. Qed.
Print Assumptions C27_utf8_to_utf16_size_refuted.
Example C27_utf8_to_utf16_size_case : Forall unit8 [0x41] /\
  utf8_to_utf16 [0x41] = Some (true, 1%nat, [0x41]) /\ get_utf8_to_utf16_size [0x41] = SUB.
Proof. split; [unfold unit8; repeat constructor; lia|]. vm_compute. auto. Qed.
