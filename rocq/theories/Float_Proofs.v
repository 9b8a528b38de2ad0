(** Proofs about taking floating-point numbers apart and putting them together. *)
From Verif Require Import Base Float_Model Float_Spec.
From Coq Require Import QArith Qpower Lia.
Local Open Scope Z_scope.

(** ** Scaled numbers *)
Lemma two_pos (e : Z) : (0 < (2 # 1) ^ e)%Q.
Proof. apply Qpower_0_lt. reflexivity. Qed.

Lemma scaled_shift n k e : 0 <= k -> (scaled (n * 2 ^ k) e == scaled n (k + e))%Q.
Proof.
  intros K. unfold scaled. rewrite inject_Z_mult, Zpower_Qpower by exact K.
  rewrite Qpower_plus by discriminate. change (inject_Z 2) with (2 # 1). ring.
Qed.

Lemma scaled_le n m e : (scaled n e <= scaled m e)%Q <-> n <= m.
Proof.
  unfold scaled. rewrite Qmult_le_r by apply two_pos. rewrite <- Zle_Qle. reflexivity.
Qed.
Lemma scaled_lt n m e : (scaled n e < scaled m e)%Q <-> n < m.
Proof.
  unfold scaled. rewrite Qmult_lt_r by apply two_pos. rewrite <- Zlt_Qlt. reflexivity.
Qed.
Lemma scaled_eq n m e : (scaled n e == scaled m e)%Q <-> n = m.
Proof.
  split; [|intros ->; reflexivity]. intros H.
  assert (n <= m) by (apply (scaled_le n m e); rewrite H; apply Qle_refl).
  assert (m <= n) by (apply (scaled_le m n e); rewrite H; apply Qle_refl). lia.
Qed.

(** ** Powers of two and signed types *)
Lemma zpow_pos (x : Z) : 0 <= x -> 0 < 2 ^ x.
Proof. intros. apply Z.pow_pos_nonneg; lia. Qed.
Lemma wrap_in n x : 1 <= n -> - 2 ^ (n - 1) <= x < 2 ^ (n - 1) -> wrap_signed n x = x.
Proof.
  intros N H. unfold wrap_signed. rewrite Z.mod_small; [lia|].
  replace (2 ^ n) with (2 * 2 ^ (n - 1)); [lia|].
  replace n with (1 + (n - 1)) at 2 by lia. rewrite Z.pow_add_r by lia. reflexivity.
Qed.
Lemma wrap_twice n x c : 1 <= n -> wrap_signed n (wrap_signed n x - c) = wrap_signed n (x - c).
Proof.
  intros N. unfold wrap_signed. f_equal.
  replace ((x + 2 ^ (n - 1)) mod 2 ^ n - 2 ^ (n - 1) - c + 2 ^ (n - 1))
    with ((x + 2 ^ (n - 1)) mod 2 ^ n - c) by lia.
  rewrite Zminus_mod_idemp_l. f_equal. lia.
Qed.
Lemma shiftr_zero_iff x s : 0 <= x -> 0 <= s -> (Z.shiftr x s =? 0) = (x <? 2 ^ s).
Proof.
  intros Hx Hs. rewrite Z.shiftr_div_pow2 by lia. pose proof (zpow_pos Hs).
  destruct (Z.ltb_spec x (2 ^ s)) as [C|C].
  - rewrite Z.div_small by lia. reflexivity.
  - apply Z.eqb_neq. assert (1 <= x / 2 ^ s) by (apply Z.div_le_lower_bound; lia). lia.
Qed.

(** ** Matching constants *)
(** The constants of the code fit a format. *)
Record fits_format (F : finfo) (f : fmt) : Prop := mkFits {
  f_m : 1 <= fm f; f_e : 2 <= fe f;
  f_pmask : precision_mask F = 2 ^ fm f - 1;
  f_bw : bw F = all_bits f;
  f_pbase : precision_base F = 2 ^ fm f;
  f_pbb : precision_base_bit F = fm f;
  f_diff : exponent_diff F = bias f;
  f_min : exponent_min F = 1 - bias f;
  f_max : exponent_max F = bias f;
  f_xw : fe f <= xw F;
  f_emask : exponent_mask F = 2 ^ (all_bits f - 1) - 1 }.

Lemma float32_fits : fits_format float32_info binary32.
Proof. constructor; vm_compute; first [reflexivity|discriminate]. Qed.
Lemma float64_fits : fits_format float64_info binary64.
Proof. constructor; vm_compute; first [reflexivity|discriminate]. Qed.
Lemma float128_fits : fits_format float128_info binary128.
Proof. constructor; vm_compute; first [reflexivity|discriminate]. Qed.

Section Fits.
Variables (F : finfo) (f : fmt).
Hypothesis Fit : fits_format F f.


Lemma exp_field_range d : 0 <= exp_field f d < 2 ^ fe f.
Proof. apply Z.mod_pos_bound. apply zpow_pos. pose proof (f_e Fit). lia. Qed.
Lemma frac_field_range d : 0 <= frac_field f d < 2 ^ fm f.
Proof. apply Z.mod_pos_bound. apply zpow_pos. pose proof (f_m Fit). lia. Qed.

Lemma bget_exp d : base_get_exponent F d = exp_field f d.
Proof.
  unfold base_get_exponent, exp_field.
  pose proof (f_m Fit). pose proof (f_e Fit). pose proof (f_xw Fit).
  rewrite (f_emask Fit), (f_pbb Fit). replace (2 ^ (all_bits f - 1) - 1) with (Z.ones (all_bits f - 1)).
  2:{ unfold Z.ones. rewrite Z.shiftl_1_l. lia. }
  unfold all_bits. rewrite Z.land_ones by lia. rewrite Z.shiftr_div_pow2 by lia.
  replace (1 + fe f + fm f - 1) with (fm f + fe f) by lia.
  rewrite Z.pow_add_r by lia.
  rewrite Z.rem_mul_r by (apply Z.pow_nonzero || apply zpow_pos; lia).
  rewrite (Z.mul_comm (2 ^ fm f)), Z.div_add by (apply Z.pow_nonzero; lia).
  rewrite (Z.div_small (d mod 2 ^ fm f)) by (apply Z.mod_pos_bound; apply zpow_pos; lia).
  rewrite Z.add_0_l. apply Z.mod_small.
  pose proof (Z.mod_pos_bound (d / 2 ^ fm f) (2 ^ fe f) ltac:(apply zpow_pos; lia)).
  assert (2 ^ fe f <= 2 ^ xw F) by (apply Z.pow_le_mono_r; lia). lia.
Qed.

Lemma nprec d : get_native_precision F d = frac_field f d.
Proof.
  unfold get_native_precision, frac_field. rewrite (f_pmask Fit).
  replace (2 ^ fm f - 1) with (Z.ones (fm f)).
  2:{ unfold Z.ones. rewrite Z.shiftl_1_l. lia. }
  apply Z.land_ones. pose proof (f_m Fit). lia.
Qed.


Lemma nexp d : finite f d ->
  get_native_exponent F d = (if exp_field f d =? 0 then 1 else exp_field f d) - bias f.
Proof.
  intros [_ N]. unfold get_native_exponent. rewrite bget_exp.
  destruct (Z.eqb_spec (exp_field f d) 0) as [E|E]; [exact (f_min Fit)|].
  pose proof (f_e Fit). pose proof (f_xw Fit). pose proof (exp_field_range d).
  rewrite wrap_twice by lia. rewrite (f_diff Fit). unfold bias in *. apply wrap_in; [lia|].
  assert (2 ^ (fe f - 1) <= 2 ^ (xw F - 1)) by (apply Z.pow_le_mono_r; lia).
  replace (2 ^ fe f) with (2 * 2 ^ (fe f - 1)) in *.
  2:{ replace (fe f) with (1 + (fe f - 1)) at 2 by lia. rewrite Z.pow_add_r by lia. reflexivity. }
  lia.
Qed.

Lemma prec d : get_precision F d =
  if exp_field f d =? 0 then frac_field f d else 2 ^ fm f + frac_field f d.
Proof.
  unfold get_precision, get_base_num. rewrite nprec, bget_exp, (f_pbase Fit), (f_bw Fit).
  pose proof (frac_field_range d). pose proof (f_m Fit). pose proof (f_e Fit).
  assert (2 ^ fm f + 2 ^ fm f <= 2 ^ all_bits f).
  { unfold all_bits. replace (1 + fe f + fm f) with (1 + (fe f + fm f)) by lia.
    rewrite Z.pow_add_r by lia.
    assert (2 ^ fm f <= 2 ^ (fe f + fm f)) by (apply Z.pow_le_mono_r; lia). lia. }
  destruct (exp_field f d =? 0); rewrite Z.mod_small; lia.
Qed.

(** Taking a finite number apart is exact. *)
Theorem decompose_exact d : finite f d ->
  (fabs f d == scaled (get_precision F d) (get_exponent F d))%Q.
Proof.
  intros Hf. unfold get_exponent. rewrite prec, nexp by exact Hf. rewrite (f_pbb Fit).
  unfold fabs, units, tiny.
  fold (scaled (if exp_field f d =? 0 then frac_field f d
     else (2 ^ fm f + frac_field f d) * 2 ^ (exp_field f d - 1)) (1 - bias f - fm f)).
  pose proof (exp_field_range d).
  destruct (Z.eqb_spec (exp_field f d) 0) as [E|E]; [reflexivity|].
  rewrite scaled_shift by lia. replace (exp_field f d - 1 + (1 - bias f - fm f)) with (exp_field f d - bias f - fm f) by lia.
  reflexivity.
Qed.

(** ** make_float *)
Lemma fields q M : 0 <= M < 2 ^ fm f -> 0 <= q < 2 ^ fe f ->
  exp_field f (q * 2 ^ fm f + M) = q /\ frac_field f (q * 2 ^ fm f + M) = M.
Proof.
  intros HM Hq. unfold exp_field, frac_field.
  assert (0 < 2 ^ fm f) by lia. split.
  - rewrite Z.div_add_l by lia. rewrite (Z.div_small M) by lia. rewrite Z.add_0_r.
    apply Z.mod_small. lia.
  - rewrite Z.add_comm, Z.mod_add by lia. apply Z.mod_small. lia.
Qed.

Lemma units_of q M : 0 <= M < 2 ^ fm f -> 0 <= q < 2 ^ fe f ->
  units f (q * 2 ^ fm f + M) = if q =? 0 then M else (2 ^ fm f + M) * 2 ^ (q - 1).
Proof. intros HM Hq. unfold units. destruct (@fields q M HM Hq) as [-> ->]. reflexivity. Qed.

Lemma units_next q M : 0 <= M < 2 ^ fm f -> 1 <= q < 2 ^ fe f - 1 ->
  units f (q * 2 ^ fm f + M + 1) = (2 ^ fm f + M + 1) * 2 ^ (q - 1).
Proof.
  intros HM Hq. destruct (Z.eq_dec (M + 1) (2 ^ fm f)) as [E|E].
  - replace (q * 2 ^ fm f + M + 1) with ((q + 1) * 2 ^ fm f + 0) by lia.
    rewrite units_of by lia. destruct (Z.eqb_spec (q + 1) 0); [lia|].
    replace (2 ^ fm f + M + 1) with (2 * 2 ^ fm f) by lia.
    replace (q + 1 - 1) with (1 + (q - 1)) by lia. rewrite Z.pow_add_r by lia. ring.
  - replace (q * 2 ^ fm f + M + 1) with (q * 2 ^ fm f + (M + 1)) by lia.
    rewrite units_of by lia. destruct (Z.eqb_spec q 0); [lia|]. f_equal. lia.
Qed.

Lemma units_sub r : 0 <= r < 2 ^ fm f -> units f r = r /\ units f (r + 1) = r + 1.
Proof.
  intros Hr. pose proof (f_e Fit). assert (4 <= 2 ^ fe f).
  { change 4 with (2 ^ 2). apply Z.pow_le_mono_r; lia. }
  split.
  - pose proof (@units_of 0 r Hr ltac:(lia)) as U. cbn [Z.mul Z.eqb] in U. exact U.
  - destruct (Z.eq_dec (r + 1) (2 ^ fm f)) as [E|E].
    + pose proof (@units_of 1 0 ltac:(lia) ltac:(lia)) as U.
      replace (r + 1) with (1 * 2 ^ fm f + 0) by lia. rewrite U.
      change (1 =? 0) with false. cbv iota. change (2 ^ (1 - 1)) with 1. lia.
    + pose proof (@units_of 0 (r + 1) ltac:(lia) ltac:(lia)) as U. cbn [Z.mul Z.eqb] in U. exact U.
Qed.

(** The number of [fm+1] significant bits that is left after the first step. *)
Definition lead (n : Z) : Z :=
  if 0 <? fm f - Z.log2 n then n * 2 ^ (fm f - Z.log2 n) else n / 2 ^ (Z.log2 n - fm f).

Lemma lead_spec n : 0 < n ->
  2 ^ fm f <= lead n < 2 ^ (fm f + 1) /\
  (forall e, scaled (lead n) (e - (fm f - Z.log2 n)) <= scaled n e)%Q /\
  (forall e, scaled n e < scaled (lead n + 1) (e - (fm f - Z.log2 n)))%Q.
Proof.
  intros Hn. pose proof (Z.log2_spec n Hn) as [L1 L2]. pose proof (Z.log2_nonneg n) as L0.
  pose proof (f_m Fit). rewrite Z.pow_succ_r in L2 by lia. unfold lead.
  destruct (Z.ltb_spec 0 (fm f - Z.log2 n)) as [C|C].
  - assert (E : 2 ^ fm f = 2 ^ Z.log2 n * 2 ^ (fm f - Z.log2 n)).
    { rewrite <- Z.pow_add_r by lia. f_equal. lia. }
    pose proof (zpow_pos (x := fm f - Z.log2 n) ltac:(lia)).
    refine (conj _ (conj _ _)).
    + rewrite Z.pow_add_r by lia. change (2 ^ 1) with 2. nia.
    + intros e. rewrite scaled_shift by lia.
      replace (fm f - Z.log2 n + (e - (fm f - Z.log2 n))) with e by lia. apply Qle_refl.
    + intros e.
      apply Qle_lt_trans with (scaled (n * 2 ^ (fm f - Z.log2 n)) (e - (fm f - Z.log2 n))).
      * rewrite scaled_shift by lia.
        replace (fm f - Z.log2 n + (e - (fm f - Z.log2 n))) with e by lia. apply Qle_refl.
      * apply scaled_lt. lia.
  - set (j := Z.log2 n - fm f) in *.
    assert (E : 2 ^ Z.log2 n = 2 ^ fm f * 2 ^ j).
    { unfold j. rewrite <- Z.pow_add_r by lia. f_equal. lia. }
    pose proof (zpow_pos (x := j) ltac:(lia)) as J.
    pose proof (Z.div_mod n (2 ^ j) ltac:(lia)) as D. pose proof (Z.mod_pos_bound n (2 ^ j) J) as B.
    refine (conj _ (conj _ _)).
    + rewrite Z.pow_add_r by lia. change (2 ^ 1) with 2. split.
      * apply Z.div_le_lower_bound; lia.
      * apply Z.div_lt_upper_bound; lia.
    + intros e. replace (e - (fm f - Z.log2 n)) with (j + e) by (unfold j; lia).
      rewrite <- scaled_shift by lia. apply scaled_le. lia.
    + intros e. replace (e - (fm f - Z.log2 n)) with (j + e) by (unfold j; lia).
      rewrite <- scaled_shift by lia. apply scaled_lt. lia.
Qed.

Lemma first_step n e : 0 < n < 2 ^ bw F ->
  (let shift := clz F n - (bw F - (precision_base_bit F + 1)) in
   if 0 <? shift then (Z.shiftl n shift mod 2 ^ bw F, e - shift)
   else if shift <? 0 then (Z.shiftr n (- shift), e - shift)
   else (n, e)) = (lead n, e - (fm f - Z.log2 n)).
Proof.
  intros Hn. cbv zeta. pose proof (f_m Fit). pose proof (f_e Fit).
  pose proof (@lead_spec n ltac:(lia)) as (R & _ & _).
  assert (Sh : clz F n - (bw F - (precision_base_bit F + 1)) = fm f - Z.log2 n).
  { unfold clz. destruct (Z.eqb_spec n 0); [lia|]. rewrite (f_pbb Fit). lia. }
  rewrite Sh. unfold lead in *. destruct (Z.ltb_spec 0 (fm f - Z.log2 n)) as [C|C].
  - f_equal. rewrite Z.shiftl_mul_pow2 by lia. apply Z.mod_small. split; [lia|].
    apply Z.lt_le_trans with (2 ^ (fm f + 1)); [lia|].
    rewrite (f_bw Fit). unfold all_bits. apply Z.pow_le_mono_r; lia.
  - destruct (Z.ltb_spec (fm f - Z.log2 n) 0) as [D|D].
    + rewrite Z.shiftr_div_pow2 by lia. f_equal. f_equal. f_equal. lia.
    + replace (Z.log2 n - fm f) with 0 by lia. rewrite Z.pow_0_r, Z.div_1_r. f_equal. lia.
Qed.


Lemma lor_fields M q : 0 <= M < 2 ^ fm f -> 0 <= q ->
  Z.lor M (Z.shiftl q (fm f)) = q * 2 ^ fm f + M.
Proof.
  intros HM Hq. pose proof (f_m Fit). rewrite Z.shiftl_mul_pow2 by lia.
  assert (L : Z.land M (q * 2 ^ fm f) = 0);
    [|rewrite <- Z.lxor_lor by exact L; rewrite <- Z.add_nocarry_lxor by exact L; lia].
  apply Z.bits_inj'. intros i Hi. rewrite Z.land_spec, Z.bits_0.
  destruct (Z.lt_ge_cases i (fm f)) as [C|C].
  - rewrite Z.mul_pow2_bits_low by lia. apply andb_false_r.
  - assert (M = 0 \/ 0 < M) as [->|P] by lia; [rewrite Z.bits_0; reflexivity|].
    rewrite (Z.bits_above_log2 M i); [reflexivity|lia|].
    apply Z.log2_lt_pow2; [lia|]. apply Z.lt_le_trans with (2 ^ fm f); [lia|].
    apply Z.pow_le_mono_r; lia.
Qed.

(** In the range of the format, [make_float] gives the number cut to the format:
    the greatest one that is not above. *)
Theorem make_float_truncates n e :
  0 < n < 2 ^ bw F ->
  1 - bias f - shift_width F < e + Z.log2 n <= bias f ->
  exists r, make_float F n e = Some r /\ truncated f (scaled n e) r.
Proof.
  intros Hn He. pose proof (f_m Fit) as Fm. pose proof (f_e Fit) as Fe.
  pose proof (@lead_spec n ltac:(lia)) as (R & Lo & Hi). specialize (Lo e). specialize (Hi e).
  assert (B4 : 2 ^ fe f = 2 * (bias f + 1)).
  { unfold bias. replace (fe f) with (1 + (fe f - 1)) at 1 by lia. rewrite Z.pow_add_r by lia. lia. }
  assert (B1 : 1 <= bias f).
  { unfold bias. assert (2 ^ 1 <= 2 ^ (fe f - 1)) by (apply Z.pow_le_mono_r; lia). lia. }
  pose proof (zpow_pos (x := fm f) ltac:(lia)) as Pm.
  unfold make_float. pose proof (first_step e Hn) as FS. cbv zeta in FS. cbv zeta. rewrite FS. clear FS.
  rewrite (f_pbb Fit), (f_min Fit), (f_max Fit), (f_diff Fit), (f_pbase Fit).
  replace (e - (fm f - Z.log2 n) + fm f) with (e + Z.log2 n) by lia.
  set (E := e + Z.log2 n) in *. set (l := lead n) in *.
  replace (e - (fm f - Z.log2 n)) with (E - fm f) in * by (unfold E; lia).
  assert (Pl : 2 ^ (fm f + 1) = 2 * 2 ^ fm f) by (rewrite Z.pow_add_r by lia; lia).
  destruct (Z.ltb_spec 0 (1 - bias f - E)) as [Sm|Sm]; cbn [andb].
  - destruct (Z.leb_spec (shift_width F) (1 - bias f - E)); [lia|].
    set (j := 1 - bias f - E) in *.
    pose proof (zpow_pos (x := j) ltac:(lia)) as J.
    rewrite Z.shiftr_div_pow2 by lia.
    assert (Hq : 0 <= l / 2 ^ j < 2 ^ fm f).
    { split; [apply Z.div_pos; lia|]. apply Z.div_lt_upper_bound; [lia|].
      assert (2 ^ 1 <= 2 ^ j) by (apply Z.pow_le_mono_r; lia). change (2 ^ 1) with 2 in *. nia. }
    assert (T : truncated f (scaled n e) (l / 2 ^ j)).
    { destruct (units_sub Hq) as [U1 U2].
      pose proof (Z.div_mod l (2 ^ j) ltac:(lia)) as D. pose proof (Z.mod_pos_bound l (2 ^ j) J) as B.
      refine (conj _ (conj _ _)).
      - split; [lia|]. unfold inf_bits. nia.
      - unfold fabs. rewrite U1. fold (scaled (l / 2 ^ j) (tiny f)).
        apply Qle_trans with (scaled l (E - fm f)); [|exact Lo].
        replace (tiny f) with (j + (E - fm f)) by (unfold tiny, j; lia).
        rewrite <- scaled_shift by lia. apply scaled_le. lia.
      - unfold fabs. rewrite U2. fold (scaled (l / 2 ^ j + 1) (tiny f)).
        apply Qlt_le_trans with (scaled (l + 1) (E - fm f)); [exact Hi|].
        replace (tiny f) with (j + (E - fm f)) by (unfold tiny, j; lia).
        rewrite <- scaled_shift by lia. apply scaled_le. lia. }
    destruct (Z.eqb_spec (l / 2 ^ j) 0) as [Z0|Z0].
    + exists 0. split; [reflexivity|]. rewrite <- Z0. exact T.
    + destruct (Z.ltb_spec (bias f) (E + j)); [unfold j in *; lia|].
      rewrite shiftr_zero_iff by lia. destruct (Z.ltb_spec (l / 2 ^ j) (2 ^ fm f)); [|lia].
      exists (l / 2 ^ j). split; [reflexivity|exact T].
  - destruct (Z.ltb_spec (bias f) E); [lia|].
    rewrite shiftr_zero_iff by lia. destruct (Z.ltb_spec l (2 ^ fm f)); [lia|].
    rewrite Z.mod_small.
    2:{ split; [lia|]. apply Z.lt_le_trans with (2 ^ fe f); [lia|]. apply Z.pow_le_mono_r; [lia|].
        exact (f_xw Fit). }
    rewrite lor_fields by lia.
    exists ((E + bias f) * 2 ^ fm f + (l - 2 ^ fm f)). split; [reflexivity|].
    refine (conj _ (conj _ _)).
    + split; [nia|]. unfold inf_bits. nia.
    + unfold fabs. rewrite units_of by lia. destruct (Z.eqb_spec (E + bias f) 0); [lia|].
      replace (2 ^ fm f + (l - 2 ^ fm f)) with l by lia.
      fold (scaled (l * 2 ^ (E + bias f - 1)) (tiny f)). rewrite scaled_shift by lia.
      replace (E + bias f - 1 + tiny f) with (E - fm f) by (unfold tiny; lia). exact Lo.
    + unfold fabs. rewrite units_next by lia.
      replace (2 ^ fm f + (l - 2 ^ fm f) + 1) with (l + 1) by lia.
      fold (scaled ((l + 1) * 2 ^ (E + bias f - 1)) (tiny f)). rewrite scaled_shift by lia.
      replace (E + bias f - 1 + tiny f) with (E - fm f) by (unfold tiny; lia). exact Hi.
Qed.

(** Above the range it gives zero, far below it is undefined. *)
Theorem make_float_too_large n e :
  0 < n < 2 ^ bw F -> bias f < e + Z.log2 n -> make_float F n e = Some 0.
Proof.
  intros Hn He. unfold make_float. pose proof (first_step e Hn) as FS. cbv zeta in FS. cbv zeta. rewrite FS.
  rewrite (f_pbb Fit), (f_min Fit), (f_max Fit).
  replace (e - (fm f - Z.log2 n) + fm f) with (e + Z.log2 n) by lia.
  assert (B1 : 1 <= bias f).
  { unfold bias. pose proof (f_e Fit). assert (2 ^ 1 <= 2 ^ (fe f - 1)) by (apply Z.pow_le_mono_r; lia). lia. }
  destruct (Z.ltb_spec 0 (1 - bias f - (e + Z.log2 n))); [lia|]. cbn [andb].
  destruct (Z.ltb_spec (bias f) (e + Z.log2 n)); [reflexivity|lia].
Qed.
Theorem make_float_too_small n e :
  0 < n < 2 ^ bw F -> e + Z.log2 n <= 1 - bias f - shift_width F -> make_float F n e = None.
Proof.
  intros Hn He. unfold make_float. pose proof (first_step e Hn) as FS. cbv zeta in FS. cbv zeta. rewrite FS.
  rewrite (f_pbb Fit), (f_min Fit).
  replace (e - (fm f - Z.log2 n) + fm f) with (e + Z.log2 n) by lia.
  assert (32 <= shift_width F) by (unfold shift_width; lia).
  destruct (Z.ltb_spec 0 (1 - bias f - (e + Z.log2 n))); [|lia].
  destruct (Z.leb_spec (shift_width F) (1 - bias f - (e + Z.log2 n))); [reflexivity|lia].
Qed.
Theorem make_float_zero e :
  1 - bias f - shift_width F + 1 < e -> make_float F 0 e = Some 0.
Proof.
  intros He. unfold make_float, clz. cbn [Z.eqb]. rewrite (f_pbb Fit), (f_min Fit), (f_max Fit).
  pose proof (f_m Fit). pose proof (f_e Fit).
  replace (bw F - (bw F - (fm f + 1))) with (fm f + 1) by lia.
  destruct (Z.ltb_spec 0 (fm f + 1)); [|lia].
  rewrite Z.shiftl_0_l, Z.mod_0_l by (apply Z.pow_nonzero; rewrite ?(f_bw Fit); unfold all_bits; lia).
  replace (e - (fm f + 1) + fm f) with (e - 1) by lia.
  destruct (Z.leb_spec (shift_width F) (1 - bias f - (e - 1))); [lia|]. rewrite andb_false_r.
  rewrite Z.shiftr_0_l. destruct (0 <? 1 - bias f - (e - 1)); cbn [andb Z.eqb]; [reflexivity|].
  destruct (bias f <? e - 1); [reflexivity|]. rewrite Z.shiftr_0_l. reflexivity.
Qed.

(** ** Order *)
Lemma units_mono r s : 0 <= r -> r < s -> s <= inf_bits f -> units f r < units f s.
Proof.
  intros H0 Hrs Hs. pose proof (f_m Fit). pose proof (f_e Fit).
  pose proof (zpow_pos (x := fm f) ltac:(lia)) as Pm.
  assert (St : forall r, 0 <= r < inf_bits f -> units f r < units f (r + 1)).
  { clear r s H0 Hrs Hs. intros r Hr.
    pose proof (Z.div_mod r (2 ^ fm f) ltac:(lia)) as D. pose proof (Z.mod_pos_bound r (2 ^ fm f) Pm) as B.
    set (q := r / 2 ^ fm f) in *. set (M := r mod 2 ^ fm f) in *.
    assert (Hq : 0 <= q < 2 ^ fe f - 1).
    { unfold inf_bits in Hr. unfold q. split; [apply Z.div_pos; lia|]. apply Z.div_lt_upper_bound; lia. }
    destruct (Z.eq_dec q 0) as [E|E].
    - assert (Hs : 0 <= r < 2 ^ fm f) by nia. destruct (units_sub Hs) as [-> ->]. lia.
    - replace r with (q * 2 ^ fm f + M) by lia. rewrite units_of, units_next by lia.
      destruct (Z.eqb_spec q 0); [lia|]. pose proof (zpow_pos (x := q - 1) ltac:(lia)). nia. }
  replace s with (r + 1 + Z.of_nat (Z.to_nat (s - r - 1))) in * by lia.
  generalize dependent (Z.to_nat (s - r - 1)). intros c. induction c as [|c IH]; intros L1 L2.
  - rewrite Z.add_0_r. apply St. lia.
  - eapply Z.lt_trans; [apply IH; lia|].
    replace (r + 1 + Z.of_nat (S c)) with (r + 1 + Z.of_nat c + 1) by lia. apply St. lia.
Qed.

Lemma truncated_unique d x r : truncated f x r -> (x == fabs f d)%Q ->
  0 <= d < inf_bits f -> r = d.
Proof.
  intros (Hr & H1 & H2) E Hd. rewrite E in H1, H2. unfold fabs in H1, H2.
  fold (scaled (units f r) (tiny f)) in H1. fold (scaled (units f d) (tiny f)) in H1, H2.
  fold (scaled (units f (r + 1)) (tiny f)) in H2.
  apply scaled_le in H1. apply scaled_lt in H2.
  destruct (Z.lt_trichotomy r d) as [C|[C|C]]; [|exact C|].
  - exfalso. destruct (Z.eq_dec (r + 1) d) as [E1|N]; [rewrite E1 in H2; lia|].
    pose proof (@units_mono (r + 1) d ltac:(lia) ltac:(lia) ltac:(lia)). lia.
  - exfalso. pose proof (@units_mono d r ltac:(lia) ltac:(lia) ltac:(lia)). lia.
Qed.

Lemma clear_sign_fields d : is_data f d ->
  exp_field f (clear_sign f d) = exp_field f d /\ frac_field f (clear_sign f d) = frac_field f d /\
  clear_sign f d = exp_field f d * 2 ^ fm f + frac_field f d.
Proof.
  intros Hd. pose proof (f_m Fit). pose proof (f_e Fit).
  assert (E : clear_sign f d = exp_field f d * 2 ^ fm f + frac_field f d).
  { unfold clear_sign, exp_field, frac_field, all_bits.
    replace (1 + fe f + fm f - 1) with (fm f + fe f) by lia. rewrite Z.pow_add_r by lia.
    rewrite Z.rem_mul_r by (apply Z.pow_nonzero || apply zpow_pos; lia). ring. }
  rewrite E. destruct (fields (frac_field_range d) (exp_field_range d)) as [-> ->]. auto.
Qed.

Lemma clear_sign_abs d : is_data f d -> units f (clear_sign f d) = units f d.
Proof. intros Hd. unfold units. destruct (clear_sign_fields Hd) as (-> & -> & _). reflexivity. Qed.

Lemma log2_bound n : 0 < n < 2 ^ (fm f + 1) -> 0 <= Z.log2 n <= fm f.
Proof.
  intros Hn. split; [apply Z.log2_nonneg|].
  assert (Z.log2 n < fm f + 1); [|lia]. apply Z.log2_lt_pow2; lia.
Qed.

(** Putting the parts of a finite number together gives the number without its
    sign. *)
Theorem roundtrip d : finite f d -> fm f + 2 <= shift_width F ->
  make_float F (get_precision F d) (get_exponent F d) = Some (clear_sign f d).
Proof.
  intros Hf Hw. pose proof (f_m Fit). pose proof (f_e Fit). pose proof (proj1 Hf) as Hd.
  pose proof (exp_field_range d) as Re. pose proof (frac_field_range d) as Rf.
  pose proof (decompose_exact Hf) as De.
  assert (Ex : get_exponent F d = (if exp_field f d =? 0 then 1 else exp_field f d) - bias f - fm f).
  { unfold get_exponent. rewrite nexp, (f_pbb Fit) by exact Hf. reflexivity. }
  assert (B4 : 2 ^ fe f = 2 * (bias f + 1)).
  { unfold bias. replace (fe f) with (1 + (fe f - 1)) at 1 by lia. rewrite Z.pow_add_r by lia. lia. }
  assert (B1 : 1 <= bias f).
  { unfold bias. assert (2 ^ 1 <= 2 ^ (fe f - 1)) by (apply Z.pow_le_mono_r; lia). lia. }
  assert (Pr : 0 <= get_precision F d < 2 ^ (fm f + 1)).
  { rewrite prec, Z.pow_add_r by lia. change (2 ^ 1) with 2. destruct (exp_field f d =? 0); lia. }
  assert (Cs : 0 <= clear_sign f d < inf_bits f).
  { destruct (clear_sign_fields Hd) as (_ & _ & ->). destruct Hf as [_ N]. unfold inf_bits. nia. }
  destruct (Z.eq_dec (get_precision F d) 0) as [P0|P0].
  - assert (E0 : exp_field f d = 0 /\ frac_field f d = 0).
    { rewrite prec in P0. destruct (Z.eqb_spec (exp_field f d) 0); lia. }
    rewrite P0. rewrite make_float_zero.
    + f_equal. destruct (clear_sign_fields Hd) as (_ & _ & ->). lia.
    + rewrite Ex. destruct E0 as [-> _]. change (0 =? 0) with true. cbv iota. lia.
  - destruct (@make_float_truncates (get_precision F d) (get_exponent F d)) as (r & -> & T).
    + split; [lia|]. apply Z.lt_le_trans with (2 ^ (fm f + 1)); [lia|]. rewrite (f_bw Fit).
      unfold all_bits. apply Z.pow_le_mono_r; lia.
    + pose proof (@log2_bound (get_precision F d) ltac:(lia)) as Lb. rewrite Ex.
      destruct Hf as [_ N]. destruct (Z.eqb_spec (exp_field f d) 0); [lia|].
      assert (Z.log2 (get_precision F d) = fm f).
      { apply Z.log2_unique; [lia|]. rewrite prec. destruct (Z.eqb_spec (exp_field f d) 0); [lia|].
        rewrite Z.pow_succ_r by lia. lia. }
      lia.
    + f_equal. apply (truncated_unique T); [|exact Cs].
      rewrite <- De. unfold fabs. rewrite clear_sign_abs by exact Hd. reflexivity.
Qed.
End Fits.

(** ** The three formats *)
Definition good_formats : list (finfo * fmt) :=
  [(float32_info, binary32); (float64_info, binary64); (float128_info, binary128)].
Lemma good_fits F f : In (F, f) good_formats ->
  fits_format F f /\ shift_width F = all_bits f /\ fm f + 2 <= all_bits f.
Proof.
  intros [E|[E|[E|[]]]]; injection E as <- <-.
  - split; [exact float32_fits|]. vm_compute. split; [reflexivity|discriminate].
  - split; [exact float64_fits|]. vm_compute. split; [reflexivity|discriminate].
  - split; [exact float128_fits|]. vm_compute. split; [reflexivity|discriminate].
Qed.
Lemma decompose_all F f d : In (F, f) good_formats -> finite f d ->
  (fabs f d == scaled (get_precision F d) (get_exponent F d))%Q.
Proof. intros G Hf. destruct (good_fits G) as (Ft & _). exact (decompose_exact Ft Hf). Qed.
Lemma roundtrip_all F f d : In (F, f) good_formats -> finite f d ->
  make_float F (get_precision F d) (get_exponent F d) = Some (clear_sign f d).
Proof.
  intros G Hf. destruct (good_fits G) as (Ft & Sw & B). apply (roundtrip Ft Hf). lia.
Qed.
Lemma make_truncates_all F f n e : In (F, f) good_formats ->
  0 < n < 2 ^ all_bits f ->
  1 - bias f - all_bits f < e + Z.log2 n <= bias f ->
  exists r, make_float F n e = Some r /\ truncated f (scaled n e) r.
Proof.
  intros G Hn He. destruct (good_fits G) as (Ft & Sw & B).
  apply (make_float_truncates Ft); [rewrite (f_bw Ft); exact Hn|lia].
Qed.
Lemma make_large_all F f n e : In (F, f) good_formats ->
  0 < n < 2 ^ all_bits f -> bias f < e + Z.log2 n -> make_float F n e = Some 0.
Proof.
  intros G Hn He. destruct (good_fits G) as (Ft & Sw & B).
  apply (make_float_too_large Ft); [rewrite (f_bw Ft); exact Hn|lia].
Qed.
Lemma make_small_all F f n e : In (F, f) good_formats ->
  0 < n < 2 ^ all_bits f -> e + Z.log2 n <= 1 - bias f - all_bits f -> make_float F n e = None.
Proof.
  intros G Hn He. destruct (good_fits G) as (Ft & Sw & B).
  apply (make_float_too_small Ft); [rewrite (f_bw Ft); exact Hn|lia].
Qed.
Lemma half_refuted : exists d, finite binary16 d /\
    ~ (fabs binary16 d == scaled (get_precision float16_info d) (get_exponent float16_info d))%Q.
Proof. exists 0x3C00. vm_compute. repeat split; discriminate. Qed.
Lemma bfloat_refuted : exists d, finite bfloat16 d /\
    ~ (fabs bfloat16 d == scaled (get_precision bfloat16_info d) (get_exponent bfloat16_info d))%Q.
Proof. exists 0x3F80. vm_compute. repeat split; discriminate. Qed.
