(** Proofs about random floating-point numbers. *)
From Coq Require Import QArith Qround Qabs Qminmax Lqa.
From Verif Require Import Base Float_Model Float_Spec Float_Proofs FloatBig_Model FloatBig_Spec FloatBig_Proofs
  FloatOut_Proofs Pow_Model Pow_Proofs.
From Verif Require Import Cast_Model RandF_Model RandF_Spec.
Local Open Scope Z_scope.

Section Fits.
Variables (F : finfo) (f : fmt).
Hypothesis Fit : fits_format F f.

Lemma rv_upper x r : (0 <= x)%Q -> 0 <= r < inf_bits f -> (x <= fabs f r)%Q -> (rv f x <= fabs f r)%Q.
Proof.
  intros X R L. unfold rv. apply (fabs_le Fit); [apply (rn_range Fit X)|exact (rn_upper Fit X R L)|lia].
Qed.
Lemma rv_lower x r : (0 <= x)%Q -> 0 <= r <= inf_bits f -> (fabs f r <= x)%Q -> (fabs f r <= rv f x)%Q.
Proof.
  intros X R L. unfold rv. apply (fabs_le Fit); [lia|exact (rn_lower Fit X R L)|apply (rn_range Fit X)].
Qed.
Lemma rv_nonneg x : (0 <= x)%Q -> (0 <= rv f x)%Q.
Proof. intro X. exact (@fabs_nonneg F f Fit _). Qed.
Lemma rv_eq x y : (x == y)%Q -> rv f x = rv f y.
Proof. intro E. unfold rv. rewrite (rn_morphism f E). reflexivity. Qed.
Lemma rv_exact x r : 0 <= r < inf_bits f -> (x == fabs f r)%Q -> (rv f x == x)%Q.
Proof. intros R E. unfold rv. rewrite (rn_exact Fit R E). symmetry. exact E. Qed.

Lemma number_opp x : number f x -> number f (- x)%Q.
Proof.
  intros (r & R & [E|E]); exists r; split; [exact R|right|exact R|left]; rewrite E; [reflexivity|ring].
Qed.
Lemma number_nonneg x : number f x -> (0 <= x)%Q -> exists r, 0 <= r < inf_bits f /\ (x == fabs f r)%Q.
Proof.
  intros (r & R & [E|E]) X; [exists r; split; assumption|].
  pose proof (@fabs_nonneg F f Fit r) as P. exists r. split; [exact R|]. lra.
Qed.
Lemma number_abs x : number f x -> exists r, 0 <= r < inf_bits f /\ (Qabs x == fabs f r)%Q.
Proof.
  intro N. destruct (Qlt_le_dec x 0) as [C|C].
  - destruct (number_nonneg (number_opp N)) as (r & R & E); [lra|]. exists r. split; [exact R|].
    rewrite Qabs_neg by lra. exact E.
  - destruct (number_nonneg N C) as (r & R & E). exists r. split; [exact R|]. rewrite Qabs_pos by exact C. exact E.
Qed.

Lemma rs_nonneg x : (0 <= x)%Q -> rs f x = rv f x.
Proof. intro X. unfold rs. apply Qle_bool_iff in X. rewrite X. reflexivity. Qed.
Lemma rs_neg x : (x < 0)%Q -> rs f x = (- rv f (- x))%Q.
Proof.
  intro X. unfold rs. destruct (Qle_bool 0 x) eqn:E; [|reflexivity]. apply Qle_bool_iff in E.
  exfalso. lra.
Qed.
Lemma rs_upper x s : number f s -> (x <= s)%Q -> (rs f x <= s)%Q.
Proof.
  intros N L. destruct (Qlt_le_dec x 0) as [X|X].
  - rewrite (rs_neg X). pose proof (rv_nonneg (x := (- x)%Q) ltac:(lra)) as P.
    destruct (Qlt_le_dec s 0) as [C|C]; [|lra].
    destruct (number_nonneg (number_opp N)) as (r & R & E); [lra|].
    pose proof (@rv_lower (- x)%Q r ltac:(lra) ltac:(lia) ltac:(lra)). lra.
  - rewrite (rs_nonneg X). destruct (number_nonneg N) as (r & R & E); [lra|].
    pose proof (@rv_upper x r X R ltac:(lra)). lra.
Qed.
Lemma rs_lower x s : number f s -> (s <= x)%Q -> (s <= rs f x)%Q.
Proof.
  intros N L. destruct (Qlt_le_dec x 0) as [X|X].
  - rewrite (rs_neg X). destruct (number_nonneg (number_opp N)) as (r & R & E); [lra|].
    pose proof (@rv_upper (- x)%Q r ltac:(lra) R ltac:(lra)). lra.
  - rewrite (rs_nonneg X). pose proof (rv_nonneg X) as P.
    destruct (Qlt_le_dec s 0) as [C|C]; [lra|].
    destruct (number_nonneg N C) as (r & R & E).
    pose proof (@rv_lower x r X ltac:(lia) ltac:(lra)). lra.
Qed.
Lemma rs_exact x : number f x -> (rs f x == x)%Q.
Proof. intro N. apply Qle_antisym; [apply rs_upper|apply rs_lower]; try assumption; apply Qle_refl. Qed.

(** Between two numbers there is no overflow. *)
Lemma round_between x a b : number f a -> number f b -> (a <= x)%Q -> (x <= b)%Q -> round f x = Fin (rs f x).
Proof.
  intros A B L U. unfold round.
  assert (H : rn f (Qabs x) < inf_bits f).
  { destruct (number_abs A) as (ra & Ra & Ea). destruct (number_abs B) as (rb & Rb & Eb).
    pose proof (Qabs_nonneg x) as P.
    destruct (Qlt_le_dec x 0) as [X|X].
    - pose proof (@rn_upper F f Fit (Qabs x) ra P Ra) as R1.
      assert (Qabs x <= fabs f ra)%Q; [|specialize (R1 H); lia].
      rewrite <- Ea, (Qabs_neg x), (Qabs_neg a); lra.
    - pose proof (@rn_upper F f Fit (Qabs x) rb P Rb) as R1.
      assert (Qabs x <= fabs f rb)%Q; [|specialize (R1 H); lia].
      rewrite <- Eb, (Qabs_pos x), (Qabs_pos b); lra. }
  destruct (Z.leb_spec (inf_bits f) (rn f (Qabs x))); [lia|reflexivity].
Qed.
Lemma rs_number x a b : number f a -> number f b -> (a <= x)%Q -> (x <= b)%Q -> number f (rs f x).
Proof.
  intros A B L U. pose proof (round_between A B L U) as R. unfold round in R.
  destruct (Z.leb_spec (inf_bits f) (rn f (Qabs x))) as [|H]; [discriminate|].
  destruct (Qlt_le_dec x 0) as [X|X].
  - rewrite (rs_neg X). rewrite (rn_morphism f (Qabs_neg x ltac:(lra))) in H.
    exists (rn f (- x)%Q). split; [|right; reflexivity]. pose proof (@rn_range F f Fit (- x)%Q ltac:(lra)). lia.
  - rewrite (rs_nonneg X). rewrite (rn_morphism f (Qabs_pos x X)) in H.
    exists (rn f x). split; [|left; reflexivity]. pose proof (@rn_range F f Fit x X). lia.
Qed.
Lemma number_0 : number f 0%Q.
Proof.
  exists 0. split; [pose proof (inf_pos Fit); lia|]. left. symmetry. apply (fabs_0 Fit).
Qed.

(** A difference that is a number: the result is between the bounds. *)
Theorem scale_between a b x : number f a -> number f b -> number f (Qmax b a - Qmin b a) ->
  (0 <= x)%Q -> (x <= 1)%Q ->
  exists y, scale f a b x = Fin y /\ number f y /\ (Qmin b a <= y)%Q /\ (y <= Qmax b a)%Q.
Proof.
  intros A B D X0 X1.
  assert (LH : (Qmin b a <= Qmax b a)%Q).
  { eapply Qle_trans; [apply Q.le_min_l|apply Q.le_max_l]. }
  assert (NL : number f (Qmin b a)) by (destruct (Q.min_spec_le b a) as [[_ E]|[_ E]];
    [destruct B as (r & R & C)|destruct A as (r & R & C)]; exists r; rewrite E; split; assumption).
  assert (NH : number f (Qmax b a)) by (destruct (Q.max_spec_le b a) as [[_ E]|[_ E]];
    [destruct A as (r & R & C)|destruct B as (r & R & C)]; exists r; rewrite E; split; assumption).
  unfold scale. cbv zeta. set (lo := Qmin b a) in *. set (hi := Qmax b a) in *. clearbody lo hi.
  rewrite (@round_between (hi - lo)%Q 0%Q (hi - lo)%Q number_0 D ltac:(lra) ltac:(lra)). pose proof (rs_exact D) as E.
  cbn [emul]. assert (P0 : (0 <= x * rs f (hi - lo))%Q).
  { apply Qmult_le_0_compat; [exact X0|]. rewrite E. lra. }
  assert (P1 : (x * rs f (hi - lo) <= hi - lo)%Q).
  { rewrite E. setoid_replace (hi - lo)%Q with (1 * (hi - lo))%Q at 2 by ring.
    apply Qmult_le_compat_r; [exact X1|lra]. }
  rewrite (round_between number_0 D P0 P1). cbn [eadd].
  pose proof (rs_lower number_0 P0) as Q0. pose proof (rs_upper D P1) as Q1.
  set (p := rs f (x * rs f (hi - lo))) in *. clearbody p.
  assert (S0 : (lo <= lo + p)%Q) by lra. assert (S1 : (lo + p <= hi)%Q) by lra.
  rewrite (round_between NL NH S0 S1).
  eexists. split; [reflexivity|]. split; [exact (rs_number NL NH S0 S1)|].
  split; [exact (rs_lower NL S0)|exact (rs_upper NH S1)].
Qed.

(** The whole range of the type: the difference is infinite. *)
Lemma scale_overflow x : scale f (- greatest f) (greatest f) x = Inf false \/
  scale f (- greatest f) (greatest f) x = Inf true \/ scale f (- greatest f) (greatest f) x = Nan.
Proof.
  pose proof (inf_pos Fit) as IP. assert (I1 : 1 <= inf_bits f - 1).
  { unfold inf_bits. pose proof (pm Fit). pose proof (fe4 Fit). nia. }
  assert (G : (0 < greatest f)%Q).
  { unfold greatest. rewrite <- (fabs_0 Fit). apply (fabs_lt Fit); lia. }
  assert (L : (Qmin (greatest f) (- greatest f) == - greatest f)%Q) by (apply Q.min_r; lra).
  assert (H : (Qmax (greatest f) (- greatest f) == greatest f)%Q) by (apply Q.max_l; lra).
  unfold scale. cbv zeta. set (lo := Qmin _ _) in *. set (hi := Qmax _ _) in *. clearbody lo hi.
  assert (R : round f (hi - lo) = Inf false).
  { unfold round. assert (E : (Qabs (hi - lo) == 2 * greatest f)%Q) by (rewrite Qabs_pos; rewrite H, L; lra).
    rewrite (rn_morphism f E). rewrite (@rn_large F f Fit).
    - rewrite Z.leb_refl. assert (Q0 : (0 <= hi - lo)%Q) by lra. apply Qle_bool_iff in Q0. rewrite Q0. reflexivity.
    - unfold greatest, inf_bits. pose proof (pm Fit) as P. pose proof (fe4 Fit) as P4.
      set (M := 2 ^ fm f) in *. set (E4 := 2 ^ fe f) in *.
      assert (U1 : units f ((E4 - 1) * M - 1) = (2 * M - 1) * 2 ^ (E4 - 3)).
      { unfold units, exp_field, frac_field. fold M E4.
        replace ((E4 - 1) * M - 1) with ((M - 1) + (E4 - 2) * M) by ring.
        rewrite Z.mod_add, (Z.mod_small (M - 1) M) by lia.
        rewrite Z.div_add, (Z.div_small (M - 1) M) by lia. rewrite Z.add_0_l, Z.mod_small by lia.
        destruct (Z.eqb_spec (E4 - 2) 0); [lia|]. replace (E4 - 2 - 1) with (E4 - 3) by ring.
        replace (M + (M - 1)) with (2 * M - 1) by ring. reflexivity. }
      assert (U2 : units f ((E4 - 1) * M) = M * 2 ^ (E4 - 2)) by (exact (units_inf Fit)).
      unfold fabs. rewrite U1, U2. rewrite Qmult_assoc. apply Qmult_le_compat_r; [|apply Qlt_le_weak, Pow_Proofs.p2_pos].
      change 2%Q with (inject_Z 2). rewrite <- inject_Z_mult, <- Zle_Qle.
      replace (E4 - 2) with (1 + (E4 - 3)) by ring. rewrite Z.pow_add_r by lia. change (2 ^ 1) with 2.
      assert (0 < 2 ^ (E4 - 3)) by (apply Z.pow_pos_nonneg; lia). nia. }
  rewrite R. cbn [emul]. destruct (Qeq_bool x 0); [right; right; reflexivity|].
  destruct (Qle_bool 0 x); cbn; tauto.
Qed.
End Fits.

(** ** The divisors *)
Lemma div_64 : div_num 64 = scaled 4503599627370584 12.
Proof. unfold div_num. replace (pow 20 2 64) with (Some (4503599627370584, 12)) by (vm_compute; reflexivity). reflexivity. Qed.
Lemma div_63 : div_num 63 = scaled 4503599627370578 11.
Proof. unfold div_num. replace (pow 20 2 63) with (Some (4503599627370578, 11)) by (vm_compute; reflexivity). reflexivity. Qed.
Lemma div_32 : div_num 32 = scaled 4503599627370538 (-20).
Proof. unfold div_num. replace (pow 20 2 32) with (Some (4503599627370538, -20)) by (vm_compute; reflexivity). reflexivity. Qed.
Lemma div_31 : div_num 31 = scaled 4503599627370532 (-21).
Proof. unfold div_num. replace (pow 20 2 31) with (Some (4503599627370532, -21)) by (vm_compute; reflexivity). reflexivity. Qed.

Lemma quotient_nonneg F f u n : fits_format F f -> (0 <= quotient f u n)%Q.
Proof. intro Fit. unfold quotient, rv. apply (@fabs_nonneg F f Fit). Qed.
Lemma div_le x y d : (0 < d)%Q -> (x <= y)%Q -> (x / d <= y / d)%Q.
Proof. intros D L. unfold Qdiv. apply Qmult_le_compat_r; [exact L|]. apply Qlt_le_weak, Qinv_lt_0_compat, D. Qed.
Lemma div_nonneg x d : (0 < d)%Q -> (0 <= x)%Q -> (0 <= x / d)%Q.
Proof. intros D L. apply Qle_shift_div_l; [exact D|]. lra. Qed.
Lemma inject_nonneg u : 0 <= u -> (0 <= inject_Z u)%Q.
Proof. intro H. change 0%Q with (inject_Z 0). rewrite <- Zle_Qle. exact H. Qed.

(** An upper bound: if the word is at most the number [r], and [r] over the divisor is at
    most the double [s], and [s] at most the number [t]. *)
Lemma quotient_upper F f u n r s t : fits_format F f -> 0 <= u -> 0 <= r < inf_bits f -> 0 <= s < inf_bits binary64 ->
  0 <= t < inf_bits f -> (0 < div_num n)%Q -> (rv f (inject_Z u) <= fabs f r)%Q ->
  (fabs f r / div_num n <= fabs binary64 s)%Q -> (fabs binary64 s <= fabs f t)%Q -> (quotient f u n <= fabs f t)%Q.
Proof.
  intros Fit U R S0 T D H1 H2 H3. unfold quotient.
  assert (B0 : (0 <= rv f (inject_Z u))%Q) by (apply (@fabs_nonneg F f Fit)).
  assert (Q0 : (0 <= rv f (inject_Z u) / div_num n)%Q) by (apply div_nonneg; [exact D|exact B0]).
  assert (Q1 : (rv f (inject_Z u) / div_num n <= fabs binary64 s)%Q).
  { apply Qle_trans with (fabs f r / div_num n)%Q; [apply div_le; [exact D|exact H1]|exact H2]. }
  pose proof (rv_upper float64_fits Q0 S0 Q1) as Q2.
  apply (rv_upper Fit); [apply (@fabs_nonneg float64_info binary64 float64_fits)|exact T|].
  eapply Qle_trans; eassumption.
Qed.
Lemma word_upper F f u r : fits_format F f -> 0 <= u -> 0 <= r < inf_bits f -> (inject_Z u <= fabs f r)%Q ->
  (rv f (inject_Z u) <= fabs f r)%Q.
Proof. intros Fit U R L. exact (rv_upper Fit (inject_nonneg U) R L). Qed.

Ltac qcheck := apply Qle_bool_iff; vm_compute; reflexivity.
Ltac qbits := vm_compute; split; congruence.
Lemma le_word n u f r : u <= n -> Qle_bool (inject_Z n) (fabs f r) = true -> (inject_Z u <= fabs f r)%Q.
Proof. intros H E. apply Qle_bool_iff in E. eapply Qle_trans; [|exact E]. rewrite <- Zle_Qle. exact H. Qed.
Lemma lt_check x y : Qle_bool y x = false -> (x < y)%Q.
Proof. intro H. apply Qnot_le_lt. intro C. apply Qle_bool_iff in C. congruence. Qed.

(** double: below 1 *)
Theorem unit_double u : 0 <= u < 2 ^ 64 ->
  (0 <= unit_exclusive binary64 u)%Q /\ (unit_exclusive binary64 u < 1)%Q.
Proof.
  intro U. unfold unit_exclusive. change (all_bits binary64) with 64.
  split; [apply (@quotient_nonneg float64_info binary64 u 64 float64_fits)|].
  apply Qle_lt_trans with (fabs binary64 0x3FEFFFFFFFFFFFFF); [|apply lt_check; vm_compute; reflexivity].
  apply (@quotient_upper float64_info binary64 u 64 0x43F0000000000000 0x3FEFFFFFFFFFFFFF 0x3FEFFFFFFFFFFFFF float64_fits);
    [lia|qbits|qbits|qbits|rewrite div_64; apply lt_check; vm_compute; reflexivity| |rewrite div_64; qcheck|qcheck].
  apply (word_upper float64_fits); [lia|qbits|]. apply (@le_word (2 ^ 64)); [lia|vm_compute; reflexivity].
Qed.

(** float: 1 for the 128 greatest words *)
Lemma float_bound u n : 0 <= u <= 2 ^ n -> (n = 32 \/ n = 31) -> (quotient binary32 u n <= 1)%Q.
Proof.
  intros U N. apply Qle_trans with (fabs binary32 0x3F800000); [|qcheck].
  destruct N as [-> | ->].
  - apply (@quotient_upper float32_info binary32 u 32 0x4F800000 0x3FF0000000000000 0x3F800000 float32_fits);
      [lia|qbits|qbits|qbits|rewrite div_32; apply lt_check; vm_compute; reflexivity| |rewrite div_32; qcheck|qcheck].
    apply (word_upper float32_fits); [lia|qbits|]. apply (@le_word (2 ^ 32)); [lia|vm_compute; reflexivity].
  - apply (@quotient_upper float32_info binary32 u 31 0x4F000000 0x3FF0000000000000 0x3F800000 float32_fits);
      [lia|qbits|qbits|qbits|rewrite div_31; apply lt_check; vm_compute; reflexivity| |rewrite div_31; qcheck|qcheck].
    apply (word_upper float32_fits); [lia|qbits|]. apply (@le_word (2 ^ 31)); [lia|vm_compute; reflexivity].
Qed.

Lemma b32_4F80 : (fabs binary32 0x4F800000 == inject_Z (2 ^ 32))%Q.
Proof. apply Qeq_bool_iff. vm_compute. reflexivity. Qed.
Lemma b32_4F7F : (fabs binary32 0x4F7FFFFF == inject_Z (2 ^ 32 - 256))%Q.
Proof. apply Qeq_bool_iff. vm_compute. reflexivity. Qed.

Lemma round_word_low u : 0 <= u < 2 ^ 32 - 128 -> (rv binary32 (inject_Z u) <= fabs binary32 0x4F7FFFFF)%Q.
Proof.
  intro U. destruct (Z.le_gt_cases u (2 ^ 32 - 256)) as [C|C].
  - apply (word_upper float32_fits); [lia|qbits|]. rewrite b32_4F7F. rewrite <- Zle_Qle. exact C.
  - pose proof (inject_nonneg (proj1 U)) as U0.
    assert (B : rn binary32 (inject_Z u) <= 0x4F800000).
    { apply (rn_upper float32_fits U0); [qbits|]. rewrite b32_4F80, <- Zle_Qle. lia. }
    pose proof (rn_range float32_fits U0) as RR.
    destruct (Z.eq_dec (rn binary32 (inject_Z u)) 0x4F800000) as [E|E].
    + exfalso. assert (I : rn binary32 (inject_Z u) < inf_bits binary32) by (rewrite E; reflexivity).
      destruct (rn_nearest float32_fits U0 I) as [_ N]. rewrite E in N.
      specialize (N 0x4F7FFFFF ltac:(qbits)). rewrite b32_4F80, b32_4F7F in N.
      unfold Qminus in N. rewrite <- inject_Z_opp, <- !inject_Z_plus in N.
      change (Qabs (inject_Z (2 ^ 32 + - u))) with (inject_Z (Z.abs (2 ^ 32 + - u))) in N.
      change (Qabs (inject_Z (2 ^ 32 - 256 + - u))) with (inject_Z (Z.abs (2 ^ 32 - 256 + - u))) in N.
      rewrite <- Zle_Qle in N. lia.
    + unfold rv. apply (fabs_le float32_fits); [lia|lia|discriminate].
Qed.
Lemma round_word_high u : 2 ^ 32 - 128 <= u < 2 ^ 32 -> (rv binary32 (inject_Z u) == inject_Z (2 ^ 32))%Q.
Proof.
  intro U. destruct (Z.eq_dec u (2 ^ 32 - 128)) as [->|Nt].
  { apply Qeq_bool_iff. vm_compute. reflexivity. }
  pose proof (@inject_nonneg u ltac:(lia)) as U0.
  assert (B : rn binary32 (inject_Z u) <= 0x4F800000).
  { apply (rn_upper float32_fits U0); [qbits|]. rewrite b32_4F80, <- Zle_Qle. lia. }
  pose proof (rn_range float32_fits U0) as RR.
  destruct (Z.eq_dec (rn binary32 (inject_Z u)) 0x4F800000) as [E|E].
  - unfold rv. rewrite E. apply b32_4F80.
  - exfalso. assert (I : rn binary32 (inject_Z u) < inf_bits binary32).
    { eapply Z.le_lt_trans; [exact B|reflexivity]. }
    destruct (rn_nearest float32_fits U0 I) as [_ N]. specialize (N 0x4F800000 ltac:(qbits)).
    assert (L : (fabs binary32 (rn binary32 (inject_Z u)) <= inject_Z (2 ^ 32 - 256))%Q).
    { rewrite <- b32_4F7F. apply (fabs_le float32_fits); [lia|lia|discriminate]. }
    rewrite b32_4F80 in N.
    assert (L1 : (inject_Z (2 ^ 32 - 256) <= inject_Z (u - 129))%Q) by (rewrite <- Zle_Qle; lia).
    assert (L2 : (Qabs (inject_Z (2 ^ 32) - inject_Z u) <= inject_Z 127)%Q).
    { unfold Qminus. rewrite <- inject_Z_opp, <- !inject_Z_plus.
      change (Qabs (inject_Z (2 ^ 32 + - u))) with (inject_Z (Z.abs (2 ^ 32 + - u))). rewrite <- Zle_Qle. lia. }
    pose proof (Qle_trans _ _ _ L L1) as L3. unfold Z.sub in L3. rewrite inject_Z_plus in L3.
    change (inject_Z (- (129))) with (-129 # 1) in L3. change (inject_Z 127) with (127 # 1) in L2.
    rewrite Qabs_neg in N by lra. lra.
Qed.

Theorem unit_float u : 0 <= u < 2 ^ 32 ->
  (0 <= unit_exclusive binary32 u)%Q /\ (unit_exclusive binary32 u <= 1)%Q /\
  ((unit_exclusive binary32 u == 1)%Q <-> 2 ^ 32 - 128 <= u).
Proof.
  intro U. unfold unit_exclusive. change (all_bits binary32) with 32.
  split; [apply (@quotient_nonneg float32_info binary32 u 32 float32_fits)|].
  split; [apply float_bound; [lia|left; reflexivity]|].
  destruct (Z.le_gt_cases (2 ^ 32 - 128) u) as [C|C].
  - split; [intros _; exact C|]. intros _. unfold quotient.
    assert (E : (rv binary32 (inject_Z u) / div_num 32 == inject_Z (2 ^ 32) / scaled 4503599627370538 (-20))%Q).
    { rewrite div_32, (@round_word_high u) by lia. reflexivity. }
    rewrite (rv_eq binary64 E). apply Qeq_bool_iff. vm_compute. reflexivity.
  - split; [|lia]. intro E. exfalso.
    assert (X : (quotient binary32 u 32 <= fabs binary32 0x3F7FFFFF)%Q).
    { apply (@quotient_upper float32_info binary32 u 32 0x4F7FFFFF 0x3FEFFFFFE0000000 0x3F7FFFFF float32_fits);
        [lia|qbits|qbits|qbits|rewrite div_32; apply lt_check; vm_compute; reflexivity| |rewrite div_32; qcheck|qcheck].
      apply round_word_low. lia. }
    rewrite E in X. apply Qle_bool_iff in X. vm_compute in X. discriminate.
Qed.

Lemma double_bound u n : 0 <= u <= 2 ^ n -> (n = 64 \/ n = 63) -> (quotient binary64 u n <= 1)%Q.
Proof.
  intros U N. apply Qle_trans with (fabs binary64 0x3FF0000000000000); [|qcheck].
  destruct N as [-> | ->].
  - apply (@quotient_upper float64_info binary64 u 64 0x43F0000000000000 0x3FF0000000000000 0x3FF0000000000000 float64_fits);
      [lia|qbits|qbits|qbits|rewrite div_64; apply lt_check; vm_compute; reflexivity| |rewrite div_64; qcheck|qcheck].
    apply (word_upper float64_fits); [lia|qbits|]. apply (@le_word (2 ^ 64)); [lia|vm_compute; reflexivity].
  - apply (@quotient_upper float64_info binary64 u 63 0x43E0000000000000 0x3FF0000000000000 0x3FF0000000000000 float64_fits);
      [lia|qbits|qbits|qbits|rewrite div_63; apply lt_check; vm_compute; reflexivity| |rewrite div_63; qcheck|qcheck].
    apply (word_upper float64_fits); [lia|qbits|]. apply (@le_word (2 ^ 63)); [lia|vm_compute; reflexivity].
Qed.
Lemma unit_exclusive_bounds f u : In f [binary32; binary64] -> 0 <= u < 2 ^ all_bits f ->
  (0 <= unit_exclusive f u)%Q /\ (unit_exclusive f u <= 1)%Q.
Proof.
  intros [<-|[<-|[]]] U.
  - destruct (unit_float U) as (A & B & _). split; assumption.
  - destruct (unit_double U) as (A & B). split; [exact A|]. apply Qlt_le_weak. exact B.
Qed.
Lemma unit_inclusive_bounds f raw : In f [binary32; binary64] -> (forall i, 0 <= raw i < 2 ^ all_bits f) ->
  forall n i x, unit_inclusive f raw n i = Some x -> (0 <= x)%Q /\ (x <= 1)%Q.
Proof.
  intros HF W. induction n as [|n IH]; intros i x E; [discriminate|]. cbn [unit_inclusive] in E.
  destruct (Z.odd (raw i)).
  - destruct (Z.shiftr (raw i) 1 =? 0); [|exact (IH _ _ E)]. injection E as <-. split; discriminate.
  - injection E as <-. specialize (W i). rewrite Z.shiftr_div_pow2 by lia. change (2 ^ 1) with 2.
    destruct HF as [<-|[<-|[]]].
    + change (all_bits binary32) with 32 in *. change (32 - 1) with 31.
      split; [apply (@quotient_nonneg float32_info binary32 _ _ float32_fits)|].
      apply float_bound; [|right; reflexivity]. change (2 ^ 32) with (2 ^ 31 * 2) in W.
      split; [apply Z.div_pos; lia|]. apply Z.lt_le_incl, Z.div_lt_upper_bound; lia.
    + change (all_bits binary64) with 64 in *. change (64 - 1) with 63.
      split; [apply (@quotient_nonneg float64_info binary64 _ _ float64_fits)|].
      apply double_bound; [|right; reflexivity]. change (2 ^ 64) with (2 ^ 63 * 2) in W.
      split; [apply Z.div_pos; lia|]. apply Z.lt_le_incl, Z.div_lt_upper_bound; lia.
Qed.
Lemma unit_inclusive_ends f raw k : forall i, (Z.odd (raw (i + k)%nat) = false \/ raw (i + k)%nat = 1) ->
  unit_inclusive f raw (S k) i <> None.
Proof.
  induction k as [|k IH]; intros i H; cbn [unit_inclusive].
  - rewrite Nat.add_0_r in H. destruct H as [->| ->]; discriminate.
  - destruct (Z.odd (raw i)); [|discriminate]. destruct (Z.shiftr (raw i) 1 =? 0); [discriminate|].
    apply IH. replace (S i + k)%nat with (i + S k)%nat by lia. exact H.
Qed.
Lemma unit_inclusive_runs f raw : (forall i, Z.odd (raw i) = true /\ 1 < raw i) -> forall n i, unit_inclusive f raw n i = None.
Proof.
  intro H. induction n as [|n IH]; intro i; [reflexivity|]. cbn [unit_inclusive]. destruct (H i) as [-> G].
  rewrite Z.shiftr_div_pow2 by lia. change (2 ^ 1) with 2. destruct (Z.eqb_spec (raw i / 2) 0) as [E|E]; [|apply IH].
  exfalso. destruct (H i) as [O _]. pose proof (Z.div_mod (raw i) 2 ltac:(lia)). pose proof (Z.mod_pos_bound (raw i) 2 ltac:(lia)). lia.
Qed.
Lemma in_fits f : In f [binary32; binary64] -> exists F, fits_format F f.
Proof. intros [<-|[<-|[]]]; [exists float32_info; exact float32_fits|exists float64_info; exact float64_fits]. Qed.

Theorem unit_inclusive_spec f raw : In f [binary32; binary64] -> (forall i, 0 <= raw i < 2 ^ all_bits f) ->
  (forall n x, unit_inclusive f raw n 0 = Some x -> (0 <= x <= 1)%Q) /\
  (forall k, Z.odd (raw k) = false \/ raw k = 1 -> unit_inclusive f raw (S k) 0 <> None).
Proof.
  intros HF W. split.
  - intros n x E. exact (@unit_inclusive_bounds f raw HF W n 0%nat x E).
  - intros k H. exact (@unit_inclusive_ends f raw k 0%nat H).
Qed.
Theorem between_spec f a b : In f [binary32; binary64] -> number f a -> number f b ->
  number f (Qmax b a - Qmin b a) ->
  (forall u, 0 <= u < 2 ^ all_bits f -> exists y, between_exclusive f a b u = Fin y /\ number f y /\
    (Qmin b a <= y)%Q /\ (y <= Qmax b a)%Q) /\
  (forall raw n r, (forall i, 0 <= raw i < 2 ^ all_bits f) -> between_inclusive f raw a b n = Some r ->
    exists y, r = Fin y /\ number f y /\ (Qmin b a <= y)%Q /\ (y <= Qmax b a)%Q).
Proof.
  intros HF A B D. destruct (in_fits HF) as [F Fit]. split.
  - intros u U. destruct (unit_exclusive_bounds HF U) as [X0 X1]. exact (scale_between Fit A B D X0 X1).
  - intros raw n r W E. unfold between_inclusive in E. destruct (unit_inclusive f raw n 0) as [x|] eqn:EX; [|discriminate].
    injection E as <-. destruct (@unit_inclusive_bounds f raw HF W n 0%nat x EX) as [X0 X1].
    exact (scale_between Fit A B D X0 X1).
Qed.
Theorem uniform_wrong f : In f [binary32; binary64] ->
  (forall u, uniform_exclusive f u = Inf false \/ uniform_exclusive f u = Inf true \/ uniform_exclusive f u = Nan) /\
  (forall raw n r, uniform_inclusive f raw n = Some r -> r = Inf false \/ r = Inf true \/ r = Nan).
Proof.
  intros HF. destruct (in_fits HF) as [F Fit]. split.
  - intro u. apply (scale_overflow Fit).
  - intros raw n r E. unfold uniform_inclusive, between_inclusive in E.
    destruct (unit_inclusive f raw n 0) as [x|]; [|discriminate]. injection E as <-. apply (scale_overflow Fit).
Qed.
