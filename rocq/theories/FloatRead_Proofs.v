(** Proofs about built-in floating-point numbers as text: reading, and the whole of
    printing. *)
From Coq Require Import QArith Qpower Qround Qabs Lqa Znumtheory.
From Verif Require Import Base NumRepr_Model NumRepr_Spec NumRepr_Proofs FracText_Model FracText_Spec FracText_Proofs
  Float_Model Float_Spec Float_Proofs Ref_Model FloatBig_Model FloatBig_Spec FloatBig_Proofs FloatOut_Proofs
  FloatText_Model FloatText_Spec FloatText_Proofs.
Local Open Scope Z_scope.

Section Read.
Variables (F : finfo) (f : fmt).
Hypothesis G : In (F, f) good_formats.
Let A : fits_all F f := good_all G.
Variable ew : Z.
Hypothesis Hew : 16 <= ew.
Variable R : repr.
Hypothesis HR : repr_ok R.
Variable M : marks.
Hypothesis HM : marks_ok R M.
Notation r := (radix R).
Notation w := (bw F).
Notation m := (fm f).
Notation val n e := (inject_Z n * rad R ^ e)%Q.

Definition outcome_of (x : res Z) : read Z :=
  match x with Ok y => Got y | Ub => Bad | Out => Deep end.

Lemma number_no_sign s v : number_text R M s v -> s <> [] ->
  parse_float F f ew R M s = parse_ufloat F f ew R M s.
Proof.
  intros N E. pose proof (shape_no_sign HM (number_text_shape N)) as S. destruct s as [|c t]; [congruence|].
  cbn [no_sign] in S. unfold parse_float. destruct (Z.eqb_spec c (m_minus M)); [tauto|].
  destruct (Z.eqb_spec c (m_plus M)); [tauto|reflexivity].
Qed.

Lemma empty_number v : number_text R M [] v -> (v == 0)%Q.
Proof.
  intros N. inversion N as [s u H E1 E2|s u t e H1 H2 E1 E2]; subst.
  - inversion H as [s u P E1 E2|a b va vb P1 P2 NZ E1 E2]; subst.
    + inversion P as [s D E1 E2|a b D1 D2 E1 E2]; subst; [reflexivity|]. destruct a; discriminate.
    + destruct a; discriminate.
  - destruct s; discriminate.
Qed.

Lemma parse_unsigned s v : number_text R M s v -> exists n d, 0 <= n /\ 0 < d /\ (ratio n d == v)%Q /\
  parse_ufloat F f ew R M s = outcome_of (convert_to_float F f ew (enough d) n d).
Proof.
  intros N. destruct (not_special HM (number_text_shape N)) as [_ NI].
  destruct (read_number HR HM N (f := S (length s)) ltac:(lia)) as (n & d & P & N0 & D & V).
  exists n, d. refine (conj N0 (conj D (conj V _))). unfold parse_ufloat. rewrite NI, P. reflexivity.
Qed.

Lemma parse_denotes s v : denotes R M s v -> (0 < v)%Q -> exists n d, 0 < n /\ 0 < d /\ (ratio n d == v)%Q /\
  parse_float F f ew R M s = outcome_of (convert_to_float F f ew (enough d) n d) /\
  parse_ufloat F f ew R M s = outcome_of (convert_to_float F f ew (enough d) n d).
Proof.
  intros (v' & N & E) V0. destruct (parse_unsigned N) as (n & d & N0 & D & V & P).
  exists n, d. refine (conj _ (conj D (conj _ (conj _ P)))).
  - destruct (Z.eq_dec n 0) as [->|]; [exfalso|lia]. unfold ratio in V. change (inject_Z 0) with 0%Q in V.
    unfold Qdiv in V. rewrite Qmult_0_l in V. lra.
  - now rewrite V.
  - rewrite <- P. apply (number_no_sign N). intros ->. pose proof (empty_number N). lra.
Qed.

(** Reading a number in range. *)
Theorem reading_faithful s v : number_text R M s v ->
  (pow2 (2 - bias f - all_bits f) <= v)%Q -> (v < pow2 (bias f + 1))%Q -> ~ just_below_power (all_bits f) v ->
  exists y, parse_float F f ew R M s = Got y /\ faithful f v y.
Proof.
  intros N V1 V2 J. pose proof (pow2_pos (2 - bias f - all_bits f)) as P0.
  destruct (@parse_denotes s v) as (n & d & N0 & D & V & -> & _); [exists v; split; [exact N|reflexivity]|lra|].
  assert (JB : ~ just_below_power (all_bits f) (ratio n d)).
  { intros (l & J1 & J2). apply J. exists l. rewrite V in J1, J2. auto. }
  destruct (from_fraction_all G Hew N0 D (enough_fuel D)) as (y & E & Y);
    [now rewrite V|now rewrite V|exact JB|].
  exists y. rewrite E. split; [reflexivity|exact (faithful_eq V Y)].
Qed.

(** Numbers that are too large are read as zero. *)
Theorem reading_large s v : number_text R M s v ->
  (pow2 (bias f + 1) <= v)%Q -> (v < pow2 (2 ^ (ew - 1)))%Q -> parse_float F f ew R M s = Got 0.
Proof.
  intros N V1 V2. pose proof (pow2_pos (bias f + 1)) as P0.
  destruct (@parse_denotes s v) as (n & d & N0 & D & V & -> & _); [exists v; split; [exact N|reflexivity]|lra|].
  rewrite (from_large_all G Hew N0 D (enough_fuel D)) by (rewrite V; assumption). reflexivity.
Qed.
(** Numbers that are too small are undefined. *)
Theorem reading_small s v : number_text R M s v ->
  (pow2 (all_bits f - 2 ^ (ew - 1)) <= v)%Q -> (v < pow2 (1 - bias f - all_bits f))%Q ->
  parse_float F f ew R M s = Bad.
Proof.
  intros N V1 V2. pose proof (pow2_pos (all_bits f - 2 ^ (ew - 1))) as P0.
  destruct (@parse_denotes s v) as (n & d & N0 & D & V & -> & _); [exists v; split; [exact N|reflexivity]|lra|].
  rewrite (from_small_all G Hew N0 D (enough_fuel D)) by (rewrite V; assumption). reflexivity.
Qed.

(** The sign. *)
Theorem reading_sign s y : parse_ufloat F f ew R M s = Got y ->
  parse_float F f ew R M (m_minus M :: s) = Got (clear_sign f y + 2 ^ (all_bits f - 1)) /\
  parse_float F f ew R M (m_plus M :: s) = Got y.
Proof.
  intros E. unfold parse_float. rewrite Z.eqb_refl, E. split; [reflexivity|].
  destruct (Z.eqb_spec (m_plus M) (m_minus M)) as [X|_]; [destruct (plus_minus HM X)|]. rewrite Z.eqb_refl. reflexivity.
Qed.

Lemma bias_127 : 127 <= bias f.
Proof. cbn in G. destruct G as [E|[E|[E|[]]]]; injection E as <- <-; vm_compute; discriminate. Qed.

(** A number that stands for another one is read as a neighbour or as zero. *)
Lemma stands_read s v x : denotes R M s v -> 0 < x -> stands F f v x -> (pow2 (- 65) <= v)%Q ->
  exists y, parse_float F f ew R M s = Got y /\ parse_ufloat F f ew R M s = Got y /\ 0 <= y < inf_bits f /\
    (next_to y x \/ y = 0 /\ just_below_power (all_bits f) v).
Proof.
  intros D X (Fa & V1 & V2) V3. pose proof (pow2_pos (-65)) as P0.
  destruct (parse_denotes D) as (n & d & N0 & D0 & V & P & PU); [lra|]. rewrite P, PU.
  pose proof (afit A) as Fit. pose proof (ew_room A Hew) as Room. pose proof (inf_pos Fit) as IP.
  assert (AA := A). destruct AA as (_ & Hw & Hsh & M17 & M4 & _ & B64 & _).
  assert (Step : forall y, convert_to_float F f ew (enough d) n d = Ok y -> y <> 0 ->
    0 <= y < inf_bits f /\ next_to y x).
  { intros y E Y0. pose proof (bias1 Fit) as B1.
    destruct (@convert_some F f A ew Hew (enough d) n d y N0 D0 (enough_fuel D0)) as (Fy & _); [| |exact E|exact Y0|].
    - rewrite V. eapply Qle_trans; [|exact V1]. apply pow2_le. lia.
    - rewrite V. eapply Qlt_le_trans; [exact V2|]. apply pow2_le. lia.
    - pose proof (faithful_eq V Fy) as (Y1 & Y2 & Y3). destruct Fa as (X1 & X2 & X3). split; [exact Y1|].
      unfold next_to.
      destruct (Z.le_gt_cases y (x + 1)) as [C1|C1]; [destruct (Z.le_gt_cases x (y + 1)) as [C2|C2]; [lia|]|]; exfalso.
      + assert (fabs f (y + 1) <= fabs f (x - 1))%Q by (apply (fabs_le Fit); lia).
        destruct X2 as [X2|X2]; [lia|]. lra.
      + assert (fabs f (x + 1) <= fabs f (y - 1))%Q by (apply (fabs_le Fit); lia).
        destruct Y2 as [Y2|Y2]; [lia|]. lra. }
  destruct (@convert_outcome F f ltac:(lia) (enough d) n d ew N0 D0 (enough_fuel D0)) as (num & e & O & E).
  pose proof bias_127 as B127. pose proof (bias1 Fit) as B1.
  destruct (Z.lt_ge_cases num (2 ^ w)) as [N|N].
  - pose proof (@outcome_log F ltac:(lia) ew ltac:(lia) _ _ _ _ O N) as (L1 & L2 & L3). pose proof (proj1 O) as N1.
    rewrite V in L1, L2.
    assert (R1 : e + Z.log2 num < bias f + 1) by (apply pow2_lt_inv; lra).
    assert (R2 : 2 - bias f - w < e + Z.log2 num + 1) by (apply pow2_lt_inv; lra).
    rewrite Z.mod_small in E by lia. rewrite wrap_range in E by lia.
    destruct (@make_float_truncates F f Fit num e ltac:(lia) ltac:(lia)) as (y & Ey & T). rewrite Ey in E.
    assert (Y0 : y <> 0).
    { intros ->. destruct T as (_ & _ & T). change (0 + 1) with 1 in T.
      assert (T1 : (fabs f 1 == pow2 (tiny f))%Q).
      { rewrite fabs_scaled. pose proof (pm Fit). destruct (@units_sub F f Fit 0 ltac:(lia)) as [_ U]. cbn in U. rewrite U.
        symmetry. apply pow2_scaled. }
      rewrite T1 in T. destruct (scaled_log e N1) as [SL _].
      assert (e + Z.log2 num < tiny f) by (apply pow2_lt_inv; lra).
      assert (-65 < e + Z.log2 num + 1) by (apply pow2_lt_inv; lra). unfold tiny in *. lia. }
    destruct (Step y E Y0) as [S1 S2]. exists y. rewrite E. cbn [outcome_of]. auto.
  - pose proof (@full_below F ltac:(lia) ew _ _ _ _ O N) as JB. destruct (@outcome_full F ltac:(lia) ew _ _ _ _ O N) as (-> & Y1 & Y2).
    rewrite V in Y1, Y2.
    assert (R1 : -65 < e + w) by (apply pow2_lt_inv; lra).
    assert (R2 : e + w - 1 < bias f + 1).
    { apply pow2_lt_inv. eapply Qle_lt_trans; [|exact V2]. apply Qlt_le_weak. eapply Qle_lt_trans; [|exact Y1].
      assert (H1 : (pow2 (1 + (e + w - 1)) == pow2 1 * pow2 (e + w - 1))%Q) by apply pow2_add.
      replace (1 + (e + w - 1)) with (e + w) in H1 by lia. change (pow2 1) with 2%Q in H1.
      assert (H2 : (pow2 e <= pow2 (e + w - 1))%Q) by (apply pow2_le; lia). lra. }
    rewrite Z_mod_same_full in E. rewrite wrap_range in E by lia. rewrite (make_float_zero Fit) in E by lia.
    exists 0. rewrite E. cbn [outcome_of]. refine (conj eq_refl (conj eq_refl (conj _ _))); [lia|]. right. split; [reflexivity|].
    destruct JB as (l & J1 & J2). exists l. rewrite V in J1, J2. rewrite <- Hw. auto.
Qed.

(** ** Texts that are read exactly *)
Definition reads (v : Q) (x : Z) : Prop :=
  forall n d, 0 < n -> 0 < d -> (ratio n d == v)%Q -> convert_to_float F f ew (enough d) n d = Ok x.

Lemma w_pos : 1 <= w.
Proof. assert (AA := A). destruct AA as (_ & Hw & Hsh & M17 & M4 & _). lia. Qed.

Lemma reads_eq v v' x : (v == v')%Q -> reads v x -> reads v' x.
Proof. intros E H n d N D V. apply H; auto. now rewrite V. Qed.
Lemma reads_of n d x : 0 < n -> 0 < d -> convert_to_float F f ew (enough d) n d = Ok x -> reads (ratio n d) x.
Proof.
  intros N D E n' d' N' D' V. rewrite <- E. apply convert_value; auto using enough_fuel. exact w_pos.
Qed.
Lemma reads_read s v x : denotes R M s v -> (0 < v)%Q -> reads v x ->
  parse_float F f ew R M s = Got x /\ parse_ufloat F f ew R M s = Got x.
Proof.
  intros D V0 H. destruct (parse_denotes D V0) as (n & d & N & D0 & V & -> & ->). now rewrite (H n d N D0 V).
Qed.

Lemma exact_reads x : 0 < x < inf_bits f -> reads (fabs f x) x.
Proof.
  intros X n d N D V. pose proof (afit A) as Fit. pose proof (fabs_positive A X) as T.
  assert (AA := A). destruct AA as (_ & Hw & Hsh & M17 & M4 & _ & B64 & _).
  destruct (@finite_nonneg F f Fit x ltac:(lia)) as [Fin _].
  pose proof (decompose_exact Fit Fin) as DE. pose proof (precision_range Fit x) as PR.
  destruct (from_fraction_all G Hew N D (enough_fuel D)) as (y & E & Y).
  - rewrite V. eapply Qle_trans; [|exact T]. apply pow2_le. unfold tiny. lia.
  - rewrite V, <- (fabs_inf Fit). apply (fabs_lt Fit); lia.
  - intros (l & J1 & J2). rewrite V, DE in J1, J2. rewrite <- Hw in J1.
    assert (P0 : 0 < get_precision F x).
    { destruct (Z.eq_dec (get_precision F x) 0) as [Z0|]; [|lia]. exfalso.
      rewrite DE, Z0 in T. unfold scaled in T. change (inject_Z 0) with 0%Q in T. pose proof (pow2_pos (tiny f)). lra. }
    assert (2 ^ (m + 1) < 2 ^ w) by (apply Z.pow_lt_mono_r; lia).
    apply (@short_not_below F ltac:(lia) ew ltac:(lia) (get_precision F x) (get_exponent F x)); [lia|]. exists l. auto.
  - rewrite E. f_equal. apply (@faithful_exact F f Fit ew ltac:(lia) (ratio n d)); [exact Y|lia|exact V].
Qed.

Lemma shorten_reads fuel x : 0 < x -> forall n e pn pd bn be n' e',
  0 < n -> 0 < bn -> 0 < pn -> 0 < pd -> (ratio pn pd == rad R ^ e)%Q ->
  (val bn be == val n e)%Q -> reads (val n e) x -> r mod 2 = 0 ->
  shorten F f ew R fuel x n e pn pd bn be = Ok (n', e') ->
  0 < n' /\ reads (val n' e') x.
Proof.
  intros X0. pose proof (r2 HR) as H2. induction fuel as [|fuel IH]; intros n e pn pd bn be n' e' N BN PN PD RP BV SV Hr X;
    [discriminate|].
  cbn [shorten] in X.
  assert (G1 : forall n e pn bn be, 0 < n -> 0 < bn -> 0 < pn -> (ratio pn pd == rad R ^ e)%Q ->
    (val bn be == val n e)%Q -> reads (val n e) x ->
    match convert_to_float F f ew (enough pd) (round_digit R n * (pn * r)) pd with
    | Ok y => if y =? x
        then shorten F f ew R fuel x (round_digit R n) (e + 1) (pn * r) pd (round_digit R n) (e + 1)
        else Ok (bn, be)
    | Ub => Ub | Out => Out end = Ok (n', e') -> 0 < n' /\ reads (val n' e') x).
  { clear n e pn bn be N BN PN RP BV SV X. intros n e pn bn be N BN PN RP BV SV X.
    assert (P2 : (ratio (pn * r) pd == rad R ^ (e + 1))%Q).
    { rewrite (rad_pow_add HR). change (rad R ^ 1)%Q with (rad R). rewrite <- RP. unfold ratio, rad.
      rewrite inject_Z_mult. field. intros Q. apply (inj_pos) in PD. lra. }
    destruct (@round_digit_spec R HR n Hr ltac:(lia)) as (_ & _ & K0 & K1). set (k := round_digit R n) in *.
    destruct (convert_to_float F f ew (enough pd) (k * (pn * r)) pd) as [y| |] eqn:CV; try discriminate.
    destruct (Z.eqb_spec y x) as [->|Ne].
    - destruct (Z.eq_dec k 0) as [Z0|Z0].
      { rewrite Z0, Z.mul_0_l in CV. pose proof (@convert_zero F f A ew Hew _ _ _ CV PD). lia. }
      assert (K : 0 < k) by lia.
      assert (VE : (ratio (k * (pn * r)) pd == val k (e + 1))%Q).
      { rewrite <- P2. unfold ratio. rewrite inject_Z_mult. unfold Qdiv. ring. }
      assert (0 < pn * r) by (apply Z.mul_pos_pos; lia).
      assert (0 < k * (pn * r)) by (apply Z.mul_pos_pos; lia).
      apply (IH k (e + 1) (pn * r) pd k (e + 1) n' e'); auto; [reflexivity|].
      apply (@reads_eq _ _ _ VE). apply reads_of; assumption.
    - injection X as <- <-. split; [exact BN|]. apply (@reads_eq (val n e)); [symmetry; exact BV|exact SV]. }
  destruct (Z.eqb_spec (n mod r) 0) as [Z0|Z0].
  - pose proof (Z.div_mod n r ltac:(lia)) as D. rewrite Z0, Z.add_0_r in D.
    assert (N1 : 0 < n / r) by nia.
    assert (VV : (val (n / r) (e + 1) == val n e)%Q).
    { rewrite <- (val_step HR). rewrite (Z.mul_comm (n / r)), <- D. reflexivity. }
    apply (G1 (n / r) (e + 1) (pn * r) (n / r) (e + 1)); auto; [apply Z.mul_pos_pos; lia| |reflexivity|].
    + rewrite (rad_pow_add HR). change (rad R ^ 1)%Q with (rad R). rewrite <- RP. unfold ratio, rad.
      rewrite inject_Z_mult. field. intros Q. apply (inj_pos) in PD. lra.
    + apply (@reads_eq (val n e)); [symmetry; exact VV|exact SV].
  - apply (G1 n e pn bn be); auto.
Qed.
End Read.

(** ** Radices that are powers of two: nothing is lost *)
Lemma power_factor o t k m : 0 < o < 2 ^ m -> 0 <= t -> 0 <= k -> 0 <= m -> 2 ^ m * 2 ^ k <= o * 2 ^ t -> k <= t.
Proof.
  intros O T K M0 H. destruct (Z.le_gt_cases k t) as [|C]; [assumption|exfalso].
  assert (2 ^ t <= 2 ^ k) by (apply Z.pow_le_mono_r; lia).
  assert (0 < 2 ^ t) by (apply zpow_pos; lia). nia.
Qed.
Lemma div_power o t k : 0 <= k <= t -> o * 2 ^ t / 2 ^ k = o * 2 ^ (t - k) /\ (o * 2 ^ t) mod 2 ^ k = 0.
Proof.
  intros K. assert (P : 2 ^ t = 2 ^ (t - k) * 2 ^ k) by (rewrite <- Z.pow_add_r by lia; f_equal; lia).
  assert (0 < 2 ^ k) by (apply zpow_pos; lia). rewrite P, Z.mul_assoc. split; [apply Z.div_mul|apply Z.mod_mul]; lia.
Qed.

Section Power.
Variable R : repr.
Hypothesis HR : repr_ok R.
Notation r := (radix R).
Variable j : Z.
Hypothesis Hj : 1 <= j.
Hypothesis Hr : r = 2 ^ j.
Notation val n e := (inject_Z n * rad R ^ e)%Q.

Lemma power_even : r mod 2 = 0.
Proof. rewrite Hr. replace j with (1 + (j - 1)) by lia. rewrite Z.pow_add_r, Z.pow_1_r, Z.mul_comm by lia. apply Z.mod_mul. lia. Qed.
Lemma power_half : r / 2 = 2 ^ (j - 1).
Proof. rewrite Hr. replace j with (j - 1 + 1) at 1 by lia. rewrite Z.pow_add_r, Z.pow_1_r by lia. apply Z.div_mul. lia. Qed.

Lemma round_to_exact m1 fuel : 0 <= m1 -> forall o t e n' e', 0 < o < 2 ^ m1 -> 0 <= t ->
  round_to R fuel (2 ^ m1 * r) (o * 2 ^ t) e = Ok (n', e') ->
  exists t', 0 <= t' /\ n' = o * 2 ^ t' /\ (val n' e' == val (o * 2 ^ t) e)%Q.
Proof.
  intros M1. induction fuel as [|fuel IH]; intros o t e n' e' O T X; cbn [round_to] in X.
  - destruct (2 ^ m1 * r <? o * 2 ^ t); [discriminate|]. injection X as <- <-. exists t. auto with qarith.
  - destruct (Z.ltb_spec (2 ^ m1 * r) (o * 2 ^ t)) as [C|C]; [|injection X as <- <-; exists t; auto with qarith].
    assert (K : j <= t) by (apply (@power_factor o t j m1); auto; [lia|rewrite <- Hr; lia]).
    destruct (@div_power o t j ltac:(lia)) as [D1 D2]. rewrite <- Hr in D1, D2.
    unfold round_digit in X. rewrite D1, D2 in X. rewrite power_half in X.
    assert (0 < 2 ^ (j - 1)) by (apply zpow_pos; lia).
    destruct (Z.leb_spec (2 ^ (j - 1)) 0); [lia|].
    destruct (IH o (t - j) (e + 1) n' e' O ltac:(lia) X) as (t' & T' & E' & V). exists t'. refine (conj T' (conj E' _)).
    rewrite V, <- (val_step HR). rewrite <- Z.mul_assoc. rewrite Hr at 1. rewrite <- Z.pow_add_r by lia.
    replace (t - j + j) with t by lia. reflexivity.
Qed.
End Power.

(** What stands for a number above 2^-64. *)
Section Large.
Variables (F : finfo) (f : fmt).
Hypothesis G : In (F, f) good_formats.
Let A : fits_all F f := good_all G.
Lemma stands_large x v : 0 < x < inf_bits f -> (pow2 (-64) < fabs f x)%Q -> stands F f v x -> (pow2 (-65) <= v)%Q.
Proof.
  intros C L (Fa & _). pose proof (afit A) as Fit. destruct Fa as (_ & F1 & _).
  destruct F1 as [F1|F1]; [lia|]. pose proof (bias_127 G) as B. pose proof (m1 Fit) as M1. pose proof (pm Fit) as PM.
  assert (X1 : 1 <= x - 1).
  { destruct (Z.le_gt_cases 1 (x - 1)) as [|K]; [assumption|exfalso]. assert (x = 1) by lia. subst x.
    assert (T1 : (fabs f 1 == pow2 (tiny f))%Q).
    { rewrite fabs_scaled. destruct (@units_sub F f Fit 0 ltac:(lia)) as [_ U]. cbn in U. rewrite U.
      symmetry. apply pow2_scaled. }
    rewrite T1 in L. apply pow2_lt_inv in L. unfold tiny in L. lia. }
  pose proof (@units_double F f Fit (x - 1) ltac:(lia)) as U. replace (x - 1 + 1) with x in U by lia.
  assert (H : (fabs f x <= 2 * fabs f (x - 1))%Q).
  { rewrite !fabs_scaled. unfold scaled. rewrite Qmult_assoc. change 2%Q with (inject_Z 2) at 2. rewrite <- inject_Z_mult.
    apply Qmult_le_compat_r; [rewrite <- Zle_Qle; exact U|]. apply Qlt_le_weak, two_pos. }
  assert (E : (pow2 (-64) == 2 * pow2 (-65))%Q) by reflexivity. lra.
Qed.
End Large.

Section Whole.
Variables (F : finfo) (f : fmt).
Hypothesis G : In (F, f) good_formats.
Let A : fits_all F f := good_all G.
Variables sw ew : Z.
Hypothesis Hew : 16 <= ew.
Variable R : repr.
Hypothesis HR : repr_ok R.
Variable M : marks.
Hypothesis HM : marks_ok R M.
Notation r := (radix R).
Notation w := (bw F).
Notation m := (fm f).
Notation val n e := (inject_Z n * rad R ^ e)%Q.
Variable limit_digits : Z.
Hypothesis Hld : 0 <= limit_digits.
Hypothesis Hdigits : 2 ^ all_bits f - 1 <= r ^ limit_digits.
Hypothesis Hroom : 2 ^ (m + 1) * r < 2 ^ Z.max (all_bits f) sw.

Lemma wide_digits : 2 ^ (m + 3) <= r ^ limit_digits.
Proof.
  assert (AA := A). destruct AA as (_ & Hw & Hsh & M17 & M4 & _).
  assert (2 ^ (m + 3) < 2 ^ all_bits f) by (apply Z.pow_lt_mono_r; lia). lia.
Qed.
Lemma room : 2 ^ (m + 1) * r < 2 ^ Z.max w sw.
Proof. assert (AA := A). destruct AA as (_ & Hw & _). rewrite Hw. exact Hroom. Qed.

Lemma threshold_reads j x o t e n' e' : 1 <= j -> r = 2 ^ j -> 0 < x < inf_bits f -> 0 < o < 2 ^ (m + 1) -> 0 <= t ->
  (val (o * 2 ^ t) e == fabs f x)%Q ->
  apply_threshold F f sw ew R limit_digits x (o * 2 ^ t) e = Ok (n', e') ->
  0 < n' /\ reads F f ew (val n' e') x.
Proof.
  intros Hj Hr C O T V X. pose proof (r2 HR) as H2. pose proof (afit A) as Fit. pose proof (m1 Fit) as M1.
  assert (T0 : 0 < 2 ^ t) by (apply zpow_pos; lia). assert (N : 0 < o * 2 ^ t) by (apply Z.mul_pos_pos; lia).
  pose proof wide_digits as WD. pose proof room as RM.
  unfold apply_threshold in X.
  assert (B : precision_base F * 2 = 2 ^ (m + 1)) by (rewrite (f_pbase Fit), (pm1 Fit); lia). rewrite B in X. clear B.
  pose proof (zpow_pos (x := m + 1) ltac:(lia)) as P0.
  rewrite (Z.mod_small (2 ^ (m + 1) * r)) in X by (split; [apply Z.mul_nonneg_nonneg; lia|exact RM]).
  destruct (ilog_spec HR (turns (o * 2 ^ t)) N) as [I0 I1]. set (L := ilog R (turns (o * 2 ^ t)) (o * 2 ^ t)) in *.
  assert (Cut : exists t1 e1, 0 <= t1 /\ (val (o * 2 ^ t1) e1 == fabs f x)%Q /\
    (if 0 <? L - limit_digits then (o * 2 ^ t / r ^ (L - limit_digits), e + (L - limit_digits)) else (o * 2 ^ t, e))
    = (o * 2 ^ t1, e1)).
  { destruct (Z.ltb_spec 0 (L - limit_digits)) as [D|D]; [|exists t, e; auto].
    set (k := L - limit_digits) in *.
    assert (RK : r ^ k = 2 ^ (j * k)) by (rewrite Hr, Z.pow_mul_r by lia; reflexivity).
    assert (LK : r ^ L = r ^ limit_digits * r ^ k) by (rewrite <- Z.pow_add_r by lia; f_equal; lia).
    assert (JK : 0 <= j * k) by (apply Z.mul_nonneg_nonneg; lia).
    assert (PK : 0 < 2 ^ (j * k)) by (apply zpow_pos; lia).
    assert (M3 : 2 ^ (m + 1) <= 2 ^ (m + 3)) by (apply Z.pow_le_mono_r; lia).
    assert (K : j * k <= t).
    { apply (@power_factor o t (j * k) (m + 1)); auto; [lia|]. rewrite <- RK.
      apply Z.le_trans with (r ^ limit_digits * r ^ k); [apply Z.mul_le_mono_nonneg_r; lia|lia]. }
    destruct (@div_power o t (j * k) ltac:(lia)) as [D1 _]. rewrite RK, D1.
    exists (t - j * k), (e + k). refine (conj _ (conj _ eq_refl)); [lia|].
    rewrite <- V, (rad_pow_add HR), <- (@pow_inject R k ltac:(lia)), RK.
    transitivity (inject_Z (o * 2 ^ (t - j * k) * 2 ^ (j * k)) * rad R ^ e)%Q; [rewrite (inject_Z_mult (o * 2 ^ (t - j * k)) (2 ^ (j * k))); ring|].
    rewrite <- Z.mul_assoc, <- Z.pow_add_r by lia. replace (t - j * k + j * k) with t by lia. reflexivity. }
  destruct Cut as (t1 & e1 & T1 & V1 & Cut). rewrite Cut in X. clear Cut.
  destruct (round_to R (turns (o * 2 ^ t1)) (2 ^ (m + 1) * r) (o * 2 ^ t1) e1) as [[n2 e2]| |] eqn:RT; try discriminate.
  destruct (@round_to_exact R HR j Hj Hr (m + 1) _ ltac:(lia) _ _ _ _ _ O T1 RT) as (t2 & T2 & E2 & V2).
  assert (0 < 2 ^ t2) by (apply zpow_pos; lia). assert (N2 : 0 < n2) by (rewrite E2; apply Z.mul_pos_pos; lia).
  assert (S2 : reads F f ew (val n2 e2) x).
  { apply (@reads_eq F f ew (fabs f x)); [rewrite V2; symmetry; exact V1|]. exact (exact_reads G Hew C). }
  destruct (Z.ltb_spec (2 ^ (m + 1)) n2) as [Big|Big]; [|injection X as <- <-; auto].
  destruct (radix_pow_ratio HR e2) as (PP1 & PP2 & PP3).
  refine (@shorten_reads F f G ew Hew R HR (turns n2) x ltac:(lia) n2 e2 _ _ n2 e2 n' e' N2 N2 PP1 PP2 PP3 _ S2
    (power_even Hj Hr) X). reflexivity.
Qed.

Lemma builder_reads j x o t e s : 1 <= j -> r = 2 ^ j -> 0 < x < inf_bits f -> 0 < o < 2 ^ (m + 1) -> 0 <= t ->
  (val (o * 2 ^ t) e == fabs f x)%Q ->
  float_builder F f sw ew R M limit_digits x (o * 2 ^ t) e = Ok s ->
  parse_float F f ew R M s = Got x /\ parse_ufloat F f ew R M s = Got x.
Proof.
  intros Hj Hr C O T V X. unfold float_builder in X.
  destruct (apply_threshold F f sw ew R limit_digits x (o * 2 ^ t) e) as [[n' e']| |] eqn:TH; try discriminate.
  injection X as <-. destruct (threshold_reads Hj Hr C O T V TH) as [N' Rd].
  apply (@reads_read F f ew R HR M HM _ (val n' e')).
  - exact (proj1 (builder_denotes HR HM e' N')).
  - apply Qmult_lt_0_compat; [apply inj_pos; exact N'|apply (rad_pow_pos HR)].
  - exact Rd.
Qed.

Theorem parts_reads j x s : 1 <= j -> r = 2 ^ j -> 0 < x < inf_bits f ->
  print_parts F f sw ew R M limit_digits x = Ok s ->
  parse_float F f ew R M s = Got x /\ parse_ufloat F f ew R M s = Got x.
Proof.
  intros Hj Hr C X. pose proof (afit A) as Fit. pose proof (power_even Hj Hr) as Ev. pose proof (power_half Hj Hr) as Hh.
  destruct (@finite_nonneg F f Fit x ltac:(lia)) as [Fin _].
  pose proof (decompose_exact Fit Fin) as DE. pose proof (precision_range Fit x) as PR.
  unfold print_parts in X. rewrite Ev in X. cbn [Z.eqb] in X.
  set (p := get_precision F x) in *. set (e := get_exponent F x) in *.
  assert (P0 : 0 < p).
  { destruct (Z.eq_dec p 0) as [Z0|]; [|lia]. exfalso. pose proof (fabs_positive A C) as FP.
    rewrite DE, Z0 in FP. unfold scaled in FP. change (inject_Z 0) with 0%Q in FP. pose proof (pow2_pos (tiny f)). lra. }
  destruct (Z.ltb_spec e 0) as [C1|C1].
  - assert (HP : (r / 2) ^ (- e) = 2 ^ ((j - 1) * (- e))) by (rewrite Hh, Z.pow_mul_r by lia; reflexivity).
    assert (J0 : 0 <= (j - 1) * - e) by (apply Z.mul_nonneg_nonneg; lia).
    rewrite HP in X. refine (@builder_reads j x p _ e s Hj Hr C _ J0 _ X); [lia|].
    rewrite DE, scaled_pow2, inject_Z_mult, <- pow2_Z by exact J0.
    assert (RE : (rad R ^ e == pow2 (j * e))%Q).
    { unfold rad. rewrite Hr. rewrite <- pow2_Z by lia. unfold pow2. rewrite <- Qpower_mult. reflexivity. }
    rewrite RE, <- Qmult_assoc, <- pow2_add. replace ((j - 1) * - e + j * e) with e by ring. reflexivity.
  - destruct (Z.ltb_spec 0 e) as [C2|C2].
    + destruct (pull R (Z.to_nat e) p 0) as [[n more] ne] eqn:PU.
      destruct (pull_spec F f sw Hew HR Ev Hld P0 PU) as (N0 & V & _).
      refine (@builder_reads j x n _ ne s Hj Hr C _ _ _ X); [lia|lia|].
      rewrite <- V. rewrite DE, scaled_pow2. rewrite Z2Nat.id by lia. rewrite inject_Z_mult, (@pow2_Z e) by lia.
      change (rad R ^ 0)%Q with 1%Q. ring.
    + assert (e = 0) as E0 by lia. replace p with (p * 2 ^ 0) in X by (rewrite Z.pow_0_r; lia).
      refine (@builder_reads j x p 0 e s Hj Hr C _ _ _ X); [lia|lia|].
      rewrite Z.pow_0_r, Z.mul_1_r. rewrite DE, E0, scaled_0. change (rad R ^ 0)%Q with 1%Q. ring.
Qed.

(** *** The guess of a fraction *)
Lemma with_exp_plain n : 0 < n -> ~ (r ^ 3 | n) ->
  all_digits R (to_string_with_exp R M n) = true /\ text_val R (to_string_with_exp R M n) = n.
Proof.
  intros N D3. pose proof (r2 HR) as H2. unfold to_string_with_exp, string_builder.
  assert (B : 0 < n < 2 ^ Z.of_nat (turns n)) by (split; [exact N|apply log2_turns; lia]).
  pose proof (strip_spec HR 0 B) as S. destruct (strip R (turns n) n 0) as [n' e'].
  destruct S as (N' & E' & V & _). rewrite Z.sub_0_r in V.
  assert (E3 : e' < 3).
  { destruct (Z.lt_ge_cases e' 3) as [|C]; [assumption|exfalso]. apply D3. exists (n' * r ^ (e' - 3)).
    rewrite <- Z.mul_assoc, <- Z.pow_add_r by lia. replace (e' - 3 + 3) with e' by lia. exact V. }
  destruct (@utext_digits R HR n' ltac:(lia)) as (U1 & U2 & _).
  unfold build. destruct (Z.ltb_spec e' 0); [lia|].
  destruct (Z.ltb_spec 0 e') as [C|C].
  - unfold build_up. destruct (Z.eqb_spec e' 0); [lia|].
    destruct (@utext_digits R HR e' ltac:(lia)) as (_ & _ & X3).
    assert (1 <= Z.of_nat (length (utext R e'))) by (destruct (utext R e'); [congruence|cbn [length]; lia]).
    destruct (Z.ltb_spec (Z.of_nat (length (utext R e')) + 1) e'); [lia|].
    rewrite all_digits_app, U1, (zeros_digits HR). split; [reflexivity|].
    rewrite text_val_app, U2, (zeros_val HR), repeat_length, Z2Nat.id, Z.add_0_r by lia. now symmetry.
  - split; [exact U1|]. rewrite U2. replace e' with 0 in V by lia. rewrite Z.pow_0_r in V. lia.
Qed.

Lemma with_exp_denotes n : 0 < n -> denotes R M (to_string_with_exp R M n) (inject_Z n).
Proof.
  intros N. destruct (builder_denotes HR HM 0 N) as [(v & D & E) _]. exists v. split; [exact D|]. rewrite E.
  change (rad R ^ 0)%Q with 1%Q. ring.
Qed.

Lemma divide_none fuel d i : ~ (i | d) -> 0 < i -> divide_out fuel d i = (d, 0).
Proof.
  intros D I. destruct fuel; [reflexivity|]. cbn [divide_out].
  destruct (Z.eqb_spec (d mod i) 0) as [E|E]; [|now rewrite andb_false_r].
  exfalso. apply D. apply Z.mod_divide; [lia|exact E].
Qed.
Lemma complement_out table q : Forall (fun i => 1 < i /\ (i | r)) table -> factors_out r q -> forall e,
  complement R table q e = (q, 1, e).
Proof.
  intros T O. induction T as [|i table [I1 I2] T IH]; intros e; cbn [complement]; [reflexivity|].
  rewrite divide_none; [|intros D|lia].
  - rewrite IH, Z.sub_0_r. now rewrite Z.pow_0_r.
  - destruct (prime_divisor I1) as (p & P & PI). apply (O p P).
    + exact (Z.divide_trans _ _ _ PI D).
    + exact (Z.divide_trans _ _ _ PI I2).
Qed.
Hypothesis HT : table_ok R M.
Lemma complement_in q : 0 < q -> factors_in r q -> forall e d c e', complement R (m_primes M) q e = (d, c, e') -> d = 1.
Proof.
  intros Q I e d c e' X. destruct HT as [T1 T2]. pose proof (complement_spec HR T1 e Q) as S. rewrite X in S.
  destruct S as (D0 & _ & _ & DQ & _ & FA). destruct (Z.eq_dec d 1) as [|N]; [assumption|exfalso].
  destruct (@prime_divisor d ltac:(lia)) as (p & P & PD).
  pose proof (T2 p P (I p P (Z.divide_trans _ _ _ PD DQ))) as In1.
  rewrite Forall_forall in FA. exact (FA p In1 PD).
Qed.

Hypothesis Hsw : 64 <= sw.

(** What the guess gives. *)
Lemma guess_spec x p q : 0 < x < inf_bits f -> to_divide f sw (fabs f x) = Some (Some (p, q)) ->
  (q = 1 /\ exists n, 0 < n /\ p = inject_Z n /\ (fabs f x == inject_Z n)%Q) \/
  (exists n, (p == inject_Z n)%Q /\ short_fraction f x n q).
Proof.
  intros C X. pose proof (afit A) as Fit. assert (AA := A). destruct AA as (_ & Hw & _ & M17 & _ & BL & _).
  pose proof (fabs_positive A C) as FP. pose proof (pow2_pos (tiny f)) as TP.
  unfold to_divide in X. pose proof (frac_range (fabs f x)) as Fr.
  destruct (Qeq_bool (fabs f x - inject_Z (Qfloor (fabs f x))) 0) eqn:Q.
  - apply Qeq_bool_eq in Q. injection X as <- <-. left. split; [reflexivity|]. exists (Qfloor (fabs f x)).
    assert (E : (fabs f x == inject_Z (Qfloor (fabs f x)))%Q) by lra.
    refine (conj _ (conj eq_refl E)). rewrite Zlt_Qlt. rewrite <- E. change (inject_Z 0) with 0%Q. lra.
  - apply Qeq_bool_neq in Q. right.
    assert (F0 : 0 <= Qfloor (fabs f x)).
    { assert (Z0 : (0 <= fabs f x)%Q) by lra. apply Qfloor_resp_le in Z0. exact Z0. }
    apply (try_success Fit BL M17) in X; [|exact F0|lra|lra|lia|reflexivity || lia].
    destruct X as (I0 & k & K & Ep & Q17 & Gcd & R1). exists k. split; [exact Ep|].
    rewrite I0 in R1, Fr. change (inject_Z 0) with 0%Q in R1, Fr.
    assert (R' : (fabs f (rn f (ratio k q)) == fabs f x)%Q).
    { unfold rv in R1. unfold ratio. rewrite R1. ring. }
    assert (Q0 : (1 <= inject_Z q)%Q) by (change 1%Q with (inject_Z 1); rewrite <- Zle_Qle; lia).
    assert (K0 : (1 <= inject_Z k)%Q) by (change 1%Q with (inject_Z 1); rewrite <- Zle_Qle; lia).
    assert (Rp : (0 <= ratio k q)%Q) by (unfold ratio; apply Qle_shift_div_l; lra).
    assert (Q2 : q <> 1).
    { intros ->. assert (L : (inject_Z 1 <= rv f (ratio k 1))%Q).
      { apply (rv_lower_int Fit BL).
        - split; [lia|]. apply Z.lt_le_trans with (2 ^ 1); [lia|]. apply Z.pow_le_mono_r; lia.
        - unfold ratio. apply Qle_shift_div_l; [change (inject_Z 1) with 1%Q; lra|]. change (inject_Z 1) with 1%Q. lra. }
      unfold rv in L. rewrite R' in L. change (inject_Z 1) with 1%Q in L. lra. }
    apply (fabs_inj Fit) in R'; [|exact (rn_range Fit Rp)|lia].
    refine (conj _ (conj _ (conj _ (conj Gcd _)))); [lra|lia|lia|].
    rewrite <- R'. apply (rn_nearest Fit Rp). rewrite R'. lia.
Qed.

Lemma max_size_large : (127 <= max_size f sw)%Q.
Proof.
  pose proof (afit A) as Fit. assert (AA := A). destruct AA as (_ & Hw & _ & M17 & _ & BL & _).
  unfold max_size. change 127%Q with (inject_Z 127). apply (rv_lower_int Fit BL).
  - split; [lia|]. apply Z.lt_le_trans with (2 ^ 17); [reflexivity|]. apply Z.pow_le_mono_r; lia.
  - rewrite <- Zle_Qle. assert (2 ^ 64 <= 2 ^ sw) by (apply Z.pow_le_mono_r; lia). lia.
Qed.

Lemma base_cases x s : 0 < x < inf_bits f -> plain_guess f r x ->
  print_float_base F f sw ew R M limit_digits x = Ok s ->
  print_parts F f sw ew R M limit_digits x = Ok s \/
  (exists n, 0 < n /\ (fabs f x == inject_Z n)%Q /\ s = to_string_with_exp R M n) \/
  (exists n q, short_fraction f x n q /\ ~ factors_in r q /\ ~ (r ^ 3 | n) /\
     s = to_string_with_exp R M n ++ m_slash M :: utext R q).
Proof.
  intros C PG X. unfold print_float_base in X.
  destruct (to_divide f sw (fabs f x)) as [[[p q]|]|] eqn:T; [|auto|discriminate].
  destruct (guess_spec C T) as [(-> & n & N & -> & E)|(n & E & SF)].
  - cbn [Z.eqb negb] in X. destruct (Qle_bool (inject_Z n) (max_size f sw)); [|auto].
    unfold to_size_t in X. rewrite Qfloor_Z in X. destruct (n <? 2 ^ sw); [|discriminate].
    injection X as <-. right. left. exists n. auto.
  - assert (SF' := SF). destruct SF' as (_ & N1 & Q1 & _).
    destruct (Z.eqb_spec q 1) as [|_]; [lia|]. cbn [negb] in X.
    destruct (complement R (m_primes M) q 0) as [[rest c] e'] eqn:CO.
    destruct (Z.eqb_spec rest 1) as [R1|R1]; cbn [negb] in X; [auto|].
    assert (NF : ~ factors_in r q).
    { intros FI. apply R1. refine (complement_in _ FI CO). lia. }
    destruct (PG n q SF) as [FI|[FO D3]]; [destruct (NF FI)|].
    rewrite (complement_out (proj1 HT) FO) in CO. injection CO as <- <- <-.
    unfold print_integer in X. pose proof max_size_large as ML.
    assert (PL : Qle_bool p (max_size f sw) = true).
    { apply Qle_bool_iff. rewrite E. apply Qle_trans with 127%Q; [|exact ML]. change 127%Q with (inject_Z 127).
      rewrite <- Zle_Qle. lia. }
    rewrite PL in X. unfold to_size_t in X.
    assert (FL : Qfloor p = n) by (rewrite (Qfloor_comp _ _ E); apply Qfloor_Z). rewrite FL in X.
    assert (2 ^ 64 <= 2 ^ sw) by (apply Z.pow_le_mono_r; lia).
    destruct (Z.ltb_spec n (2 ^ sw)); [|lia]. rewrite Z.mul_1_r in X. injection X as <-.
    right. right. exists n, q. auto.
Qed.

Lemma ratio_range n q : 1 <= n <= 127 -> 2 <= q <= 2 ^ 17 -> (pow2 (-17) <= ratio n q)%Q /\ (ratio n q < pow2 7)%Q.
Proof.
  intros N Q. assert (Q0 : (0 < inject_Z q)%Q) by (apply inj_pos; lia). unfold ratio. split.
  - apply Qle_shift_div_l; [exact Q0|].
    assert (Q1 : (inject_Z q <= pow2 17)%Q) by (rewrite pow2_Z by lia; rewrite <- Zle_Qle; lia).
    assert (N1 : (1 <= inject_Z n)%Q) by (change 1%Q with (inject_Z 1); rewrite <- Zle_Qle; lia).
    assert (E : (pow2 (-17) * pow2 17 == 1)%Q) by reflexivity.
    assert (L : (inject_Z q * pow2 (-17) <= pow2 17 * pow2 (-17))%Q) by (apply Qmult_le_compat_r; [exact Q1|apply Qlt_le_weak, pow2_pos]).
    lra.
  - apply Qlt_shift_div_r; [exact Q0|].
    assert (Q1 : (2 <= inject_Z q)%Q) by (change 2%Q with (inject_Z 2); rewrite <- Zle_Qle; lia).
    assert (N1 : (inject_Z n <= 127)%Q) by (change 127%Q with (inject_Z 127); rewrite <- Zle_Qle; lia).
    change (pow2 7) with 128%Q. lra.
Qed.

Lemma nearest_faithful v x : 0 < x < inf_bits f -> (v < pow2 (bias f + 1))%Q -> nearest f v x -> faithful f v x.
Proof.
  intros C VB (_ & NR). pose proof (afit A) as Fit.
  refine (conj _ (conj _ _)); [lia| |].
  - right. apply Qnot_le_lt. intros L. pose proof (NR (x - 1) ltac:(lia)) as H.
    assert (LT : (fabs f (x - 1) < fabs f x)%Q) by (apply (fabs_lt Fit); lia).
    rewrite !Qabs_pos in H by lra. lra.
  - apply Qnot_le_lt. intros L.
    assert (LT : (fabs f x < fabs f (x + 1))%Q) by (apply (fabs_lt Fit); lia).
    destruct (Z.eq_dec (x + 1) (inf_bits f)) as [E|E].
    + rewrite E, (fabs_inf Fit) in L. lra.
    + pose proof (NR (x + 1) ltac:(lia)) as H.
      rewrite (Qabs_Qminus (fabs f x)), (Qabs_Qminus (fabs f (x + 1))) in H.
      rewrite !Qabs_pos in H by lra. lra.
Qed.

Lemma short_stands x n q : 0 < x < inf_bits f -> short_fraction f x n q -> stands F f (ratio n q) x /\ (pow2 (-65) <= ratio n q)%Q.
Proof.
  intros C (_ & N & Q & _ & NR). destruct (ratio_range N Q) as [R1 R2]. pose proof (bias_127 G) as B.
  assert (AA := A). destruct AA as (_ & Hw & _ & M17 & M4 & BL & _).
  assert (R3 : (ratio n q < pow2 (bias f + 1))%Q) by (eapply Qlt_le_trans; [exact R2|apply pow2_le; lia]).
  split; [refine (conj (nearest_faithful C R3 NR) (conj _ R3))|]; (eapply Qle_trans; [|exact R1]); apply pow2_le; lia.
Qed.

(** What is printed is above 2^-64. *)
Lemma printed_range x s : 0 < x < inf_bits f -> sw = 64 ->
  print_float_base F f sw ew R M limit_digits x = Ok s -> (pow2 (-64) < fabs f x)%Q.
Proof.
  intros C S64 X. apply Qnot_le_lt. intros L. unfold print_float_base in X.
  pose proof (afit A) as Fit. assert (AA := A). destruct AA as (_ & Hw & _ & M17 & M4 & BL & B64 & _).
  pose proof (fabs_positive A C) as FP. pose proof (pow2_pos (tiny f)) as TP.
  assert (L1 : (pow2 (-64) < 1)%Q) by reflexivity.
  assert (FL : Qfloor (fabs f x) = 0).
  { apply floor_between; [change (inject_Z 0) with 0%Q; lra|change (inject_Z (0 + 1)) with 1%Q; lra]. }
  unfold to_divide in X. rewrite FL in X.
  destruct (Qeq_bool (fabs f x - inject_Z 0) 0) eqn:Q.
  { apply Qeq_bool_eq in Q. change (inject_Z 0) with 0%Q in Q. lra. }
  rewrite (try_undefined Fit BL M17) in X; [discriminate|lia| |].
  - change (inject_Z 0) with 0%Q. lra.
  - rewrite S64. change (inject_Z 0) with 0%Q. change (- (64)) with (-64). lra.
Qed.
(** The text of a positive number. *)
Theorem base_faithful x s : r mod 2 = 0 -> sw = 64 -> 0 < x < inf_bits f -> plain_guess f r x ->
  print_float_base F f sw ew R M limit_digits x = Ok s ->
  exists v, denotes R M s v /\ stands F f v x /\ (pow2 (-65) <= v)%Q.
Proof.
  intros Hr S64 C PG X. pose proof (printed_range C S64 X) as L.
  destruct (base_cases C PG X) as [P|[(n & N & E & ->)|(n & q & SF & _ & D3 & ->)]].
  - destruct (parts_faithful A Hew HR HM Hr Hld wide_digits room C P) as (v & D & St).
    exists v. refine (conj D (conj St _)). exact (stands_large G C L St).
  - exists (inject_Z n). assert (St : stands F f (inject_Z n) x).
    { apply (@stands_eq F f (fabs f x)); [exact E|].
      refine (@close_stands F f A sw R limit_digits x (fabs f x) C _).
      setoid_replace (fabs f x - fabs f x)%Q with 0%Q by ring. change (Qabs 0) with 0%Q.
      pose proof (pow2_pos (-64)). lra. }
    refine (conj (with_exp_denotes N) (conj St (stands_large G C L St))).
  - assert (SF' := SF). destruct SF' as (_ & N1 & Q1 & _). exists (ratio n q).
    destruct (short_stands C SF) as [St St2]. refine (conj _ (conj St St2)).
    destruct (@with_exp_plain n ltac:(lia) D3) as [W1 W2]. destruct (@utext_digits R HR q ltac:(lia)) as (U1 & U2 & _).
    exists (inject_Z n / inject_Z q)%Q. split; [|reflexivity]. apply NT_ratio.
    pose proof (PT_int M W1) as T1. rewrite W2 in T1. pose proof (PT_int M U1) as T2. rewrite U2 in T2.
    apply RT_over; [exact T1|apply RT_plain; exact T2|]. apply inject_pos. lia.
Qed.

Theorem base_near x s : r mod 2 = 0 -> sw = 64 -> 0 < x < inf_bits f -> plain_guess f r x ->
  print_float_base F f sw ew R M limit_digits x = Ok s ->
  exists y, parse_float F f ew R M s = Got y /\ parse_ufloat F f ew R M s = Got y /\ 0 <= y < inf_bits f /\
    (next_to y x \/ y = 0 /\ exists v, denotes R M s v /\ just_below_power (all_bits f) v).
Proof.
  intros Hr S64 C PG X. destruct (base_faithful Hr S64 C PG X) as (v & D & St & V).
  destruct (@stands_read F f G ew Hew R HR M HM s v x D ltac:(lia) St V) as (y & P & PU & Y & H).
  exists y. refine (conj P (conj PU (conj Y _))). destruct H as [H|[Y0 J]]; [auto|]. right. split; [exact Y0|]. exists v. auto.
Qed.

Theorem base_power j x s : 1 <= j -> r = 2 ^ j -> 0 < x < inf_bits f -> no_guess f r x ->
  print_float_base F f sw ew R M limit_digits x = Ok s ->
  parse_float F f ew R M s = Got x /\ parse_ufloat F f ew R M s = Got x.
Proof.
  intros Hj Hr C NG X.
  assert (PG : plain_guess f r x) by (intros n q SF; left; exact (NG n q SF)).
  destruct (base_cases C PG X) as [P|[(n & N & E & ->)|(n & q & SF & NF & _)]].
  - exact (parts_reads Hj Hr C P).
  - apply (@reads_read F f ew R HR M HM _ (inject_Z n) x (with_exp_denotes N)); [apply inj_pos; exact N|].
    apply (@reads_eq F f ew (fabs f x)); [exact E|]. exact (exact_reads G Hew C).
  - destruct (NF (NG n q SF)).
Qed.

(** *** Signs *)
Lemma data_cases d : finite f d -> let x := clear_sign f d in
  0 <= x < inf_bits f /\ isInf f d = false /\
  (d = x /\ is_negative f d = false \/
   d = x + 2 ^ (all_bits f - 1) /\ is_negative f d = negb (x =? 0)).
Proof.
  intros Hf x. pose proof (afit A) as Fit. pose proof (clear_sign_range Fit Hf) as Rx. fold x in Rx.
  destruct (finite_not_special Hf) as [N I]. refine (conj Rx (conj I _)).
  destruct Hf as [[D0 D1] _]. pose proof (f_m Fit). pose proof (f_e Fit).
  assert (W : all_bits f = all_bits f - 1 + 1) by lia. unfold is_negative. rewrite N. cbn [negb]. rewrite andb_true_r.
  assert (P : 2 ^ all_bits f = 2 * 2 ^ (all_bits f - 1)).
  { rewrite W at 1. rewrite Z.pow_add_r by (unfold all_bits; lia). lia. }
  assert (P0 : 0 < 2 ^ (all_bits f - 1)) by (apply zpow_pos; unfold all_bits; lia).
  fold x. destruct (Z.leb_spec (2 ^ (all_bits f - 1)) d) as [C|C].
  - right. split; [|reflexivity]. unfold x, clear_sign.
    assert (E : d mod 2 ^ (all_bits f - 1) = d - 2 ^ (all_bits f - 1)).
    { symmetry. apply Z.mod_unique with 1; lia. } lia.
  - left. split; [|reflexivity]. unfold x, clear_sign. symmetry. apply Z.mod_small. lia.
Qed.

Lemma small_clear y : 0 <= y < inf_bits f -> clear_sign f y = y.
Proof. intros Y. exact (proj2 (finite_nonneg (afit A) Y)). Qed.

Theorem near_round_trip d s : r mod 2 = 0 -> sw = 64 -> finite f d -> clear_sign f d <> 0 ->
  plain_guess f r (clear_sign f d) ->
  print_float F f sw ew R M limit_digits d = Ok s ->
  exists y, parse_float F f ew R M s = Got y /\
    (next_to y d \/
     clear_sign f y = 0 /\ exists t v, (t = s \/ m_minus M :: t = s) /\ denotes R M t v /\ just_below_power (all_bits f) v).
Proof.
  intros Hr S64 Hf NZ PG X. destruct (data_cases Hf) as (Rx & I & Cs). cbv zeta in Rx, Cs. set (x := clear_sign f d) in *.
  unfold print_float in X. rewrite I in X. fold x in X.
  destruct Cs as [[E Neg]|[E Neg]]; rewrite Neg in X.
  - destruct (@base_near x s Hr S64 ltac:(lia) PG X) as (y & P & _ & Y & H). exists y. split; [exact P|].
    rewrite E. destruct H as [H|[Y0 (v & D & J)]]; [auto|right]. split; [rewrite Y0; apply small_clear; lia|].
    exists s, v. auto.
  - destruct (Z.eqb_spec x 0) as [|_]; [contradiction|]. cbn [negb] in X.
    destruct (print_float_base F f sw ew R M limit_digits x) as [t| |] eqn:B; try discriminate. injection X as <-.
    destruct (@base_near x t Hr S64 ltac:(lia) PG B) as (y & _ & PU & Y & H).
    destruct (reading_sign HM PU) as [P _]. rewrite (small_clear Y) in P.
    exists (y + 2 ^ (all_bits f - 1)). split; [exact P|]. rewrite E.
    destruct H as [H|[Y0 (v & D & J)]]; [left; unfold next_to in *; lia|right]. split.
    + rewrite Y0. unfold clear_sign. rewrite Z.add_0_l. apply Z_mod_same_full.
    + exists t, v. auto.
Qed.

Theorem power_round_trip j d s : 1 <= j -> r = 2 ^ j -> finite f d -> clear_sign f d <> 0 ->
  no_guess f r (clear_sign f d) ->
  print_float F f sw ew R M limit_digits d = Ok s -> parse_float F f ew R M s = Got d.
Proof.
  intros Hj Hr Hf NZ NG X. destruct (data_cases Hf) as (Rx & I & Cs). cbv zeta in Rx, Cs. set (x := clear_sign f d) in *.
  unfold print_float in X. rewrite I in X. fold x in X.
  destruct Cs as [[E Neg]|[E Neg]]; rewrite Neg in X.
  - rewrite E. exact (proj1 (@base_power j x s Hj Hr ltac:(lia) NG X)).
  - destruct (Z.eqb_spec x 0) as [|_]; [contradiction|]. cbn [negb] in X.
    destruct (print_float_base F f sw ew R M limit_digits x) as [t| |] eqn:B; try discriminate. injection X as <-.
    destruct (@base_power j x t Hj Hr ltac:(lia) NG B) as [_ PU].
    destruct (reading_sign HM PU) as [P _]. rewrite (small_clear Rx) in P. rewrite P, E. reflexivity.
Qed.

(** The value a text says, with the sign. *)
Theorem text_close d s : r mod 2 = 0 -> sw = 64 -> finite f d -> clear_sign f d <> 0 ->
  plain_guess f r (clear_sign f d) ->
  print_float F f sw ew R M limit_digits d = Ok s ->
  exists t v, s = (if 2 ^ (all_bits f - 1) <=? d then m_minus M :: t else t) /\
    denotes R M t v /\ faithful f v (clear_sign f d).
Proof.
  intros Hr S64 Hf NZ PG X. destruct (data_cases Hf) as (Rx & I & Cs). cbv zeta in Rx, Cs. set (x := clear_sign f d) in *.
  assert (P0 : 2 ^ (all_bits f - 1) <=? d = negb (d =? x)).
  { pose proof (zpow_pos (x := all_bits f - 1)) as P0. pose proof (f_m (afit A)). pose proof (f_e (afit A)).
    assert (P1 : 0 < 2 ^ (all_bits f - 1)) by (apply P0; unfold all_bits; lia).
    assert (x < 2 ^ (all_bits f - 1)) by (unfold x, clear_sign; apply Z.mod_pos_bound; exact P1).
    destruct Cs as [[E _]|[E _]]; destruct (Z.leb_spec (2 ^ (all_bits f - 1)) d); destruct (Z.eqb_spec d x); try reflexivity; lia. }
  unfold print_float in X. rewrite I in X. fold x in X. rewrite P0.
  destruct Cs as [[E Neg]|[E Neg]]; rewrite Neg in X.
  - destruct (@base_faithful x s Hr S64 ltac:(lia) PG X) as (v & D & (Fa & _) & _). exists s, v.
    rewrite <- E, Z.eqb_refl. cbn [negb]. rewrite E. auto.
  - destruct (Z.eqb_spec x 0) as [|_]; [contradiction|]. cbn [negb] in X.
    destruct (print_float_base F f sw ew R M limit_digits x) as [t| |] eqn:B; try discriminate. injection X as <-.
    destruct (@base_faithful x t Hr S64 ltac:(lia) PG B) as (v & D & (Fa & _) & _). exists t, v.
    destruct (Z.eqb_spec d x) as [C|_]; [|auto].
    pose proof (f_m (afit A)). pose proof (f_e (afit A)).
    assert (0 < 2 ^ (all_bits f - 1)) by (apply zpow_pos; unfold all_bits; lia). lia.
Qed.

(** Zero and infinity. *)
Theorem zero_text d : finite f d -> clear_sign f d = 0 ->
  print_float F f sw ew R M limit_digits d = Ok (utext R 0) /\ parse_float F f ew R M (utext R 0) = Got 0.
Proof.
  intros Hf Z0. destruct (data_cases Hf) as (Rx & I & Cs). cbv zeta in Rx, Cs. rewrite Z0 in *. pose proof (afit A) as Fit.
  assert (AA := A). destruct AA as (_ & Hw & Hsh & M17 & M4 & BL & B64 & _). split.
  - assert (Neg : is_negative f d = false) by (destruct Cs as [[_ H]|[_ H]]; exact H).
    unfold print_float. rewrite I, Neg, Z0. unfold print_float_base, to_divide.
    assert (F0 : (fabs f 0 == 0)%Q) by apply (fabs_0 Fit).
    assert (FL : Qfloor (fabs f 0) = 0).
    { rewrite (Qfloor_comp _ _ F0). reflexivity. }
    rewrite FL.
    assert (Q : Qeq_bool (fabs f 0 - inject_Z 0) 0 = true).
    { apply Qeq_eq_bool. rewrite F0. reflexivity. }
    rewrite Q. cbn [Z.eqb negb Pos.eqb].
    assert (ML : Qle_bool (inject_Z 0) (max_size f sw) = true).
    { apply Qle_bool_iff. eapply Qle_trans; [|exact max_size_large]. discriminate. }
    rewrite ML. unfold to_size_t. change (Qfloor (inject_Z 0)) with 0.
    pose proof (zpow_pos (x := sw) ltac:(lia)). destruct (Z.ltb_spec 0 (2 ^ sw)); [|lia]. reflexivity.
  - destruct (@utext_digits R HR 0 ltac:(lia)) as (U1 & U2 & U3).
    assert (N : number_text R M (utext R 0) (inject_Z (text_val R (utext R 0)))).
    { apply NT_ratio, RT_plain, (PT_int M U1). }
    rewrite (number_no_sign F f ew HM N U3).
    unfold parse_ufloat. destruct (not_special HM (number_text_shape N)) as [_ NI]. rewrite NI.
    rewrite parse_int; [|apply (mark_not_in HM (in_exp M) U1)|apply (mark_not_in HM (in_slash M) U1)|apply (mark_not_in HM (in_point M) U1)].
    rewrite uparse0, U1, U2. cbn [rbind fst snd]. unfold convert_to_float. cbn [Z.eqb]. change (tz 0) with 0. change (tz 1) with 0.
    change (Z.shiftr 0 0) with 0. change (Z.shiftr 1 0) with 1.
    unfold enough. cbn [scale]. rewrite Zmod_0_l, Zdiv_0_l. cbn [Z.eqb negb andb].
    change (tz 0) with 0. change (Z.shiftr 0 0) with 0. change (bitnum 0) with 0.
    destruct (Z.ltb_spec 0 (0 - w)); [lia|]. rewrite Zmod_0_l.
    change (0 - 0 + 0) with 0. pose proof (ew_room A Hew).
    rewrite wrap_range by lia. rewrite (make_float_zero Fit) by lia. reflexivity.
Qed.
End Whole.
