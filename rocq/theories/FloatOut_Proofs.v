(** Proofs about the conversion of fractions to floating-point numbers. *)
From Verif Require Import Base Float_Model Float_Spec Float_Proofs Ref_Model FloatBig_Model FloatBig_Spec FloatBig_Proofs.
From Coq Require Import QArith Qpower Qround Qabs Lia Lqa.
Local Open Scope Z_scope.

Lemma pow2_scaled e : (pow2 e == scaled 1 e)%Q.
Proof. unfold scaled. fold (pow2 e). change (inject_Z 1) with 1%Q. ring. Qed.
Lemma pow2_shift k e : 0 <= k -> (pow2 (k + e) == scaled (2 ^ k) e)%Q.
Proof. intros K. rewrite <- (Z.mul_1_l (2 ^ k)), scaled_shift by exact K. apply pow2_scaled. Qed.
Lemma pow2_lt a b : a < b -> (pow2 a < pow2 b)%Q.
Proof.
  intros L. replace b with (b - a + a) by lia. rewrite pow2_shift by lia. rewrite pow2_scaled.
  apply scaled_lt. change 1 with (2 ^ 0). apply Z.pow_lt_mono_r; lia.
Qed.
Lemma pow2_le a b : a <= b -> (pow2 a <= pow2 b)%Q.
Proof.
  intros L. destruct (Z.eq_dec a b) as [->|N]; [apply Qle_refl|]. apply Qlt_le_weak, pow2_lt. lia.
Qed.
Lemma pow2_lt_inv a b : (pow2 a < pow2 b)%Q -> a < b.
Proof.
  intros L. destruct (Z.lt_ge_cases a b) as [C|C]; [exact C|].
  exfalso. apply (Qlt_not_le _ _ L). apply pow2_le. lia.
Qed.
Lemma pow2_le_inv a b : (pow2 a <= pow2 b)%Q -> a <= b.
Proof.
  intros L. destruct (Z.le_gt_cases a b) as [C|C]; [exact C|].
  exfalso. apply (Qle_not_lt _ _ L). apply pow2_lt. lia.
Qed.

(** The position of the first digit of n*2^e. *)
Lemma scaled_log n e : 0 < n -> (pow2 (e + Z.log2 n) <= scaled n e)%Q /\ (scaled (n + 1) e <= pow2 (e + Z.log2 n + 1))%Q.
Proof.
  intros Hn. pose proof (Z.log2_spec n Hn) as [L1 L2]. pose proof (Z.log2_nonneg n).
  replace (e + Z.log2 n + 1) with (Z.succ (Z.log2 n) + e) by lia. rewrite (Z.add_comm e).
  rewrite !pow2_shift by lia. split; apply scaled_le; lia.
Qed.
Lemma scaled_log_lt n e : 0 < n -> (scaled n e < pow2 (e + Z.log2 n + 1))%Q.
Proof.
  intros Hn. eapply Qlt_le_trans; [|exact (proj2 (@scaled_log n e Hn))]. apply scaled_lt. lia.
Qed.

(** ** Trailing zeros *)
Lemma ptz_nonneg p : 0 <= ptz p.
Proof. induction p; cbn [ptz]; lia. Qed.
Lemma ptz_spec p : exists q, Zpos p = Zpos q * 2 ^ ptz p /\ Z.odd (Zpos q) = true.
Proof.
  induction p as [p IH|p IH|]; cbn [ptz].
  - exists (xI p). split; [rewrite Z.pow_0_r; lia|reflexivity].
  - destruct IH as (q & E & O). exists q. split; [|exact O].
    pose proof (@ptz_nonneg p). rewrite Z.pow_add_r by lia. change (2 ^ 1) with 2.
    rewrite Pos2Z.inj_xO, E. lia.
  - exists 1%positive. split; reflexivity.
Qed.
Lemma tz_spec n : 0 < n -> exists k, Z.shiftr n (tz n) = k /\ n = k * 2 ^ tz n /\ 0 < k /\ Z.odd k = true /\ 0 <= tz n.
Proof.
  intros Hn. destruct n as [|p|p]; try lia. cbn [tz]. destruct (ptz_spec p) as (q & E & O).
  pose proof (@ptz_nonneg p) as P. exists (Zpos q). rewrite Z.shiftr_div_pow2 by exact P.
  refine (conj _ (conj E (conj _ (conj O P)))); [|lia].
  rewrite E. apply Z.div_mul. apply Z.pow_nonzero; lia.
Qed.

(** ** Fractions *)
Lemma inj_pos d : 0 < d -> (0 < inject_Z d)%Q.
Proof. intros D. change 0%Q with (inject_Z 0). rewrite <- Zlt_Qlt. exact D. Qed.
Lemma ratio_le a n d : 0 < d -> a * d <= n -> (inject_Z a <= ratio n d)%Q.
Proof.
  intros D H. apply Qle_shift_div_l; [exact (inj_pos D)|]. rewrite <- inject_Z_mult, <- Zle_Qle. exact H.
Qed.
Lemma ratio_lt a n d : 0 < d -> n < a * d -> (ratio n d < inject_Z a)%Q.
Proof.
  intros D H. apply Qlt_shift_div_r; [exact (inj_pos D)|]. rewrite <- inject_Z_mult, <- Zlt_Qlt. exact H.
Qed.
Lemma ratio_gt a n d : 0 < d -> a * d < n -> (inject_Z a < ratio n d)%Q.
Proof.
  intros D H. apply Qlt_shift_div_l; [exact (inj_pos D)|]. rewrite <- inject_Z_mult, <- Zlt_Qlt. exact H.
Qed.
Lemma ratio_mul a d : 0 < d -> (ratio (a * d) d == inject_Z a)%Q.
Proof.
  intros D. pose proof (inj_pos D). unfold ratio. rewrite inject_Z_mult. field. lra.
Qed.
Lemma ratio_shift n d k : 0 < d -> 0 <= k -> (ratio (n * 2 ^ k) d == ratio n d * pow2 k)%Q.
Proof.
  intros D K. pose proof (inj_pos D). unfold ratio. rewrite inject_Z_mult, (pow2_Z K). field. lra.
Qed.
Lemma ratio_shift_d n d k : 0 < d -> 0 <= k -> (ratio n (d * 2 ^ k) == ratio n d * pow2 (- k))%Q.
Proof.
  intros D K. pose proof (inj_pos D). pose proof (zpow_pos K). unfold ratio.
  rewrite inject_Z_mult, <- (pow2_Z K). pose proof (pow2_inv k) as I. pose proof (pow2_pos k).
  assert (E : (pow2 (- k) == / pow2 k)%Q).
  { apply Qmult_inj_l with (pow2 k); [lra|]. rewrite I. field. lra. }
  rewrite E. field. split; lra.
Qed.

Section Out.
Variables (F : finfo) (f : fmt).
Hypothesis Fit : fits_format F f.
Notation w := (bw F).
Notation m := (fm f).
Hypothesis w1 : 1 <= w.

(** ** The loop *)
Lemma scale_spec fuel n d e q e' : 0 < n -> 0 < d ->
  scale F fuel n d e = Ok (q, e') ->
  exists n', 0 < n' /\ q = n' / d /\ (ratio n' d * pow2 e' == ratio n d * pow2 e)%Q /\
    (n' mod d = 0 \/ d <> 1 /\ 2 ^ w <= q).
Proof.
  revert n e. induction fuel as [|fuel IH]; intros n e Hn Hd; cbn [scale].
  all: rewrite shiftr_zero_iff by (try apply Z.div_pos; lia).
  all: destruct (Z.eqb_spec (n mod d) 0) as [M|M]; cbn [negb andb].
  1,3: intros X; injection X as <- <-; exists n; refine (conj Hn (conj eq_refl (conj _ (or_introl M)))); reflexivity.
  all: assert (D1 : d <> 1) by (intros ->; apply M; apply Z.mod_1_r).
  all: destruct (Z.ltb_spec (n / d) (2 ^ w)) as [L|L].
  2,4: intros X; injection X as <- <-; exists n;
       refine (conj Hn (conj eq_refl (conj _ (or_intror (conj D1 L))))); reflexivity.
  - discriminate.
  - intros X. apply IH in X; [|rewrite Z.shiftl_mul_pow2 by lia; pose proof (zpow_pos (x := w) ltac:(lia)); nia|exact Hd].
    destruct X as (n' & N0 & E1 & E2 & E3). exists n'. refine (conj N0 (conj E1 (conj _ E3))).
    rewrite E2, Z.shiftl_mul_pow2, ratio_shift by lia.
    replace (pow2 e) with (pow2 (w + (e - w))) by (f_equal; lia). rewrite pow2_add. ring.
Qed.

Lemma scale_ends fuel n d e : 0 < n -> 0 < d -> 2 ^ w * d <= n * 2 ^ (w * Z.of_nat fuel) ->
  exists q e', scale F fuel n d e = Ok (q, e').
Proof.
  revert n e. induction fuel as [|fuel IH]; intros n e Hn Hd B; cbn [scale].
  all: rewrite shiftr_zero_iff by (try apply Z.div_pos; lia).
  all: destruct (n mod d =? 0); cbn [negb andb]; [do 2 eexists; reflexivity|].
  all: destruct (Z.ltb_spec (n / d) (2 ^ w)) as [L|L]; [|do 2 eexists; reflexivity].
  - rewrite Z.mul_0_r, Z.pow_0_r, Z.mul_1_r in B.
    assert (2 ^ w <= n / d) by (apply Z.div_le_lower_bound; lia). lia.
  - pose proof (zpow_pos (x := w) ltac:(lia)). apply IH; [rewrite Z.shiftl_mul_pow2 by lia; nia|exact Hd|].
    rewrite Z.shiftl_mul_pow2 by lia. rewrite <- Z.mul_assoc, <- Z.pow_add_r by nia.
    replace (w + w * Z.of_nat fuel) with (w * Z.of_nat (S fuel)) by lia. exact B.
Qed.

(** ** The number that is handed to make_float *)
Definition outcome (d : Z) (x : Q) (num e : Z) : Prop :=
  0 < num /\
  ((num < 2 ^ w /\ (x == scaled num e)%Q) \/
   (num < 2 ^ w /\ Z.shiftr d (tz d) <> 1 /\ exists q g, 2 ^ w <= q /\ (scaled q g == scaled num e)%Q /\
      (scaled q g < x)%Q /\ (x < scaled (q + 1) g)%Q) \/
   (2 ^ (w - 1) <= num - 1 /\ num <= 2 ^ w /\ (scaled (num - 1) e < x)%Q /\ (x < scaled num e)%Q)).

Lemma convert_outcome fuel n d ew : 0 < n -> 0 < d -> Z.log2 d + 2 <= Z.of_nat fuel ->
  exists num e, outcome d (ratio n d) num e /\
    convert_to_float F f ew fuel n d =
    match make_float F (num mod 2 ^ w) (wrap_signed ew e) with Some r => Ok r | None => Ub end.
Proof.
  intros Hn Hd Hf. unfold convert_to_float. destruct (Z.eqb_spec d 0); [lia|].
  destruct (tz_spec Hn) as (n1 & -> & En & N1 & On & Tn).
  destruct (tz_spec Hd) as (d1 & Sd & Ed & D1 & Od & Td). rewrite Sd.
  assert (X : (ratio n d == ratio n1 d1 * pow2 (tz n - tz d))%Q).
  { rewrite En at 1. rewrite Ed at 1. rewrite ratio_shift_d by assumption. rewrite ratio_shift by assumption.
    unfold Z.sub. rewrite pow2_add. ring. }
  assert (Bd : 2 ^ w * d1 <= n1 * 2 ^ (w * Z.of_nat fuel)).
  { assert (d1 <= d) by (pose proof (zpow_pos Td); nia).
    pose proof (Z.log2_spec d Hd) as [_ L]. pose proof (Z.log2_nonneg d).
    assert (B1 : 2 ^ w * d1 <= 2 ^ w * 2 ^ Z.succ (Z.log2 d)).
    { apply Z.mul_le_mono_nonneg_l; [apply Z.pow_nonneg|]; lia. }
    rewrite <- Z.pow_add_r in B1 by lia.
    assert (B2 : 2 ^ (w + Z.succ (Z.log2 d)) <= 2 ^ (w * Z.of_nat fuel)) by (apply Z.pow_le_mono_r; nia).
    pose proof (zpow_pos (x := w * Z.of_nat fuel) ltac:(nia)). nia. }
  destruct (@scale_ends fuel n1 d1 (tz n - tz d) N1 D1 Bd) as (q & e & Sc). rewrite Sc.
  destruct (scale_spec N1 D1 Sc) as (n2 & N2 & Eq & E2 & Ex). clear Sc Bd.
  rewrite <- X in E2.
  pose proof (Z.div_mod n2 d1 ltac:(lia)) as Dm. pose proof (Z.mod_pos_bound n2 d1 D1) as Mb.
  rewrite <- Eq in Dm.
  assert (Q0 : 0 < q).
  { destruct Ex as [M|[_ L]]; [nia|]. pose proof (zpow_pos (x := w) ltac:(lia)). lia. }
  pose proof (pow2_pos e) as Pe.
  assert (Lo : (scaled q e <= ratio n d)%Q).
  { rewrite <- E2. unfold scaled. fold (pow2 e). apply Qmult_le_compat_r; [|lra]. apply ratio_le; lia. }
  assert (Hi : (ratio n d < scaled (q + 1) e)%Q).
  { rewrite <- E2. unfold scaled. fold (pow2 e). apply Qmult_lt_r; [exact Pe|]. apply ratio_lt; lia. }
  assert (Ee : n2 mod d1 = 0 -> (ratio n d == scaled q e)%Q).
  { intros M. rewrite <- E2. unfold scaled. fold (pow2 e). replace n2 with (q * d1) by lia.
    rewrite ratio_mul by exact D1. reflexivity. }
  assert (Gt : n2 mod d1 <> 0 -> (scaled q e < ratio n d)%Q).
  { intros M. rewrite <- E2. unfold scaled. fold (pow2 e). apply Qmult_lt_r; [exact Pe|]. apply ratio_gt; lia. }
  destruct (tz_spec Q0) as (q1 & -> & Eq1 & P1 & O1 & T1).
  assert (Sq : (scaled q e == scaled q1 (e + tz q))%Q).
  { rewrite Eq1 at 1. rewrite scaled_shift by exact T1. rewrite (Z.add_comm (tz q)). reflexivity. }
  unfold bitnum. destruct (Z.eqb_spec q1 0); [lia|].
  pose proof (Z.log2_spec q1 P1) as [L1 L2]. pose proof (Z.log2_nonneg q1) as L0.
  destruct (Z.ltb_spec 0 (Z.log2 q1 + 1 - w)) as [C|C].
  - set (diff := Z.log2 q1 + 1 - w) in *.
    exists (Z.shiftr q1 diff + 1), (e + tz q + diff). split; [|reflexivity].
    rewrite Z.shiftr_div_pow2 by lia. pose proof (zpow_pos (x := diff) ltac:(lia)) as Pd.
    pose proof (Z.div_mod q1 (2 ^ diff) ltac:(lia)) as Dd. pose proof (Z.mod_pos_bound q1 (2 ^ diff) Pd) as Md.
    set (v := q1 / 2 ^ diff) in *.
    assert (Mo : q1 mod 2 ^ diff <> 0).
    { intros M. rewrite M, Z.add_0_r in Dd. rewrite Dd in O1.
      replace diff with (1 + (diff - 1)) in O1 by lia. rewrite Z.pow_add_r in O1 by lia.
      change (2 ^ 1) with 2 in O1. rewrite <- Z.mul_assoc, Z.odd_mul in O1. discriminate. }
    assert (V : 2 ^ (w - 1) <= v < 2 ^ w).
    { split.
      - apply Z.div_le_lower_bound; [lia|]. rewrite <- Z.pow_add_r by lia.
        replace (diff + (w - 1)) with (Z.log2 q1) by (unfold diff; lia). lia.
      - apply Z.div_lt_upper_bound; [lia|]. rewrite <- Z.pow_add_r by lia.
        replace (diff + w) with (Z.succ (Z.log2 q1)) by (unfold diff; lia). lia. }
    split; [pose proof (zpow_pos (x := w - 1) ltac:(lia)); lia|]. right. right.
    replace (v + 1 - 1) with v by lia. refine (conj (proj1 V) (conj _ (conj _ _))); [lia| |].
    + eapply Qlt_le_trans; [|exact Lo]. rewrite Sq.
      replace (e + tz q + diff) with (diff + (e + tz q)) by lia.
      rewrite <- scaled_shift by lia. apply scaled_lt. lia.
    + eapply Qlt_le_trans; [exact Hi|].
      replace (e + tz q + diff) with (diff + tz q + e) by lia. rewrite <- scaled_shift by lia.
      apply scaled_le. rewrite Z.pow_add_r by lia. rewrite Eq1 at 1.
      pose proof (zpow_pos T1). nia.
  - exists q1, (e + tz q). split; [|reflexivity]. split; [exact P1|].
    assert (B : q1 < 2 ^ w).
    { apply Z.lt_le_trans with (2 ^ Z.succ (Z.log2 q1)); [lia|]. apply Z.pow_le_mono_r; lia. }
    destruct (Z.eq_dec (n2 mod d1) 0) as [M|M].
    + left. split; [exact B|]. rewrite <- Sq. exact (Ee M).
    + right. left. destruct Ex as [Ex|[Nd L]]; [contradiction|].
      refine (conj B (conj _ _)); [rewrite Sd; exact Nd|]. exists q, e.
      refine (conj L (conj Sq (conj (Gt M) Hi))).
Qed.

(** ** Faithfulness *)
Lemma grid_of s : 0 <= s < inf_bits f ->
  exists k v, s = k * 2 ^ m + v /\ 0 <= k /\ (k = 0 /\ 0 <= v \/ 2 ^ m <= v) /\ v < 2 ^ (m + 1) /\ k + 1 < 2 ^ fe f - 1.
Proof.
  intros R. pose proof (pm Fit) as P. pose proof (fe4 Fit). rewrite (pm1 Fit).
  pose proof (Z.div_mod s (2 ^ m) ltac:(lia)) as D. pose proof (Z.mod_pos_bound s (2 ^ m) P) as M.
  assert (Hq : 0 <= s / 2 ^ m < 2 ^ fe f - 1).
  { unfold inf_bits in R. split; [apply Z.div_pos; lia|apply Z.div_lt_upper_bound; lia]. }
  destruct (Z.eq_dec (s / 2 ^ m) 0) as [E|E].
  - exists 0, s. rewrite E in D. lia.
  - exists (s / 2 ^ m - 1), (2 ^ m + s mod 2 ^ m). lia.
Qed.

Lemma units_double s : 1 <= s < inf_bits f -> units f (s + 1) <= 2 * units f s.
Proof.
  intros R. destruct (@grid_of s ltac:(lia)) as (k & v & E & K & V1 & V2 & K2).
  destruct (units_grid Fit K V1 V2 K2) as [G1 G2]. rewrite <- E in G1, G2. rewrite G1, G2.
  pose proof (zpow_pos K). pose proof (pm Fit). assert (1 <= v) by (destruct V1 as [[-> V1]|V1]; lia). nia.
Qed.

(** A large number of the format is a multiple of a small power of two. *)
Lemma multiple v k g : 0 <= k -> 0 <= v <= 2 ^ (m + 1) ->
  (pow2 (m + 1 + g) <= scaled (v * 2 ^ k) (tiny f))%Q ->
  exists a, (scaled (v * 2 ^ k) (tiny f) == scaled a g)%Q.
Proof.
  intros K V L. rewrite scaled_shift in L by exact K. pose proof (m1 Fit).
  assert (G : g <= k + tiny f).
  { assert (m + 1 + g <= m + 1 + (k + tiny f)); [|lia]. apply pow2_le_inv.
    eapply Qle_trans; [exact L|]. rewrite pow2_shift by lia. apply scaled_le. lia. }
  exists (v * 2 ^ (k + tiny f - g)). rewrite !scaled_shift by lia.
  replace (k + tiny f - g + g) with (k + tiny f) by lia. reflexivity.
Qed.

Hypothesis w_large : m + 4 <= w.

Lemma cell_faithful x t r q g : truncated f t r -> 2 ^ (w - 1) <= q ->
  (scaled q g < x)%Q -> (x < scaled (q + 1) g)%Q ->
  (t == scaled q g)%Q \/ (t == scaled (q + 1) g)%Q -> faithful f x r.
Proof.
  intros (R & T1 & T2) Hq X1 X2 Ht. refine (conj R (conj _ _)).
  - destruct (Z.eq_dec r 0) as [E|E]; [left; exact E|right].
    assert (Lt : (fabs f (r - 1) < fabs f r)%Q) by (apply (fabs_lt Fit); lia).
    destruct Ht as [Ht|Ht]; [rewrite Ht in *; lra|].
    destruct (Z.eq_dec r 1) as [E1|E1].
    { subst r. change (1 - 1) with 0. rewrite (fabs_0 Fit).
      eapply Qle_lt_trans; [|exact X1]. unfold scaled. apply Qmult_le_0_compat; [|apply Qlt_le_weak, two_pos].
      change 0%Q with (inject_Z 0). rewrite <- Zle_Qle. pose proof (zpow_pos (x := w - 1) ltac:(lia)). lia. }
    destruct (@grid_of (r - 1) ltac:(lia)) as (k & v & Es & K & V1 & V2 & K2).
    destruct (units_grid Fit K V1 V2 K2) as [G1 G2]. rewrite <- Es in G1.
    assert (B : (pow2 (m + 1 + g) <= scaled (v * 2 ^ k) (tiny f))%Q).
    { assert (D : units f (r + 1) <= 4 * units f (r - 1)).
      { pose proof (@units_double r ltac:(lia)). pose proof (@units_double (r - 1) ltac:(lia)) as D2.
        replace (r - 1 + 1) with r in D2 by lia. lia. }
      assert (A : (pow2 (w - 1 + g) < scaled (4 * units f (r - 1)) (tiny f))%Q).
      { apply Qle_lt_trans with (scaled q g).
        - rewrite pow2_shift by lia. apply scaled_le. exact Hq.
        - apply Qlt_le_trans with (fabs f (r + 1)); [|rewrite fabs_scaled; apply scaled_le; exact D].
          eapply Qlt_trans; [exact X1|]. eapply Qlt_trans; [exact X2|]. rewrite <- Ht. exact T2. }
      rewrite <- G1.
      assert (A2 : (pow2 (m + 3 + g) <= scaled (4 * units f (r - 1)) (tiny f))%Q).
      { eapply Qle_trans; [apply pow2_le with (b := w - 1 + g); lia|apply Qlt_le_weak; exact A]. }
      replace (m + 3 + g) with (2 + (m + 1 + g)) in A2 by lia. rewrite pow2_add in A2.
      unfold scaled in A2 |- *. rewrite inject_Z_mult in A2. change (pow2 2) with 4%Q in A2.
      change (inject_Z 4) with 4%Q in A2. lra. }
    destruct (@multiple v k g K) as (a & A); [pose proof (pm Fit); destruct V1 as [[_ V1]|V1]; lia|exact B|].
    rewrite <- G1 in A. rewrite <- fabs_scaled in A.
    assert (a < q + 1).
    { apply (scaled_lt a (q + 1) g). rewrite <- A, <- Ht. lra. }
    eapply Qle_lt_trans; [|exact X1]. rewrite A. apply scaled_le. lia.
  - destruct Ht as [Ht|Ht]; [|rewrite <- Ht in X2; lra].
    destruct (@grid_of r ltac:(lia)) as (k & v & Es & K & V1 & V2 & K2).
    destruct (units_grid Fit K V1 V2 K2) as [G1 G2]. rewrite <- Es in G2.
    destruct (@multiple (v + 1) k g K) as (a & A).
    + pose proof (pm Fit). destruct V1 as [[_ V1]|V1]; lia.
    + rewrite <- G2. apply Qlt_le_weak. rewrite <- fabs_scaled. eapply Qle_lt_trans; [|exact T2]. rewrite Ht.
      eapply Qle_trans; [apply pow2_le with (b := w - 1 + g); lia|]. rewrite pow2_shift by lia.
      apply scaled_le. exact Hq.
    + rewrite <- G2, <- fabs_scaled in A. rewrite A, Ht in T2. apply scaled_lt in T2.
      rewrite A. eapply Qlt_le_trans; [exact X2|]. apply scaled_le. lia.
Qed.

Lemma truncated_faithful x r : truncated f x r -> faithful f x r.
Proof.
  intros (R & T1 & T2). refine (conj R (conj _ T2)).
  destruct (Z.eq_dec r 0) as [E|E]; [left; exact E|right].
  eapply Qlt_le_trans; [|exact T1]. apply (fabs_lt Fit); lia.
Qed.

Hypothesis Hw : w = all_bits f.
Hypothesis Hsh : shift_width F = w.
Variable ew : Z.
Hypothesis Hew : 1 <= ew.
Hypothesis ew_large : bias f + 2 * w < 2 ^ (ew - 1).

(** The exponent of the number that is handed over. *)
Lemma outcome_log d x num e : outcome d x num e -> num < 2 ^ w ->
  (pow2 (e + Z.log2 num) <= x)%Q /\ (x < pow2 (e + Z.log2 num + 1))%Q /\ 0 <= Z.log2 num < w.
Proof.
  intros [N0 H] N1. pose proof (@scaled_log num e N0) as [L1 L2]. pose proof (@scaled_log_lt num e N0) as L3.
  assert (B : 0 <= Z.log2 num < w) by (split; [apply Z.log2_nonneg|apply Z.log2_lt_pow2; lia]).
  destruct H as [[_ E]|[(_ & _ & q & g & Q & E & X1 & X2)|(A & _ & X1 & X2)]].
  - rewrite E. auto.
  - refine (conj _ (conj _ B)).
    + rewrite E in X1. lra.
    + assert (Q0 : 0 < q) by (pose proof (zpow_pos (x := w) ltac:(lia)); lia).
      pose proof (@scaled_log q g Q0) as [M1 M2]. pose proof (@scaled_log_lt q g Q0) as M3.
      assert (g + Z.log2 q < e + Z.log2 num + 1) by (apply pow2_lt_inv; lra).
      eapply Qlt_le_trans; [exact X2|]. eapply Qle_trans; [exact M2|]. apply pow2_le. lia.
  - refine (conj _ (conj _ B)); [|lra].
    assert (Z.log2 num = w - 1).
    { apply Z.log2_unique; [lia|]. replace (Z.succ (w - 1)) with w by lia. lia. }
    eapply Qle_trans; [|apply Qlt_le_weak; exact X1]. rewrite (Z.add_comm e), pow2_shift by lia.
    apply scaled_le. replace (Z.log2 num) with (w - 1) by lia. lia.
Qed.

Lemma outcome_full d x num e : outcome d x num e -> 2 ^ w <= num ->
  num = 2 ^ w /\ (pow2 (e + w) - pow2 e < x)%Q /\ (x < pow2 (e + w))%Q.
Proof.
  intros [N0 H] N1.
  destruct H as [[L _]|[(L & _)|(A & B & X1 & X2)]]; try lia.
  assert (E : num = 2 ^ w) by lia. subst num. split; [reflexivity|].
  rewrite (Z.add_comm e), pow2_shift by lia. split; [|exact X2].
  unfold scaled in *. replace (2 ^ w - 1) with (2 ^ w + -1) in X1 by lia. rewrite inject_Z_plus in X1.
  change (inject_Z (-1)) with (-1)%Q in X1. unfold pow2. lra.
Qed.

Lemma full_below d x num e : outcome d x num e -> 2 ^ w <= num -> just_below_power w x.
Proof.
  intros O N. destruct (outcome_full O N) as (_ & A & B). exists (e + w - 1).
  replace (e + w - 1 + 1) with (e + w) by lia. replace (e + w - w) with e by lia. auto.
Qed.

Lemma wrap_ok e : - 2 ^ (ew - 1) <= e < 2 ^ (ew - 1) -> wrap_signed ew e = e.
Proof. apply wrap_in. exact Hew. Qed.

(** In range and not just below a power of two the result is faithful. *)
Theorem convert_faithful fuel n d : 0 < n -> 0 < d -> Z.log2 d + 2 <= Z.of_nat fuel ->
  (pow2 (2 - bias f - w) <= ratio n d)%Q -> (ratio n d < pow2 (bias f + 1))%Q ->
  ~ just_below_power w (ratio n d) ->
  exists r, convert_to_float F f ew fuel n d = Ok r /\ faithful f (ratio n d) r.
Proof.
  intros Hn Hd Hf X1 X2 NJ. destruct (@convert_outcome fuel n d ew Hn Hd Hf) as (num & e & O & ->).
  destruct (Z.lt_ge_cases num (2 ^ w)) as [C|C]; [|destruct (NJ (full_below O C))].
  pose proof (outcome_log O C) as (L1 & L2 & L3). pose proof (proj1 O) as N0.
  assert (R1 : e + Z.log2 num < bias f + 1) by (apply pow2_lt_inv; lra).
  assert (R2 : 2 - bias f - w < e + Z.log2 num + 1) by (apply pow2_lt_inv; lra).
  rewrite Z.mod_small by lia. pose proof (bias1 Fit). rewrite wrap_ok by lia.
  destruct (@make_float_truncates F f Fit num e ltac:(lia) ltac:(lia)) as (r & -> & T).
  exists r. split; [reflexivity|].
  destruct O as [_ [[_ E]|[(_ & _ & q & g & Q & E & Y1 & Y2)|(A & _ & Y1 & Y2)]]].
  - apply truncated_faithful. destruct T as (T0 & T1 & T2). refine (conj T0 _). rewrite E. auto.
  - apply (@cell_faithful _ _ _ q g T); [|exact Y1|exact Y2|left; symmetry; exact E].
    apply Z.le_trans with (2 ^ w); [apply Z.pow_le_mono_r; lia|exact Q].
  - apply (@cell_faithful _ _ _ (num - 1) e T A Y1); replace (num - 1 + 1) with num by lia; [exact Y2|right; reflexivity].
Qed.

(** Numbers that are too large become zero. *)
Theorem convert_large fuel n d : 0 < n -> 0 < d -> Z.log2 d + 2 <= Z.of_nat fuel ->
  (pow2 (bias f + 1) <= ratio n d)%Q -> (ratio n d < pow2 (2 ^ (ew - 1)))%Q ->
  convert_to_float F f ew fuel n d = Ok 0.
Proof.
  intros Hn Hd Hf X1 X2. destruct (@convert_outcome fuel n d ew Hn Hd Hf) as (num & e & O & ->).
  pose proof (bias1 Fit). pose proof (m1 Fit).
  destruct (Z.lt_ge_cases num (2 ^ w)) as [C|C].
  - pose proof (outcome_log O C) as (L1 & L2 & L3). pose proof (proj1 O) as N0.
    assert (R1 : e + Z.log2 num < 2 ^ (ew - 1)) by (apply pow2_lt_inv; lra).
    assert (R2 : bias f + 1 < e + Z.log2 num + 1) by (apply pow2_lt_inv; lra).
    rewrite Z.mod_small by lia. rewrite wrap_ok by lia.
    rewrite (make_float_too_large Fit) by lia. reflexivity.
  - destruct (outcome_full O C) as (-> & A & B). rewrite Z_mod_same_full.
    assert (R2 : bias f + 1 < e + w) by (apply pow2_lt_inv; lra).
    assert (R1 : e + w - 1 < 2 ^ (ew - 1)).
    { apply pow2_lt_inv. eapply Qle_lt_trans; [|exact X2]. apply Qlt_le_weak. eapply Qle_lt_trans; [|exact A].
      assert (H1 : (pow2 (1 + (e + w - 1)) == pow2 1 * pow2 (e + w - 1))%Q) by apply pow2_add.
      replace (1 + (e + w - 1)) with (e + w) in H1 by lia. change (pow2 1) with 2%Q in H1.
      assert (H2 : (pow2 e <= pow2 (e + w - 1))%Q) by (apply pow2_le; lia). lra. }
    rewrite wrap_ok by lia. rewrite (make_float_zero Fit) by lia. reflexivity.
Qed.

(** Numbers that are too small are undefined. *)
Lemma make_float_zero_undefined e : e <= 2 - bias f - w -> make_float F 0 e = None.
Proof.
  intros He. unfold make_float, clz. cbn [Z.eqb]. rewrite (f_pbb Fit), (f_min Fit).
  pose proof (m1 Fit).
  replace (w - (w - (m + 1))) with (m + 1) by lia.
  destruct (Z.ltb_spec 0 (m + 1)); [|lia].
  replace (e - (m + 1) + m) with (e - 1) by lia. rewrite Hsh.
  destruct (Z.ltb_spec 0 (1 - bias f - (e - 1))); [|lia].
  destruct (Z.leb_spec w (1 - bias f - (e - 1))); [reflexivity|lia].
Qed.

Theorem convert_small fuel n d : 0 < n -> 0 < d -> Z.log2 d + 2 <= Z.of_nat fuel ->
  (pow2 (w - 2 ^ (ew - 1)) <= ratio n d)%Q -> (ratio n d < pow2 (1 - bias f - w))%Q ->
  convert_to_float F f ew fuel n d = Ub.
Proof.
  intros Hn Hd Hf X1 X2. destruct (@convert_outcome fuel n d ew Hn Hd Hf) as (num & e & O & ->).
  pose proof (bias1 Fit). pose proof (m1 Fit).
  destruct (Z.lt_ge_cases num (2 ^ w)) as [C|C].
  - pose proof (outcome_log O C) as (L1 & L2 & L3). pose proof (proj1 O) as N0.
    assert (R1 : e + Z.log2 num < 1 - bias f - w) by (apply pow2_lt_inv; lra).
    assert (R2 : w - 2 ^ (ew - 1) < e + Z.log2 num + 1) by (apply pow2_lt_inv; lra).
    rewrite Z.mod_small by lia. rewrite wrap_ok by lia.
    rewrite (make_float_too_small Fit) by lia. reflexivity.
  - destruct (outcome_full O C) as (-> & A & B). rewrite Z_mod_same_full.
    assert (R2 : w - 2 ^ (ew - 1) < e + w) by (apply pow2_lt_inv; lra).
    assert (R1 : e + w - 1 < 1 - bias f - w).
    { apply pow2_lt_inv. eapply Qle_lt_trans; [|exact X2]. apply Qlt_le_weak. eapply Qle_lt_trans; [|exact A].
      assert (H1 : (pow2 (1 + (e + w - 1)) == pow2 1 * pow2 (e + w - 1))%Q) by apply pow2_add.
      replace (1 + (e + w - 1)) with (e + w) in H1 by lia. change (pow2 1) with 2%Q in H1.
      assert (H2 : (pow2 e <= pow2 (e + w - 1))%Q) by (apply pow2_le; lia). lra. }
    rewrite wrap_ok by lia. rewrite make_float_zero_undefined by lia. reflexivity.
Qed.

(** ** Just below a power of two *)
Lemma short_not_below num e : 0 < num < 2 ^ w -> ~ just_below_power w (scaled num e).
Proof.
  intros N (l & A & B). pose proof (@scaled_log num e ltac:(lia)) as [L1 _].
  pose proof (@scaled_log_lt num e ltac:(lia)) as L3.
  assert (Z.log2 num < w) by (apply Z.log2_lt_pow2; lia). pose proof (Z.log2_nonneg num).
  assert (R1 : e + Z.log2 num < l + 1) by (apply pow2_lt_inv; lra).
  assert (R2 : l < e + Z.log2 num + 1).
  { apply pow2_lt_inv. assert (H1 : (pow2 (1 + l) == pow2 1 * pow2 l)%Q) by apply pow2_add.
    replace (1 + l) with (l + 1) in H1 by lia. change (pow2 1) with 2%Q in H1.
    assert (H2 : (pow2 (l + 1 - w) <= pow2 l)%Q) by (apply pow2_le; lia). lra. }
  assert (El : l = e + Z.log2 num) by lia.
  set (g := l + 1 - w) in *. assert (G : 0 <= e - g) by (unfold g; lia).
  replace e with (e - g + g) in A, B by lia. rewrite <- scaled_shift in A, B by exact G.
  replace (l + 1) with (w + g) in A, B by (unfold g; lia). rewrite pow2_shift in A, B by lia.
  apply scaled_lt in B.
  assert (A' : (scaled (2 ^ w - 1) g < scaled (num * 2 ^ (e - g)) g)%Q).
  { eapply Qle_lt_trans; [|exact A]. unfold scaled, Z.sub. rewrite inject_Z_plus.
    change (inject_Z (- (1))) with (-1)%Q. unfold pow2. lra. }
  apply scaled_lt in A'. lia.
Qed.

Lemma cell_not_below x num e : 2 ^ (w - 1) <= num - 1 -> num < 2 ^ w ->
  (scaled (num - 1) e < x)%Q -> (x < scaled num e)%Q -> ~ just_below_power w x.
Proof.
  intros A N X1 X2 (l & B1 & B2).
  assert (P1 : (pow2 (w - 1 + e) < x)%Q).
  { eapply Qle_lt_trans; [|exact X1]. rewrite pow2_shift by lia. apply scaled_le. exact A. }
  assert (P2 : (x < pow2 (w + e))%Q).
  { eapply Qlt_le_trans; [exact X2|]. rewrite pow2_shift by lia. apply scaled_le. lia. }
  assert (R1 : w - 1 + e < l + 1) by (apply pow2_lt_inv; lra).
  assert (R2 : l < w + e).
  { apply pow2_lt_inv. assert (H1 : (pow2 (1 + l) == pow2 1 * pow2 l)%Q) by apply pow2_add.
    replace (1 + l) with (l + 1) in H1 by lia. change (pow2 1) with 2%Q in H1.
    assert (H2 : (pow2 (l + 1 - w) <= pow2 l)%Q) by (apply pow2_le; lia). lra. }
  replace (l + 1) with (w + e) in B1 by lia. replace (w + e - w) with e in B1 by lia.
  rewrite pow2_shift in B1 by lia.
  assert (Q1 : (scaled (2 ^ w - 1) e < scaled num e)%Q).
  { eapply Qle_lt_trans; [|exact X2]. apply Qlt_le_weak. eapply Qle_lt_trans; [|exact B1].
    unfold scaled, Z.sub. rewrite inject_Z_plus. change (inject_Z (- (1))) with (-1)%Q. unfold pow2. lra. }
  apply scaled_lt in Q1. lia.
Qed.

Lemma odd_part_of_power k : 0 <= k -> Z.shiftr (2 ^ k) (tz (2 ^ k)) = 1.
Proof.
  intros K. destruct (tz_spec (zpow_pos K)) as (d1 & -> & E & D1 & O & T).
  set (t := tz (2 ^ k)) in *. clearbody t.
  destruct (Z.lt_trichotomy t k) as [C|[C|C]].
  - exfalso. replace k with (1 + (k - t - 1) + t) in E by lia. rewrite !Z.pow_add_r in E by lia.
    change (2 ^ 1) with 2 in E. pose proof (zpow_pos T).
    assert (d1 = 2 * 2 ^ (k - t - 1)) by nia. subst d1. rewrite Z.odd_mul in O. discriminate.
  - subst t. pose proof (zpow_pos K). nia.
  - exfalso. assert (2 ^ k < 2 ^ t) by (apply Z.pow_lt_mono_r; lia). nia.
Qed.

(** Dyadic fractions just below a power of two become zero. *)
Theorem convert_below fuel n k : 0 < n -> 0 <= k -> k + 2 <= Z.of_nat fuel ->
  (pow2 (3 - bias f) <= ratio n (2 ^ k))%Q -> (ratio n (2 ^ k) < pow2 (2 ^ (ew - 1)))%Q ->
  just_below_power w (ratio n (2 ^ k)) ->
  convert_to_float F f ew fuel n (2 ^ k) = Ok 0.
Proof.
  intros Hn Hk Hf X1 X2 J.
  destruct (@convert_outcome fuel n (2 ^ k) ew Hn (zpow_pos Hk)) as (num & e & O & ->).
  { rewrite Z.log2_pow2 by exact Hk. exact Hf. }
  pose proof (bias1 Fit). pose proof (m1 Fit).
  destruct (Z.lt_ge_cases num (2 ^ w)) as [C|C].
  - exfalso. destruct O as [N0 [[_ E]|[(_ & N & _)|(A & _ & Y1 & Y2)]]].
    + apply (@short_not_below num e (conj N0 C)). destruct J as (l & J). exists l. rewrite <- E. exact J.
    + apply N. exact (odd_part_of_power Hk).
    + exact (cell_not_below A C Y1 Y2 J).
  - destruct (outcome_full O C) as (-> & A & B). rewrite Z_mod_same_full.
    assert (R2 : 3 - bias f < e + w) by (apply pow2_lt_inv; lra).
    assert (R1 : e + w - 1 < 2 ^ (ew - 1)).
    { apply pow2_lt_inv. eapply Qle_lt_trans; [|exact X2]. apply Qlt_le_weak. eapply Qle_lt_trans; [|exact A].
      assert (H1 : (pow2 (1 + (e + w - 1)) == pow2 1 * pow2 (e + w - 1))%Q) by apply pow2_add.
      replace (1 + (e + w - 1)) with (e + w) in H1 by lia. change (pow2 1) with 2%Q in H1.
      assert (H2 : (pow2 e <= pow2 (e + w - 1))%Q) by (apply pow2_le; lia). lra. }
    rewrite wrap_ok by lia. rewrite (make_float_zero Fit) by lia. reflexivity.
Qed.

(** ** There and back *)
Lemma faithful_exact x d r : faithful f x r -> 0 <= d < inf_bits f -> (x == fabs f d)%Q -> r = d.
Proof.
  intros (R & A & B) D E. rewrite E in A, B.
  assert (d < r + 1) by (apply (fabs_lt_inv Fit); [lia|lia|exact B]).
  destruct A as [A|A]; [lia|].
  destruct (Z.eq_dec r 0); [lia|].
  assert (r - 1 < d) by (apply (fabs_lt_inv Fit); [lia|lia|exact A]). lia.
Qed.

Hypothesis bias_large : m + 1 <= bias f.
Variable sw : Z.
Hypothesis fm17 : 17 <= m.

Theorem there_and_back fuel d n q : finite f d -> ubigfloat_of_float F f sw d = Some (n, q) ->
  (ratio n q == fabs f d)%Q -> Z.log2 q + 2 <= Z.of_nat fuel ->
  convert_to_float F f ew fuel n q = Ok (clear_sign f d).
Proof.
  intros Hf U E Fu. pose proof (proj1 (ubigfloat_spec Fit bias_large fm17 Hf U)) as Q0.
  pose proof (clear_sign_range Fit Hf) as Rc. destruct (finite_nonneg Fit Rc) as [Hc Cc].
  pose proof (clear_sign_fabs Fit (proj1 Hf)) as Ab.
  pose proof (bias1 Fit). pose proof (m1 Fit).
  destruct (Z.eq_dec (clear_sign f d) 0) as [C0|C0].
  - (* zero *)
    unfold ubigfloat_of_float in U. destruct (finite_not_special Hf) as [Z1 Z2]. rewrite Z1, Z2, Ab in U.
    assert (Ez : (fabs f d == 0)%Q) by (rewrite <- Ab, C0; exact (fabs_0 Fit)).
    assert (Eneg : get_exponent F (clear_sign f d) < 0).
    { rewrite C0. unfold get_exponent. rewrite (nexp Fit) by (rewrite <- C0; exact Hc). rewrite (f_pbb Fit).
      replace (exp_field f 0) with 0 by (symmetry; apply Zmod_0_l || (unfold exp_field; rewrite Z.div_0_l, Z.mod_0_l; [reflexivity|apply Z.pow_nonzero; pose proof (f_e Fit); lia|apply Z.pow_nonzero; lia])).
      cbn [Z.eqb]. lia. }
    apply Z.ltb_lt in Eneg. rewrite Eneg in U. unfold to_divide in U.
    assert (Ef : Qfloor (fabs f d) = 0) by (rewrite Ez; reflexivity).
    assert (Eq0 : Qeq_bool (fabs f d - inject_Z (Qfloor (fabs f d))) 0 = true).
    { apply Qeq_bool_iff. rewrite Ef, Ez. reflexivity. }
    rewrite Eq0, Ef in U. injection U as <- <-.
    assert (R0 : 0 <= 0 < inf_bits f) by (pose proof (inf_pos Fit); lia).
    rewrite (@rn_exact F f Fit (inject_Z 0) 0) by (first [exact R0|symmetry; exact (fabs_0 Fit)]).
    rewrite (@ubigint_of_int F f Fit bias_large 0 0) by (first [exact R0|exact (fabs_0 Fit)]).
    rewrite C0. unfold convert_to_float. cbn [Z.eqb tz ptz]. change (Z.shiftr 0 0) with 0. change (Z.shiftr 1 0) with 1.
    change (0 - 0) with 0.
    assert (Es : scale F fuel 0 1 0 = Ok (0, 0)) by (destruct fuel; reflexivity).
    rewrite Es. cbn [tz]. change (Z.shiftr 0 0) with 0. change (bitnum 0) with 0.
    destruct (Z.ltb_spec 0 (0 - w)); [lia|]. rewrite Z.mod_0_l by (apply Z.pow_nonzero; lia).
    change (0 + 0) with 0. rewrite wrap_ok by (pose proof (zpow_pos (x := ew - 1) ltac:(lia)); lia).
    rewrite (make_float_zero Fit) by lia. reflexivity.
  - assert (P0 : (0 < fabs f d)%Q).
    { rewrite <- Ab, <- (fabs_0 Fit). apply (fabs_lt Fit); lia. }
    assert (N0 : 0 < n).
    { rewrite <- E in P0. destruct (Z.lt_ge_cases 0 n) as [C|C]; [exact C|exfalso].
      apply (Qlt_not_le _ _ P0). unfold ratio. apply Qle_shift_div_r; [exact (inj_pos Q0)|].
      rewrite Qmult_0_l. change 0%Q with (inject_Z 0). rewrite <- Zle_Qle. lia. }
    pose proof (decompose_exact Fit Hc) as D. rewrite Ab in D.
    pose proof (precision_range Fit (clear_sign f d)) as Pp.
    set (p := get_precision F (clear_sign f d)) in *. set (e := get_exponent F (clear_sign f d)) in *.
    destruct (@convert_faithful fuel n q N0 Q0 Fu) as (r & -> & Fa).
    + rewrite E. apply Qle_trans with (fabs f 1).
      * rewrite fabs_scaled. pose proof (@units_sub F f Fit 0 ltac:(pose proof (pm Fit); lia)) as [_ U1].
        change (0 + 1) with 1 in U1. rewrite U1, <- pow2_scaled. apply pow2_le. unfold tiny. lia.
      * rewrite <- Ab. apply (fabs_le Fit); lia.
    + rewrite E, <- (fabs_inf Fit), <- Ab. apply (fabs_lt Fit); lia.
    + intros (l & J1 & J2). rewrite E, D in J1, J2.
      assert (p <> 0).
      { intros Ep. rewrite Ep in D. rewrite D in P0. unfold scaled in P0. rewrite Qmult_0_l in P0.
        exact (Qlt_irrefl _ P0). }
      apply (@short_not_below p e).
      * split; [lia|]. apply Z.lt_le_trans with (2 ^ (m + 1)); [lia|]. apply Z.pow_le_mono_r; lia.
      * exists l. split; assumption.
    + f_equal. apply (faithful_exact Fa Rc). rewrite E, Ab. reflexivity.
Qed.
End Out.

(** ** The three formats *)
Definition fits_all (F : finfo) (f : fmt) : Prop :=
  fits_format F f /\ bw F = all_bits f /\ shift_width F = bw F /\ 17 <= fm f /\ fm f + 4 <= bw F /\
  fm f + 1 <= bias f /\ 64 <= bias f /\ bias f + 2 * bw F < 2 ^ 15.
Lemma good_all F f : In (F, f) good_formats -> fits_all F f.
Proof.
  intros [E|[E|[E|[]]]]; injection E as <- <-.
  - split; [exact float32_fits|]. vm_compute. repeat split; discriminate.
  - split; [exact float64_fits|]. vm_compute. repeat split; discriminate.
  - split; [exact float128_fits|]. vm_compute. repeat split; discriminate.
Qed.

Lemma to_integer_all F f d : In (F, f) good_formats -> finite f d ->
  ubigint_of_float F f d = Qfloor (fabs f d).
Proof. intros G. destruct (good_all G) as (A1 & A2 & A3 & A4 & A5 & A6 & A7 & A8). exact (ubigint_floor A1 A6 (d := d)). Qed.

Lemma sign_finite F f d : fits_format F f -> finite f d ->
  finite f (clear_sign f d) /\ fabs f (clear_sign f d) = fabs f d.
Proof.
  intros A Hf. split; [|exact (clear_sign_fabs A (proj1 Hf))].
  exact (proj1 (finite_nonneg A (clear_sign_range A Hf))).
Qed.

Lemma to_signed_all F f d : In (F, f) good_formats -> finite f d ->
  bigint_of_float F f d = (is_negative f d, Qfloor (fabs f d)).
Proof.
  intros G Hf. unfold bigint_of_float. destruct (good_all G) as (A1 & _).
  destruct (sign_finite A1 Hf) as [C1 C2]. rewrite (to_integer_all G C1), C2. reflexivity.
Qed.

Lemma is_negative_spec F f d : fits_format F f -> finite f d ->
  is_negative f d = true <-> (fsigned f d < 0)%Q.
Proof.
  intros A Hf. destruct (finite_not_special Hf) as [N _]. destruct (sign_finite A Hf) as [C1 C2].
  pose proof (clear_sign_range A Hf) as R. pose proof (@fabs_nonneg F f A d) as P.
  unfold is_negative, fsigned. rewrite N. cbn [negb]. rewrite andb_true_r.
  destruct (Z.leb_spec (2 ^ (all_bits f - 1)) d) as [L|L]; cbn [andb].
  - destruct (Z.eqb_spec (clear_sign f d) 0) as [Z0|Z0]; cbn [negb].
    + split; [discriminate|]. intros H. rewrite <- C2, Z0 in H. pose proof (@fabs_0 F f A) as E.
      rewrite E in H. exfalso. lra.
    + split; [intros _|reflexivity]. assert (H : (fabs f 0 < fabs f (clear_sign f d))%Q).
      { apply (@fabs_lt F f A); lia. }
      rewrite C2, (@fabs_0 F f A) in H. lra.
  - split; [discriminate|]. intros H. exfalso. lra.
Qed.

Lemma to_signed_spec F f d : In (F, f) good_formats -> finite f d ->
  exists b, bigint_of_float F f d = (b, Qfloor (fabs f d)) /\ (b = true <-> (fsigned f d < 0)%Q).
Proof.
  intros G Hf. exists (is_negative f d). split; [exact (to_signed_all G Hf)|].
  destruct (good_all G) as (A1 & _). exact (is_negative_spec A1 Hf).
Qed.

Lemma negative_zero_all F f d : In (F, f) good_formats -> finite f d ->
  (-1 < fsigned f d)%Q -> (fsigned f d < 0)%Q ->
  bigint_of_float F f d = (true, 0) /\ bigint_eq (bigint_of_float F f d) (false, 0) = false.
Proof.
  intros G Hf L N. destruct (good_all G) as (A1 & _).
  rewrite (to_signed_all G Hf), (proj2 (is_negative_spec A1 Hf) N).
  assert (L1 : (fabs f d < 1)%Q).
  { revert L N. unfold fsigned. pose proof (@fabs_nonneg F f A1 d). destruct (_ <=? _); intros; lra. }
  assert (E : Qfloor (fabs f d) = 0) by (apply floor_between; [exact (@fabs_nonneg F f A1 d)|exact L1]).
  rewrite E. split; reflexivity.
Qed.

Lemma to_fraction_all F f sw d n q : In (F, f) good_formats -> finite f d ->
  ubigfloat_of_float F f sw d = Some (n, q) ->
  0 < q /\
  ((ratio n q == fabs f d)%Q \/
   (fabs f d < 1)%Q /\ 0 < n < 128 /\ q <= 2 ^ 17 /\ nearest f (ratio n q) (clear_sign f d)).
Proof.
  intros G Hf. destruct (good_all G) as (A1 & A2 & A3 & A4 & A5 & A6 & A7 & A8).
  exact (ubigfloat_spec A1 A6 A4 Hf).
Qed.

Lemma to_fraction_exact_all F f d : In (F, f) [(float32_info, binary32); (float64_info, binary64)] -> finite f d ->
  (1 <= fabs f d)%Q ->
  exists n q, ubigfloat_of_float F f 64 d = Some (n, q) /\ 0 < q /\ (ratio n q == fabs f d)%Q.
Proof.
  intros G Hf L. assert (G' : In (F, f) good_formats) by (destruct G as [G|[G|[]]]; rewrite <- G; cbn; auto).
  assert (M : fm f <= 56) by (destruct G as [G|[G|[]]]; injection G as <- <-; cbn; lia).
  destruct (good_all G') as (A1 & A2 & A3 & A4 & A5 & A6 & A7 & A8).
  destruct (@ubigfloat_defined F f A1 64 A4 d Hf ltac:(lia) ltac:(lia) (or_introl (conj L M))) as (n & q & E).
  exists n, q. split; [exact E|]. destruct (ubigfloat_spec A1 A6 A4 Hf E) as [Q [X|(X & _)]]; [split; assumption|].
  exfalso. lra.
Qed.

Lemma to_fraction_defined_all F f d : In (F, f) good_formats -> finite f d ->
  (pow2 (-56) <= fabs f d)%Q -> (fabs f d < 1)%Q -> exists n q, ubigfloat_of_float F f 64 d = Some (n, q).
Proof.
  intros G Hf L1 L2. destruct (good_all G) as (A1 & A2 & A3 & A4 & A5 & A6 & A7 & A8).
  exact (@ubigfloat_defined F f A1 64 A4 d Hf ltac:(lia) ltac:(lia) (or_intror (conj L1 L2))).
Qed.
Lemma to_fraction_undefined_all F f d : In (F, f) good_formats -> finite f d ->
  (0 < fabs f d)%Q -> (fabs f d <= pow2 (-64))%Q -> ubigfloat_of_float F f 64 d = None.
Proof.
  intros G Hf L1 L2. destruct (good_all G) as (A1 & A2 & A3 & A4 & A5 & A6 & A7 & A8).
  exact (@ubigfloat_undefined F f A1 A6 64 A4 d Hf ltac:(lia) L1 L2).
Qed.

Section All.
Variables (F : finfo) (f : fmt) (ew : Z).
Hypothesis G : In (F, f) good_formats.
Hypothesis Hew : 16 <= ew.
Lemma ew_bound : bias f + 2 * bw F < 2 ^ (ew - 1).
Proof.
  destruct (good_all G) as (A1 & A2 & A3 & A4 & A5 & A6 & A7 & A8).
  apply Z.lt_le_trans with (2 ^ 15); [exact A8|]. apply Z.pow_le_mono_r; lia.
Qed.
Lemma from_fraction_all fuel n d : 0 < n -> 0 < d -> Z.log2 d + 2 <= Z.of_nat fuel ->
  (pow2 (2 - bias f - all_bits f) <= ratio n d)%Q -> (ratio n d < pow2 (bias f + 1))%Q ->
  ~ just_below_power (all_bits f) (ratio n d) ->
  exists r, convert_to_float F f ew fuel n d = Ok r /\ faithful f (ratio n d) r.
Proof.
  pose proof ew_bound as B. destruct (good_all G) as (A1 & A2 & A3 & A4 & A5 & A6 & A7 & A8). rewrite <- A2.
  exact (@convert_faithful F f A1 ltac:(lia) A5 A3 ew ltac:(lia) B fuel n d).
Qed.
Lemma from_large_all fuel n d : 0 < n -> 0 < d -> Z.log2 d + 2 <= Z.of_nat fuel ->
  (pow2 (bias f + 1) <= ratio n d)%Q -> (ratio n d < pow2 (2 ^ (ew - 1)))%Q ->
  convert_to_float F f ew fuel n d = Ok 0.
Proof.
  pose proof ew_bound as B. destruct (good_all G) as (A1 & A2 & A3 & A4 & A5 & A6 & A7 & A8).
  exact (@convert_large F f A1 ltac:(lia) A5 A3 ew ltac:(lia) B fuel n d).
Qed.
Lemma from_small_all fuel n d : 0 < n -> 0 < d -> Z.log2 d + 2 <= Z.of_nat fuel ->
  (pow2 (all_bits f - 2 ^ (ew - 1)) <= ratio n d)%Q -> (ratio n d < pow2 (1 - bias f - all_bits f))%Q ->
  convert_to_float F f ew fuel n d = Ub.
Proof.
  pose proof ew_bound as B. destruct (good_all G) as (A1 & A2 & A3 & A4 & A5 & A6 & A7 & A8). rewrite <- A2.
  exact (@convert_small F f A1 ltac:(lia) A5 A3 ew ltac:(lia) B fuel n d).
Qed.
Lemma from_below_all fuel n k : 0 < n -> 0 <= k -> k + 2 <= Z.of_nat fuel ->
  (pow2 (3 - bias f) <= ratio n (2 ^ k))%Q -> (ratio n (2 ^ k) < pow2 (bias f + 1))%Q ->
  just_below_power (all_bits f) (ratio n (2 ^ k)) ->
  convert_to_float F f ew fuel n (2 ^ k) = Ok 0.
Proof.
  intros Hn Hk Hf X1 X2 J.
  pose proof ew_bound as B. destruct (good_all G) as (A1 & A2 & A3 & A4 & A5 & A6 & A7 & A8). rewrite <- A2 in J.
  apply (@convert_below F f A1 ltac:(lia) A5 A3 ew ltac:(lia) B fuel n k Hn Hk Hf X1); [|exact J].
  eapply Qlt_le_trans; [exact X2|]. apply pow2_le. lia.
Qed.
Lemma there_and_back_all sw fuel d n q : finite f d -> ubigfloat_of_float F f sw d = Some (n, q) ->
  (ratio n q == fabs f d)%Q -> Z.log2 q + 2 <= Z.of_nat fuel ->
  convert_to_float F f ew fuel n q = Ok (clear_sign f d).
Proof.
  pose proof ew_bound as B. destruct (good_all G) as (A1 & A2 & A3 & A4 & A5 & A6 & A7 & A8).
  exact (@there_and_back F f A1 ltac:(lia) A5 A3 ew ltac:(lia) B A6 sw A4 fuel d n q).
Qed.
End All.

Lemma there_and_back_refuted : exists d n q, finite binary32 d /\
  ubigfloat_of_float float32_info binary32 64 d = Some (n, q) /\
  convert_to_float float32_info binary32 16 100 n q <> Ok (clear_sign binary32 d) /\
  convert_to_float float32_info binary32 16 100 n q <> Out.
Proof.
  exists 0x3DCCCCCD, 1, 10. refine (conj _ (conj _ (conj _ _))); [vm_compute; repeat split; discriminate| | |];
  vm_compute; [reflexivity|discriminate|discriminate].
Qed.
