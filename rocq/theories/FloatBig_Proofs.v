(** Proofs about conversions between floating-point numbers and big numbers. *)
From Verif Require Import Base Float_Model Float_Spec Float_Proofs Ref_Model FloatBig_Model FloatBig_Spec.
From Coq Require Import QArith Qpower Qround Qabs Lia Lqa.
Local Open Scope Z_scope.

Lemma pow2_pos e : (0 < pow2 e)%Q.
Proof. apply two_pos. Qed.
Lemma pow2_add a b : (pow2 (a + b) == pow2 a * pow2 b)%Q.
Proof. apply Qpower_plus. discriminate. Qed.
Lemma scaled_pow2 n e : (scaled n e == inject_Z n * pow2 e)%Q.
Proof. reflexivity. Qed.
Lemma pow2_Z k : 0 <= k -> (pow2 k == inject_Z (2 ^ k))%Q.
Proof. intros K. rewrite Zpower_Qpower by exact K. reflexivity. Qed.
Lemma scaled_0 n : (scaled n 0 == inject_Z n)%Q.
Proof. unfold scaled. change ((2 # 1) ^ 0)%Q with 1%Q. ring. Qed.
Lemma pow2_inv e : (pow2 e * pow2 (- e) == 1)%Q.
Proof. rewrite <- pow2_add. replace (e + - e) with 0 by lia. reflexivity. Qed.

Lemma floor_between x n : (inject_Z n <= x)%Q -> (x < inject_Z (n + 1))%Q -> Qfloor x = n.
Proof.
  intros A B. pose proof (Qfloor_le x) as C. pose proof (Qlt_floor x) as D.
  assert (E1 : (inject_Z (Qfloor x) < inject_Z (n + 1))%Q) by (eapply Qle_lt_trans; eassumption).
  assert (E2 : (inject_Z n < inject_Z (Qfloor x + 1))%Q) by (eapply Qle_lt_trans; eassumption).
  rewrite <- Zlt_Qlt in E1, E2. lia.
Qed.

Section Fits.
Variables (F : finfo) (f : fmt).
Hypothesis Fit : fits_format F f.

Notation m := (fm f).

Lemma m1 : 1 <= m. Proof. exact (f_m Fit). Qed.
Lemma pm : 0 < 2 ^ m. Proof. apply zpow_pos. pose proof m1. lia. Qed.
Lemma pm1 : 2 ^ (m + 1) = 2 * 2 ^ m. Proof. pose proof m1. rewrite Z.pow_add_r by lia. lia. Qed.
Lemma fe4 : 4 <= 2 ^ fe f.
Proof. change 4 with (2 ^ 2). apply Z.pow_le_mono_r; [lia|exact (f_e Fit)]. Qed.
Lemma fe_bias : 2 ^ fe f = 2 * (bias f + 1).
Proof.
  pose proof (f_e Fit). unfold bias. replace (fe f) with (1 + (fe f - 1)) at 1 by lia.
  rewrite Z.pow_add_r by lia. lia.
Qed.
Lemma bias1 : 1 <= bias f.
Proof. pose proof fe_bias. pose proof fe4. lia. Qed.

Lemma fabs_scaled r : fabs f r = scaled (units f r) (tiny f).
Proof. reflexivity. Qed.

Lemma fabs_le r s : 0 <= r -> r <= s -> s <= inf_bits f -> (fabs f r <= fabs f s)%Q.
Proof.
  intros A B C. rewrite !fabs_scaled. apply scaled_le.
  destruct (Z.eq_dec r s) as [->|N]; [lia|].
  pose proof (@units_mono F f Fit r s A ltac:(lia) C). lia.
Qed.
Lemma fabs_lt r s : 0 <= r -> r < s -> s <= inf_bits f -> (fabs f r < fabs f s)%Q.
Proof.
  intros A B C. rewrite !fabs_scaled. apply scaled_lt. exact (@units_mono F f Fit r s A B C).
Qed.
Lemma fabs_le_inv r s : 0 <= s -> r <= inf_bits f -> (fabs f r <= fabs f s)%Q -> r <= s.
Proof.
  intros A B C. destruct (Z.le_gt_cases r s) as [L|L]; [exact L|].
  exfalso. apply (Qle_not_lt _ _ C). apply fabs_lt; assumption.
Qed.
Lemma fabs_lt_inv r s : 0 <= s -> r <= inf_bits f -> (fabs f r < fabs f s)%Q -> r < s.
Proof.
  intros A B C. destruct (Z.lt_ge_cases r s) as [L|L]; [exact L|].
  exfalso. apply (Qlt_not_le _ _ C). apply fabs_le; lia.
Qed.
Lemma fabs_inj r s : 0 <= r <= inf_bits f -> 0 <= s <= inf_bits f -> (fabs f r == fabs f s)%Q -> r = s.
Proof.
  intros A B C.
  assert (r <= s) by (apply fabs_le_inv; [lia|lia|rewrite C; apply Qle_refl]).
  assert (s <= r) by (apply fabs_le_inv; [lia|lia|rewrite C; apply Qle_refl]). lia.
Qed.

Lemma inf_pos : 0 < inf_bits f.
Proof. unfold inf_bits. pose proof fe4. pose proof pm. nia. Qed.

Lemma fabs_0 : (fabs f 0 == 0)%Q.
Proof.
  rewrite fabs_scaled. destruct (@units_sub F f Fit 0) as [-> _]; [pose proof pm; lia|].
  unfold scaled. ring.
Qed.

Lemma units_grid k v : 0 <= k -> (k = 0 /\ 0 <= v \/ 2 ^ m <= v) -> v < 2 ^ (m + 1) -> k + 1 < 2 ^ fe f - 1 ->
  units f (k * 2 ^ m + v) = v * 2 ^ k /\ units f (k * 2 ^ m + v + 1) = (v + 1) * 2 ^ k.
Proof.
  intros K V1 V2 E. rewrite pm1 in V2. pose proof pm.
  destruct (Z.lt_ge_cases v (2 ^ m)) as [L|L].
  - destruct V1 as [[-> V1]|V1]; [|lia]. rewrite Z.pow_0_r, !Z.mul_0_l, !Z.mul_1_r, !Z.add_0_l.
    apply (units_sub Fit). lia.
  - replace (k * 2 ^ m + v) with ((k + 1) * 2 ^ m + (v - 2 ^ m)) by ring.
    rewrite units_of, units_next by lia. destruct (Z.eqb_spec (k + 1) 0); [lia|].
    replace (k + 1 - 1) with k by lia. split; f_equal; lia.
Qed.

Lemma units_inf : units f (inf_bits f) = 2 ^ m * 2 ^ (2 ^ fe f - 2).
Proof.
  unfold inf_bits. pose proof fe4. pose proof pm.
  replace ((2 ^ fe f - 1) * 2 ^ m) with ((2 ^ fe f - 1) * 2 ^ m + 0) by lia.
  rewrite units_of by lia. destruct (Z.eqb_spec (2 ^ fe f - 1) 0); [lia|].
  f_equal; [lia|]. f_equal. lia.
Qed.
Lemma fabs_inf : (fabs f (inf_bits f) == pow2 (bias f + 1))%Q.
Proof.
  rewrite fabs_scaled, units_inf. pose proof m1. pose proof fe4.
  rewrite <- Z.pow_add_r by lia. rewrite <- (Z.mul_1_l (2 ^ _)), scaled_shift by lia.
  replace (m + (2 ^ fe f - 2) + tiny f) with (bias f + 1).
  - unfold scaled, pow2. ring.
  - unfold tiny. rewrite fe_bias. lia.
Qed.

(** ** Rounding *)
Lemma rn_morphism x y : (x == y)%Q -> rn f x = rn f y.
Proof.
  intros E. unfold rn. assert (E2 : (x * (2 # 1) ^ (- tiny f) == y * (2 # 1) ^ (- tiny f))%Q) by (rewrite E; reflexivity).
  rewrite (Qfloor_comp _ _ E2). set (a := (_ + _ * (1 # 2))%Q).
  rewrite (Qcompare_comp _ _ E2 a a (Qeq_refl a)). reflexivity.
Qed.

(** The number in units of the smallest one, cut. *)
Lemma to_units x : exists u, Qfloor (x * (2 # 1) ^ (- tiny f)) = u /\
  (scaled u (tiny f) <= x)%Q /\ (x < scaled (u + 1) (tiny f))%Q.
Proof.
  eexists. split; [reflexivity|]. set (u := Qfloor _).
  pose proof (Qfloor_le (x * (2 # 1) ^ (- tiny f))) as A.
  pose proof (Qlt_floor (x * (2 # 1) ^ (- tiny f))) as B. fold u in A, B.
  change ((2 # 1) ^ (- tiny f))%Q with (pow2 (- tiny f)) in *.
  pose proof (pow2_pos (tiny f)) as P. pose proof (pow2_inv (tiny f)) as I.
  assert (E : (x == x * pow2 (- tiny f) * pow2 (tiny f))%Q).
  { rewrite <- Qmult_assoc, (Qmult_comm (pow2 _)), I. ring. }
  split.
  - rewrite E. unfold scaled. apply Qmult_le_compat_r; [exact A|apply Qlt_le_weak; exact P].
  - rewrite E at 1. unfold scaled. apply Qmult_lt_r; [exact P|exact B].
Qed.

Definition near_choice (x : Q) (r0 r : Z) : Prop :=
  (r = r0 /\ (x - fabs f r0 <= fabs f (r0 + 1) - x)%Q) \/
  (r = r0 + 1 /\ (fabs f (r0 + 1) - x <= x - fabs f r0)%Q).

Lemma rn_spec x : (0 <= x)%Q -> (x < fabs f (inf_bits f))%Q ->
  exists r0, truncated f x r0 /\ near_choice x r0 (rn f x).
Proof.
  intros X0 X1. unfold rn. set (y := (x * (2 # 1) ^ (- tiny f))%Q).
  destruct (to_units x) as (u & Eu & Lo & Hi). fold y in Eu. rewrite Eu.
  pose proof pm. pose proof m1. pose proof fe4.
  assert (U0 : 0 <= u).
  { assert (0 < u + 1); [|lia]. apply (scaled_lt 0 (u + 1) (tiny f)).
    eapply Qle_lt_trans; [|exact Hi]. unfold scaled. rewrite Qmult_0_l. exact X0. }
  assert (U1 : u < 2 ^ m * 2 ^ (2 ^ fe f - 2)).
  { rewrite <- units_inf. apply (scaled_lt u (units f (inf_bits f)) (tiny f)).
    eapply Qle_lt_trans; [exact Lo|exact X1]. }
  set (k := Z.max 0 (Z.log2 u - m)).
  pose proof (zpow_pos (x := k) ltac:(lia)) as Pk.
  assert (K1 : k + 1 < 2 ^ fe f - 1).
  { destruct (Z.eq_dec u 0) as [->|N]; [unfold k; rewrite Z.log2_nonpos by lia; lia|].
    rewrite <- Z.pow_add_r in U1 by lia.
    assert (Z.log2 u < m + (2 ^ fe f - 2)) by (apply Z.log2_lt_pow2; lia). lia. }
  set (v := u / 2 ^ k) in *.
  pose proof (Z.div_mod u (2 ^ k) ltac:(lia)) as Dv. fold v in Dv.
  pose proof (Z.mod_pos_bound u (2 ^ k) Pk) as Mv.
  assert (V : (k = 0 /\ 0 <= v \/ 2 ^ m <= v) /\ v < 2 ^ (m + 1)).
  { destruct (Z.eq_dec u 0) as [E|N].
    { subst u. assert (Z.log2 (Qfloor y) = 0) by (rewrite E; reflexivity).
      assert (k = 0) by lia. unfold v. rewrite E, Z.div_0_l by lia. rewrite pm1. lia. }
    pose proof (Z.log2_spec u ltac:(lia)) as [L1 L2]. rewrite Z.pow_succ_r in L2 by apply Z.log2_nonneg.
    destruct (Z.le_gt_cases (Z.log2 u) m) as [C|C].
    - assert (k = 0) by lia. assert (v = u) by (unfold v; replace k with 0 by lia; apply Z.div_1_r).
      split; [lia|]. rewrite pm1. assert (2 ^ Z.log2 u <= 2 ^ m) by (apply Z.pow_le_mono_r; lia). lia.
    - assert (E2 : 2 ^ Z.log2 u = 2 ^ m * 2 ^ k) by (rewrite <- Z.pow_add_r by lia; f_equal; lia).
      rewrite E2 in L1, L2. split; [right|].
      + unfold v. apply Z.div_le_lower_bound; lia.
      + unfold v. apply Z.div_lt_upper_bound; [lia|]. rewrite pm1. lia. }
  destruct V as [V1 V2].
  destruct (@units_grid k v ltac:(lia) V1 V2 K1) as [G1 G2].
  set (r0 := k * 2 ^ m + v) in *.
  assert (R0 : 0 <= r0 < inf_bits f).
  { unfold inf_bits, r0. rewrite pm1 in V2. nia. }
  assert (T : truncated f x r0).
  { refine (conj R0 (conj _ _)); rewrite fabs_scaled, ?G1, ?G2.
    - eapply Qle_trans; [|exact Lo]. apply scaled_le. lia.
    - eapply Qlt_le_trans; [exact Hi|]. apply scaled_le. lia. }
  exists r0. split; [exact T|].
  set (mid := (inject_Z (v * 2 ^ k) + inject_Z (2 ^ k) * (1 # 2))%Q).
  assert (Fx : (x == y * pow2 (tiny f))%Q).
  { unfold y. change ((2 # 1) ^ (- tiny f))%Q with (pow2 (- tiny f)).
    rewrite <- Qmult_assoc, (Qmult_comm (pow2 _)), pow2_inv. ring. }
  assert (S2 : (fabs f r0 + fabs f (r0 + 1) == mid * pow2 (tiny f) + mid * pow2 (tiny f))%Q).
  { rewrite !fabs_scaled, G1, G2. unfold scaled, mid. fold (pow2 (tiny f)).
    rewrite Z.mul_add_distr_r, Z.mul_1_l, inject_Z_plus. field. }
  pose proof (pow2_pos (tiny f)) as Pt.
  assert (Ge : (mid <= y)%Q -> (fabs f (r0 + 1) - x <= x - fabs f r0)%Q).
  { intros C. assert ((mid * pow2 (tiny f) <= x)%Q).
    { rewrite Fx. apply Qmult_le_compat_r; [exact C|lra]. } lra. }
  assert (Le : (y <= mid)%Q -> (x - fabs f r0 <= fabs f (r0 + 1) - x)%Q).
  { intros C. assert ((x <= mid * pow2 (tiny f))%Q).
    { rewrite Fx. apply Qmult_le_compat_r; [exact C|lra]. } lra. }
  unfold near_choice. destruct (Qcompare_spec y mid) as [C|C|C].
  - destruct (Z.even r0); [left|right]; (split; [apply Z.min_l; lia|]); [apply Le|apply Ge]; lra.
  - left. split; [apply Z.min_l; lia|]. apply Le. lra.
  - right. split; [apply Z.min_l; lia|]. apply Ge. lra.
Qed.

Lemma rn_large x : (fabs f (inf_bits f) <= x)%Q -> rn f x = inf_bits f.
Proof.
  intros X1. unfold rn. set (y := (x * (2 # 1) ^ (- tiny f))%Q).
  destruct (to_units x) as (u & Eu & Lo & Hi). fold y in Eu. rewrite Eu.
  pose proof pm. pose proof m1. pose proof fe4.
  assert (U1 : 2 ^ m * 2 ^ (2 ^ fe f - 2) <= u).
  { rewrite <- units_inf. assert (units f (inf_bits f) < u + 1); [|lia].
    apply (scaled_lt (units f (inf_bits f)) (u + 1) (tiny f)).
    eapply Qle_lt_trans; [exact X1|exact Hi]. }
  rewrite <- Z.pow_add_r in U1 by lia.
  assert (U0 : 0 < u) by (pose proof (zpow_pos (x := m + (2 ^ fe f - 2)) ltac:(lia)); lia).
  assert (L : m + (2 ^ fe f - 2) <= Z.log2 u) by (apply Z.log2_le_pow2; lia).
  set (k := Z.max 0 (Z.log2 u - m)).
  pose proof (zpow_pos (x := k) ltac:(lia)) as Pk.
  assert (V : 2 ^ m <= u / 2 ^ k).
  { apply Z.div_le_lower_bound; [lia|]. rewrite <- Z.pow_add_r by lia.
    pose proof (Z.log2_spec u U0) as [L1 _]. replace (k + m) with (Z.log2 u) by lia. lia. }
  assert (R : inf_bits f <= k * 2 ^ m + u / 2 ^ k).
  { unfold inf_bits. assert (2 ^ fe f - 2 <= k) by lia. nia. }
  destruct (y ?= _)%Q; [destruct (Z.even _)| |]; apply Z.min_r; lia.
Qed.

Lemma rn_range x : (0 <= x)%Q -> 0 <= rn f x <= inf_bits f.
Proof.
  intros X0. destruct (Qlt_le_dec x (fabs f (inf_bits f))) as [C|C].
  - destruct (rn_spec X0 C) as (r0 & (R & _) & [[-> _]|[-> _]]); lia.
  - rewrite (rn_large C). pose proof inf_pos. lia.
Qed.

(** Rounding keeps the order with respect to every floating-point number. *)
Lemma rn_lower x s : (0 <= x)%Q -> 0 <= s <= inf_bits f -> (fabs f s <= x)%Q -> s <= rn f x.
Proof.
  intros X0 Hs L. destruct (Qlt_le_dec x (fabs f (inf_bits f))) as [C|C].
  - destruct (rn_spec X0 C) as (r0 & (R & T1 & T2) & H).
    assert (s < r0 + 1).
    { apply fabs_lt_inv; [lia|lia|]. eapply Qle_lt_trans; eassumption. }
    destruct H as [[-> _]|[-> _]]; lia.
  - rewrite (rn_large C). lia.
Qed.
Lemma rn_upper x s : (0 <= x)%Q -> 0 <= s < inf_bits f -> (x <= fabs f s)%Q -> rn f x <= s.
Proof.
  intros X0 Hs L.
  assert (C : (x < fabs f (inf_bits f))%Q).
  { eapply Qle_lt_trans; [exact L|]. apply fabs_lt; lia. }
  destruct (rn_spec X0 C) as (r0 & (R & T1 & T2) & H).
  assert (r0 <= s).
  { apply fabs_le_inv; [lia|lia|]. eapply Qle_trans; eassumption. }
  destruct H as [[-> _]|[-> H]]; [lia|].
  destruct (Z.eq_dec r0 s) as [->|N]; [|lia]. exfalso. lra.
Qed.
Lemma rn_exact x s : 0 <= s < inf_bits f -> (x == fabs f s)%Q -> rn f x = s.
Proof.
  intros Hs E.
  assert (X0 : (0 <= x)%Q) by (rewrite E, <- fabs_0; apply fabs_le; lia).
  assert (s <= rn f x) by (apply rn_lower; [exact X0|lia|rewrite E; apply Qle_refl]).
  assert (rn f x <= s) by (apply rn_upper; [exact X0|lia|rewrite E; apply Qle_refl]). lia.
Qed.

(** Rounding gives a nearest number. *)
Lemma rn_nearest x : (0 <= x)%Q -> rn f x < inf_bits f -> nearest f x (rn f x).
Proof.
  intros X0 H. split; [pose proof (rn_range X0); lia|]. intros s Hs.
  destruct (Qlt_le_dec x (fabs f (inf_bits f))) as [C|C]; [|rewrite (rn_large C) in H; lia].
  destruct (rn_spec X0 C) as (r0 & (R & T1 & T2) & N).
  assert (S : (fabs f s <= fabs f r0)%Q \/ (fabs f (r0 + 1) <= fabs f s)%Q).
  { destruct (Z.le_gt_cases s r0); [left|right]; apply fabs_le; lia. }
  destruct N as [[-> N]|[-> N]].
  - rewrite (Qabs_neg (fabs f r0 - x)) by lra. destruct S as [S|S].
    + rewrite (Qabs_neg (fabs f s - x)) by lra. lra.
    + rewrite (Qabs_pos (fabs f s - x)) by lra. lra.
  - rewrite (Qabs_pos (fabs f (r0 + 1) - x)) by lra. destruct S as [S|S].
    + rewrite (Qabs_neg (fabs f s - x)) by lra. lra.
    + rewrite (Qabs_pos (fabs f s - x)) by lra. lra.
Qed.

(** Every number with at most [fm+1] significant bits in range is representable. *)
Lemma representable n e : 0 <= n < 2 ^ (m + 1) -> tiny f <= e -> e + Z.log2 n <= bias f ->
  exists r, 0 <= r < inf_bits f /\ (fabs f r == scaled n e)%Q.
Proof.
  intros Hn He Hb. pose proof pm. pose proof m1. pose proof fe4. pose proof fe_bias. pose proof inf_pos.
  destruct (Z.eq_dec n 0) as [->|N].
  { exists 0. split; [lia|]. rewrite fabs_0. unfold scaled. ring. }
  pose proof (@log2_bound f n ltac:(lia)) as Lb.
  pose proof (Z.log2_spec n ltac:(lia)) as [L1 L2]. rewrite Z.pow_succ_r in L2 by lia.
  set (L := Z.log2 n) in *.
  destruct (Z.le_gt_cases (1 - bias f) (e + L)) as [C|C].
  - assert (E : 2 ^ m = 2 ^ L * 2 ^ (m - L)) by (rewrite <- Z.pow_add_r by lia; f_equal; lia).
    pose proof (zpow_pos (x := m - L) ltac:(lia)) as P.
    destruct (@units_grid (e + L + bias f - 1) (n * 2 ^ (m - L))) as [G _]; [lia|right; nia|rewrite pm1; nia|lia|].
    exists ((e + L + bias f - 1) * 2 ^ m + n * 2 ^ (m - L)). split.
    + split; [nia|]. unfold inf_bits. nia.
    + rewrite fabs_scaled, G. rewrite <- Z.mul_assoc, <- Z.pow_add_r by lia.
      rewrite scaled_shift by lia.
      replace (m - L + (e + L + bias f - 1) + tiny f) with e by (unfold tiny; lia). reflexivity.
  - assert (B : n * 2 ^ (e - tiny f) < 2 ^ m).
    { apply Z.lt_le_trans with (2 ^ (L + 1) * 2 ^ (e - tiny f)).
      - pose proof (zpow_pos (x := e - tiny f) ltac:(lia)). rewrite Z.pow_add_r by lia.
        change (2 ^ 1) with 2. nia.
      - rewrite <- Z.pow_add_r by lia. apply Z.pow_le_mono_r; [lia|]. unfold tiny. lia. }
    pose proof (zpow_pos (x := e - tiny f) ltac:(lia)).
    assert (B0 : 0 <= n * 2 ^ (e - tiny f)) by nia.
    exists (n * 2 ^ (e - tiny f)). split.
    + split; [lia|]. unfold inf_bits. nia.
    + destruct (@units_sub F f Fit _ (conj B0 B)) as [U _]. rewrite fabs_scaled, U.
      rewrite scaled_shift by lia. replace (e - tiny f + tiny f) with e by lia. reflexivity.
Qed.

Hypothesis bias_large : m + 1 <= bias f.

Lemma representable_int n : 0 <= n < 2 ^ (m + 1) ->
  exists r, 0 <= r < inf_bits f /\ (fabs f r == inject_Z n)%Q.
Proof.
  intros Hn. destruct (@representable n 0) as (r & R & E); [exact Hn| | |].
  - unfold tiny. pose proof m1. lia.
  - destruct (Z.eq_dec n 0) as [->|N]; [change (Z.log2 0) with 0; pose proof bias1; lia|].
    pose proof (@log2_bound f n ltac:(lia)). lia.
  - exists r. split; [exact R|]. rewrite E. apply scaled_0.
Qed.

Lemma rv_lower_int x n : 0 <= n < 2 ^ (m + 1) -> (inject_Z n <= x)%Q -> (inject_Z n <= rv f x)%Q.
Proof.
  intros Hn L. destruct (representable_int Hn) as (r & R & E). unfold rv.
  assert (X0 : (0 <= x)%Q).
  { eapply Qle_trans; [|exact L]. change 0%Q with (inject_Z 0). rewrite <- Zle_Qle. lia. }
  rewrite <- E in *. apply fabs_le; [lia| |exact (proj2 (rn_range X0))].
  apply rn_lower; [exact X0|lia|exact L].
Qed.
Lemma rv_int x n : 0 <= n < 2 ^ (m + 1) -> (x == inject_Z n)%Q -> (rv f x == inject_Z n)%Q.
Proof.
  intros Hn E. destruct (representable_int Hn) as (r & R & Er). unfold rv.
  rewrite (@rn_exact x r R); [exact Er|]. rewrite E, Er. reflexivity.
Qed.

(** Finite numbers by their parts. *)
Lemma finite_nonneg r : 0 <= r < inf_bits f -> finite f r /\ clear_sign f r = r.
Proof.
  intros R. pose proof pm. pose proof m1. pose proof fe4. pose proof (f_e Fit).
  assert (B : inf_bits f <= 2 ^ (all_bits f - 1)).
  { unfold inf_bits, all_bits. replace (1 + fe f + m - 1) with (fe f + m) by lia.
    rewrite Z.pow_add_r by lia. nia. }
  assert (D : is_data f r).
  { split; [lia|]. eapply Z.lt_le_trans; [|apply Z.pow_le_mono_r with (b := all_bits f - 1)]; lia. }
  assert (C : clear_sign f r = r) by (apply Z.mod_small; lia).
  split; [|exact C]. split; [exact D|].
  unfold exp_field. intros E. unfold inf_bits in R.
  assert (r / 2 ^ m < 2 ^ fe f - 1) by (apply Z.div_lt_upper_bound; lia).
  rewrite Z.mod_small in E by (split; [apply Z.div_pos; lia|lia]). lia.
Qed.

Lemma clear_sign_range d : finite f d -> 0 <= clear_sign f d < inf_bits f.
Proof.
  intros [D N]. destruct (clear_sign_fields Fit D) as (_ & _ & ->).
  pose proof (exp_field_range Fit d). pose proof (frac_field_range Fit d). unfold inf_bits. nia.
Qed.
Lemma clear_sign_fabs d : is_data f d -> fabs f (clear_sign f d) = fabs f d.
Proof. intros D. unfold fabs. rewrite (clear_sign_abs Fit D). reflexivity. Qed.

Lemma precision_range d : 0 <= get_precision F d < 2 ^ (m + 1).
Proof.
  rewrite (prec Fit), pm1. pose proof (frac_field_range Fit d). destruct (exp_field f d =? 0); lia.
Qed.

Lemma fabs_nonneg d : (0 <= fabs f d)%Q.
Proof.
  unfold fabs. apply Qmult_le_0_compat; [|apply Qlt_le_weak, two_pos].
  change 0%Q with (inject_Z 0). rewrite <- Zle_Qle. unfold units.
  pose proof (frac_field_range Fit d). pose proof (exp_field_range Fit d). pose proof pm.
  destruct (Z.eqb_spec (exp_field f d) 0); [lia|].
  pose proof (zpow_pos (x := exp_field f d - 1) ltac:(lia)). nia.
Qed.

Lemma floor_scaled n e : 0 <= n -> e < 0 -> Qfloor (scaled n e) = n / 2 ^ (- e).
Proof.
  intros Hn He. pose proof (zpow_pos (x := - e) ltac:(lia)) as P.
  assert (K : forall a, (inject_Z a == scaled (a * 2 ^ (- e)) e)%Q).
  { intros a. rewrite scaled_shift by lia. replace (- e + e) with 0 by lia. symmetry. apply scaled_0. }
  pose proof (Z.div_mod n (2 ^ (- e)) ltac:(lia)). pose proof (Z.mod_pos_bound n (2 ^ (- e)) P).
  apply floor_between; rewrite K.
  - apply scaled_le. lia.
  - apply scaled_lt. lia.
Qed.

(** The integer part of a finite number is a finite number. *)
Lemma floor_representable d : finite f d ->
  exists r, 0 <= r < inf_bits f /\ (fabs f r == inject_Z (Qfloor (fabs f d)))%Q.
Proof.
  intros Hf. pose proof (decompose_exact Fit Hf) as E.
  set (p := get_precision F d) in *. set (e := get_exponent F d) in *.
  pose proof (precision_range d) as P. fold p in P.
  destruct (Z.le_gt_cases 0 e) as [C|C].
  - exists (clear_sign f d). split; [exact (clear_sign_range Hf)|].
    rewrite (clear_sign_fabs (proj1 Hf)), E.
    replace e with (e + 0) by lia. rewrite <- scaled_shift by lia.
    rewrite !scaled_0, Qfloor_Z. reflexivity.
  - assert (Ef : Qfloor (fabs f d) = p / 2 ^ (- e)) by (rewrite E; exact (floor_scaled (proj1 P) C)).
    rewrite Ef. apply representable_int. pose proof (zpow_pos (x := - e) ltac:(lia)).
    split; [apply Z.div_pos; lia|]. apply Z.le_lt_trans with p; [|lia].
    apply Z.div_le_upper_bound; nia.
Qed.

(** ubigint(v) is the integer part of |v|. *)
Theorem ubigint_floor d : finite f d -> ubigint_of_float F f d = Qfloor (fabs f d).
Proof.
  intros Hf. unfold ubigint_of_float, modf_int.
  destruct (Z.eqb_spec (exp_field f d) (2 ^ fe f - 1)) as [C|C]; unfold special.
  { destruct Hf. contradiction. }
  apply Z.eqb_neq in C. rewrite C.
  destruct (floor_representable Hf) as (r & R & E).
  rewrite (@rn_exact _ r R) by (symmetry; exact E).
  destruct (finite_nonneg R) as [Hr _]. pose proof (decompose_exact Fit Hr) as D.
  pose proof (precision_range r) as P.
  set (p := get_precision F r) in *. set (e := get_exponent F r) in *. set (n := Qfloor (fabs f d)) in *.
  rewrite E in D. unfold shl_signed. destruct (Z.ltb_spec e 0) as [L|L].
  - rewrite Z.shiftr_div_pow2 by lia. rewrite <- (floor_scaled (proj1 P) L), <- D. apply Qfloor_Z.
  - rewrite Z.shiftl_mul_pow2 by lia.
    assert (X : (scaled (p * 2 ^ e) 0 == scaled n 0)%Q).
    { rewrite scaled_shift by lia. rewrite Z.add_0_r, <- D. symmetry. apply scaled_0. }
    apply scaled_eq in X. exact X.
Qed.

Corollary ubigint_of_int d n : 0 <= d < inf_bits f -> (fabs f d == inject_Z n)%Q ->
  ubigint_of_float F f d = n.
Proof.
  intros R E. rewrite ubigint_floor by exact (proj1 (finite_nonneg R)). rewrite E. apply Qfloor_Z.
Qed.

(** ** Guessing a fraction *)
Variable sw : Z.
Hypothesis fm17 : 17 <= m.

Lemma small_int n : 0 <= n <= 2 ^ 17 -> 0 <= n < 2 ^ (m + 1).
Proof.
  intros H. split; [lia|]. apply Z.le_lt_trans with (2 ^ 17); [lia|]. apply Z.pow_lt_mono_r; lia.
Qed.

Lemma inject_1_pos n : 1 <= n -> (1 <= inject_Z n)%Q.
Proof. intros. change 1%Q with (inject_Z 1). rewrite <- Zle_Qle. lia. Qed.

(** What a success of the search means. *)
Lemma try_success k ip fp num p q : 0 <= ip -> (0 < fp)%Q -> (fp < 1)%Q ->
  1 <= num -> num + Z.of_nat k <= 128 ->
  try_fractions f sw k (inject_Z ip) fp num = Some (Some (p, q)) ->
  ip = 0 /\ exists n, 1 <= n <= 127 /\ (p == inject_Z n)%Q /\ 1 <= q <= 2 ^ 17 /\ Z.gcd n q = 1 /\
    (rv f (inject_Z n / inject_Z q) == fp)%Q.
Proof.
  intros Hip F0 F1. revert num. induction k as [|k IH]; intros num N1 N2; cbn [try_fractions]; [discriminate|].
  unfold to_size_t. destruct (Qfloor (rv f (inject_Z num / fp)) <? 2 ^ sw); [|discriminate].
  set (den := Qfloor (rv f (inject_Z num / fp))).
  assert (D1 : 1 <= den).
  { assert (L : (inject_Z 1 <= rv f (inject_Z num / fp))%Q).
    { apply rv_lower_int; [apply small_int; lia|]. apply Qle_shift_div_l; [exact F0|].
      pose proof (inject_1_pos N1). change (inject_Z 1) with 1%Q. lra. }
    apply Qfloor_resp_le in L. rewrite Qfloor_Z in L. exact L. }
  assert (Rec : try_fractions f sw k (inject_Z ip) fp (num + 1) = Some (Some (p, q)) -> _) by (apply IH; lia).
  destruct (Z.leb_spec den (2 ^ 17)) as [D2|D2]; [|exact Rec].
  destruct (is_close f (rv f (inject_Z num / inject_Z den)) fp); [|exact Rec].
  destruct (Z.eqb_spec (Z.gcd num den) 1) as [Gcd|_]; [|exact Rec].
  set (nwi := rv f (rv f (inject_Z ip * inject_Z den) + inject_Z num)).
  destruct (Qeq_bool (rv f (nwi / inject_Z den)) fp) eqn:Q; [|exact Rec].
  clear Rec IH. intros X. injection X as <- <-. apply Qeq_bool_eq in Q.
  pose proof (inject_1_pos D1) as D1q. pose proof (inject_1_pos N1) as N1q.
  assert (Ip : ip = 0).
  { destruct (Z.eq_dec ip 0) as [E|E]; [exact E|exfalso].
    assert (I1 : (1 <= inject_Z ip)%Q) by (apply inject_1_pos; lia).
    assert (A : (inject_Z den <= rv f (inject_Z ip * inject_Z den))%Q).
    { apply rv_lower_int; [apply small_int; lia|].
      rewrite <- (Qmult_1_l (inject_Z den)) at 1. apply Qmult_le_compat_r; lra. }
    assert (B : (inject_Z den <= nwi)%Q).
    { apply rv_lower_int; [apply small_int; lia|]. lra. }
    assert (C : (inject_Z 1 <= rv f (nwi / inject_Z den))%Q).
    { apply rv_lower_int; [apply small_int; lia|]. apply Qle_shift_div_l; [lra|].
      change (inject_Z 1) with 1%Q. lra. }
    change (inject_Z 1) with 1%Q in C. lra. }
  split; [exact Ip|]. exists num. subst ip.
  assert (Z0 : (rv f (inject_Z 0 * inject_Z den) == inject_Z 0)%Q).
  { apply rv_int; [apply small_int; lia|]. change (inject_Z 0) with 0%Q. ring. }
  assert (Z1 : (nwi == inject_Z num)%Q).
  { apply rv_int; [apply small_int; lia|]. rewrite Z0. change (inject_Z 0) with 0%Q. ring. }
  refine (conj _ (conj Z1 (conj _ (conj Gcd _)))); [lia|lia|].
  rewrite <- Q. unfold rv. assert (E : rn f (inject_Z num / inject_Z den) = rn f (nwi / inject_Z den)); [|rewrite E; reflexivity].
  apply rn_morphism. rewrite Z1. reflexivity.
Qed.

(** The search is defined when the fraction part is not too small. *)
Lemma try_defined k ip fp num : 64 <= sw -> 63 <= bias f -> (pow2 (-56) <= fp)%Q ->
  1 <= num -> num + Z.of_nat k <= 128 ->
  try_fractions f sw k ip fp num <> None.
Proof.
  intros Sw Hb F0. revert num. induction k as [|k IH]; intros num N1 N2; cbn [try_fractions]; [discriminate|].
  unfold to_size_t.
  assert (P : (0 < fp)%Q) by (eapply Qlt_le_trans; [apply (pow2_pos (-56))|exact F0]).
  assert (Q0 : (0 <= inject_Z num / fp)%Q).
  { apply Qle_shift_div_l; [exact P|]. pose proof (inject_1_pos N1). lra. }
  assert (L : (rv f (inject_Z num / fp) <= pow2 63)%Q).
  { destruct (@representable 1 63) as (r & R & E).
    - pose proof (@small_int 1 ltac:(lia)). lia.
    - pose proof m1. unfold tiny. lia.
    - change (Z.log2 1) with 0. lia.
    - assert (E' : (fabs f r == pow2 63)%Q) by (rewrite E; reflexivity).
      rewrite <- E'. unfold rv. apply fabs_le; [exact (proj1 (rn_range Q0))| |lia].
      apply rn_upper; [exact Q0|exact R|]. rewrite E'. apply Qle_shift_div_r; [exact P|].
      apply Qle_trans with (inject_Z 128); [rewrite <- Zle_Qle; lia|].
      apply Qle_trans with (pow2 63 * pow2 (-56))%Q; [vm_compute; discriminate|].
      rewrite !(Qmult_comm (pow2 63)). apply Qmult_le_compat_r; [exact F0|apply Qlt_le_weak, pow2_pos]. }
  apply Qfloor_resp_le in L. change (Qfloor (pow2 63)) with (2 ^ 63) in L.
  assert (2 ^ 63 < 2 ^ sw) by (apply Z.pow_lt_mono_r; lia).
  destruct (Z.ltb_spec (Qfloor (rv f (inject_Z num / fp))) (2 ^ sw)); [|lia].
  assert (N : try_fractions f sw k ip fp (num + 1) <> None) by (apply IH; lia).
  repeat match goal with |- context [if ?b then _ else _] => destruct b end; first [exact N|discriminate].
Qed.

(** It is undefined when the number is too small. *)
Lemma try_undefined k ip fp : 0 <= sw <= bias f -> (0 < fp)%Q -> (fp <= pow2 (- sw))%Q ->
  try_fractions f sw (S k) ip fp 1 = None.
Proof.
  intros Sw F0 F1. cbn [try_fractions]. unfold to_size_t.
  assert (Q1 : (pow2 sw <= inject_Z 1 / fp)%Q).
  { apply Qle_shift_div_l; [exact F0|]. change (inject_Z 1) with 1%Q.
    rewrite <- (pow2_inv sw). rewrite !(Qmult_comm (pow2 sw)).
    apply Qmult_le_compat_r; [exact F1|apply Qlt_le_weak, pow2_pos]. }
  assert (Q0 : (0 <= inject_Z 1 / fp)%Q).
  { eapply Qle_trans; [apply Qlt_le_weak, (pow2_pos sw)|exact Q1]. }
  destruct (@representable 1 sw) as (r & R & E).
  - pose proof (@small_int 1 ltac:(lia)). lia.
  - pose proof m1. unfold tiny. lia.
  - change (Z.log2 1) with 0. lia.
  - assert (E' : (fabs f r == pow2 sw)%Q) by (rewrite E; unfold scaled; fold (pow2 sw); ring).
    assert (L : (pow2 sw <= rv f (inject_Z 1 / fp))%Q).
    { rewrite <- E'. unfold rv. apply fabs_le; [lia| |exact (proj2 (rn_range Q0))].
      apply rn_lower; [exact Q0|lia|]. rewrite E'. exact Q1. }
    apply Qfloor_resp_le in L. rewrite (pow2_Z (proj1 Sw)), Qfloor_Z in L.
    destruct (Z.ltb_spec (Qfloor (rv f (inject_Z 1 / fp))) (2 ^ sw)); [lia|reflexivity].
Qed.

(** ** ubigfloat(v) *)
Lemma exact_part d p e : finite f d -> p = get_precision F d -> e = get_exponent F d ->
  let n := if 0 <? e then Z.shiftl p e else p in
  let q := if e <? 0 then Z.shiftl 1 (Z.abs e) else 1 in
  0 < q / Z.gcd n q /\ (ratio (n / Z.gcd n q) (q / Z.gcd n q) == fabs f d)%Q.
Proof.
  intros Hf Ep Ee n q. pose proof (decompose_exact Fit Hf) as D. rewrite <- Ep, <- Ee in D.
  assert (Q0 : 0 < q).
  { unfold q. destruct (Z.ltb_spec e 0); [|lia]. rewrite Z.shiftl_1_l. apply zpow_pos. lia. }
  pose proof (Z.gcd_nonneg n q) as G0.
  assert (G1 : Z.gcd n q <> 0) by (intros E; apply Z.gcd_eq_0_r in E; lia).
  destruct (Z.gcd_divide_l n q) as [a Ea]. destruct (Z.gcd_divide_r n q) as [b Eb].
  set (g := Z.gcd n q) in *.
  assert (Da : n / g = a) by (rewrite Ea; apply Z.div_mul; exact G1).
  assert (Db : q / g = b) by (rewrite Eb; apply Z.div_mul; exact G1).
  rewrite Da, Db. assert (B0 : 0 < b) by nia. split; [exact B0|].
  rewrite D. unfold ratio.
  assert (Qb : ~ (inject_Z b == 0)%Q).
  { change 0%Q with (inject_Z 0). rewrite inject_Z_injective. lia. }
  assert (Qg : ~ (inject_Z g == 0)%Q).
  { change 0%Q with (inject_Z 0). rewrite inject_Z_injective. exact G1. }
  assert (M : (inject_Z n == scaled p e * inject_Z q)%Q).
  { unfold n, q. destruct (Z.ltb_spec 0 e) as [C|C]; destruct (Z.ltb_spec e 0) as [C'|C']; try lia.
    - rewrite Z.shiftl_mul_pow2 by lia. change (inject_Z 1) with 1%Q. rewrite Qmult_1_r.
      rewrite <- scaled_0, scaled_shift by lia. rewrite Z.add_0_r. reflexivity.
    - rewrite Z.shiftl_1_l, Z.abs_neq by lia. rewrite <- (pow2_Z (k := - e)) by lia.
      unfold scaled. fold (pow2 e). rewrite <- Qmult_assoc, pow2_inv. ring.
    - assert (e = 0) by lia. subst e. replace (get_exponent F d) with 0 by lia.
      rewrite scaled_0. change (inject_Z 1) with 1%Q. ring. }
  rewrite Ea, Eb, !inject_Z_mult in M.
  apply Qmult_inj_r with (inject_Z b * inject_Z g)%Q.
  - intros X. apply Qmult_integral in X. tauto.
  - rewrite <- M. field. exact Qb.
Qed.

Lemma finite_not_special d : finite f d -> isNaN f d = false /\ isInf f d = false.
Proof.
  intros [_ N]. unfold isNaN, isInf, special. apply Z.eqb_neq in N. rewrite N. split; reflexivity.
Qed.

Lemma frac_range x : (0 <= x - inject_Z (Qfloor x) < 1)%Q.
Proof.
  pose proof (Qfloor_le x). pose proof (Qlt_floor x) as B. rewrite inject_Z_plus in B.
  change (inject_Z 1) with 1%Q in B. split; lra.
Qed.

(** The fraction is exact or a short fraction to which the number is nearest; the
    latter only for numbers below one. *)
Theorem ubigfloat_spec d n q : finite f d -> ubigfloat_of_float F f sw d = Some (n, q) ->
  0 < q /\
  ((ratio n q == fabs f d)%Q \/
   (fabs f d < 1)%Q /\ 0 < n < 128 /\ q <= 2 ^ 17 /\ nearest f (ratio n q) (clear_sign f d)).
Proof.
  intros Hf. unfold ubigfloat_of_float. destruct (finite_not_special Hf) as [-> ->].
  pose proof (clear_sign_range Hf) as Rc. destruct (finite_nonneg Rc) as [Hc Cc].
  pose proof (clear_sign_fabs (proj1 Hf)) as Ab. set (c := clear_sign f d) in *.
  pose proof (@exact_part c _ _ Hc eq_refl eq_refl) as Ex. cbv zeta in Ex. rewrite Ab in Ex.
  destruct (get_exponent F c <? 0) eqn:Neg.
  2:{ intros X. injection X as <- <-. split; [exact (proj1 Ex)|left; exact (proj2 Ex)]. }
  rewrite Ab. unfold to_divide. pose proof (frac_range (fabs f d)) as Fr. pose proof (@fabs_nonneg d) as F0.
  destruct (Qeq_bool (fabs f d - inject_Z (Qfloor (fabs f d))) 0) eqn:Q.
  - apply Qeq_bool_eq in Q. intros X. injection X as <- <-. split; [lia|left].
    assert (E : (inject_Z (Qfloor (fabs f d)) == fabs f d)%Q) by lra.
    rewrite (@rn_exact _ c Rc) by (rewrite Ab; exact E).
    rewrite (@ubigint_of_int c (Qfloor (fabs f d)) Rc) by (rewrite Ab; symmetry; exact E).
    unfold ratio. change (inject_Z 1) with 1%Q. rewrite E. field.
  - apply Qeq_bool_neq in Q.
    destruct (try_fractions f sw 127 (inject_Z (Qfloor (fabs f d))) (fabs f d - inject_Z (Qfloor (fabs f d))) 1)
      as [[[p q']|]|] eqn:T; [| |discriminate].
    + intros X. injection X as <- <-.
      apply try_success in T; [|apply Qfloor_resp_le in F0; exact F0|lra|lra|lia|reflexivity || lia].
      destruct T as (I0 & k & K & Ep & Q17 & _ & R).
      destruct (@representable_int k ltac:(apply small_int; lia)) as (r & Rr & Er).
      rewrite (@rn_exact p r Rr) by (rewrite Ep, Er; reflexivity).
      rewrite (ubigint_of_int Rr Er). split; [lia|right].
      rewrite I0 in R, Fr. change (inject_Z 0) with 0%Q in R, Fr.
      assert (R' : (fabs f (rn f (ratio k q')) == fabs f c)%Q).
      { unfold rv in R. unfold ratio. rewrite R, Ab. ring. }
      assert (Rp : (0 <= ratio k q')%Q).
      { unfold ratio. apply Qle_shift_div_l.
        - pose proof (@inject_1_pos q' ltac:(lia)). lra.
        - pose proof (@inject_1_pos k ltac:(lia)). lra. }
      apply fabs_inj in R'; [|exact (rn_range Rp)|lia].
      refine (conj _ (conj _ (conj _ _))); [lra|lia|lia|].
      rewrite <- R'. apply rn_nearest; [exact Rp|]. rewrite R'. lia.
    + intros X. injection X as <- <-. split; [exact (proj1 Ex)|left; exact (proj2 Ex)].
Qed.

(** It is defined for all numbers that are not too small. *)
Lemma to_divide_defined d : finite f d -> 64 <= sw -> 63 <= bias f ->
  (1 <= fabs f d)%Q /\ m <= 56 \/ (pow2 (-56) <= fabs f d)%Q /\ (fabs f d < 1)%Q ->
  to_divide f sw (fabs f d) <> None.
Proof.
  intros Hf Sw Hb H.
  pose proof (clear_sign_range Hf) as Rc. destruct (finite_nonneg Rc) as [Hc Cc].
  pose proof (clear_sign_fabs (proj1 Hf)) as Ab. set (c := clear_sign f d) in *.
  unfold to_divide. pose proof (frac_range (fabs f d)) as Fr. pose proof (@fabs_nonneg d) as F0.
  destruct (Qeq_bool (fabs f d - inject_Z (Qfloor (fabs f d))) 0) eqn:Q; [discriminate|].
  apply Qeq_bool_neq in Q.
  destruct (Z.lt_ge_cases (get_exponent F c) 0) as [Neg|Pos].
  2:{ exfalso. apply Q. pose proof (decompose_exact Fit Hc) as D. rewrite Ab in D.
      assert (E : (fabs f d == inject_Z (get_precision F c * 2 ^ get_exponent F c))%Q).
      { rewrite D. replace (get_exponent F c) with (get_exponent F c + 0) at 1 by lia.
        rewrite <- scaled_shift by lia. apply scaled_0. }
      rewrite (Qfloor_comp _ _ E), Qfloor_Z, E. ring. }
  assert (L : (pow2 (-56) <= fabs f d - inject_Z (Qfloor (fabs f d)))%Q).
  { destruct H as [[H1 H2]|[H1 H2]].
    - pose proof (decompose_exact Fit Hc) as D. rewrite Ab in D.
      pose proof (precision_range c) as P. set (p := get_precision F c) in *. set (e := get_exponent F c) in *.
      assert (Hfl : Qfloor (fabs f d) = p / 2 ^ (- e)) by (rewrite D; apply floor_scaled; lia).
      pose proof (zpow_pos (x := - e) ltac:(lia)) as Pe.
      assert (E1 : (inject_Z (p / 2 ^ (- e)) == scaled (p / 2 ^ (- e) * 2 ^ (- e)) e)%Q).
      { rewrite scaled_shift by lia. replace (- e + e) with 0 by lia. symmetry. apply scaled_0. }
      assert (E2 : (fabs f d - inject_Z (Qfloor (fabs f d)) == scaled (p mod 2 ^ (- e)) e)%Q).
      { rewrite Hfl, D, E1. unfold scaled. rewrite Z.mod_eq by lia. rewrite (Z.mul_comm (2 ^ (- e))).
        unfold Z.sub. rewrite inject_Z_plus, inject_Z_opp. ring. }
      rewrite E2 in *.
      assert (M : 1 <= p mod 2 ^ (- e)).
      { pose proof (Z.mod_pos_bound p (2 ^ (- e)) Pe).
        destruct (Z.eq_dec (p mod 2 ^ (- e)) 0) as [E|E]; [|lia].
        exfalso. apply Q. rewrite E. unfold scaled. ring. }
      assert (Em : - m <= e).
      { destruct (Z.le_gt_cases (- m) e) as [C|C]; [exact C|exfalso].
        rewrite D in H1. assert (X : (scaled p e < 1)%Q); [|lra].
        apply Qlt_le_trans with (scaled (2 ^ (- e)) e).
        - apply scaled_lt. apply Z.lt_le_trans with (2 ^ (m + 1)); [lia|]. apply Z.pow_le_mono_r; lia.
        - rewrite <- (Z.mul_1_l (2 ^ (- e))), scaled_shift by lia. replace (- e + e) with 0 by lia.
          rewrite scaled_0. apply Qle_refl. }
      apply Qle_trans with (scaled 1 e).
      + replace e with (e + 56 + -56) by lia. rewrite <- scaled_shift by lia.
        rewrite <- (Qmult_1_l (pow2 (-56))). change 1%Q with (inject_Z 1). apply (scaled_le 1 (1 * 2 ^ (e + 56)) (-56)).
        pose proof (zpow_pos (x := e + 56) ltac:(lia)). lia.
      + apply scaled_le. exact M.
    - assert (E : Qfloor (fabs f d) = 0) by (apply floor_between; [exact F0|exact H2]).
      rewrite E. change (inject_Z 0) with 0%Q. lra. }
  exact (@try_defined 127 (inject_Z (Qfloor (fabs f d))) _ 1 Sw Hb L ltac:(lia) ltac:(reflexivity || lia)).
Qed.

Theorem ubigfloat_defined d : finite f d -> 64 <= sw -> 63 <= bias f ->
  (1 <= fabs f d)%Q /\ m <= 56 \/ (pow2 (-56) <= fabs f d)%Q /\ (fabs f d < 1)%Q ->
  exists n q, ubigfloat_of_float F f sw d = Some (n, q).
Proof.
  intros Hf Sw Hb H. unfold ubigfloat_of_float. destruct (finite_not_special Hf) as [-> ->].
  pose proof (clear_sign_fabs (proj1 Hf)) as Ab. set (c := clear_sign f d) in *.
  destruct (Z.ltb_spec (get_exponent F c) 0) as [Neg|_]; [|do 2 eexists; reflexivity].
  rewrite Ab. pose proof (to_divide_defined Hf Sw Hb H) as N.
  destruct (to_divide f sw (fabs f d)) as [[[p q]|]|]; [do 2 eexists; reflexivity|do 2 eexists; reflexivity|contradiction].
Qed.

(** Undefined for positive numbers that are too small. *)
Theorem ubigfloat_undefined d : finite f d -> 1 <= sw <= bias f ->
  (0 < fabs f d)%Q -> (fabs f d <= pow2 (- sw))%Q -> ubigfloat_of_float F f sw d = None.
Proof.
  intros Hf Sw H0 H1. unfold ubigfloat_of_float. destruct (finite_not_special Hf) as [-> ->].
  pose proof (clear_sign_range Hf) as Rc. destruct (finite_nonneg Rc) as [Hc Cc].
  pose proof (clear_sign_fabs (proj1 Hf)) as Ab. set (c := clear_sign f d) in *.
  pose proof (decompose_exact Fit Hc) as D. rewrite Ab in D.
  assert (L1 : (fabs f d < 1)%Q).
  { eapply Qle_lt_trans; [exact H1|].
    assert (E : (pow2 (- sw) == scaled 1 (- sw))%Q) by (unfold scaled; fold (pow2 (- sw)); ring).
    rewrite E. assert (E' : (1 == scaled (2 ^ sw) (- sw))%Q).
    { rewrite <- (Z.mul_1_l (2 ^ sw)), scaled_shift by lia. replace (sw + - sw) with 0 by lia. reflexivity. }
    rewrite E'. apply scaled_lt. change 1 with (2 ^ 0). apply Z.pow_lt_mono_r; lia. }
  destruct (Z.ltb_spec (get_exponent F c) 0) as [Neg|Pos].
  2:{ exfalso. pose proof (precision_range c) as P. set (p := get_precision F c) in *. set (e := get_exponent F c) in *.
      replace e with (e + 0) in D by lia. rewrite <- scaled_shift, scaled_0 in D by lia.
      rewrite D in H0, L1. change 0%Q with (inject_Z 0) in H0. change 1%Q with (inject_Z 1) in L1.
      rewrite <- Zlt_Qlt in H0, L1. lia. }
  rewrite Ab. unfold to_divide.
  assert (E : Qfloor (fabs f d) = 0) by (apply floor_between; [apply Qlt_le_weak; exact H0|exact L1]).
  rewrite E. change (inject_Z 0) with 0%Q.
  assert (Em : (fabs f d - 0 == fabs f d)%Q) by ring.
  destruct (Qeq_bool (fabs f d - 0) 0) eqn:Q.
  { apply Qeq_bool_eq in Q. rewrite Em in Q. rewrite Q in H0. exfalso. exact (Qlt_irrefl _ H0). }
  rewrite (@try_undefined 126 0%Q (fabs f d - 0)%Q); [reflexivity|lia|rewrite Em; exact H0|rewrite Em; exact H1].
Qed.
End Fits.

(** Infinities and not-a-numbers, told apart by the bits below the sign. *)
Lemma above_infinity f d : 0 <= fe f -> 0 <= fm f -> inf_bits f <= clear_sign f d ->
  exp_field f d = 2 ^ fe f - 1 /\ frac_field f d = clear_sign f d - inf_bits f.
Proof.
  intros He Hm H. unfold inf_bits, clear_sign, exp_field, frac_field, all_bits in *.
  replace (1 + fe f + fm f - 1) with (fm f + fe f) in * by lia.
  assert (Pe : 0 < 2 ^ fe f) by (apply Z.pow_pos_nonneg; lia).
  assert (Pm : 0 < 2 ^ fm f) by (apply Z.pow_pos_nonneg; lia).
  rewrite (Z.pow_add_r 2 (fm f) (fe f)) in * by lia.
  rewrite Z.rem_mul_r in * by lia.
  set (a := d mod 2 ^ fm f) in *. set (b := (d / 2 ^ fm f) mod 2 ^ fe f) in *.
  assert (A : 0 <= a < 2 ^ fm f) by (apply Z.mod_pos_bound; lia).
  assert (B : 0 <= b < 2 ^ fe f) by (apply Z.mod_pos_bound; lia).
  assert (E : b = 2 ^ fe f - 1) by nia. split; [exact E|]. rewrite E. lia.
Qed.
Theorem special_all F f : 0 <= fe f -> 0 <= fm f -> forall sw d,
  (clear_sign f d = inf_bits f -> ubigfloat_of_float F f sw d = Some (1, 0)) /\
  (inf_bits f < clear_sign f d -> ubigfloat_of_float F f sw d = Some (0, 1)).
Proof.
  intros He Hm sw d. split; intros H; destruct (@above_infinity f d He Hm ltac:(lia)) as [E1 E2];
    unfold ubigfloat_of_float, isNaN, isInf, special; rewrite E1, E2, Z.eqb_refl.
  - rewrite H, Z.sub_diag. reflexivity.
  - destruct (Z.eqb_spec (clear_sign f d - inf_bits f) 0); [lia|reflexivity].
Qed.
