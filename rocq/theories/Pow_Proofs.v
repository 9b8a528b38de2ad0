(** Proofs about exp, log and pow during constant evaluation. *)
From Verif Require Import Base Float_Spec Pow_Model Pow_Spec.
From Coq Require Import QArith Qabs Qpower.
Local Open Scope Z_scope.

(** The value of a number of the model. *)
Definition fval (x : flt) : Q := scaled (fst x) (snd x).

Lemma p2_pos e : (0 < (2 # 1) ^ e)%Q.
Proof. apply Qpower_0_lt. reflexivity. Qed.
Lemma p2_add a b : ((2 # 1) ^ (a + b) == (2 # 1) ^ a * (2 # 1) ^ b)%Q.
Proof. apply Qpower_plus. discriminate. Qed.
Lemma p2_Z k : 0 <= k -> ((2 # 1) ^ k == inject_Z (2 ^ k))%Q.
Proof. intro H. symmetry. apply (Zpower_Qpower 2 k H). Qed.
Lemma scaled_shift m e k : 0 <= k -> (scaled m (e + k) == scaled (m * 2 ^ k) e)%Q.
Proof.
  intro H. unfold scaled. rewrite p2_add, (p2_Z H), inject_Z_mult. ring.
Qed.
Lemma scaled_sub a b e : (scaled a e - scaled b e == scaled (a - b) e)%Q.
Proof. unfold scaled, Zminus. rewrite inject_Z_plus, inject_Z_opp. ring. Qed.
Lemma scaled_add a b e : (scaled a e + scaled b e == scaled (a + b) e)%Q.
Proof. unfold scaled. rewrite inject_Z_plus. ring. Qed.
Lemma scaled_opp a e : (- scaled a e == scaled (- a) e)%Q.
Proof. unfold scaled. rewrite inject_Z_opp. ring. Qed.
Lemma scaled_mul a b e g : (scaled a e * scaled b g == scaled (a * b) (e + g))%Q.
Proof. unfold scaled. rewrite p2_add, inject_Z_mult. ring. Qed.
Lemma scaled_le a b e : a <= b -> (scaled a e <= scaled b e)%Q.
Proof.
  intro H. unfold scaled. apply Qmult_le_compat_r; [rewrite <- Zle_Qle; exact H|].
  apply Qlt_le_weak, p2_pos.
Qed.
Lemma scaled_le_inv a b e : (scaled a e <= scaled b e)%Q -> a <= b.
Proof.
  intro H. unfold scaled in H. apply Qmult_le_r in H; [rewrite Zle_Qle; exact H|apply p2_pos].
Qed.
Lemma scaled_abs a e : (Qabs (scaled a e) == scaled (Z.abs a) e)%Q.
Proof.
  unfold scaled. rewrite Qabs_Qmult.
  rewrite (Qabs_pos ((2 # 1) ^ e)) by (apply Qlt_le_weak, p2_pos). reflexivity.
Qed.

(** ** Rounding *)
(** The integer part: the multiple of 2^k that is chosen. *)
Lemma rnd_cases m e : rnd m e = (m, e) /\ Z.abs m < 2 ^ 53 \/
  exists k q, 0 < k /\ 2 ^ (52 + k) <= Z.abs m /\ Z.abs m < 2 ^ (53 + k) /\ rnd m e = (q, e + k) /\
    forall n, Z.abs (q * 2 ^ k - m) <= Z.abs (n * 2 ^ k - m).
Proof.
  unfold rnd. destruct (Z.leb_spec (Z.log2 (Z.abs m) - 52) 0) as [H|H].
  - left. split; [reflexivity|]. destruct (Z.eq_dec m 0) as [->|N]; [reflexivity|].
    pose proof (Z.log2_spec (Z.abs m) ltac:(lia)) as [_ U].
    eapply Z.lt_le_trans; [exact U|]. apply Z.pow_le_mono_r; lia.
  - right. set (k := Z.log2 (Z.abs m) - 52) in *.
    assert (N : 0 < Z.abs m) by (destruct (Z.eq_dec m 0) as [->|]; [subst k; cbn in H; lia|lia]).
    pose proof (Z.log2_spec (Z.abs m) N) as [A B].
    replace (Z.log2 (Z.abs m)) with (52 + k) in A, B by (subst k; lia).
    replace (Z.succ (52 + k)) with (53 + k) in B by lia.
    clearbody k.
    rewrite (Z.shiftr_div_pow2 m k) by lia.
    rewrite (Z.shiftl_mul_pow2 _ k) by lia. rewrite (Z.shiftl_mul_pow2 1 (k - 1)) by lia.
    rewrite Z.mul_1_l.
    assert (P : 2 ^ k = 2 * 2 ^ (k - 1)).
    { rewrite <- (Z.pow_succ_r 2 (k - 1)) by lia. f_equal. lia. }
    assert (P1 : 0 < 2 ^ (k - 1)) by (apply Z.pow_pos_nonneg; lia).
    pose proof (Z.div_mod m (2 ^ k) ltac:(lia)) as D.
    pose proof (Z.mod_pos_bound m (2 ^ k) ltac:(lia)) as R.
    replace (m - m / 2 ^ k * 2 ^ k) with (m mod 2 ^ k) by lia.
    set (q := m / 2 ^ k) in *. set (r := m mod 2 ^ k) in *.
    assert (G : forall n c, (c = q /\ r <= 2 ^ (k - 1) \/ c = q + 1 /\ 2 ^ (k - 1) <= r) ->
      Z.abs (c * 2 ^ k - m) <= Z.abs (n * 2 ^ k - m)).
    { intros n c C. clearbody q r. subst m.
      assert (E : n <= q \/ q + 1 <= n) by lia.
      assert (n * 2 ^ k <= q * 2 ^ k \/ (q + 1) * 2 ^ k <= n * 2 ^ k).
      { destruct E; [left|right]; apply Z.mul_le_mono_nonneg_r; lia. }
      destruct C as [[-> C]|[-> C]]; lia. }
    exists k. eexists. split; [lia|]. split; [exact A|]. split; [exact B|]. split; [reflexivity|].
    intro n. apply G. destruct (Z.compare_spec r (2 ^ (k - 1))).
    + destruct (Z.even q); lia.
    + left; lia.
    + right; lia.
Qed.

Lemma digits53_eq x y : (x == y)%Q -> digits53 x -> digits53 y.
Proof. intros E (m & e & A & B). exists m, e. split; [exact A|]. rewrite <- E. exact B. Qed.

Lemma grid_nearest x c g : (scaled (2 ^ 52) g <= Qabs x)%Q -> Z.abs c <= 2 ^ 53 ->
  (forall n, (Qabs (scaled c g - x) <= Qabs (scaled n g - x))%Q) -> nearest53 x (scaled c g).
Proof.
  intros L Q53 G. split.
  - assert (Z.abs c < 2 ^ 53 \/ Z.abs c = 2 ^ 53) as [C|C] by lia.
    + exists c, g. split; [exact C|reflexivity].
    + exists (Z.sgn c * 2 ^ 52), (g + 1). split.
      { destruct (Z.sgn_spec c) as [[? S]|[[? S]|[? S]]]; rewrite S; reflexivity. }
      rewrite scaled_shift by lia.
      replace (Z.sgn c * 2 ^ 52 * 2 ^ 1) with c; [reflexivity|].
      destruct (Z.sgn_spec c) as [[? S]|[[? S]|[? S]]]; rewrite S; lia.
  - intros s (n & j & B & S). rewrite S.
    destruct (Z.le_gt_cases g j) as [J|J].
    + replace j with (g + (j - g)) by lia. rewrite scaled_shift by lia. apply G.
    + assert (A1 : (Qabs (scaled n j) <= scaled (2 ^ 52) g)%Q).
      { rewrite scaled_abs. apply Qle_trans with (scaled (2 ^ 53) j); [apply scaled_le; lia|].
        replace (scaled (2 ^ 52) g) with (scaled (2 ^ 52) (j + (g - j))) by (f_equal; lia).
        rewrite scaled_shift by lia. apply scaled_le. rewrite <- Z.pow_add_r by lia.
        apply Z.pow_le_mono_r; lia. }
      assert (A2 : (Qabs x - scaled (2 ^ 52) g <= Qabs (scaled n j - x))%Q).
      { apply Qle_trans with (Qabs x - Qabs (scaled n j))%Q.
        - apply Qplus_le_r. apply Qopp_le_compat. exact A1.
        - rewrite (Qabs_Qminus (scaled n j)). apply Qabs_triangle_reverse. }
      eapply Qle_trans; [|exact A2].
      destruct (Qlt_le_dec x 0) as [N|N].
      * eapply Qle_trans; [apply (G (- 2 ^ 52))|]. rewrite (Qabs_neg x) in L |- * by (apply Qlt_le_weak; exact N).
        rewrite <- scaled_opp, Qabs_pos.
        { apply Qle_lteq. right. ring. }
        rewrite <- (Qplus_le_l _ _ (scaled (2 ^ 52) g)). ring_simplify.
        setoid_replace (- x)%Q with ((-1 # 1) * x)%Q in L by ring. exact L.
      * eapply Qle_trans; [apply (G (2 ^ 52))|]. rewrite (Qabs_pos x) in L |- * by exact N.
        rewrite Qabs_neg.
        { apply Qle_lteq. right. ring. }
        rewrite <- (Qplus_le_l _ _ x). ring_simplify. exact L.
Qed.

Lemma chosen_53 m k q : 0 < k -> Z.abs m < 2 ^ (53 + k) ->
  (forall n, Z.abs (q * 2 ^ k - m) <= Z.abs (n * 2 ^ k - m)) -> Z.abs q <= 2 ^ 53.
Proof.
  intros K U G. assert (Pk : 0 < 2 ^ k) by (apply Z.pow_pos_nonneg; lia).
  rewrite Z.pow_add_r in U by lia.
  pose proof (G (Z.sgn m * 2 ^ 53)) as G1.
  destruct (Z.le_gt_cases (Z.abs q) (2 ^ 53)) as [|C]; [assumption|exfalso].
  assert (2 ^ 53 + 1 <= Z.abs q) by lia.
  assert (C2 : (2 ^ 53 + 1) * 2 ^ k <= Z.abs q * 2 ^ k) by (apply Z.mul_le_mono_nonneg_r; lia).
  rewrite <- (Z.abs_eq (2 ^ k)) in C2 at 2 by lia. rewrite <- Z.abs_mul in C2.
  set (W := 2 ^ 53) in *. clearbody W.
  destruct (Z.sgn_spec m) as [[? S]|[[? S]|[? S]]]; rewrite S in G1; lia.
Qed.

Theorem rnd_nearest m e : nearest53 (scaled m e) (fval (rnd m e)).
Proof.
  destruct (rnd_cases m e) as [[-> B]|(k & q & K & L & U & -> & G)].
  - split; [exists m, e; split; [exact B|reflexivity]|].
    intros s _. unfold fval. cbn [fst snd]. setoid_replace (scaled m e - scaled m e)%Q with 0%Q by ring.
    apply Qabs_nonneg.
  - change (fval (q, e + k)) with (scaled q (e + k)). apply grid_nearest.
    + rewrite scaled_abs, scaled_shift by lia. apply scaled_le. rewrite <- Z.pow_add_r by lia. exact L.
    + exact (chosen_53 K U G).
    + intro n. rewrite !scaled_shift, !scaled_sub, !scaled_abs by lia. apply scaled_le, G.
Qed.

Lemma nearest53_eq x x' y : (x == x')%Q -> nearest53 x y -> nearest53 x' y.
Proof.
  intros E [A B]. split; [exact A|]. intros s H. rewrite <- E. apply B, H.
Qed.

Lemma align a e : e <= snd a -> (scaled (Z.shiftl (fst a) (snd a - e)) e == fval a)%Q.
Proof.
  intro H. rewrite Z.shiftl_mul_pow2 by lia. rewrite <- scaled_shift by lia.
  replace (e + (snd a - e)) with (snd a) by lia. reflexivity.
Qed.
Theorem fadd_nearest a b : nearest53 (fval a + fval b) (fval (fadd a b)).
Proof.
  unfold fadd. eapply nearest53_eq; [|apply rnd_nearest].
  rewrite <- scaled_add, !align by lia. reflexivity.
Qed.
Theorem fsub_nearest a b : nearest53 (fval a - fval b) (fval (fsub a b)).
Proof.
  unfold fsub. eapply nearest53_eq; [|apply fadd_nearest].
  unfold fval at 2. cbn [fst snd]. rewrite <- scaled_opp. reflexivity.
Qed.
Theorem fmul_nearest a b : nearest53 (fval a * fval b) (fval (fmul a b)).
Proof.
  unfold fmul. eapply nearest53_eq; [|apply rnd_nearest]. unfold fval. rewrite scaled_mul. reflexivity.
Qed.

(** A number strictly between 2q and 2q+2 has the same nearest numbers as 2q+1 if these
    are multiples of 4. *)
Lemma sticky q e x : 2 ^ 54 <= Z.abs (2 * q + 1) ->
  (scaled (2 * q) e < x)%Q -> (x < scaled (2 * q + 2) e)%Q -> nearest53 x (fval (rnd (2 * q + 1) e)).
Proof.
  intros B Lo Hi. destruct (rnd_cases (2 * q + 1) e) as [[_ C]|(k & c & K & L & U & -> & G)].
  { change (2 ^ 54) with (2 * 2 ^ 53) in B. lia. }
  assert (K2 : 2 <= k).
  { destruct (Z.eq_dec k 1) as [->|]; [|lia]. change (53 + 1) with 54 in U. lia. }
  assert (P2 : 2 ^ k = 4 * 2 ^ (k - 2)).
  { replace k with (2 + (k - 2)) at 1 by lia. rewrite Z.pow_add_r by lia. reflexivity. }
  assert (Pp : 0 < 2 ^ (k - 2)) by (apply Z.pow_pos_nonneg; lia).
  assert (E52 : 2 ^ (52 + k) = 4 * 2 ^ (50 + k)).
  { replace (52 + k) with (2 + (50 + k)) by lia. rewrite Z.pow_add_r by lia. reflexivity. }
  change (fval (c, e + k)) with (scaled c (e + k)).
  apply grid_nearest; [|exact (chosen_53 K U G)|].
  - rewrite scaled_shift by lia. rewrite <- Z.pow_add_r by lia.
    destruct (Z.le_gt_cases 0 q) as [S|S].
    + apply Qle_trans with (scaled (2 * q) e); [apply scaled_le; lia|].
      rewrite Qabs_pos; [apply Qlt_le_weak; exact Lo|].
      apply Qle_trans with (scaled (2 * q) e); [|apply Qlt_le_weak; exact Lo].
      setoid_replace 0%Q with (scaled 0 e) by (unfold scaled; ring). apply scaled_le. lia.
    + assert (N : (x <= 0)%Q).
      { apply Qlt_le_weak. eapply Qlt_le_trans; [exact Hi|].
        setoid_replace 0%Q with (scaled 0 e) by (unfold scaled; ring). apply scaled_le. lia. }
      rewrite Qabs_neg by exact N.
      apply Qle_trans with (scaled (- (2 * q + 2)) e); [apply scaled_le; lia|].
      rewrite <- scaled_opp. apply Qopp_le_compat, Qlt_le_weak. exact Hi.
  - (* the multiples of 2^k *)
    assert (H1 : Z.abs (c * 2 ^ k - (2 * q + 1)) <= 2 ^ (k - 2) * 2 - 1).
    { assert (X : Z.abs (c * 2 ^ k - (2 * q + 1)) <= 2 ^ (k - 2) * 2).
      { pose proof (Z.div_mod (2 * q + 1) (2 ^ k) ltac:(lia)) as D.
        pose proof (Z.mod_pos_bound (2 * q + 1) (2 ^ k) ltac:(lia)) as R.
        pose proof (G ((2 * q + 1) / 2 ^ k)) as Ga. pose proof (G ((2 * q + 1) / 2 ^ k + 1)) as Gb.
        lia. }
      rewrite P2 in X |- *. set (w := 2 ^ (k - 2)) in *. clearbody w. clear - X.
      assert (Z.abs (c * (4 * w) - (2 * q + 1)) <> w * 2).
      { replace (c * (4 * w)) with (2 * (2 * c * w)) by ring. lia. }
      lia. }
    intro n. destruct (Z.eq_dec n c) as [->|N]; [apply Qle_refl|].
    assert (T : (Qabs (scaled c (e + k) - x) <= scaled (2 ^ (k - 2) * 2) e)%Q).
    { rewrite scaled_shift by lia. apply Qabs_case; intros _.
      - apply Qle_trans with (scaled (c * 2 ^ k - 2 * q) e).
        + rewrite <- scaled_sub. apply Qplus_le_r, Qopp_le_compat, Qlt_le_weak. exact Lo.
        + apply scaled_le. lia.
      - apply Qle_trans with (scaled (2 * q + 2 - c * 2 ^ k) e).
        + rewrite <- scaled_sub. setoid_replace (- (scaled (c * 2 ^ k) e - x))%Q with (x - scaled (c * 2 ^ k) e)%Q by ring.
          apply Qplus_le_l, Qlt_le_weak. exact Hi.
        + apply scaled_le. lia. }
    eapply Qle_trans; [exact T|].
    assert (D : (scaled (4 * 2 ^ (k - 2)) e <= Qabs (scaled n (e + k) - scaled c (e + k)))%Q).
    { rewrite !scaled_shift, scaled_sub, scaled_abs by lia. apply scaled_le. rewrite <- P2.
      rewrite <- Z.mul_sub_distr_r, Z.abs_mul, (Z.abs_eq (2 ^ k)) by lia.
      assert (1 <= Z.abs (n - c)) by lia. nia. }
    assert (T2 : (Qabs (scaled n (e + k) - scaled c (e + k)) <=
      Qabs (scaled n (e + k) - x) + Qabs (scaled c (e + k) - x))%Q).
    { rewrite (Qabs_Qminus (scaled c (e + k))).
      setoid_replace (scaled n (e + k) - scaled c (e + k))%Q
        with ((scaled n (e + k) - x) + (x - scaled c (e + k)))%Q by ring. apply Qabs_triangle. }
    assert (T3 : (scaled (4 * 2 ^ (k - 2)) e == scaled (2 ^ (k - 2) * 2) e + scaled (2 ^ (k - 2) * 2) e)%Q).
    { rewrite scaled_add. replace (2 ^ (k - 2) * 2 + 2 ^ (k - 2) * 2) with (4 * 2 ^ (k - 2)) by ring. reflexivity. }
    rewrite T3 in D. pose proof (Qle_trans _ _ _ D T2) as F.
    rewrite <- (Qplus_le_l _ _ (scaled (2 ^ (k - 2) * 2) e)).
    eapply Qle_trans; [exact F|]. apply Qplus_le_r. exact T.
Qed.

Theorem fdiv_nearest a b : fst b <> 0 -> nearest53 (fval a / fval b) (fval (fdiv a b)).
Proof.
  intro Nb. destruct a as [m1 e1], b as [m2 e2]. cbn [fst] in Nb. unfold fdiv. cbn [fst snd].
  set (s := 55 + Z.log2 (Z.abs m2)).
  assert (S0 : 0 <= s) by (pose proof (Z.log2_nonneg (Z.abs m2)); lia).
  rewrite Z.shiftl_mul_pow2 by exact S0. set (n := m1 * 2 ^ s).
  assert (X : (fval (m1, e1) / fval (m2, e2) == (inject_Z n / inject_Z m2) * (2 # 1) ^ (e1 - e2 - s))%Q).
  { unfold fval, scaled, n. cbn [fst snd]. rewrite inject_Z_mult, <- (p2_Z S0).
    assert (N2 : ~ (inject_Z m2 == 0)%Q) by (change 0%Q with (inject_Z 0); rewrite inject_Z_injective; exact Nb).
    assert (N3 : ~ ((2 # 1) ^ e2 == 0)%Q) by (apply Qnot_eq_sym, Qlt_not_eq, p2_pos).
    assert (PE : ((2 # 1) ^ e1 == (2 # 1) ^ (e1 - e2 - s) * (2 # 1) ^ e2 * (2 # 1) ^ s)%Q).
    { rewrite <- !p2_add. replace (e1 - e2 - s + e2 + s) with e1 by lia. reflexivity. }
    rewrite PE. field. split; assumption. }
  set (E := e1 - e2 - s) in *.
  destruct (Z.div_eucl n m2) as [q r] eqn:DE.
  pose proof (Z_div_mod_full n m2 Nb) as DM. rewrite DE in DM. destruct DM as [DM RR].
  assert (N2 : ~ (inject_Z m2 == 0)%Q) by (change 0%Q with (inject_Z 0); rewrite inject_Z_injective; exact Nb).
  assert (Y : (inject_Z n / inject_Z m2 == inject_Z q + inject_Z r / inject_Z m2)%Q).
  { rewrite DM, inject_Z_plus, inject_Z_mult. field. exact N2. }
  destruct (Z.eqb_spec r 0) as [R0|R0].
  - eapply nearest53_eq; [|apply rnd_nearest]. rewrite X, Y, R0. unfold scaled.
    change (inject_Z 0) with 0%Q. field. exact N2.
  - assert (FR : (0 < inject_Z r / inject_Z m2)%Q /\ (inject_Z r / inject_Z m2 < 1)%Q).
    { destruct RR as [RR|RR].
      - assert (0 < inject_Z m2)%Q by (change 0%Q with (inject_Z 0); rewrite <- Zlt_Qlt; lia).
        split; [apply Qlt_shift_div_l; [assumption|]|apply Qlt_shift_div_r; [assumption|]].
        + rewrite Qmult_0_l. change 0%Q with (inject_Z 0). rewrite <- Zlt_Qlt. lia.
        + rewrite Qmult_1_l. rewrite <- Zlt_Qlt. lia.
      - assert (0 < inject_Z (- m2))%Q by (change 0%Q with (inject_Z 0); rewrite <- Zlt_Qlt; lia).
        assert (EQ : (inject_Z r / inject_Z m2 == inject_Z (- r) / inject_Z (- m2))%Q).
        { rewrite !inject_Z_opp. field. exact N2. }
        rewrite EQ. split; [apply Qlt_shift_div_l; [assumption|]|apply Qlt_shift_div_r; [assumption|]].
        + rewrite Qmult_0_l. change 0%Q with (inject_Z 0). rewrite <- Zlt_Qlt. lia.
        + rewrite Qmult_1_l. rewrite <- Zlt_Qlt. lia. }
    assert (Big : 2 ^ 54 <= Z.abs (2 * q + 1)).
    { assert (M1 : 1 <= Z.abs m1).
      { destruct (Z.eq_dec m1 0) as [->|]; [|lia]. exfalso. subst n. rewrite Z.mul_0_l in DM. clear - DM RR R0.
        assert (A : Z.abs r = Z.abs m2 * Z.abs q) by (rewrite <- Z.abs_mul; lia).
        destruct (Z.eq_dec q 0) as [->|Q]; [lia|].
        assert (Z.abs m2 * 1 <= Z.abs m2 * Z.abs q) by (apply Z.mul_le_mono_nonneg_l; lia).
        destruct RR; lia. }
      pose proof (Z.log2_spec (Z.abs m2) ltac:(lia)) as [_ U].
      assert (PS : 2 ^ s = 2 ^ 54 * 2 ^ Z.succ (Z.log2 (Z.abs m2))).
      { rewrite <- Z.pow_add_r by (pose proof (Z.log2_nonneg (Z.abs m2)); lia). f_equal. lia. }
      assert (NN : 2 ^ 54 * (Z.abs m2 + 1) <= Z.abs n).
      { subst n. rewrite Z.abs_mul, (Z.abs_eq (2 ^ s)) by lia. rewrite PS.
        set (w := 2 ^ 54) in *. assert (0 < w) by reflexivity. clearbody w. nia. }
      assert (Nq : Z.abs n <= (Z.abs q + 1) * Z.abs m2).
      { rewrite DM. clear - RR. eapply Z.le_trans; [apply Z.abs_triangle|]. rewrite Z.abs_mul.
        destruct RR; lia. }
      assert (2 ^ 54 < Z.abs q + 1).
      { set (w := 2 ^ 54) in *. assert (0 < w) by reflexivity. clearbody w. clear - NN Nq H. nia. }
      lia. }
    assert (TW : forall z, (scaled (2 * z) (E - 1) == scaled z E)%Q).
    { intro z. replace E with (E - 1 + 1) at 2 by lia. rewrite scaled_shift by lia.
      replace (z * 2 ^ 1) with (2 * z) by (change (2 ^ 1) with 2; ring). reflexivity. }
    apply sticky; [exact Big| |].
    + rewrite TW, X. unfold scaled. apply Qmult_lt_compat_r; [apply p2_pos|].
      rewrite Y, <- Qplus_0_r at 1. apply Qplus_lt_r, FR.
    + replace (2 * q + 2) with (2 * (q + 1)) by ring. rewrite TW, X. unfold scaled.
      apply Qmult_lt_compat_r; [apply p2_pos|]. rewrite Y, inject_Z_plus. apply Qplus_lt_r, FR.
Qed.

(** ** Consequences of rounding to nearest *)
Lemma nearest53_digits x y : nearest53 x y -> digits53 x -> (y == x)%Q.
Proof.
  intros [_ N] D. pose proof (N x D) as H.
  setoid_replace (x - x)%Q with 0%Q in H by ring. change (Qabs 0) with 0%Q in H.
  pose proof (Qle_antisym _ _ H (Qabs_nonneg _)) as Z0.
  destruct (Qlt_le_dec (y - x) 0) as [C|C].
  - rewrite Qabs_neg in Z0 by (apply Qlt_le_weak; exact C). setoid_replace y with (x - (- (y - x)))%Q by ring.
    rewrite Z0. ring.
  - rewrite Qabs_pos in Z0 by exact C. setoid_replace y with (x + (y - x))%Q by ring. rewrite Z0. ring.
Qed.
Lemma nearest53_lower x y s : nearest53 x y -> digits53 s -> (s <= x)%Q -> (s <= y)%Q.
Proof.
  intros [_ N] D H. apply Qnot_lt_le. intro C. pose proof (N s D) as A.
  rewrite (Qabs_neg (y - x)), (Qabs_neg (s - x)) in A.
  - apply (Qlt_not_le _ _ C). setoid_replace s with (x - (- (s - x)))%Q by ring.
    setoid_replace y with (x - (- (y - x)))%Q by ring. apply Qplus_le_r, Qopp_le_compat. exact A.
  - rewrite <- (Qplus_le_l _ _ x). ring_simplify. exact H.
  - rewrite <- (Qplus_le_l _ _ x). ring_simplify. apply Qlt_le_weak. eapply Qlt_le_trans; eassumption.
Qed.
Lemma digits53_Z n : Z.abs n < 2 ^ 53 -> digits53 (inject_Z n).
Proof.
  intro H. exists n, 0. split; [exact H|]. unfold scaled. change ((2 # 1) ^ 0)%Q with 1%Q. ring.
Qed.
Lemma fval_zero a : fst a = 0 -> (fval a == 0)%Q.
Proof. intro H. unfold fval, scaled. rewrite H. change (inject_Z 0) with 0%Q. ring. Qed.
Lemma fval_zero_inv a : (fval a == 0)%Q -> fst a = 0.
Proof.
  intro H. unfold fval in H. assert (Z0 : (scaled 0 (snd a) == 0)%Q) by (unfold scaled; change (inject_Z 0) with 0%Q; ring).
  apply Z.le_antisymm; apply scaled_le_inv with (snd a); rewrite H, Z0; apply Qle_refl.
Qed.
Lemma is_close_same a b : (fval a == fval b)%Q -> is_close a b = true.
Proof.
  intro H. assert (F : fst (fsub a b) = 0).
  { apply fval_zero_inv. eapply Qeq_trans; [apply nearest53_digits; [apply fsub_nearest|]|].
    - exists 0, 0. split; [reflexivity|]. rewrite H. unfold scaled. change (inject_Z 0) with 0%Q. ring.
    - rewrite H. ring. }
  unfold is_close. rewrite F. unfold fle. cbn [fst snd Z.abs]. rewrite Z.shiftl_0_l.
  apply Z.leb_le. apply Z.shiftl_nonneg. discriminate.
Qed.

(** ** exp *)
Lemma fval_1 : (fval (of_int 1) == 1)%Q. Proof. reflexivity. Qed.
Lemma exp_loop_zero f x : fst x = 0 -> exp_loop (S f) x (of_int 1) (of_int 1) 2 x = Some (of_int 1).
Proof.
  intro H. cbn [exp_loop].
  rewrite is_close_same; [reflexivity|]. symmetry.
  assert (D : (fval (fdiv x (of_int 1)) == 0)%Q).
  { eapply Qeq_trans; [apply nearest53_digits; [apply fdiv_nearest; discriminate|]|].
    - exists 0, 0. split; [reflexivity|]. rewrite (@fval_zero x H). reflexivity.
    - rewrite (@fval_zero x H). reflexivity. }
  eapply Qeq_trans; [apply nearest53_digits; [apply fadd_nearest|]|].
  - exists 1, 0. split; [reflexivity|]. rewrite D. reflexivity.
  - rewrite D, Qplus_0_r. reflexivity.
Qed.
Lemma exp_zero x : fst x = 0 -> exp x = Some (of_int 1).
Proof. intro H. exact (exp_loop_zero 511 H). Qed.

Lemma fdiv_nonneg t n : (0 <= fval t)%Q -> (1 <= fval n)%Q -> (0 <= fval (fdiv t n))%Q.
Proof.
  intros T N. assert (Nn : fst n <> 0).
  { intro C. rewrite (@fval_zero n C) in N. apply (Qle_not_lt _ _ N). reflexivity. }
  apply (nearest53_lower (fdiv_nearest t Nn)); [apply (@digits53_Z 0); reflexivity|].
  apply Qle_shift_div_l; [eapply Qlt_le_trans; [|exact N]; reflexivity|]. rewrite Qmult_0_l. exact T.
Qed.
Lemma fadd_ge_1 a b : (1 <= fval a)%Q -> (0 <= fval b)%Q -> (1 <= fval (fadd a b))%Q.
Proof.
  intros A B. apply (nearest53_lower (fadd_nearest a b)); [apply (@digits53_Z 1); reflexivity|].
  setoid_replace 1%Q with (1 + 0)%Q by ring. apply Qplus_le_compat; assumption.
Qed.
Lemma fmul_nonneg a b : (0 <= fval a)%Q -> (0 <= fval b)%Q -> (0 <= fval (fmul a b))%Q.
Proof.
  intros A B. apply (nearest53_lower (fmul_nearest a b)); [apply (@digits53_Z 0); reflexivity|].
  apply Qmult_le_0_compat; assumption.
Qed.
Lemma fmul_ge_1 a b : (1 <= fval a)%Q -> (1 <= fval b)%Q -> (1 <= fval (fmul a b))%Q.
Proof.
  intros A B. apply (nearest53_lower (fmul_nearest a b)); [apply (@digits53_Z 1); reflexivity|].
  apply Qle_trans with (1 * fval b)%Q; [rewrite Qmult_1_l; exact B|].
  apply Qmult_le_compat_r; [exact A|]. eapply Qle_trans; [|exact B]. discriminate.
Qed.
Lemma of_int_ge_1 i : 1 <= i -> (1 <= fval (of_int i))%Q.
Proof.
  intro H. apply (nearest53_lower (rnd_nearest i 0)); [apply (@digits53_Z 1); reflexivity|].
  unfold scaled. change ((2 # 1) ^ 0)%Q with 1%Q. rewrite Qmult_1_r. change 1%Q with (inject_Z 1).
  rewrite <- Zle_Qle. exact H.
Qed.
Lemma exp_loop_ge_1 f : forall x sum n i t r, (0 <= fval x)%Q -> (1 <= fval sum)%Q -> (1 <= fval n)%Q ->
  1 <= i -> (0 <= fval t)%Q -> exp_loop f x sum n i t = Some r -> (1 <= fval r)%Q.
Proof.
  induction f as [|f IH]; intros x sum n i t r X S0 N I T E; [discriminate|]. cbn [exp_loop] in E.
  destruct (is_close sum (fadd sum (fdiv t n))).
  - injection E as <-. exact S0.
  - apply IH in E; try assumption.
    + apply fadd_ge_1; [exact S0|]. apply fdiv_nonneg; assumption.
    + apply fmul_ge_1; [exact N|]. apply of_int_ge_1; lia.
    + lia.
    + apply fmul_nonneg; assumption.
Qed.
Theorem exp_ge_1 x r : (0 <= fval x)%Q -> exp x = Some r -> (1 <= fval r)%Q.
Proof.
  intros X. unfold exp. generalize 512%nat. intros f E. eapply exp_loop_ge_1; [exact X| | | |exact X|exact E].
  - apply Qle_refl.
  - apply Qle_refl.
  - lia.
Qed.

(** ** log and pow *)
Lemma pow_zero f a l : log f a = Value l -> size_pow f a 0 = Some 1.
Proof.
  intro E. unfold size_pow, pow. rewrite E. rewrite exp_zero; reflexivity.
Qed.
Lemma log_value x y y' f : log_iter x y = Some y' -> is_close y y' = true -> log_loop (S f) x y = Value y.
Proof. intros E C. cbn [log_loop]. rewrite E, C. reflexivity. Qed.
Lemma log_step x y y' f : log_iter x y = Some y' -> is_close y y' = false -> log_loop (S f) x y = log_loop f x y'.
Proof. intros E C. cbn [log_loop]. rewrite E, C. reflexivity. Qed.
Lemma log_runs x y y' : log_iter x y = Some y' -> is_close y y' = false ->
  (forall f, log_loop f x y' = Running) -> forall f, log_loop f x y = Running.
Proof. intros E C H [|f]; [reflexivity|]. rewrite (log_step f E C). apply H. Qed.
Lemma log_1 f : log (S f) 1 = Value (0, 0).
Proof.
  assert (I : log_iter (of_int 1) (0, 0) = Some (0, -56)) by (vm_compute; reflexivity).
  assert (C : is_close (0, 0) (0, -56) = true) by (vm_compute; reflexivity).
  exact (log_value f I C).
Qed.
Lemma pow_one f b : size_pow (S f) 1 b = Some 1.
Proof.
  unfold size_pow, pow. rewrite log_1. rewrite exp_zero; [reflexivity|]. unfold fmul. cbn [fst snd].
  rewrite Z.mul_0_r. reflexivity.
Qed.

Definition log2_value : flt := (6243314768165362, -53).
Lemma log_2 f : (4 <= f)%nat -> log f 2 = Value log2_value.
Proof.
  intro H. do 4 (destruct f as [|f]; [lia|]). unfold log. change (of_int 0) with (0, 0).
  assert (A1 : log_iter (of_int 2) (0, 0) = Some (6004799503160661, -53)) by (vm_compute; reflexivity).
  assert (B1 : is_close (0, 0) (6004799503160661, -53) = false) by (vm_compute; reflexivity).
  assert (A2 : log_iter (of_int 2) (6004799503160661, -53) = Some (6243300831550492, -53)) by (vm_compute; reflexivity).
  assert (B2 : is_close (6004799503160661, -53) (6243300831550492, -53) = false) by (vm_compute; reflexivity).
  assert (A3 : log_iter (of_int 2) (6243300831550492, -53) = Some (6243314768165362, -53)) by (vm_compute; reflexivity).
  assert (B3 : is_close (6243300831550492, -53) (6243314768165362, -53) = false) by (vm_compute; reflexivity).
  assert (A4 : log_iter (of_int 2) (6243314768165362, -53) = Some (6243314768165362, -53)) by (vm_compute; reflexivity).
  assert (B4 : is_close (6243314768165362, -53) (6243314768165362, -53) = true) by (vm_compute; reflexivity).
  rewrite (log_step _ A1 B1), (log_step _ A2 B2), (log_step _ A3 B3). exact (log_value f A4 B4).
Qed.
Lemma pow_2 f b : (4 <= f)%nat -> pow f 2 b = exp (fmul (of_int b) log2_value).
Proof. intro H. unfold pow. rewrite (log_2 H). reflexivity. Qed.

Lemma exps_of_2 : forallb (fun n => match exp (fmul (of_int n) log2_value) with
  | Some r => to_size r =? 2 ^ n | None => false end) (map Z.of_nat (seq 0 46)) = true.
Proof. vm_compute. reflexivity. Qed.
Theorem size_pow_2 f n : (4 <= f)%nat -> 0 <= n <= 45 -> size_pow f 2 n = Some (2 ^ n).
Proof.
  intros F H. pose proof exps_of_2 as A. rewrite forallb_forall in A.
  specialize (A n). unfold size_pow. rewrite (pow_2 n F).
  destruct (exp (fmul (of_int n) log2_value)) as [r|].
  - cbn. f_equal. apply Z.eqb_eq. apply A. rewrite in_map_iff. exists (Z.to_nat n). split; [lia|].
    rewrite in_seq. lia.
  - assert (false = true) as C; [|discriminate]. apply A. rewrite in_map_iff. exists (Z.to_nat n). split; [lia|].
    rewrite in_seq. lia.
Qed.

Theorem log_16 f : log f 16 = Running.
Proof.
  unfold log. change (of_int 0) with (0, 0).
  assert (A1 : log_iter (of_int 16) (0, 0) = Some (7947528754183228, -52)) by (vm_compute; reflexivity).
  assert (B1 : is_close (0, 0) (7947528754183228, -52) = false) by (vm_compute; reflexivity).
  assert (A2 : log_iter (of_int 16) (7947528754183228, -52) = Some (6068889483344650, -51)) by (vm_compute; reflexivity).
  assert (B2 : is_close (7947528754183228, -52) (6068889483344650, -51) = false) by (vm_compute; reflexivity).
  assert (A3 : log_iter (of_int 16) (6068889483344650, -51) = Some (6243227606199432, -51)) by (vm_compute; reflexivity).
  assert (B3 : is_close (6068889483344650, -51) (6243227606199432, -51) = false) by (vm_compute; reflexivity).
  assert (A4 : log_iter (of_int 16) (6243227606199432, -51) = Some (6243314768165348, -51)) by (vm_compute; reflexivity).
  assert (B4 : is_close (6243227606199432, -51) (6243314768165348, -51) = false) by (vm_compute; reflexivity).
  assert (A5 : log_iter (of_int 16) (6243314768165348, -51) = Some (6243314768165359, -51)) by (vm_compute; reflexivity).
  assert (B5 : is_close (6243314768165348, -51) (6243314768165359, -51) = false) by (vm_compute; reflexivity).
  assert (A6 : log_iter (of_int 16) (6243314768165359, -51) = Some (6243314768165360, -51)) by (vm_compute; reflexivity).
  assert (B6 : is_close (6243314768165359, -51) (6243314768165360, -51) = false) by (vm_compute; reflexivity).
  assert (A7 : log_iter (of_int 16) (6243314768165360, -51) = Some (6243314768165359, -51)) by (vm_compute; reflexivity).
  assert (B7 : is_close (6243314768165360, -51) (6243314768165359, -51) = false) by (vm_compute; reflexivity).
  assert (C : forall f, log_loop f (of_int 16) (6243314768165359, -51) = Running /\
    log_loop f (of_int 16) (6243314768165360, -51) = Running).
  { induction f0 as [|n IH]; [split; reflexivity|].
    rewrite (log_step n A6 B6), (log_step n A7 B7). tauto. }
  revert f. apply (log_runs A1 B1), (log_runs A2 B2), (log_runs A3 B3), (log_runs A4 B4), (log_runs A5 B5).
  intro f. apply C.
Qed.
Lemma arithmetic_nearest (a b : flt) : let v := fun x : flt => scaled (fst x) (snd x) in
  nearest53 (v a + v b) (v (fadd a b)) /\ nearest53 (v a - v b) (v (fsub a b)) /\
  nearest53 (v a * v b) (v (fmul a b)) /\ (fst b <> 0 -> nearest53 (v a / v b) (v (fdiv a b))).
Proof.
  cbv zeta. repeat split; [apply fadd_nearest|apply fadd_nearest|apply fsub_nearest|apply fsub_nearest
    |apply fmul_nearest|apply fmul_nearest| |]; intros; apply fdiv_nearest; assumption.
Qed.
Lemma log_16_pow f b : log f 16 = Running /\ pow f 16 b = None.
Proof. split; [apply log_16|]. unfold pow. rewrite log_16. reflexivity. Qed.
