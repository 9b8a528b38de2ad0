(** Proofs about built-in floating-point numbers as text. *)
From Coq Require Import QArith Qpower Qround Qabs Lqa Znumtheory.
From Verif Require Import Base NumRepr_Model NumRepr_Spec NumRepr_Proofs FracText_Model FracText_Spec FracText_Proofs
  Float_Model Float_Spec Float_Proofs Ref_Model FloatBig_Model FloatBig_Spec FloatBig_Proofs FloatOut_Proofs
  FloatText_Model.
Local Open Scope Z_scope.

Lemma wrap_range ew e : 1 <= ew -> - 2 ^ (ew - 1) <= e < 2 ^ (ew - 1) -> wrap_signed ew e = e.
Proof. apply wrap_in. Qed.

Section Conv.
Variables (F : finfo) (f : fmt).
Hypothesis A : fits_all F f.
Variable ew : Z.
Hypothesis Hew : 16 <= ew.
Notation w := (bw F).
Notation m := (fm f).

Lemma afit : fits_format F f. Proof. exact (proj1 A). Qed.
Lemma ew_room : bias f + 2 * w < 2 ^ (ew - 1).
Proof.
  destruct A as (_ & _ & _ & _ & _ & _ & _ & X). apply Z.lt_le_trans with (2 ^ 15); [exact X|].
  apply Z.pow_le_mono_r; lia.
Qed.

(** A conversion that gives something other than zero is faithful. *)
Lemma convert_some fuel n d r : 0 < n -> 0 < d -> Z.log2 d + 2 <= Z.of_nat fuel ->
  (pow2 (- bias f - w) <= ratio n d)%Q -> (ratio n d < pow2 (bias f + 2))%Q ->
  convert_to_float F f ew fuel n d = Ok r -> r <> 0 ->
  faithful f (ratio n d) r /\ (pow2 (2 - bias f - w) <= ratio n d)%Q /\ (ratio n d < pow2 (bias f + 1))%Q.
Proof.
  intros Hn Hd Hf X1 X2 C R0. pose proof afit as Fit. pose proof ew_room as Room.
  destruct A as (_ & Hw & Hsh & M17 & M4 & _ & B64 & _).
  pose proof (bias1 Fit) as B1.
  destruct (@convert_outcome F f ltac:(lia) fuel n d ew Hn Hd Hf) as (num & e & O & E). rewrite E in C. clear E.
  destruct (Z.lt_ge_cases num (2 ^ w)) as [N|N].
  - pose proof (@outcome_log F ltac:(lia) ew ltac:(lia) _ _ _ _ O N) as (L1 & L2 & L3). pose proof (proj1 O) as N0.
    assert (R1 : e + Z.log2 num < bias f + 2) by (apply pow2_lt_inv; lra).
    assert (R2 : - bias f - w < e + Z.log2 num + 1) by (apply pow2_lt_inv; lra).
    rewrite Z.mod_small in C by lia. rewrite wrap_range in C by lia.
    destruct (Z.le_gt_cases (e + Z.log2 num) (1 - bias f - shift_width F)) as [S1|S1].
    { rewrite (make_float_too_small Fit) in C by lia. discriminate. }
    destruct (Z.le_gt_cases (e + Z.log2 num) (bias f)) as [S2|S2].
    2: { rewrite (make_float_too_large Fit) in C by lia. congruence. }
    destruct (@make_float_truncates F f Fit num e ltac:(lia) ltac:(lia)) as (r' & E & T). rewrite E in C.
    injection C as ->.
    refine (conj _ (conj _ _)).
    2:{ eapply Qle_trans; [|exact L1]. apply pow2_le. lia. }
    2:{ eapply Qlt_le_trans; [exact L2|]. apply pow2_le. lia. }
    destruct O as [_ [[_ V]|[(_ & _ & q & g & Q & V & Y1 & Y2)|(Q & _ & Y1 & Y2)]]].
    + apply (@truncated_faithful F f Fit). destruct T as (T0 & T1 & T2). refine (conj T0 _). rewrite V. auto.
    + apply (@cell_faithful F f Fit ltac:(lia) ltac:(lia) _ _ _ q g T); [|exact Y1|exact Y2|left; symmetry; exact V].
      apply Z.le_trans with (2 ^ w); [apply Z.pow_le_mono_r; lia|exact Q].
    + apply (@cell_faithful F f Fit ltac:(lia) ltac:(lia) _ _ _ (num - 1) e T Q Y1);
        replace (num - 1 + 1) with num by lia; [exact Y2|right; reflexivity].
  - destruct (@outcome_full F ltac:(lia) ew _ _ _ _ O N) as (-> & Y1 & Y2).
    assert (R1 : - bias f - w < e + w) by (apply pow2_lt_inv; lra).
    assert (R2 : e + w - 1 < bias f + 2).
    { apply pow2_lt_inv. eapply Qle_lt_trans; [|exact X2]. apply Qlt_le_weak. eapply Qle_lt_trans; [|exact Y1].
      assert (H1 : (pow2 (1 + (e + w - 1)) == pow2 1 * pow2 (e + w - 1))%Q) by apply pow2_add.
      replace (1 + (e + w - 1)) with (e + w) in H1 by lia. change (pow2 1) with 2%Q in H1.
      assert (H2 : (pow2 e <= pow2 (e + w - 1))%Q) by (apply pow2_le; lia). lra. }
    rewrite Z_mod_same_full in C.
    rewrite wrap_range in C by lia.
    destruct (Z.le_gt_cases e (2 - bias f - w)) as [S1|S1].
    + rewrite (@make_float_zero_undefined F f Fit ltac:(lia) ltac:(lia) Hsh ew ltac:(lia)) in C by lia. discriminate.
    + rewrite (make_float_zero Fit) in C by lia. congruence.
Qed.

(** A fraction with numerator zero gives zero or nothing. *)
Lemma convert_zero fuel d r : convert_to_float F f ew fuel 0 d = Ok r -> 0 < d -> r = 0.
Proof.
  intros C Hd. pose proof afit as Fit. destruct A as (_ & Hw & Hsh & M17 & M4 & _ & B64 & _).
  unfold convert_to_float in C. destruct (Z.eqb_spec d 0); [lia|].
  destruct (tz_spec Hd) as (k & E & _ & K & _).
  change (tz 0) with 0 in C. change (Z.shiftr 0 0) with 0 in C.
  replace (scale F fuel 0 (Z.shiftr d (tz d)) (0 - tz d)) with (Ok (0, 0 - tz d)) in C.
  2:{ destruct fuel; cbn [scale]; rewrite Zmod_0_l, Zdiv_0_l; reflexivity. }
  change (tz 0) with 0 in C. change (Z.shiftr 0 0) with 0 in C. change (bitnum 0) with 0 in C.
  destruct (Z.ltb_spec 0 (0 - w)); [lia|]. rewrite Zmod_0_l in C.
  destruct (Z.le_gt_cases (wrap_signed ew (0 - tz d + 0)) (2 - bias f - w)) as [S1|S1].
  - rewrite (@make_float_zero_undefined F f Fit ltac:(lia) ltac:(lia) Hsh ew ltac:(lia)) in C by lia. discriminate.
  - rewrite (make_float_zero Fit) in C by lia. congruence.
Qed.

(** Values that are relatively close to a number belong to it. *)
Lemma close_faithful d v : 0 < d < inf_bits f ->
  (Qabs (v - fabs f d) * pow2 (m + 1) < fabs f d)%Q -> faithful f v d.
Proof.
  intros D C. pose proof afit as Fit. pose proof (pm Fit) as PM. pose proof (pm1 Fit) as PM1. pose proof (m1 Fit) as M1.
  destruct (@grid_of F f Fit d ltac:(lia)) as (k & V & E & K & KV & VM & KM).
  destruct (@units_grid F f Fit k V K KV VM KM) as [U1 U2]. rewrite <- E in U1, U2.
  assert (S0 : (0 < pow2 (k + tiny f))%Q) by apply pow2_pos.
  assert (X : (fabs f d == inject_Z V * pow2 (k + tiny f))%Q).
  { rewrite fabs_scaled, U1, scaled_shift by exact K. now rewrite scaled_pow2. }
  assert (Y : (fabs f (d + 1) == (inject_Z V + 1) * pow2 (k + tiny f))%Q).
  { rewrite fabs_scaled, U2, scaled_shift by exact K. rewrite scaled_pow2, inject_Z_plus. reflexivity. }
  assert (V0 : 0 < V) by (destruct KV as [[-> KV]|KV]; lia).
  set (g := pow2 (k + tiny f)) in *. set (a := Qabs (v - fabs f d)) in *.
  assert (A0 : (0 <= a)%Q) by apply Qabs_nonneg.
  assert (A1 : (- a <= v - fabs f d <= a)%Q) by (apply Qabs_Qle_condition; apply Qle_refl).
  rewrite pow2_Z in C by lia.
  assert (VP : (inject_Z V <= inject_Z (2 ^ (m + 1)))%Q) by (rewrite <- Zle_Qle; lia).
  assert (P0 : (0 < inject_Z (2 ^ (m + 1)))%Q) by (apply inj_pos; lia).
  set (P := inject_Z (2 ^ (m + 1))) in *.
  assert (A2 : (a < g)%Q).
  { apply Qnot_le_lt. intros L. assert ((g * P <= a * P)%Q) by (apply Qmult_le_compat_r; lra).
    assert ((inject_Z V * g <= P * g)%Q) by (apply Qmult_le_compat_r; lra). lra. }
  refine (conj _ (conj _ _)); [lia| |lra]. right.
  destruct (Z.le_gt_cases V (2 ^ m)) as [C1|C1]; [destruct (Z.eq_dec k 0) as [K0|K0]|].
  - assert (E' : d - 1 = k * 2 ^ m + (V - 1)) by lia.
    destruct (@units_grid F f Fit k (V - 1) K ltac:(lia) ltac:(lia) KM) as [U3 _]. rewrite <- E' in U3.
    assert (Z1 : (fabs f (d - 1) == (inject_Z V - 1) * g)%Q).
    { rewrite fabs_scaled, U3, scaled_shift by exact K. rewrite scaled_pow2. unfold Z.sub. rewrite inject_Z_plus. reflexivity. }
    lra.
  - assert (V = 2 ^ m) by lia. subst V.
    assert (E' : d - 1 = (k - 1) * 2 ^ m + (2 ^ (m + 1) - 1)) by lia.
    destruct (@units_grid F f Fit (k - 1) (2 ^ (m + 1) - 1) ltac:(lia) ltac:(lia) ltac:(lia) ltac:(lia)) as [U3 _].
    rewrite <- E' in U3.
    assert (G : (g == 2 * pow2 (k - 1 + tiny f))%Q).
    { unfold g. replace (k + tiny f) with (1 + (k - 1 + tiny f)) by lia. rewrite pow2_add. reflexivity. }
    assert (PV : (P == 2 * inject_Z (2 ^ m))%Q).
    { unfold P. rewrite PM1, inject_Z_mult. reflexivity. }
    assert (Z1 : (fabs f (d - 1) == (P - 1) * pow2 (k - 1 + tiny f))%Q).
    { rewrite fabs_scaled, U3, scaled_shift by lia. rewrite scaled_pow2. unfold Z.sub. rewrite inject_Z_plus. reflexivity. }
    assert (A3 : (2 * a < g)%Q).
    { apply Qnot_le_lt. intros L. assert ((g * inject_Z (2 ^ m) <= 2 * a * inject_Z (2 ^ m))%Q).
      { apply Qmult_le_compat_r; [exact L|]. lra. }
      assert ((2 * a * inject_Z (2 ^ m) == a * P)%Q) by (rewrite PV; ring). lra. }
    assert ((inject_Z (2 ^ m) * g == P * pow2 (k - 1 + tiny f))%Q) by (rewrite G, PV; ring).
    lra.
  - assert (E' : d - 1 = k * 2 ^ m + (V - 1)) by lia.
    destruct (@units_grid F f Fit k (V - 1) K ltac:(lia) ltac:(lia) KM) as [U3 _]. rewrite <- E' in U3.
    assert (Z1 : (fabs f (d - 1) == (inject_Z V - 1) * g)%Q).
    { rewrite fabs_scaled, U3, scaled_shift by exact K. rewrite scaled_pow2. unfold Z.sub. rewrite inject_Z_plus. reflexivity. }
    lra.
Qed.
End Conv.

Lemma Qabs_le_iff x y : (Qabs x <= y)%Q <-> (- y <= x <= y)%Q.
Proof. apply Qabs_Qle_condition. Qed.
Lemma faithful_eq f v v' d : (v == v')%Q -> faithful f v d -> faithful f v' d.
Proof. intros E (X & Y & W). unfold faithful. rewrite <- E. auto. Qed.

Section Round.
Variable R : repr.
Hypothesis HR : repr_ok R.
Notation r := (radix R).
Notation val n e := (inject_Z n * rad R ^ e)%Q.

Lemma val_step n e : (val (n * r) e == val n (e + 1))%Q.
Proof. rewrite inject_Z_mult, (rad_pow_add HR). change (rad R ^ 1)%Q with (rad R). unfold rad. ring. Qed.
Lemma pow_inject e : 0 <= e -> (inject_Z (r ^ e) == rad R ^ e)%Q.
Proof. exact (@rad_pow_Z R e). Qed.

Lemma round_digit_spec n : r mod 2 = 0 -> 0 <= n ->
  let n' := round_digit R n in
  2 * Z.abs (n - n' * r) <= r /\ n / r <= n' /\ 0 <= n' /\ (0 < n' -> n' * r <= 2 * n /\ n <= 2 * (n' * r)).
Proof.
  intros E N n'. pose proof (r2 HR) as H2. unfold n', round_digit.
  pose proof (Z.div_mod n r ltac:(lia)) as D. pose proof (Z.mod_pos_bound n r ltac:(lia)) as B.
  pose proof (Z.div_pos n r N ltac:(lia)) as Q0.
  pose proof (Z.div_mod r 2 ltac:(lia)) as Dr.
  set (q := n / r) in *. set (t := n mod r) in *. set (h := r / 2) in *.
  destruct (Z.leb_spec h t) as [C|C].
  - refine (conj _ (conj _ (conj _ _))); nia.
  - refine (conj _ (conj _ (conj _ _))); nia.
Qed.

Lemma ilog_spec fuel : forall n, 0 < n -> 0 <= ilog R fuel n /\ r ^ ilog R fuel n <= n.
Proof.
  pose proof (r2 HR) as H2. induction fuel as [|fuel IH]; intros n N; cbn [ilog].
  - rewrite Z.pow_0_r. lia.
  - destruct (Z.ltb_spec n r) as [C|C]; [rewrite Z.pow_0_r; lia|].
    assert (0 < n / r) by (apply Z.div_str_pos; lia).
    destruct (IH (n / r) ltac:(lia)) as [I1 I2]. split; [lia|].
    rewrite Z.pow_add_r, Z.pow_1_r by lia.
    pose proof (Z.mul_div_le n r ltac:(lia)). nia.
Qed.

Section Near.
Variable x : Q.
Definition near (c : Q) (n e : Z) : Prop := (Qabs (x - val n e) <= c * rad R ^ e)%Q.

Lemma near_round c n e : r mod 2 = 0 -> 4 <= r -> 0 <= n -> (0 <= c <= 1)%Q -> near c n e ->
  near (3 # 4) (round_digit R n) (e + 1).
Proof.
  intros E R4 N C H. destruct (round_digit_spec E N) as (B & _). set (n' := round_digit R n) in *.
  unfold near in *. rewrite <- val_step. pose proof (rad_pow_pos HR e) as G. 
  assert (G1 : (rad R ^ (e + 1) == inject_Z r * rad R ^ e)%Q).
  { rewrite (rad_pow_add HR). change (rad R ^ 1)%Q with (rad R). unfold rad. ring. }
  assert (R4' : (4 <= inject_Z r)%Q) by (change 4%Q with (inject_Z 4); rewrite <- Zle_Qle; exact R4).
  rewrite Qabs_le_iff in *. rewrite G1.
  assert (D : (inject_Z n * rad R ^ e - inject_Z (n' * r) * rad R ^ e == inject_Z (n - n' * r) * rad R ^ e)%Q).
  { unfold Z.sub. rewrite inject_Z_plus, inject_Z_opp. ring. }
  set (g := (rad R ^ e)%Q) in *.
  assert (B1 : (2 * inject_Z (n - n' * r) <= inject_Z r)%Q).
  { change 2%Q with (inject_Z 2). rewrite <- inject_Z_mult, <- Zle_Qle. lia. }
  assert (B2 : (- inject_Z r <= 2 * inject_Z (n - n' * r))%Q).
  { change 2%Q with (inject_Z 2). rewrite <- inject_Z_mult, <- inject_Z_opp, <- Zle_Qle. lia. }
  set (k := inject_Z (n - n' * r)) in *.
  assert (K1 : (2 * k * g <= inject_Z r * g)%Q) by (apply Qmult_le_compat_r; lra).
  assert (K2 : (- inject_Z r * g <= 2 * k * g)%Q) by (apply Qmult_le_compat_r; lra).
  assert (K3 : (4 * g <= inject_Z r * g)%Q) by (apply Qmult_le_compat_r; lra).
  assert (K4 : (c * g <= 1 * g)%Q) by (apply Qmult_le_compat_r; lra).
  lra.
Qed.

Lemma round_to_spec limit fuel : r mod 2 = 0 -> 4 <= r -> forall c n e n' e', 0 <= n -> (0 <= c <= 1)%Q -> near c n e ->
  round_to R fuel limit n e = Ok (n', e') ->
  n' <= limit /\ ((n', e') = (n, e) \/ near (3 # 4) n' e' /\ limit / r <= n').
Proof.
  intros E R4. pose proof (r2 HR) as H2. induction fuel as [|fuel IH]; intros c n e n' e' N C H X; cbn [round_to] in X.
  - destruct (Z.ltb_spec limit n); [discriminate|]. injection X as <- <-. auto.
  - destruct (Z.ltb_spec limit n) as [L|L]; [|injection X as <- <-; auto].
    pose proof (near_round E R4 N C H) as H'. destruct (round_digit_spec E N) as (_ & B & B0 & _).
    destruct (IH (3 # 4)%Q _ _ _ _ B0 ltac:(lra) H' X) as [I1 I2]. split; [exact I1|]. right.
    destruct I2 as [I2|I2]; [|exact I2]. injection I2 as -> ->. split; [exact H'|].
    apply Z.le_trans with (n / r); [|exact B]. apply Z.div_le_mono; lia.
Qed.

(** Relatively close. *)
Lemma near_close c n e P : (0 < P)%Q -> near c n e ->
  (c == 0 /\ 0 < x \/ c <= 1 /\ 4 * P <= inject_Z n /\ 1 <= P \/ c <= (3 # 4) /\ P <= inject_Z n /\ 4 <= P)%Q ->
  (Qabs (val n e - x) * P < x)%Q.
Proof.
  intros P0 H C. pose proof (rad_pow_pos HR e) as G. unfold near in H. rewrite Qabs_Qminus in H.
  pose proof H as H'. rewrite Qabs_le_iff in H'. set (g := (rad R ^ e)%Q) in *.
  set (a := Qabs (inject_Z n * g - x)) in *.
  assert (HP : (a * P <= c * g * P)%Q) by (apply Qmult_le_compat_r; lra).
  destruct C as [[C X0]|[(C & B & P1)|(C & B & P4)]].
  - rewrite C in HP. lra.
  - assert ((c * g <= 1 * g)%Q) by (apply Qmult_le_compat_r; lra).
    assert ((4 * P * g <= inject_Z n * g)%Q) by (apply Qmult_le_compat_r; lra).
    assert ((c * g * P <= 1 * g * P)%Q) by (apply Qmult_le_compat_r; lra).
    assert ((1 * g <= P * g)%Q) by (apply Qmult_le_compat_r; lra). lra.
  - assert ((c * g <= (3 # 4) * g)%Q) by (apply Qmult_le_compat_r; lra).
    assert ((P * g <= inject_Z n * g)%Q) by (apply Qmult_le_compat_r; lra).
    assert ((c * g * P <= (3 # 4) * g * P)%Q) by (apply Qmult_le_compat_r; lra).
    assert ((4 * g <= P * g)%Q) by (apply Qmult_le_compat_r; lra). lra.
Qed.
End Near.
End Round.

Section Positive.
Variables (F : finfo) (f : fmt).
Hypothesis A : fits_all F f.
Notation m := (fm f).
Lemma fabs_positive d : 0 < d < inf_bits f -> (pow2 (tiny f) <= fabs f d)%Q.
Proof.
  intros D. pose proof (proj1 A : fits_format F f) as Fit. pose proof (m1 Fit). pose proof (zpow_pos (x := m) ltac:(lia)) as P.
  assert (E : (fabs f 1 == pow2 (tiny f))%Q).
  { rewrite fabs_scaled. destruct (@units_sub F f Fit 0 ltac:(lia)) as [_ U]. cbn in U. rewrite U.
    symmetry. apply pow2_scaled. }
  rewrite <- E. apply (fabs_le Fit); lia.
Qed.

End Positive.
Lemma enough_fuel d : 0 < d -> Z.log2 d + 2 <= Z.of_nat (enough d).
Proof. intros D. unfold enough. pose proof (Z.log2_nonneg d). lia. Qed.

Section Text.
Variables (F : finfo) (f : fmt).
Hypothesis A : fits_all F f.
Variables sw ew : Z.
Hypothesis Hew : 16 <= ew.
Variable R : repr.
Hypothesis HR : repr_ok R.
Variable M : marks.
Hypothesis HM : marks_ok R M.
Notation r := (radix R).
Notation w := (bw F).
Notation m := (fm f).
Notation val n e := (inject_Z n * rad R ^ e)%Q.

(** Values a number stands for, and far from where the conversion breaks. *)
Definition stands (v : Q) (check : Z) : Prop :=
  faithful f v check /\ (pow2 (2 - bias f - w) <= v)%Q /\ (v < pow2 (bias f + 1))%Q.

Lemma stands_eq v v' d : (v == v')%Q -> stands v d -> stands v' d.
Proof. intros E (X & Y & W). split; [exact (faithful_eq E X)|]. rewrite <- E. auto. Qed.

Lemma shorten_spec fuel check : r mod 2 = 0 -> 0 < check -> forall n e pn pd bn be n' e',
  0 < n -> 0 < bn -> 0 < pn -> 0 < pd -> (ratio pn pd == rad R ^ e)%Q ->
  (val bn be == val n e)%Q -> stands (val n e) check ->
  shorten F f ew R fuel check n e pn pd bn be = Ok (n', e') ->
  0 < n' /\ stands (val n' e') check.
Proof.
  intros E C0. pose proof (r2 HR) as H2. induction fuel as [|fuel IH]; intros n e pn pd bn be n' e' N BN PN PD RP BV SV X;
    [discriminate|].
  cbn [shorten] in X.
  assert (P2 : (ratio (pn * r) pd == rad R ^ (e + 1))%Q).
  { rewrite (rad_pow_add HR). change (rad R ^ 1)%Q with (rad R). rewrite <- RP. unfold ratio, rad.
    rewrite inject_Z_mult. field. intros Q. apply (inj_pos) in PD. lra. }
  (* After the zeros. *)
  assert (G : forall n e pn bn be, 0 < n -> 0 < bn -> 0 < pn -> (ratio pn pd == rad R ^ e)%Q ->
    (val bn be == val n e)%Q -> stands (val n e) check ->
    match convert_to_float F f ew (enough pd) (round_digit R n * (pn * r)) pd with
    | Ok x => if x =? check
        then shorten F f ew R fuel check (round_digit R n) (e + 1) (pn * r) pd (round_digit R n) (e + 1)
        else Ok (bn, be)
    | Ub => Ub | Out => Out end = Ok (n', e') -> 0 < n' /\ stands (val n' e') check).
  { clear n e pn bn be N BN PN RP BV SV X P2. intros n e pn bn be N BN PN RP BV SV X.
    assert (P2 : (ratio (pn * r) pd == rad R ^ (e + 1))%Q).
    { rewrite (rad_pow_add HR). change (rad R ^ 1)%Q with (rad R). rewrite <- RP. unfold ratio, rad.
      rewrite inject_Z_mult. field. intros Q. apply (inj_pos) in PD. lra. }
    destruct (@round_digit_spec R HR n E ltac:(lia)) as (_ & _ & K0 & K1). set (k := round_digit R n) in *.
    destruct (convert_to_float F f ew (enough pd) (k * (pn * r)) pd) as [y| |] eqn:CV; try discriminate.
    destruct (Z.eqb_spec y check) as [->|Ne].
    - destruct (Z.eq_dec k 0) as [Z0|Z0].
      { rewrite Z0, Z.mul_0_l in CV. pose proof (@convert_zero F f A ew Hew _ _ _ CV PD). lia. }
      assert (K : 0 < k) by lia.
      assert (VE : (ratio (k * (pn * r)) pd == val k (e + 1))%Q).
      { rewrite <- P2. unfold ratio. rewrite inject_Z_mult. unfold Qdiv. ring. }
      specialize (K1 K) as [K1 K2].
      assert (S' : stands (val k (e + 1)) check).
      { destruct SV as (_ & V1 & V2). pose proof (rad_pow_pos HR e) as G.
        assert (VS : (val k (e + 1) == inject_Z (k * r) * rad R ^ e)%Q) by (symmetry; apply (val_step HR)).
        assert (L1 : (val n e <= 2 * val k (e + 1))%Q).
        { rewrite VS. assert (Q1 : (inject_Z n <= inject_Z (2 * (k * r)))%Q) by (rewrite <- Zle_Qle; exact K2).
          rewrite inject_Z_mult in Q1. change (inject_Z 2) with 2%Q in Q1.
          assert (Q2 : (inject_Z n * rad R ^ e <= 2 * inject_Z (k * r) * rad R ^ e)%Q) by (apply Qmult_le_compat_r; lra).
          lra. }
        assert (L2 : (val k (e + 1) <= 2 * val n e)%Q).
        { rewrite VS. assert (Q1 : (inject_Z (k * r) <= inject_Z (2 * n))%Q) by (rewrite <- Zle_Qle; exact K1).
          rewrite (inject_Z_mult 2 n) in Q1. change (inject_Z 2) with 2%Q in Q1.
          assert (Q2 : (inject_Z (k * r) * rad R ^ e <= 2 * inject_Z n * rad R ^ e)%Q) by (apply Qmult_le_compat_r; lra).
          lra. }
        assert (D1 : (pow2 (2 - bias f - w) == 4 * pow2 (- bias f - w))%Q).
        { replace (2 - bias f - w) with (2 + (- bias f - w)) by lia. rewrite pow2_add. reflexivity. }
        pose proof (pow2_pos (- bias f - w)) as D0.
        assert (D2 : (pow2 (bias f + 2) == 2 * pow2 (bias f + 1))%Q).
        { replace (bias f + 2) with (1 + (bias f + 1)) by lia. rewrite pow2_add. reflexivity. }
        destruct (@convert_some F f A ew Hew (enough pd) (k * (pn * r)) pd check) as (Fa & Ra); auto.
        - nia.
        - apply enough_fuel. exact PD.
        - rewrite VE. lra.
        - rewrite VE. lra.
        - lia.
        - apply (@stands_eq _ _ _ VE). split; [exact Fa|exact Ra]. }
      apply (IH k (e + 1) (pn * r) pd k (e + 1) n' e'); auto; [nia|reflexivity].
    - injection X as <- <-. split; [exact BN|]. apply (@stands_eq (val n e)); [symmetry; exact BV|exact SV]. }
  destruct (Z.eqb_spec (n mod r) 0) as [Z0|Z0].
  - pose proof (Z.div_mod n r ltac:(lia)) as D. rewrite Z0, Z.add_0_r in D.
    assert (N1 : 0 < n / r) by nia.
    assert (VV : (val (n / r) (e + 1) == val n e)%Q).
    { rewrite <- (val_step HR). rewrite (Z.mul_comm (n / r)), <- D. reflexivity. }
    apply (G (n / r) (e + 1) (pn * r) (n / r) (e + 1)); auto; [nia|reflexivity|].
    apply (@stands_eq (val n e)); [symmetry; exact VV|exact SV].
  - apply (G n e pn bn be); auto.
Qed.

Hypothesis Hr : r mod 2 = 0.
Variable limit_digits : Z.
Hypothesis Hld : 0 <= limit_digits.
Hypothesis Hdigits : 2 ^ (m + 3) <= r ^ limit_digits.
Hypothesis Hroom : 2 ^ (m + 1) * r < 2 ^ Z.max w sw.

Lemma base_is : precision_base F * 2 = 2 ^ (m + 1).
Proof. pose proof (afit A) as Fit. rewrite (f_pbase Fit). rewrite (pm1 Fit). lia. Qed.

Lemma close_stands d v : 0 < d < inf_bits f ->
  (Qabs (v - fabs f d) * pow2 (m + 1) < fabs f d)%Q -> stands v d.
Proof.
  intros D C. pose proof (afit A) as Fit. pose proof (close_faithful A D C) as Fa.
  destruct A as (_ & Hw & Hsh & M17 & M4 & _ & B64 & _).
  refine (conj Fa (conj _ _)).
  - pose proof (fabs_positive A D) as P.
    assert (P2 : (pow2 2 <= pow2 (m + 1))%Q) by (apply pow2_le; lia). change (pow2 2) with 4%Q in P2.
    set (a := Qabs (v - fabs f d)) in *. assert (A0 : (0 <= a)%Q) by apply Qabs_nonneg.
    assert (A1 : (- a <= v - fabs f d <= a)%Q) by (apply Qabs_Qle_condition; apply Qle_refl).
    assert (A2 : (4 * a <= pow2 (m + 1) * a)%Q) by (apply Qmult_le_compat_r; lra).
    assert (T : (pow2 (tiny f) == 2 * pow2 (tiny f - 1))%Q).
    { replace (tiny f) with (1 + (tiny f - 1)) at 1 by lia. rewrite pow2_add. reflexivity. }
    assert (T2 : (pow2 (2 - bias f - w) <= pow2 (tiny f - 1))%Q) by (apply pow2_le; unfold tiny; lia).
    lra.
  - destruct Fa as (_ & _ & Fa). eapply Qlt_le_trans; [exact Fa|]. rewrite <- (fabs_inf Fit).
    apply (fabs_le Fit); lia.
Qed.

Lemma radix_pow_ratio e : 0 < fst (radix_pow R e) /\ 0 < snd (radix_pow R e) /\
  (ratio (fst (radix_pow R e)) (snd (radix_pow R e)) == rad R ^ e)%Q.
Proof. destruct (radix_pow_is HR e) as (P & D & V). refine (conj P (conj D V)). Qed.

(** After the cut and the rounding. *)
Lemma threshold_cut check n e n2 e2 : 0 < check < inf_bits f -> 0 < n ->
  (val n e == fabs f check)%Q -> 4 <= r \/ n <= 2 ^ (m + 1) ->
  (let diff := ilog R (turns n) n - limit_digits in
   let '(n1, e1) := if 0 <? diff then (n / r ^ diff, e + diff) else (n, e) in
   round_to R (turns n1) (2 ^ (m + 1) * r) n1 e1) = Ok (n2, e2) ->
  0 < n2 /\ stands (val n2 e2) check /\ n2 <= 2 ^ (m + 1) * r /\ (4 <= r \/ n2 <= 2 ^ (m + 1)).
Proof.
  intros C N V S4 X. pose proof (r2 HR) as H2. pose proof (afit A) as Fit. pose proof (m1 Fit) as M1.
  cbv zeta in X. pose proof (zpow_pos (x := m + 1) ltac:(lia)) as P0.
  destruct (ilog_spec HR (turns n) N) as [I0 I1]. set (L := ilog R (turns n) n) in *.
  assert (M3 : 2 ^ (m + 3) = 4 * 2 ^ (m + 1)).
  { replace (m + 3) with (2 + (m + 1)) by lia. rewrite Z.pow_add_r by lia. reflexivity. }
  assert (Cx : (0 < fabs f check)%Q).
  { eapply Qlt_le_trans; [|exact (fabs_positive A C)]. apply pow2_pos. }
  assert (Exact : stands (val n e) check).
  { apply (close_stands C). rewrite V. setoid_replace (fabs f check - fabs f check)%Q with 0%Q by ring.
    change (Qabs 0) with 0%Q. lra. }
  (* short numbers stay as they are *)
  destruct S4 as [R4|Short].
  2:{ assert (D : (0 <? L - limit_digits) = false).
      { apply Z.ltb_ge. destruct (Z.le_gt_cases L limit_digits) as [|G]; [lia|exfalso].
        assert (r ^ limit_digits <= r ^ L) by (apply Z.pow_le_mono_r; lia). lia. }
      rewrite D in X.
      assert (T : round_to R (turns n) (2 ^ (m + 1) * r) n e = Ok (n, e)).
      { unfold turns. cbn [round_to]. destruct (Z.ltb_spec (2 ^ (m + 1) * r) n); [nia|reflexivity]. }
      rewrite T in X. injection X as <- <-. refine (conj N (conj Exact (conj _ (or_intror Short)))). nia. }
  assert (PQ : (pow2 (m + 1) == inject_Z (2 ^ (m + 1)))%Q) by (apply pow2_Z; lia).
  assert (P4 : 4 <= 2 ^ (m + 1)).
  { change 4 with (2 ^ 2). apply Z.pow_le_mono_r; lia. }
  assert (P4q : (4 <= pow2 (m + 1))%Q).
  { rewrite PQ. change 4%Q with (inject_Z 4). rewrite <- Zle_Qle. exact P4. }
  (* the fast cut *)
  destruct (if 0 <? L - limit_digits then (n / r ^ (L - limit_digits), e + (L - limit_digits)) else (n, e))
    as [n1 e1] eqn:Cut.
  assert (H1 : 0 < n1 /\ stands (val n1 e1) check /\ exists c, (0 <= c <= 1)%Q /\ near R (fabs f check) c n1 e1).
  { destruct (Z.ltb_spec 0 (L - limit_digits)) as [D|D]; injection Cut as <- <-.
    - set (k := L - limit_digits) in *. assert (K : 0 < r ^ k) by (apply Z.pow_pos_nonneg; lia).
      pose proof (Z.div_mod n (r ^ k) ltac:(lia)) as DM. pose proof (Z.mod_pos_bound n (r ^ k) K) as B.
      assert (LK : r ^ L = r ^ limit_digits * r ^ k).
      { rewrite <- Z.pow_add_r by lia. f_equal. lia. }
      assert (G : r ^ limit_digits <= n / r ^ k).
      { apply Z.div_le_lower_bound; [exact K|]. lia. }
      set (n1 := n / r ^ k) in *. set (t := n mod r ^ k) in *.
      assert (NR : near R (fabs f check) 1 n1 (e + k)).
      { unfold near. rewrite <- V. apply Qabs_le_iff. rewrite (rad_pow_add HR), <- (@pow_inject R k ltac:(lia)).
        pose proof (rad_pow_pos HR e) as G0.
        assert (DQ : (inject_Z n == inject_Z (r ^ k) * inject_Z n1 + inject_Z t)%Q).
        { rewrite <- inject_Z_mult, <- inject_Z_plus, <- DM. reflexivity. }
        assert (T0 : (0 <= inject_Z t)%Q) by (change 0%Q with (inject_Z 0); rewrite <- Zle_Qle; lia).
        assert (T1 : (inject_Z t <= inject_Z (r ^ k))%Q) by (rewrite <- Zle_Qle; lia).
        assert (T2 : (inject_Z t * rad R ^ e <= inject_Z (r ^ k) * rad R ^ e)%Q) by (apply Qmult_le_compat_r; lra).
        assert (T3 : (0 * rad R ^ e <= inject_Z t * rad R ^ e)%Q) by (apply Qmult_le_compat_r; lra).
        assert (T4 : (inject_Z n * rad R ^ e - inject_Z n1 * (rad R ^ e * inject_Z (r ^ k)) == inject_Z t * rad R ^ e)%Q).
        { rewrite DQ. ring. }
        rewrite T4. split; lra. }
      refine (conj _ (conj _ _)).
      + lia.
      + apply (close_stands C). apply (@near_close R HR _ 1%Q); [lra|exact NR|]. right. left.
        refine (conj _ (conj _ _)); [lra| |lra]. rewrite PQ. change 4%Q with (inject_Z 4).
        rewrite <- inject_Z_mult, <- Zle_Qle. lia.
      + exists 1%Q. split; [lra|exact NR].
    - refine (conj N (conj Exact _)). exists 0%Q. split; [lra|]. unfold near. rewrite V.
      setoid_replace (fabs f check - fabs f check)%Q with 0%Q by ring. change (Qabs 0) with 0%Q. lra. }
  destruct H1 as (N1 & S1 & c & Hc & NR). clear Cut.
  rename X into RT.
  destruct (round_to_spec HR Hr R4 (Z.lt_le_incl _ _ N1) Hc NR RT) as [LE Q].
  assert (H2' : 0 < n2 /\ stands (val n2 e2) check).
  { destruct Q as [Q|[Q1 Q2]]; [injection Q as -> ->; auto|].
    rewrite Z.div_mul in Q2 by lia. split; [lia|]. apply (close_stands C).
    apply (@near_close R HR _ (3 # 4)%Q); [lra|exact Q1|]. right. right.
    refine (conj _ (conj _ _)); [lra| |lra]. rewrite PQ. rewrite <- Zle_Qle. exact Q2. }
  destruct H2' as [N2 S2]. auto.
Qed.

Lemma threshold_spec check n e n' e' : 0 < check < inf_bits f -> 0 < n ->
  (val n e == fabs f check)%Q -> 4 <= r \/ n <= 2 ^ (m + 1) ->
  apply_threshold F f sw ew R limit_digits check n e = Ok (n', e') ->
  0 < n' /\ stands (val n' e') check.
Proof.
  intros C N V S4 X. pose proof (r2 HR) as H2. pose proof (m1 (afit A)) as M1.
  unfold apply_threshold in X. rewrite base_is in X.
  pose proof (zpow_pos (x := m + 1) ltac:(lia)) as P0.
  rewrite (Z.mod_small (2 ^ (m + 1) * r)) in X by (split; [apply Z.mul_nonneg_nonneg; lia|exact Hroom]).
  pose proof (fun n2 e2 => @threshold_cut check n e n2 e2 C N V S4) as Cut. cbv zeta in Cut.
  destruct (if 0 <? ilog R (turns n) n - limit_digits then _ else _) as [n1 e1].
  destruct (round_to R (turns n1) (2 ^ (m + 1) * r) n1 e1) as [[n2 e2]| |] eqn:RT; try discriminate.
  destruct (Cut n2 e2 eq_refl) as (N2 & S2 & _).
  destruct (Z.ltb_spec (2 ^ (m + 1)) n2) as [Big|Big]; [|injection X as <- <-; auto].
  destruct (radix_pow_ratio e2) as (PP1 & PP2 & PP3).
  refine (@shorten_spec (turns n2) check Hr ltac:(lia) n2 e2 _ _ n2 e2 n' e' N2 N2 PP1 PP2 PP3 _ S2 X). reflexivity.
Qed.

Lemma builder_faithful check n e s : 0 < check < inf_bits f -> 0 < n ->
  (val n e == fabs f check)%Q -> 4 <= r \/ n <= 2 ^ (m + 1) ->
  float_builder F f sw ew R M limit_digits check n e = Ok s ->
  exists v, denotes R M s v /\ stands v check.
Proof.
  intros C N V S4 X. unfold float_builder in X.
  destruct (apply_threshold F f sw ew R limit_digits check n e) as [[n' e']| |] eqn:T; try discriminate.
  injection X as <-. destruct (threshold_spec C N V S4 T) as [N' St].
  exists (val n' e'). split; [exact (proj1 (builder_denotes HR HM e' N'))|exact St].
Qed.

(** The number as a number in the radix: nothing is lost. *)
Lemma half_twice : r / 2 * 2 = r.
Proof. pose proof (Z.div_mod r 2 ltac:(lia)). lia. Qed.
Lemma half_pos : 1 <= r / 2.
Proof. pose proof half_twice. pose proof (r2 HR). lia. Qed.

Lemma pull_spec more : forall n e n' more' e', 0 < n -> pull R more n e = (n', more', e') ->
  0 < n' <= n /\ (val (n * 2 ^ Z.of_nat more) e == val (n' * 2 ^ Z.of_nat more') e')%Q /\
  (r = 2 -> more' = O).
Proof.
  pose proof half_twice as H2. pose proof half_pos as H1.
  induction more as [|more IH]; intros n e n' more' e' N X; cbn [pull] in X.
  - injection X as <- <- <-. refine (conj _ (conj _ _)); [lia|reflexivity|auto].
  - destruct (Z.eqb_spec (n mod (r / 2)) 0) as [D|D].
    + pose proof (Z.div_mod n (r / 2) ltac:(lia)) as DM. rewrite D, Z.add_0_r in DM.
      assert (N1 : 0 < n / (r / 2)) by nia.
      destruct (IH _ _ _ _ _ N1 X) as (I0 & I1 & I2). refine (conj _ (conj _ I2)).
      { assert (n / (r / 2) <= n) by (apply Z.div_le_upper_bound; [lia|]; clear - H1 N; nia). lia. }
      rewrite <- I1, <- (val_step HR). set (h := r / 2) in *. set (k := n / h) in *.
      replace (n * 2 ^ Z.of_nat (S more)) with (k * 2 ^ Z.of_nat more * r); [reflexivity|].
      rewrite Nat2Z.inj_succ, Z.pow_succ_r by lia. rewrite <- H2, DM. ring.
    + injection X as <- <- <-. refine (conj _ (conj _ _)); [lia|reflexivity|].
      intros E2. exfalso. apply D. replace (r / 2) with 1 by lia. apply Z.mod_1_r.
Qed.

(** The code after the guess: the number written with a power of the radix. *)
Lemma parts_form num : 0 < num < inf_bits f -> exists n e,
  print_parts F f sw ew R M limit_digits num = float_builder F f sw ew R M limit_digits num n e /\
  0 < n /\ (val n e == fabs f num)%Q /\ (4 <= r \/ n <= 2 ^ (m + 1)).
Proof.
  intros C. pose proof (afit A) as Fit. pose proof half_twice as H2. pose proof half_pos as H1.
  destruct (@finite_nonneg F f Fit num ltac:(lia)) as [Fin _].
  pose proof (decompose_exact Fit Fin) as DE. pose proof (precision_range Fit num) as PR.
  unfold print_parts. rewrite Hr. cbn [Z.eqb].
  set (p := get_precision F num) in *. set (e := get_exponent F num) in *.
  assert (P0 : 0 < p).
  { destruct (Z.eq_dec p 0) as [Z0|]; [|lia]. exfalso. pose proof (fabs_positive A C) as FP.
    rewrite DE, Z0 in FP. unfold scaled in FP. change (inject_Z 0) with 0%Q in FP. pose proof (pow2_pos (tiny f)). lra. }
  assert (R24 : 4 <= r \/ r = 2) by (pose proof (r2 HR); lia).
  destruct (Z.ltb_spec e 0) as [C1|C1].
  - assert (HP : 0 < (r / 2) ^ (- e)) by (apply Z.pow_pos_nonneg; lia).
    do 2 eexists. refine (conj eq_refl (conj _ (conj _ _))).
    + apply Z.mul_pos_pos; assumption.
    + rewrite DE, scaled_pow2.
      assert (T : (pow2 (- e) * inject_Z ((r / 2) ^ (- e)) == rad R ^ (- e))%Q).
      { rewrite pow2_Z by lia. rewrite <- inject_Z_mult, <- Z.pow_mul_l, <- (@pow_inject R (- e) ltac:(lia)).
        replace (2 * (r / 2)) with r by lia. reflexivity. }
      rewrite inject_Z_mult. rewrite <- (Z.opp_involutive e) at 2. rewrite rad_pow_opp, <- T.
      pose proof (pow2_inv e) as PI. pose proof (pow2_pos (- e)). 
      assert (HQ : ~ (inject_Z ((r / 2) ^ (- e)) == 0)%Q) by (apply inject_pos; exact HP).
      assert (PE : (pow2 e == / pow2 (- e))%Q).
      { rewrite <- (Qmult_1_l (/ _)), <- PI. field. lra. }
      rewrite PE. field. split; first [exact HQ|lra].
    + destruct R24 as [|R2']; [auto|right]. rewrite R2'. change (2 / 2) with 1. rewrite Z.pow_1_l by lia. lia.
  - destruct (Z.ltb_spec 0 e) as [C2|C2].
    + destruct (pull R (Z.to_nat e) p 0) as [[n more] ne] eqn:PU.
      destruct (@pull_spec _ _ _ _ _ _ P0 PU) as (N0 & V & R2').
      assert (0 < 2 ^ Z.of_nat more) by (apply zpow_pos; lia).
      do 2 eexists. refine (conj eq_refl (conj _ (conj _ _))).
      * apply Z.mul_pos_pos; lia.
      * rewrite <- V. rewrite DE, scaled_pow2. rewrite Z2Nat.id by lia. rewrite inject_Z_mult, (@pow2_Z e) by lia.
        change (rad R ^ 0)%Q with 1%Q. ring.
      * destruct R24 as [|E2]; [auto|right]. rewrite (R2' E2). change (2 ^ Z.of_nat 0) with 1. lia.
    + assert (e = 0) as E0 by lia. do 2 eexists. refine (conj eq_refl (conj P0 (conj _ _))).
      * rewrite DE, E0, scaled_0. change (rad R ^ 0)%Q with 1%Q. ring.
      * right. lia.
Qed.

(** The text says a value that belongs to the number. *)
Theorem parts_faithful num s : 0 < num < inf_bits f ->
  print_parts F f sw ew R M limit_digits num = Ok s ->
  exists v, denotes R M s v /\ stands v num.
Proof.
  intros C X. destruct (parts_form C) as (n & e & E & N & V & S4). rewrite E in X.
  exact (builder_faithful C N V S4 X).
Qed.
End Text.

(** ** The conversion depends on the value of a fraction only *)
Lemma odd_parts a i b j : Z.odd a = true -> Z.odd b = true -> 0 <= i -> 0 <= j -> a * 2 ^ i = b * 2 ^ j -> a = b /\ i = j.
Proof.
  intros Oa Ob I J E. assert (X : i = j).
  { destruct (Z.lt_trichotomy i j) as [C|[C|C]]; [|exact C|]; exfalso.
    - assert (a = b * 2 ^ (j - i)).
      { assert (0 < 2 ^ i) by (apply zpow_pos; lia). apply (Z.mul_reg_r _ _ (2 ^ i)); [lia|].
        rewrite <- Z.mul_assoc, <- Z.pow_add_r by lia. replace (j - i + i) with j by lia. exact E. }
      subst a. rewrite Z.odd_mul, Z.odd_pow, andb_comm in Oa by lia. discriminate.
    - assert (b = a * 2 ^ (i - j)).
      { assert (0 < 2 ^ j) by (apply zpow_pos; lia). apply (Z.mul_reg_r _ _ (2 ^ j)); [lia|].
        rewrite <- Z.mul_assoc, <- Z.pow_add_r by lia. replace (i - j + j) with i by lia. now symmetry. }
      subst b. rewrite Z.odd_mul, Z.odd_pow, andb_comm in Ob by lia. discriminate. }
  split; [|exact X]. subst j. assert (0 < 2 ^ i) by (apply zpow_pos; lia). nia.
Qed.
Lemma same_ratio_div n d n' d' : 0 < d -> 0 < d' -> n * d' = n' * d -> n / d = n' / d'.
Proof.
  intros D D' E. rewrite <- (Z.div_mul_cancel_r n d d') by lia. rewrite E.
  rewrite (Z.mul_comm d d'). now rewrite Z.div_mul_cancel_r by lia.
Qed.
Lemma same_ratio_mod n d n' d' : 0 < d -> 0 < d' -> n * d' = n' * d -> (n mod d =? 0) = (n' mod d' =? 0).
Proof.
  intros D D' E. pose proof (same_ratio_div D D' E) as Q.
  pose proof (Z.div_mod n d ltac:(lia)). pose proof (Z.div_mod n' d' ltac:(lia)).
  set (q := n / d) in *. rewrite <- Q in *. set (t := n mod d) in *. set (t' := n' mod d') in *.
  assert (T : t * d' = t' * d).
  { replace t with (n - d * q) by lia. replace t' with (n' - d' * q) by lia.
    transitivity (n * d' - d * q * d'); [ring|]. rewrite E. ring. }
  destruct (Z.eqb_spec t 0) as [A|A]; destruct (Z.eqb_spec t' 0) as [B|B]; try reflexivity; exfalso; nia.
Qed.
Lemma scale_value F : 0 <= bw F -> forall fuel fuel' n d n' d' e a b, 0 < d -> 0 < d' -> n * d' = n' * d ->
  scale F fuel n d e = Ok a -> scale F fuel' n' d' e = Ok b -> a = b.
Proof.
  intros W. induction fuel as [|fuel IH]; intros fuel' n d n' d' e a b D D' E A B.
  - cbn [scale] in A. rewrite (same_ratio_mod D D' E), (same_ratio_div D D' E) in A.
    destruct fuel' as [|fuel']; cbn [scale] in B;
      destruct (negb (n' mod d' =? 0) && (Z.shiftr (n' / d') (bw F) =? 0)); congruence.
  - cbn [scale] in A. rewrite (same_ratio_mod D D' E), (same_ratio_div D D' E) in A.
    destruct fuel' as [|fuel']; cbn [scale] in B;
      destruct (negb (n' mod d' =? 0) && (Z.shiftr (n' / d') (bw F) =? 0)); try congruence.
    refine (IH fuel' (Z.shiftl n (bw F)) d (Z.shiftl n' (bw F)) d' _ a b D D' _ A B).
    rewrite !Z.shiftl_mul_pow2 by exact W.
    transitivity (n * d' * 2 ^ bw F); [ring|]. rewrite E. ring.
Qed.

Lemma scale_enough F n d e : 1 <= bw F -> 0 < n -> 0 < d -> forall fuel, Z.log2 d + 2 <= Z.of_nat fuel ->
  exists a, scale F fuel n d e = Ok a.
Proof.
  intros W N D fuel Hf.
  destruct (@scale_ends F W fuel n d e N D) as (q & e' & X); [|eauto].
  pose proof (Z.log2_nonneg d) as L0. pose proof (Z.log2_spec d D) as [_ L].
  assert (2 ^ bw F * d <= 2 ^ (bw F * Z.of_nat fuel)).
  { apply Z.le_trans with (2 ^ bw F * 2 ^ Z.succ (Z.log2 d)); [apply Z.mul_le_mono_nonneg_l; [apply Z.pow_nonneg|]; lia|].
    rewrite <- Z.pow_add_r by lia. apply Z.pow_le_mono_r; nia. }
  assert (0 < 2 ^ (bw F * Z.of_nat fuel)) by (apply zpow_pos; lia). nia.
Qed.

Lemma convert_value F f ew n d n' d' fuel fuel' : 1 <= bw F -> 0 < n -> 0 < d -> 0 < n' -> 0 < d' ->
  Z.log2 d + 2 <= Z.of_nat fuel -> Z.log2 d' + 2 <= Z.of_nat fuel' -> (ratio n d == ratio n' d')%Q ->
  convert_to_float F f ew fuel n d = convert_to_float F f ew fuel' n' d'.
Proof.
  intros W N D N' D' H1 H2 E.
  assert (EZ : n * d' = n' * d).
  { apply inject_Z_injective. rewrite !inject_Z_mult. pose proof (inj_pos D). pose proof (inj_pos D').
    unfold ratio in E. setoid_replace (inject_Z n) with (inject_Z n / inject_Z d * inject_Z d)%Q by (field; lra).
    rewrite E. field. lra. }
  unfold convert_to_float. destruct (Z.eqb_spec d 0); [lia|]. destruct (Z.eqb_spec d' 0); [lia|].
  destruct (tz_spec N) as (a & -> & Ea & Pa & Oa & Ta). destruct (tz_spec D) as (b & -> & Eb & Pb & Ob & Tb).
  destruct (tz_spec N') as (a' & -> & Ea' & Pa' & Oa' & Ta'). destruct (tz_spec D') as (b' & -> & Eb' & Pb' & Ob' & Tb').
  assert (X : a * b' = a' * b /\ tz n + tz d' = tz n' + tz d).
  { apply odd_parts; [rewrite Z.odd_mul, Oa, Ob'; reflexivity|rewrite Z.odd_mul, Oa', Ob; reflexivity|lia|lia|].
    rewrite !Z.pow_add_r by lia.
    transitivity (a * 2 ^ tz n * (b' * 2 ^ tz d')); [ring|]. rewrite <- Ea, <- Eb', EZ.
    transitivity (a' * 2 ^ tz n' * (b * 2 ^ tz d)); [|ring]. rewrite <- Ea', <- Eb. reflexivity. }
  destruct X as [X1 X2]. replace (tz n' - tz d') with (tz n - tz d) by lia.
  assert (Lb : b <= d) by (rewrite Eb; assert (0 < 2 ^ tz d) by (apply zpow_pos; lia); nia).
  assert (Lb' : b' <= d') by (rewrite Eb'; assert (0 < 2 ^ tz d') by (apply zpow_pos; lia); nia).
  pose proof (Z.log2_le_mono _ _ Lb). pose proof (Z.log2_le_mono _ _ Lb').
  destruct (@scale_enough F a b (tz n - tz d) W Pa Pb fuel ltac:(lia)) as (u & U).
  destruct (@scale_enough F a' b' (tz n - tz d) W Pa' Pb' fuel' ltac:(lia)) as (u' & U').
  assert (u = u').
  { refine (@scale_value F ltac:(lia) _ _ _ _ _ _ _ _ _ Pb Pb' X1 U U'). }
  subst u'. rewrite U, U'. reflexivity.
Qed.
