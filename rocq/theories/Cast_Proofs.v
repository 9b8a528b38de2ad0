(** Proofs about conversions and roundings of native numbers. *)
From Verif Require Import Base Float_Model Float_Spec Float_Proofs Ref_Model FloatBig_Model FloatBig_Spec FloatBig_Proofs FloatOut_Proofs.
From Coq Require Import QArith Qround Qabs Lqa.
From Verif Require Import MinMax_Model MinMax_Spec MinMax_Proofs Cast_Model Cast_Spec.
Local Open Scope Z_scope.

(** * Dropping the fraction *)
Lemma drop_value x : is_trunc x (if Qle_bool 0 x then Qfloor x else - Qfloor (- x)%Q).
Proof.
  destruct (Qle_bool 0 x) eqn:E.
  - apply Qle_bool_iff in E. split; intros H; [split; [apply Qfloor_le|apply Qlt_floor]|lra].
  - assert (N : (x < 0)%Q).
    { apply Qnot_le_lt. intros C. apply Qle_bool_iff in C. congruence. }
    split; intros H; [lra|]. pose proof (Qfloor_le (- x)) as A. pose proof (Qlt_floor (- x)) as B.
    split.
    + replace (- Qfloor (- x) - 1) with (- (Qfloor (- x) + 1)) by lia. rewrite inject_Z_opp. lra.
    + rewrite inject_Z_opp. lra.
Qed.
Lemma trunc_unique x a b : is_trunc x a -> is_trunc x b -> a = b.
Proof.
  intros [A1 A2] [B1 B2]. destruct (Qlt_le_dec x 0) as [N|P].
  - destruct (A2 N) as [A3 A4]. destruct (B2 N) as [B3 B4].
    assert (H1 : (inject_Z (a - 1) < inject_Z b)%Q) by lra. assert (H2 : (inject_Z (b - 1) < inject_Z a)%Q) by lra.
    rewrite <- Zlt_Qlt in H1, H2. lia.
  - destruct (A1 P) as [A3 A4]. destruct (B1 P) as [B3 B4].
    assert (H1 : (inject_Z a < inject_Z (b + 1))%Q) by lra. assert (H2 : (inject_Z b < inject_Z (a + 1))%Q) by lra.
    rewrite <- Zlt_Qlt in H1, H2. lia.
Qed.
Lemma drop_spec lo hi x z : is_trunc x z ->
  drop_fraction lo hi x = if (lo <=? z) && (z <=? hi) then Some z else None.
Proof. intros T. unfold drop_fraction. rewrite (trunc_unique (drop_value x) T). reflexivity. Qed.
Lemma trunc_nonneg x z : (0 <= x)%Q -> is_trunc x z -> 0 <= z.
Proof.
  intros P [A _]. destruct (A P) as [_ B]. assert (H : (inject_Z 0 < inject_Z (z + 1))%Q) by (change (inject_Z 0) with 0%Q; lra).
  rewrite <- Zlt_Qlt in H. lia.
Qed.
Lemma trunc_nonpos x z : (x < 0)%Q -> is_trunc x z -> z <= 0.
Proof.
  intros P [_ A]. destruct (A P) as [B _]. assert (H : (inject_Z (z - 1) < inject_Z 0)%Q) by (change (inject_Z 0) with 0%Q; lra).
  rewrite <- Zlt_Qlt in H. lia.
Qed.

Section Fmt.
Variables (F : finfo) (f : fmt).
Hypothesis Fit : fits_format F f.
Variable sw : Z.
Hypothesis SW : 0 < sw.

Lemma special_finite d : finite f d -> special f d = false.
Proof. intros [_ H]. apply Z.eqb_neq. exact H. Qed.
Lemma special_not d : is_data f d -> ~ finite f d -> special f d = true.
Proof. intros D N. unfold special. destruct (Z.eqb_spec (exp_field f d) (2 ^ fe f - 1)) as [|C]; [reflexivity|]. exfalso. apply N. split; assumption. Qed.
Lemma negative_false d : finite f d -> is_negative f d = false <-> (0 <= fsigned f d)%Q.
Proof.
  intros Hf. rewrite <- not_true_iff_false, (is_negative_spec Fit Hf). split; intros H; [apply Qnot_lt_le; exact H|lra].
Qed.

Lemma cast_unsigned_spec n d z : finite f d -> is_trunc (fsigned f d) z ->
  cast_unsigned f sw n d =
    if (- 2 ^ (sw - 1) <=? z) && (z <? 2 ^ sw) then Some (z mod 2 ^ n) else None.
Proof.
  intros Hf T. unfold cast_unsigned, float_to_int. rewrite (special_finite Hf).
  assert (P2 : 2 ^ sw = 2 * 2 ^ (sw - 1)) by (apply pow_half; exact SW).
  assert (P1 : 0 < 2 ^ (sw - 1)) by (apply Z.pow_pos_nonneg; lia).
  destruct (is_negative f d) eqn:N.
  - apply (is_negative_spec Fit Hf) in N. pose proof (trunc_nonpos N T).
    rewrite (drop_spec _ _ T). destruct (Z.leb_spec (- 2 ^ (sw - 1)) z); destruct (Z.leb_spec z (2 ^ (sw - 1) - 1));
      destruct (Z.ltb_spec z (2 ^ sw)); cbn [andb obind]; reflexivity || lia.
  - apply (negative_false Hf) in N. pose proof (trunc_nonneg N T).
    rewrite (drop_spec _ _ T). destruct (Z.leb_spec 0 z); destruct (Z.leb_spec (- 2 ^ (sw - 1)) z); destruct (Z.leb_spec z (2 ^ sw - 1));
      destruct (Z.ltb_spec z (2 ^ sw)); cbn [andb obind]; reflexivity || lia.
Qed.
Lemma cast_signed_spec n d z : finite f d -> is_trunc (fsigned f d) z ->
  cast_signed f n d = if (- 2 ^ (n - 1) <=? z) && (z <? 2 ^ (n - 1)) then Some z else None.
Proof.
  intros Hf T. unfold cast_signed, float_to_int. rewrite (special_finite Hf), (drop_spec _ _ T).
  destruct (Z.leb_spec (- 2 ^ (n - 1)) z); destruct (Z.leb_spec z (2 ^ (n - 1) - 1)); destruct (Z.ltb_spec z (2 ^ (n - 1))); cbn [andb]; reflexivity || lia.
Qed.
Lemma cast_special n d : is_data f d -> ~ finite f d ->
  cast_unsigned f sw n d = None /\ cast_signed f n d = None.
Proof.
  intros D N. unfold cast_unsigned, cast_signed, float_to_int. rewrite (special_not D N).
  destruct (is_negative f d); split; reflexivity.
Qed.

(** * Rounding to integers *)
Hypothesis BL : fm f + 1 <= bias f.
Notation m := (fm f).

Lemma fsigned_pos d : finite f d -> (0 <= fsigned f d)%Q -> (fsigned f d == fabs f d)%Q.
Proof.
  intros Hf H. unfold fsigned in *. destruct (2 ^ (all_bits f - 1) <=? d); [|reflexivity].
  pose proof (@fabs_nonneg F f Fit d). lra.
Qed.
Lemma fsigned_neg d : finite f d -> (fsigned f d < 0)%Q -> (- fsigned f d == fabs f d)%Q.
Proof.
  intros Hf H. unfold fsigned in *. destruct (2 ^ (all_bits f - 1) <=? d); [lra|].
  pose proof (@fabs_nonneg F f Fit d). lra.
Qed.
Lemma rv_floor d : finite f d -> (rv f (inject_Z (Qfloor (fabs f d))) == inject_Z (Qfloor (fabs f d)))%Q.
Proof.
  intros Hf. destruct (floor_representable Fit BL Hf) as (r & R & E). unfold rv.
  rewrite (@rn_exact F f Fit _ r R) by (symmetry; exact E). exact E.
Qed.
Lemma exponent_low d : finite f d -> tiny f <= get_exponent F d.
Proof.
  intros Hf. unfold get_exponent, tiny. rewrite (f_pbb Fit), (nexp Fit Hf).
  pose proof (exp_field_range Fit d) as R. destruct (Z.eqb_spec (exp_field f d) 0); lia.
Qed.
(** The fraction of a number, with a nonzero one its integer part is small. *)
Lemma fraction d : finite f d -> let n := Qfloor (fabs f d) in
  (fabs f d == inject_Z n)%Q \/
  (0 <= n < 2 ^ m /\ (0 < fabs f d - inject_Z n)%Q /\ exists r, 0 <= r < inf_bits f /\ (fabs f r == fabs f d - inject_Z n)%Q).
Proof.
  intros Hf n. pose proof (decompose_exact Fit Hf) as E. pose proof (exponent_low Hf) as T.
  set (p := get_precision F d) in *. set (e := get_exponent F d) in *.
  pose proof (precision_range Fit d) as P. fold p in P. pose proof (m1 Fit) as M1. pose proof (pm Fit) as PM.
  destruct (Z.le_gt_cases 0 e) as [C|C].
  - left. unfold n. rewrite E. replace e with (e + 0) by lia. rewrite <- scaled_shift by lia.
    rewrite !scaled_0, Qfloor_Z. reflexivity.
  - assert (Ef : n = p / 2 ^ (- e)) by (unfold n; rewrite E; exact (floor_scaled (proj1 P) C)).
    assert (W : 2 <= 2 ^ (- e)) by (change 2 with (2 ^ 1) at 1; apply Z.pow_le_mono_r; lia).
    pose proof (Z.div_mod p (2 ^ (- e)) ltac:(lia)) as D. pose proof (Z.mod_pos_bound p (2 ^ (- e)) ltac:(lia)) as Q.
    rewrite <- Ef in D. set (q := p mod 2 ^ (- e)) in *.
    assert (S : (fabs f d == inject_Z n + scaled q e)%Q).
    { rewrite E, D. unfold scaled. rewrite inject_Z_plus, inject_Z_mult.
      assert (I : (inject_Z (2 ^ (- e)) * (2 # 1) ^ e == 1)%Q).
      { pose proof (pow2_Z (k := - e) ltac:(lia)) as K. unfold pow2 in K. rewrite <- K.
        pose proof (pow2_inv (- e)) as V. rewrite Z.opp_involutive in V. exact V. }
      rewrite Qmult_plus_distr_l. rewrite (Qmult_comm (inject_Z (2 ^ (- e)))), <- Qmult_assoc, I. ring. }
    pose proof (pm1 Fit) as PM1.
    destruct (Z.eq_dec q 0) as [Z0|NZ].
    + left. rewrite S, Z0. unfold scaled. ring.
    + right. split; [|split].
      * split; [rewrite Ef; apply Z.div_pos; lia|]. nia.
      * rewrite S. assert (0 < scaled q e)%Q; [|lra]. unfold scaled. apply Qmult_lt_0_compat; [|apply two_pos].
        change 0%Q with (inject_Z 0). rewrite <- Zlt_Qlt. lia.
      * assert (Hq : 0 <= q < 2 ^ (m + 1)) by (pose proof (Z.div_pos p (2 ^ (- e)) ltac:(lia) ltac:(lia)); nia).
        assert (LB : e + Z.log2 q <= bias f).
        { assert (Z.log2 q < m + 1) by (apply Z.log2_lt_pow2; lia). lia. }
        destruct (representable Fit Hq T LB) as (r & R & Er). exists r. split; [exact R|]. rewrite Er, S. ring.
Qed.
Lemma close_iff d : finite f d ->
  is_close f (fabs f d) (inject_Z (Qfloor (fabs f d))) = true <-> (fabs f d - inject_Z (Qfloor (fabs f d)) <= pow2 (- m))%Q.
Proof.
  intros Hf. unfold is_close. rewrite Qle_bool_iff. fold (pow2 (- m)).
  pose proof (Qfloor_le (fabs f d)) as L. set (n := Qfloor (fabs f d)) in *.
  assert (A : (Qabs (fabs f d - inject_Z n) == fabs f d - inject_Z n)%Q) by (apply Qabs_pos; lra).
  assert (V : (rv f (Qabs (fabs f d - inject_Z n)) == fabs f d - inject_Z n)%Q).
  { unfold rv. pose proof (fraction Hf) as FR. cbv zeta in FR. fold n in FR. destruct FR as [I|(_ & _ & r & R & Er)].
    - rewrite (@rn_exact F f Fit _ 0 (conj (Z.le_refl 0) (inf_pos Fit))); [rewrite (fabs_0 Fit); lra|].
      rewrite A, (fabs_0 Fit). lra.
    - rewrite (@rn_exact F f Fit _ r R); [exact Er|]. rewrite A, Er. reflexivity. }
  rewrite V. reflexivity.
Qed.
Lemma close_comp a b c d : (a == b)%Q -> (c == d)%Q -> is_close f a c = is_close f b d.
Proof.
  intros A B. unfold is_close, rv.
  assert (E : (Qabs (a - c) == Qabs (b - d))%Q) by (rewrite A, B; reflexivity).
  rewrite (rn_morphism f E). reflexivity.
Qed.
Lemma rs_pos x y : (0 <= x)%Q -> (rv f x == y)%Q -> (rs f x == y)%Q.
Proof. intros P E. unfold rs. apply Qle_bool_iff in P. rewrite P. exact E. Qed.
Lemma rs_small z : - 2 ^ (m + 1) < z < 2 ^ (m + 1) -> forall x, (x == inject_Z z)%Q -> (rs f x == inject_Z z)%Q.
Proof.
  intros B x E. unfold rs. destruct (Qle_bool 0 x) eqn:L.
  - apply Qle_bool_iff in L. rewrite E in L. change 0%Q with (inject_Z 0) in L. rewrite <- Zle_Qle in L.
    apply (rv_int Fit BL); [lia|exact E].
  - assert (N : (x < 0)%Q) by (apply Qnot_le_lt; intros C; apply Qle_bool_iff in C; congruence).
    rewrite E in N. change 0%Q with (inject_Z 0) in N. rewrite <- Zlt_Qlt in N.
    rewrite (@rv_int F f Fit BL (- x) (- z) ltac:(lia)); [rewrite inject_Z_opp; ring|]. rewrite inject_Z_opp, E. reflexivity.
Qed.
Lemma trunc_floor x y : (0 <= x)%Q -> (x == y)%Q -> is_trunc x (Qfloor y).
Proof.
  intros P E. pose proof (Qfloor_le y). pose proof (Qlt_floor y). split; intros H1; [split; lra|lra].
Qed.
Lemma floor_trunc x z : (0 <= x)%Q -> is_trunc x z -> z = Qfloor x.
Proof. intros P T. apply (trunc_unique T). apply trunc_floor; [exact P|reflexivity]. Qed.

(** Truncation. *)
Lemma const_trunc_spec d z : finite f d -> is_trunc (fsigned f d) z ->
  if (- 2 ^ (sw - 1) <=? z) && (z <? 2 ^ (sw - 1)) then exists r, const_trunc f sw d = Some r /\ (r == inject_Z z)%Q
  else const_trunc f sw d = None.
Proof.
  intros Hf T. unfold const_trunc, float_to_int. rewrite (special_finite Hf), (drop_spec _ _ T).
  replace (z <=? 2 ^ (sw - 1) - 1) with (z <? 2 ^ (sw - 1)) by (destruct (Z.ltb_spec z (2 ^ (sw - 1))); destruct (Z.leb_spec z (2 ^ (sw - 1) - 1)); lia).
  destruct ((- 2 ^ (sw - 1) <=? z) && (z <? 2 ^ (sw - 1))) eqn:R; [|reflexivity].
  cbn [obind]. eexists. split; [reflexivity|].
  destruct (Qlt_le_dec (fsigned f d) 0) as [N|P].
  - pose proof (fsigned_neg Hf N) as E.
    assert (Z0 : - z = Qfloor (fabs f d)).
    { assert (T2 : is_trunc (fabs f d) (- z)).
      { destruct T as [_ T]. destruct (T N) as [T1 T2]. replace (- z + 1) with (- (z - 1)) by lia.
        split; [intros _|pose proof (@fabs_nonneg F f Fit d); intros; lra].
        replace (- z + 1) with (- (z - 1)) by lia. rewrite !inject_Z_opp. split; lra. }
      apply floor_trunc; [apply (@fabs_nonneg F f Fit)|exact T2]. }
    pose proof (rv_floor Hf) as V. rewrite <- Z0 in V. unfold rs.
    destruct (Qle_bool 0 (inject_Z z)) eqn:L.
    + apply Qle_bool_iff in L. change 0%Q with (inject_Z 0) in L. rewrite <- Zle_Qle in L.
      pose proof (trunc_nonpos N T). assert (z = 0) as -> by lia. exact V.
    + assert (M : rn f (- inject_Z z) = rn f (inject_Z (- z))) by (apply rn_morphism; rewrite inject_Z_opp; reflexivity).
      unfold rv in *. rewrite M, V, inject_Z_opp. ring.
  - pose proof (fsigned_pos Hf P) as E. pose proof (trunc_unique T (trunc_floor P E)) as ->.
    apply rs_pos; [|exact (rv_floor Hf)]. change 0%Q with (inject_Z 0). rewrite <- Zle_Qle. exact (trunc_nonneg P T).
Qed.

(** Up. *)
Lemma const_ceil_neg d z : finite f d -> (fsigned f d < 0)%Q -> - 2 ^ sw < z -> is_ceil (fsigned f d) z ->
  exists r, const_ceil f sw d = Some r /\ (r == inject_Z z)%Q.
Proof.
  intros Hf N B C. unfold const_ceil. rewrite (special_finite Hf), (proj2 (is_negative_spec Fit Hf) N).
  pose proof (fsigned_neg Hf N) as E. pose proof (@fabs_nonneg F f Fit d) as P.
  assert (T : is_trunc (- fsigned f d) (- z)).
  { destruct C as [C1 C2]. split; [intros _|intros; lra]. replace (- z + 1) with (- (z - 1)) by lia.
    rewrite !inject_Z_opp. split; lra. }
  assert (Z0 : - z = Qfloor (fabs f d)).
  { apply (trunc_unique T). apply trunc_floor; [lra|exact E]. }
  unfold to_uintmax. rewrite (drop_spec _ _ T). assert (NN : 0 <= - z) by (apply (@trunc_nonneg (- fsigned f d)); [lra|exact T]).
  replace ((0 <=? - z) && (- z <=? 2 ^ sw - 1)) with true by lia. cbn [obind]. eexists. split; [reflexivity|].
  rewrite (@rs_pos (inject_Z (- z)) (inject_Z (- z))).
  - rewrite inject_Z_opp. ring.
  - change 0%Q with (inject_Z 0). rewrite <- Zle_Qle. exact NN.
  - rewrite Z0. exact (rv_floor Hf).
Qed.
Lemma floor_pos_common d : finite f d -> (0 <= fsigned f d)%Q -> Qfloor (fabs f d) < 2 ^ sw ->
  let n := Qfloor (fabs f d) in
  0 <= n /\ to_uintmax sw (fsigned f d) = Some n /\ (rs f (inject_Z n) == inject_Z n)%Q /\
  (is_close f (fsigned f d) (rs f (inject_Z n)) = true <-> (fsigned f d - inject_Z n <= pow2 (- m))%Q).
Proof.
  intros Hf P B n. pose proof (fsigned_pos Hf P) as E.
  assert (T : is_trunc (fsigned f d) n) by (apply trunc_floor; assumption).
  pose proof (trunc_nonneg P T) as N0.
  assert (R : (rs f (inject_Z n) == inject_Z n)%Q).
  { apply rs_pos; [change 0%Q with (inject_Z 0); rewrite <- Zle_Qle; exact N0|exact (rv_floor Hf)]. }
  refine (conj N0 (conj _ (conj R _))).
  - unfold to_uintmax. rewrite (drop_spec _ _ T). replace ((0 <=? n) && (n <=? 2 ^ sw - 1)) with true by lia. reflexivity.
  - rewrite (close_comp E R). unfold n. rewrite (close_iff Hf). rewrite E. reflexivity.
Qed.
Lemma const_ceil_pos d : finite f d -> (0 <= fsigned f d)%Q -> Qfloor (fabs f d) < 2 ^ sw ->
  let n := Qfloor (fabs f d) in
  exists r, const_ceil f sw d = Some r /\
  (r == if Qlt_le_dec (pow2 (- m)) (fsigned f d - inject_Z n) then inject_Z (n + 1) else inject_Z n)%Q.
Proof.
  intros Hf P B n. destruct (floor_pos_common Hf P B) as (N0 & U & R & C). fold n in N0, U, R, C.
  pose proof (proj2 (negative_false Hf) P) as NG. unfold const_ceil. rewrite (special_finite Hf), NG, U.
  cbn [obind]. eexists. split; [reflexivity|].
  destruct (Qlt_le_dec (pow2 (- m)) (fsigned f d - inject_Z n)) as [G|L].
  - destruct (is_close f (fsigned f d) (rs f (inject_Z n))) eqn:IC.
    + pose proof (proj1 C eq_refl). exfalso. lra.
    + pose proof (fsigned_pos Hf P) as E. pose proof (pow2_pos (- m)).
      pose proof (fraction Hf) as FR. cbv zeta in FR. fold n in FR. destruct FR as [I|(S & _)]; [exfalso; lra|].
      apply rs_small; [pose proof (pm1 Fit); lia|]. rewrite R, inject_Z_plus. reflexivity.
  - rewrite (proj2 C L). exact R.
Qed.
Lemma const_floor_pos d : finite f d -> (0 <= fsigned f d)%Q -> Qfloor (fabs f d) < 2 ^ sw ->
  let n := Qfloor (fabs f d) in
  exists r, const_floor f sw d = Some r /\
  (r == if Qlt_le_dec (pow2 (- m)) (fsigned f d - inject_Z n) then inject_Z (n - 1) else inject_Z n)%Q.
Proof.
  intros Hf P B n. destruct (floor_pos_common Hf P B) as (N0 & U & R & C). fold n in N0, U, R, C.
  pose proof (proj2 (negative_false Hf) P) as NG. unfold const_floor. rewrite (special_finite Hf), NG, U.
  cbn [obind]. eexists. split; [reflexivity|].
  destruct (Qlt_le_dec (pow2 (- m)) (fsigned f d - inject_Z n)) as [G|L].
  - destruct (is_close f (fsigned f d) (rs f (inject_Z n))) eqn:IC.
    + pose proof (proj1 C eq_refl). exfalso. lra.
    + pose proof (fsigned_pos Hf P) as E. pose proof (pow2_pos (- m)).
      pose proof (fraction Hf) as FR. cbv zeta in FR. fold n in FR. destruct FR as [I|(S & _)]; [exfalso; lra|].
      apply rs_small; [pose proof (pm1 Fit); pose proof (pm Fit); lia|]. rewrite R. unfold Z.sub. rewrite inject_Z_plus, inject_Z_opp. reflexivity.
  - rewrite (proj2 C L). exact R.
Qed.
(** Down, for a negative number such that 1 - v is a number of the format. *)
Lemma const_floor_neg d s : finite f d -> (fsigned f d < 0)%Q -> 0 <= s < inf_bits f -> (fabs f s == 1 - fsigned f d)%Q ->
  Qfloor (fabs f s) < 2 ^ sw -> exists r, const_floor f sw d = Some r /\ (r == - inject_Z (Qfloor (fabs f s)))%Q.
Proof.
  intros Hf N S E B. unfold const_floor. rewrite (special_finite Hf), (proj2 (is_negative_spec Fit Hf) N).
  assert (R : (rs f (- fsigned f d + 1) == fabs f s)%Q).
  { apply rs_pos; [lra|]. unfold rv. rewrite (@rn_exact F f Fit _ s S); [reflexivity|]. rewrite E. ring. }
  pose proof (@fabs_nonneg F f Fit s) as P.
  assert (T : is_trunc (rs f (- fsigned f d + 1)) (Qfloor (fabs f s))) by (apply trunc_floor; [rewrite R; exact P|exact R]).
  pose proof (@trunc_nonneg (fabs f s) _ P (trunc_floor P (Qeq_refl _))) as N0.
  unfold to_uintmax. rewrite (drop_spec _ _ T). replace ((0 <=? Qfloor (fabs f s)) && (Qfloor (fabs f s) <=? 2 ^ sw - 1)) with true by lia.
  cbn [obind]. eexists. split; [reflexivity|]. destruct (finite_nonneg Fit S) as [Fs _].
  rewrite (@rs_pos (inject_Z (Qfloor (fabs f s))) (inject_Z (Qfloor (fabs f s)))); [reflexivity| |exact (rv_floor Fs)].
  change 0%Q with (inject_Z 0). rewrite <- Zle_Qle. exact N0.
Qed.
End Fmt.

(** * Signs and differences of native integers *)
Definition wide (t : ity) : ity := {| sgn := true; bits := Z.max 32 (bits t) |}.
Definition narrow_or_signed (t : ity) : Prop := sgn t = true \/ bits t < 32.
Lemma common_wide t : 0 < bits t -> narrow_or_signed t ->
  common {| sgn := true; bits := bits t |} t = wide t /\ cond_type (wide t) t = wide t.
Proof.
  intros B H. destruct t as [s b]. cbn [bits sgn] in *. unfold cond_type, common, promote, wide, narrow_or_signed in *. cbn [bits sgn] in *.
  change (32 <? 32) with false.
  destruct (Z.ltb_spec b 32) as [L|L]; cbn [sgn bits Bool.eqb].
  - change (Z.max 32 32) with 32. split; [f_equal; lia|]. rewrite Z.max_l by lia. change (32 <? 32) with false. cbn [sgn bits].
    destruct s; cbn [Bool.eqb andb]; [destruct (32 =? b)|]; cbn [sgn bits Bool.eqb]; reflexivity.
  - destruct H as [-> |H]; [|lia]. cbn [sgn bits Bool.eqb andb]. rewrite Z.max_id, Z.max_r by lia. rewrite Z.eqb_refl. split; reflexivity.
Qed.
Lemma in_wide t z : 0 < bits t -> narrow_or_signed t -> in_type t z -> in_type (wide t) z.
Proof.
  intros B N I. destruct t as [s b]. unfold wide. cbn [bits] in *. destruct s.
  - apply (@in_type_mono {| sgn := true; bits := b |}); [reflexivity|cbn; lia|exact I].
  - destruct N as [N|N]; cbn [sgn bits] in N; [discriminate|]. unfold in_type in *. cbn [sgn bits] in *.
    pose proof (Z.pow_le_mono_r 2 b 31). replace (Z.max 32 b - 1) with 31 by lia.
    assert (0 < 2 ^ 31) by reflexivity. lia.
Qed.
Lemma conv_same t z : 0 < bits t -> conv t z = z <-> in_type t z.
Proof.
  intros B. split; [|apply conv_id; exact B]. intros E. unfold conv in E. unfold in_type.
  assert (P : 0 < 2 ^ bits t) by (apply Z.pow_pos_nonneg; lia). pose proof (Z.mod_pos_bound z (2 ^ bits t) P).
  pose proof (pow_half B). destruct (sgn t); cbn [andb] in E; [|lia].
  destruct (Z.leb_spec (2 ^ (bits t - 1)) (z mod 2 ^ bits t)); lia.
Qed.
Lemma minus_signed t a b : 0 < bits t -> in_type (wide t) a -> in_type (wide t) b -> forall u v, common u v = wide t ->
  (in_type (wide t) (a - b) -> minus_in u v a b = Some {| vty := wide t; num := a - b |}) /\
  (~ in_type (wide t) (a - b) -> minus_in u v a b = None).
Proof.
  intros B A1 B1 u v E. assert (W : 0 < bits (wide t)) by (cbn; lia). unfold minus_in. rewrite E.
  rewrite (conv_id W A1), (conv_id W B1). cbn [sgn wide]. fold (wide t).
  split; intros H.
  - rewrite (conv_id W H), Z.eqb_refl. reflexivity.
  - destruct (Z.eqb_spec (conv (wide t) (a - b)) (a - b)) as [C|C]; [|reflexivity].
    exfalso. apply H. apply (conv_same _ W). exact C.
Qed.
Lemma in_wide_iff t z : in_type (wide t) z <-> - 2 ^ (Z.max 32 (bits t) - 1) <= z < 2 ^ (Z.max 32 (bits t) - 1).
Proof. reflexivity. Qed.
Lemma negative_spec x : fits x -> narrow_or_signed (vty x) ->
  copy_as_negative x false = Some {| vty := wide (vty x); num := num x |} /\
  (- num x < 2 ^ (Z.max 32 (bits (vty x)) - 1) -> copy_as_negative x true = Some {| vty := wide (vty x); num := - num x |}) /\
  (num x = - 2 ^ (Z.max 32 (bits (vty x)) - 1) -> copy_as_negative x true = None).
Proof.
  intros [B I] N. destruct (common_wide B N) as [C1 C2]. pose proof (in_wide B N I) as J.
  assert (W : 0 < bits (wide (vty x))) by (cbn; lia). unfold copy_as_negative. rewrite C1, C2.
  pose proof J as J2. rewrite in_wide_iff in J2. assert (P : 0 < 2 ^ (Z.max 32 (bits (vty x)) - 1)) by lia.
  assert (Z0 : in_type (wide (vty x)) 0) by (rewrite in_wide_iff; lia).
  destruct (minus_signed B Z0 J C1) as [M1 M2]. rewrite in_wide_iff in M1, M2.
  refine (conj _ (conj _ _)).
  - rewrite (conv_id W J). reflexivity.
  - intros L. rewrite M1 by lia. cbn [obind num]. rewrite conv_id; [|exact W|rewrite in_wide_iff; lia].
    replace (0 - num x) with (- num x) by lia. reflexivity.
  - intros E. rewrite M2 by lia. reflexivity.
Qed.
Lemma negative_unsigned x : fits x -> sgn (vty x) = false -> 32 <= bits (vty x) ->
  copy_as_negative x true = Some {| vty := vty x; num := (- num x) mod 2 ^ bits (vty x) |}.
Proof.
  intros [B I] S L. destruct x as [[s b] z]. cbn [vty sgn bits num] in *. subst s.
  unfold copy_as_negative, minus_in, cond_type, common, promote. cbn [vty num sgn bits]. 
  assert (E : (b <? 32) = false) by lia. rewrite !E. cbn [sgn bits Bool.eqb]. rewrite Z.leb_refl. cbn [sgn bits Bool.eqb andb].
  rewrite Z.eqb_refl. cbn [obind num sgn andb]. unfold conv. cbn [sgn bits andb].
  f_equal. f_equal. assert (P : 0 < 2 ^ b) by (apply Z.pow_pos_nonneg; lia).
  rewrite Z.mod_mod by lia. rewrite Zmod_0_l, Zminus_mod_idemp_r. replace (0 - z) with (- z) by lia. reflexivity.
Qed.
(** The signed type in which [sub] computes. *)
Lemma cond_bits t u : 0 < bits t -> 0 < bits u ->
  (t = u /\ cond_type t u = t) \/ bits (cond_type t u) = Z.max 32 (Z.max (bits t) (bits u)).
Proof.
  intros B C. destruct t as [s b], u as [r c]. cbn [bits] in *. unfold cond_type. cbn [bits sgn].
  destruct (Bool.eqb s r && (b =? c)) eqn:E.
  - left. apply andb_true_iff in E as [E1 E2]. apply Bool.eqb_prop in E1. apply Z.eqb_eq in E2. subst. split; reflexivity.
  - right. unfold common, promote. cbn [bits sgn].
    destruct (Z.ltb_spec b 32); destruct (Z.ltb_spec c 32); cbn [sgn bits]; destruct s, r; cbn [sgn bits Bool.eqb];
      repeat match goal with |- context [?a <=? ?b] => destruct (Z.leb_spec a b); cbn [sgn bits] end; lia.
Qed.
Lemma sub_type t u : 0 < bits t -> 0 < bits u ->
  let s := {| sgn := true; bits := bits (cond_type (cond_type t u) {| sgn := true; bits := 8 |}) |} in
  0 < bits s /\ wide s = {| sgn := true; bits := Z.max 32 (Z.max (bits t) (bits u)) |} /\
  (s = {| sgn := true; bits := 8 |} /\ t = s /\ u = s \/ bits s = Z.max 32 (Z.max (bits t) (bits u))).
Proof.
  intros B C s. set (e := {| sgn := true; bits := 8 |}) in *.
  assert (D : 0 < bits (cond_type t u)) by (destruct (cond_bits B C) as [[_ ->]| ->]; lia).
  destruct (@cond_bits (cond_type t u) e D ltac:(cbn; lia)) as [[E1 E2]|E].
  - rewrite E1 in E2. destruct (cond_bits B C) as [[T1 T2]|T].
    + subst u. assert (t = e) as -> by congruence. assert (s = e) by (unfold s; rewrite E2; reflexivity).
      rewrite H. split; [cbn; lia|]. split; [reflexivity|]. left. repeat split.
    + exfalso. rewrite E1 in T. cbn [bits e] in T. lia.
  - cbn [bits e] in E.
    assert (M : bits s = Z.max 32 (Z.max (bits t) (bits u))).
    { unfold s. cbn [bits]. rewrite E. destruct (cond_bits B C) as [[T1 T2]| ->]; [|lia]. rewrite T2. subst. lia. }
    split; [lia|]. split; [|right; exact M]. unfold wide. rewrite M. f_equal. lia.
Qed.
Lemma common_self s : 0 < bits s -> sgn s = true -> common s s = wide s.
Proof.
  intros B E. destruct s as [g b]. cbn [sgn bits] in *. subst g. unfold common, promote, wide. cbn [bits sgn].
  destruct (Z.ltb_spec b 32); cbn [sgn bits Bool.eqb]; f_equal; lia.
Qed.
Definition sub_width (a b : ival) : Z := Z.max 32 (Z.max (bits (vty a)) (bits (vty b))).
Lemma sub_spec a b : fits a -> fits b -> let w := sub_width a b in
  - 2 ^ (w - 1) <= num a < 2 ^ (w - 1) -> - 2 ^ (w - 1) <= num b < 2 ^ (w - 1) ->
  sub_ints a b = if (- 2 ^ (w - 1) <=? num a - num b) && (num a - num b <? 2 ^ (w - 1))
    then Some {| vty := {| sgn := true; bits := w |}; num := num a - num b |} else None.
Proof.
  intros [A1 A2] [B1 B2] w RA RB. unfold sub_ints.
  destruct (sub_type A1 B1) as (P & W & K). fold (sub_width a b) in W. cbv zeta in *.
  set (s := {| sgn := true; bits := bits (cond_type (cond_type (vty a) (vty b)) {| sgn := true; bits := 8 |}) |}) in *.
  assert (CA : conv s (num a) = num a /\ conv s (num b) = num b).
  { destruct K as [(K1 & K2 & K3)|K].
    - rewrite K2 in A2. rewrite K3 in B2. split; apply conv_id; assumption.
    - split; apply conv_id; try exact P; unfold in_type; replace (sgn s) with true by reflexivity; rewrite K; assumption. }
  destruct CA as [-> ->]. assert (C : common s s = wide s) by (apply common_self; [exact P|reflexivity]).
  assert (JA : in_type (wide s) (num a)) by (rewrite W; exact RA). assert (JB : in_type (wide s) (num b)) by (rewrite W; exact RB).
  destruct (minus_signed P JA JB C) as [M1 M2]. rewrite W in M1, M2. fold w in M1, M2.
  destruct ((- 2 ^ (w - 1) <=? num a - num b) && (num a - num b <? 2 ^ (w - 1))) eqn:E.
  - apply M1. unfold in_type. cbn [sgn bits]. lia.
  - apply M2. unfold in_type. cbn [sgn bits]. lia.
Qed.
Lemma sub_wrong a b : fits a -> fits b -> let w := sub_width a b in
  2 ^ (w - 1) <= num a -> 0 <= num b <= num a - 2 ^ (w - 1) ->
  sub_ints a b = Some {| vty := {| sgn := true; bits := w |}; num := num a - num b - 2 ^ w |} /\ num a - num b - 2 ^ w < 0.
Proof.
  intros [A1 A2] [B1 B2] w RA RB. unfold sub_ints.
  destruct (sub_type A1 B1) as (P & W & K). fold (sub_width a b) in W. cbv zeta in *.
  set (s := {| sgn := true; bits := bits (cond_type (cond_type (vty a) (vty b)) {| sgn := true; bits := 8 |}) |}) in *.
  fold w in W. assert (W32 : 32 <= w) by (unfold w, sub_width; lia).
  assert (H2 : 2 ^ w = 2 * 2 ^ (w - 1)) by (apply pow_half; lia).
  assert (P31 : 2 ^ 31 <= 2 ^ (w - 1)) by (apply Z.pow_le_mono_r; lia).
  assert (UB : num a < 2 ^ w).
  { unfold in_type in A2. assert (2 ^ bits (vty a) <= 2 ^ w) by (apply Z.pow_le_mono_r; unfold w, sub_width; lia).
    pose proof (pow_half A1). destruct (sgn (vty a)); lia. }
  destruct K as [(K1 & K2 & K3)|K].
  { exfalso. rewrite K2, K1 in A2. unfold in_type in A2. cbn [sgn bits] in A2. change (2 ^ (8 - 1)) with 128 in A2. change (2 ^ 31) with 2147483648 in P31. lia. }
  fold (sub_width a b) in K. fold w in K.
  assert (CA : conv s (num a) = num a - 2 ^ w).
  { unfold conv. rewrite K. replace (sgn s) with true by reflexivity. rewrite Z.mod_small by lia. cbn [andb].
    replace (2 ^ (w - 1) <=? num a) with true by lia. reflexivity. }
  assert (CB : conv s (num b) = num b).
  { apply conv_id; [exact P|]. unfold in_type. replace (sgn s) with true by reflexivity. rewrite K. lia. }
  rewrite CA, CB. assert (C : common s s = wide s) by (apply common_self; [exact P|reflexivity]).
  assert (JA : in_type (wide s) (num a - 2 ^ w)) by (rewrite W; unfold in_type; cbn [sgn bits]; lia).
  assert (JB : in_type (wide s) (num b)) by (rewrite W; unfold in_type; cbn [sgn bits]; lia).
  destruct (minus_signed P JA JB C) as [M1 _]. rewrite W in M1.
  split; [|lia]. replace (num a - num b - 2 ^ w) with (num a - 2 ^ w - num b) by lia. apply M1. unfold in_type. cbn [sgn bits]. lia.
Qed.

(** * In the three formats *)
Section All.
Variables (F : finfo) (f : fmt) (sw : Z).
Hypothesis G : In (F, f) good_formats.
Hypothesis SW : 0 < sw.
Lemma good_fit : fits_format F f /\ fm f + 1 <= bias f.
Proof. destruct (good_all G) as (A1 & A2 & A3 & A4 & A5 & A6 & _). split; assumption. Qed.

Lemma cast_unsigned_all n d z : finite f d -> is_trunc (fsigned f d) z ->
  (- 2 ^ (sw - 1) <= z < 2 ^ sw -> cast_unsigned f sw n d = Some (z mod 2 ^ n)) /\
  (z < - 2 ^ (sw - 1) \/ 2 ^ sw <= z -> cast_unsigned f sw n d = None).
Proof.
  intros Hf T. rewrite (cast_unsigned_spec (proj1 good_fit) SW n Hf T).
  destruct ((- 2 ^ (sw - 1) <=? z) && (z <? 2 ^ sw)) eqn:E; split; intros H; reflexivity || lia.
Qed.
Lemma cast_signed_all n d z : finite f d -> is_trunc (fsigned f d) z ->
  (- 2 ^ (n - 1) <= z < 2 ^ (n - 1) -> cast_signed f n d = Some z) /\
  (z < - 2 ^ (n - 1) \/ 2 ^ (n - 1) <= z -> cast_signed f n d = None).
Proof.
  intros Hf T. rewrite (cast_signed_spec n Hf T).
  destruct ((- 2 ^ (n - 1) <=? z) && (z <? 2 ^ (n - 1))) eqn:E; split; intros H; reflexivity || lia.
Qed.
Lemma special_all n d : is_data f d -> ~ finite f d ->
  cast_unsigned f sw n d = None /\ cast_signed f n d = None /\
  const_trunc f sw d = None /\ const_ceil f sw d = None /\ const_floor f sw d = None.
Proof.
  intros D N. destruct (cast_special sw n D N) as [A B]. refine (conj A (conj B _)).
  unfold const_trunc, const_ceil, const_floor, float_to_int. rewrite (special_not D N). repeat split.
Qed.
Lemma trunc_all d z : finite f d -> is_trunc (fsigned f d) z ->
  (- 2 ^ (sw - 1) <= z < 2 ^ (sw - 1) -> exists r, const_trunc f sw d = Some r /\ (r == inject_Z z)%Q) /\
  (z < - 2 ^ (sw - 1) \/ 2 ^ (sw - 1) <= z -> const_trunc f sw d = None).
Proof.
  intros Hf T. destruct good_fit as [A B]. pose proof (const_trunc_spec A sw B Hf T) as S.
  destruct ((- 2 ^ (sw - 1) <=? z) && (z <? 2 ^ (sw - 1))) eqn:E; split; intros H; try exact S; lia.
Qed.
Lemma floor_is d z : finite f d -> (0 <= fsigned f d)%Q -> is_floor (fsigned f d) z -> z = Qfloor (fabs f d).
Proof.
  intros Hf P L. apply (@trunc_unique (fsigned f d)).
  - split; intros; [exact L|lra].
  - apply trunc_floor; [exact P|]. exact (fsigned_pos (proj1 good_fit) Hf P).
Qed.
Lemma int_floor x z : (x == inject_Z z)%Q -> is_floor x z.
Proof. intros E. split; [lra|]. rewrite inject_Z_plus. change (inject_Z 1) with 1%Q. lra. Qed.
Lemma succ_Q z : (inject_Z (z + 1) == inject_Z z + 1)%Q.
Proof. rewrite inject_Z_plus. reflexivity. Qed.
Lemma pred_Q z : (inject_Z (z - 1) == inject_Z z - 1)%Q.
Proof. unfold Z.sub. rewrite inject_Z_plus. reflexivity. Qed.
Lemma eps_one : (pow2 (- fm f) < 1)%Q.
Proof.
  destruct good_fit as [A _]. pose proof (m1 A). pose proof (pow2_Z (k := fm f) ltac:(lia)) as E. pose proof (pow2_inv (fm f)) as I.
  assert (T : (2 <= pow2 (fm f))%Q).
  { rewrite E. change 2%Q with (inject_Z 2). rewrite <- Zle_Qle. change 2 with (2 ^ 1) at 1. apply Z.pow_le_mono_r; lia. }
  pose proof (pow2_pos (- fm f)). nra.
Qed.
Lemma ceil_all d z : finite f d -> is_ceil (fsigned f d) z -> - 2 ^ sw < z < 2 ^ sw ->
  exists r, const_ceil f sw d = Some r /\
    ((fsigned f d < 0)%Q \/ (fsigned f d == inject_Z z)%Q \/ (inject_Z (z - 1) + pow2 (- fm f) < fsigned f d)%Q -> (r == inject_Z z)%Q) /\
    ((0 <= fsigned f d)%Q -> (fsigned f d <= inject_Z (z - 1) + pow2 (- fm f))%Q -> (r == inject_Z (z - 1))%Q).
Proof.
  intros Hf C R. destruct good_fit as [A B]. pose proof eps_one as EO. pose proof (pow2_pos (- fm f)) as EP.
  destruct (Qlt_le_dec (fsigned f d) 0) as [N|P].
  { destruct (@const_ceil_neg F f A sw B d z Hf N ltac:(lia) C) as (r & E1 & E2). exists r. refine (conj E1 (conj (fun _ => E2) _)). intros. lra. }
  destruct (Qeq_dec (fsigned f d) (inject_Z z)) as [I|I].
  - pose proof (floor_is Hf P (int_floor I)) as E. destruct (@const_ceil_pos F f A sw SW B d Hf P) as (r & E1 & E2); [lia|].
    rewrite <- E in E2. exists r. split; [exact E1|]. destruct (Qlt_le_dec _ _); [lra|]. split; [intros _; exact E2|].
    intros _ H. rewrite pred_Q in H. lra.
  - destruct C as [C1 C2]. assert (L : is_floor (fsigned f d) (z - 1)).
    { split; [lra|]. replace (z - 1 + 1) with z by lia. apply Qle_lteq in C2. destruct C2 as [C2|C2]; [exact C2|contradiction]. }
    pose proof (floor_is Hf P L) as E. destruct (@const_ceil_pos F f A sw SW B d Hf P) as (r & E1 & E2); [lia|].
    rewrite <- E in E2. replace (z - 1 + 1) with z in E2 by lia. exists r. split; [exact E1|].
    destruct (Qlt_le_dec _ _) as [K|K]; split.
    + intros _. exact E2.
    + intros _ H. lra.
    + intros [H|[H|H]]; [lra|contradiction|lra].
    + intros _ _. exact E2.
Qed.
Lemma floor_all d z : finite f d -> (0 <= fsigned f d)%Q -> is_floor (fsigned f d) z -> z < 2 ^ sw ->
  exists r, const_floor f sw d = Some r /\
    ((fsigned f d <= inject_Z z + pow2 (- fm f))%Q -> (r == inject_Z z)%Q) /\
    ((inject_Z z + pow2 (- fm f) < fsigned f d)%Q -> (r == inject_Z (z - 1))%Q).
Proof.
  intros Hf P L R. destruct good_fit as [A B]. pose proof (floor_is Hf P L) as E.
  destruct (@const_floor_pos F f A sw SW B d Hf P) as (r & E1 & E2); [lia|].
  rewrite <- E in E2. exists r. split; [exact E1|]. destruct (Qlt_le_dec _ _) as [K|K]; split; intros H; try exact E2; lra.
Qed.
Lemma floor_neg_all d s z : finite f d -> (fsigned f d < 0)%Q -> is_floor (fsigned f d) z -> - 2 ^ sw + 1 < z ->
  0 <= s < inf_bits f -> (fabs f s == 1 - fsigned f d)%Q ->
  exists r, const_floor f sw d = Some r /\
    (~ (fsigned f d == inject_Z z)%Q -> (r == inject_Z z)%Q) /\
    ((fsigned f d == inject_Z z)%Q -> (r == inject_Z (z - 1))%Q).
Proof.
  intros Hf N L R S E. destruct good_fit as [A B]. destruct L as [L1 L2]. rewrite succ_Q in L2.
  destruct (Qeq_dec (fsigned f d) (inject_Z z)) as [I|I].
  - assert (K : Qfloor (fabs f s) = 1 - z).
    { assert (K : (fabs f s == inject_Z (1 - z))%Q).
      { rewrite E, I. unfold Z.sub. rewrite inject_Z_plus, inject_Z_opp. reflexivity. }
      rewrite K. apply Qfloor_Z. }
    destruct (@const_floor_neg F f A sw B d s Hf N S E) as (r & E1 & E2); [lia|]. rewrite K in E2.
    exists r. refine (conj E1 (conj (fun H => False_ind _ (H I)) (fun _ => _))).
    rewrite E2, <- inject_Z_opp. replace (- (1 - z)) with (z - 1) by lia. reflexivity.
  - assert (K : - z = Qfloor (fabs f s)).
    { apply floor_trunc; [exact (@fabs_nonneg F f A s)|]. split; [intros _|intros; pose proof (@fabs_nonneg F f A s); lra].
      rewrite succ_Q, inject_Z_opp, E. apply Qle_lteq in L1. destruct L1 as [L1|L1]; [|symmetry in L1; contradiction]. lra. }
    destruct (@const_floor_neg F f A sw B d s Hf N S E) as (r & E1 & E2); [lia|]. rewrite <- K in E2.
    exists r. refine (conj E1 (conj (fun _ => _) (fun H => False_ind _ (I H)))).
    rewrite E2, inject_Z_opp. ring.
Qed.
Lemma large_all d z : finite f d -> (0 <= fsigned f d)%Q -> is_floor (fsigned f d) z -> 2 ^ sw <= z ->
  const_ceil f sw d = None /\ const_floor f sw d = None.
Proof.
  intros Hf P L R. destruct good_fit as [A B].
  assert (T : is_trunc (fsigned f d) z) by (split; intros; [exact L|lra]).
  unfold const_ceil, const_floor, to_uintmax. rewrite (special_finite Hf), (proj2 (negative_false A Hf) P), (drop_spec _ _ T).
  replace ((0 <=? z) && (z <=? 2 ^ sw - 1)) with false by lia. split; reflexivity.
Qed.
End All.

(** * Consequences for signs *)
Lemma negative_signed x : fits x -> num x < 0 -> sgn (vty x) = true.
Proof. intros [_ I] N. unfold in_type in I. destruct (sgn (vty x)); [reflexivity|lia]. Qed.
Lemma negative_negated x : fits x -> num x < 0 -> - num x < 2 ^ (Z.max 32 (bits (vty x)) - 1) ->
  exists r, copy_as_negative x true = Some r /\ num r = - num x /\ 0 < num r.
Proof.
  intros H N L. destruct (negative_spec H (or_introl (negative_signed H N))) as (_ & E & _). rewrite (E L).
  eexists. split; [reflexivity|]. cbn [num]. lia.
Qed.
Lemma unsigned_negated x : fits x -> sgn (vty x) = false -> 32 <= bits (vty x) -> 0 < num x ->
  copy_as_negative x true = Some {| vty := vty x; num := 2 ^ bits (vty x) - num x |} /\ 0 < 2 ^ bits (vty x) - num x.
Proof.
  intros H S B N. rewrite (negative_unsigned H S B). destruct H as [_ I]. unfold in_type in I. rewrite S in I.
  rewrite Z_mod_nz_opp_full by (rewrite Z.mod_small; lia). rewrite Z.mod_small by lia. split; [reflexivity|lia].
Qed.
Lemma reverse_positive x : fits x -> narrow_or_signed (vty x) -> 0 <= num x ->
  reverse_sign x = Some {| vty := wide (vty x); num := - num x |}.
Proof.
  intros H N P. unfold reverse_sign, int_negative. replace (num x <? 0) with false by lia. rewrite andb_false_r. cbn [negb].
  destruct (negative_spec H N) as (_ & E & _). apply E.
  assert (0 < 2 ^ (Z.max 32 (bits (vty x)) - 1)) by (apply Z.pow_pos_nonneg; lia). lia.
Qed.
Lemma reverse_kept x : fits x -> num x < 0 -> exists r, reverse_sign x = Some r /\ num r = num x.
Proof.
  intros H N. unfold reverse_sign, int_negative. rewrite (negative_signed H N). replace (num x <? 0) with true by lia. cbn [andb negb].
  destruct (negative_spec H (or_introl (negative_signed H N))) as (E & _). rewrite E. eexists. split; reflexivity.
Qed.
