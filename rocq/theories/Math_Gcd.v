(** Proofs about the greatest common divisor functions. *)
From Verif Require Import Base Math_Model Math_Spec Bits_Model Bits_Spec Bits_Proofs
  UBig_Model UBig_Spec UBig_Basics UBig_AddSub UBig_Shift UBig_Bits.
Local Open Scope Z_scope.
Local Open Scope omonad_scope.

Lemma odd_coprime_pow2 a n : 0 <= n -> Z.odd a = true -> Z.gcd a (2 ^ n) = 1.
Proof.
  intros Hn Ho. apply Zgcd_1_rel_prime. apply rel_prime_sym.
  assert (rel_prime 2 a).
  { apply prime_rel_prime; [exact prime_2|]. intros [c Hc]. subst a.
    rewrite Z.odd_mul in Ho. rewrite andb_false_r in Ho. discriminate. }
  revert n Hn. apply natlike_ind.
  - apply rel_prime_1.
  - intros n Hn IH. rewrite Z.pow_succ_r by lia. apply rel_prime_sym. apply rel_prime_mult; apply rel_prime_sym; auto.
Qed.
Lemma gcd_mul_coprime a b c : Z.gcd a c = 1 -> Z.gcd a (c * b) = Z.gcd a b.
Proof.
  intros H. apply Z.divide_antisym_nonneg; try apply Z.gcd_nonneg.
  - apply Z.gcd_greatest; [apply Z.gcd_divide_l|].
    apply Z.gauss with (m := c); [apply Z.gcd_divide_r|].
    assert (D : (Z.gcd (Z.gcd a (c * b)) c | 1)).
    { rewrite <- H. apply Z.gcd_greatest.
      - etransitivity; [apply Z.gcd_divide_l|apply Z.gcd_divide_l].
      - apply Z.gcd_divide_r. }
    exact (Z.divide_1_r_nonneg _ (Z.gcd_nonneg _ _) D).
  - apply Z.gcd_greatest; [apply Z.gcd_divide_l|]. apply Z.divide_mul_r. apply Z.gcd_divide_r.
Qed.
Lemma gcd_pow2_min i j a b : 0 <= i -> 0 <= j -> Z.odd a = true -> Z.odd b = true ->
  Z.gcd (a * 2 ^ i) (b * 2 ^ j) = Z.gcd a b * 2 ^ Z.min i j.
Proof.
  assert (G : forall i j a b, 0 <= i <= j -> Z.odd a = true ->
     Z.gcd (a * 2 ^ i) (b * 2 ^ j) = Z.gcd a b * 2 ^ i).
  { clear. intros i j a b Hij Ho. replace j with ((j - i) + i) by ring.
    rewrite Z.pow_add_r by lia. rewrite Z.mul_assoc, Z.gcd_mul_mono_r_nonneg by (apply Z.pow_nonneg; lia).
    f_equal. rewrite Z.mul_comm. apply gcd_mul_coprime. apply odd_coprime_pow2; auto; lia. }
  intros Hi Hj Ha Hb. destruct (Z_le_gt_dec i j).
  - rewrite Z.min_l by lia. apply G; auto; lia.
  - rewrite Z.min_r by lia. rewrite Z.gcd_comm, (Z.gcd_comm a b). apply G; auto; lia.
Qed.
Lemma gcd_zero_l_pow q i : 0 <= q -> 0 <= i -> Z.gcd 0 (q * 2 ^ i) = Z.gcd 0 q * 2 ^ i.
Proof.
  intros. rewrite !Z.gcd_0_l. rewrite !Z.abs_eq; auto. apply Z.mul_nonneg_nonneg; auto. apply Z.pow_nonneg; lia.
Qed.
Lemma gcd_step x y : y <= x -> Z.gcd (x - y) y = Z.gcd x y.
Proof. intros. rewrite Z.gcd_comm, Z.gcd_sub_diag_r, Z.gcd_comm. reflexivity. Qed.

Lemma quot_range q p x : x = q * p -> 0 < p -> 0 <= x -> x <> 0 -> 0 < q <= x.
Proof. intros. nia. Qed.
Lemma factor_lt g p D : g * p < D -> 0 < g -> 0 < p -> p < D.
Proof. intros. nia. Qed.

Section Native.
  Variable k : nat.
  Variable lenient : bool.
  Notation d := (lvl_bits k).
  Lemma low_run_odd x n : word d x -> x <> 0 -> low_run d x false n ->
    0 <= n < d /\ exists q, x = q * 2 ^ n /\ Z.odd q = true /\ q = Z.shiftr x n.
  Proof.
    intros Hx Hx0 R. pose proof (@lvl_bits_pos k).
    assert (n < d) by (apply (low_run_lt (d := d) ltac:(lia) Hx R); auto).
    destruct R as (H1 & H2 & H3). split; [lia|]. exists (Z.shiftr x n).
    split; [|split; auto].
    - rewrite <- Z.shiftl_mul_pow2 by lia. apply Z.bits_inj'. intros m Hm.
      destruct (Z_lt_ge_dec m n).
      + rewrite Z.shiftl_spec_low by lia. rewrite H2 by lia. reflexivity.
      + rewrite Z.shiftl_spec by lia. rewrite Z.shiftr_spec by lia. f_equal. lia.
    - rewrite <- Z.bit0_odd, Z.shiftr_spec by lia. rewrite Z.add_0_l. apply H3. lia.
  Qed.
  Lemma low_run_zero n : low_run d 0 false n -> n = d.
  Proof.
    intros (H1 & H2 & H3). destruct (Z.eq_dec n d); auto. rewrite Z.bits_0 in H3.
    discriminate H3. lia.
  Qed.
  Lemma gshr_zero n : gshr k lenient 0 n = Some 0 \/ (lenient = false /\ Z.max 32 d <= n).
  Proof.
    unfold gshr. destruct (Z.ltb_spec n (Z.max 32 d)).
    - left. f_equal. apply Z.shiftr_0_l.
    - destruct lenient; cbn; auto.
  Qed.
  Hypothesis Mode : lenient = true \/ d < 32.
  Lemma gcd_loop_spec f : forall x y shift, word d x -> word d y -> 0 <= shift < d ->
    Z.gcd x y * 2 ^ shift < 2 ^ d ->
    (y = 0 \/ (x = 0 /\ 2 <= Z.of_nat f) \/ x + y + 1 < Z.of_nat f) -> (0 < f)%nat ->
    gcd_loop k lenient f x y shift = Some (Z.gcd x y * 2 ^ shift).
  Proof.
    induction f as [|f IH]; intros x y shift Hx Hy Hs Hg Hf Hf0; [lia|]. cbn [gcd_loop].
    pose proof (@lvl_bits_pos k) as Hd.
    assert (Hmax : 2 ^ d <= 2 ^ Z.max 32 d) by (apply Z.pow_le_mono_r; lia).
    assert (P2 : forall n, 0 <= n -> 0 < 2 ^ n) by (intros; apply Z.pow_pos_nonneg; lia).
    destruct (Z.eqb_spec y 0) as [->|Hy0].
    { destruct (Z.ltb_spec shift (Z.max 32 d)); [|lia].
      rewrite Z.gcd_0_r in *. destruct Hx as [Hx _]. rewrite Z.abs_eq in * by auto.
      rewrite Z.mod_small; auto. split; [|lia]. apply Z.mul_nonneg_nonneg; auto. apply Z.lt_le_incl, P2. lia. }
    destruct (countr_zero_spec Hx) as (xr & -> & Rx). cbn [obind].
    destruct (countr_zero_spec Hy) as (yr & -> & Ry). cbn [obind].
    destruct (low_run_odd Hy Hy0 Ry) as (Hyr & qy & Ey & Oy & Sy).
    unfold gshr at 2. destruct (Z.ltb_spec yr (Z.max 32 d)) as [_|]; [|lia]. rewrite <- Sy.
    assert (Qy : 0 < qy <= y). { apply (quot_range Ey); [apply P2; lia|apply Hy|exact Hy0]. }
    destruct (Z.eq_dec x 0) as [->|Hx0].
    - apply low_run_zero in Rx. subst xr.
      destruct (gshr_zero d) as [E|[E1 E2]]; [|destruct Mode; [congruence|lia]].
      rewrite E. cbn [obind]. destruct (Z.ltb_spec 0 qy); [|lia].
      rewrite Z.min_r, Z.sub_0_r by lia.
      rewrite Ey in Hg. rewrite gcd_zero_l_pow in Hg by lia.
      rewrite Ey, gcd_zero_l_pow by lia. rewrite Z.gcd_comm in *.
      rewrite IH.
      + f_equal. rewrite Z.pow_add_r by lia. ring.
      + destruct Hy. split; lia.
      + split; [lia|]. apply P2. lia.
      + split; [lia|]. rewrite Z.gcd_0_r, Z.abs_eq in Hg by lia.
        rewrite <- Z.mul_assoc, <- Z.pow_add_r in Hg by lia.
        apply (Z.pow_lt_mono_r_iff 2); [lia|lia|].
        replace (shift + yr) with (yr + shift) by ring.
        apply (factor_lt Hg); [lia|apply P2; lia].
      + rewrite Z.pow_add_r by lia. rewrite (Z.mul_comm (2 ^ shift)), Z.mul_assoc. exact Hg.
      + auto.
      + lia.
    - destruct (low_run_odd Hx Hx0 Rx) as (Hxr & qx & Ex & Ox & Sx).
      unfold gshr. destruct (Z.ltb_spec xr (Z.max 32 d)) as [_|]; [|lia]. rewrite <- Sx. cbn [obind].
      assert (Qx : 0 < qx <= x). { apply (quot_range Ex); [apply P2; lia|apply Hx|exact Hx0]. }
      assert (GE : Z.gcd x y = Z.gcd qx qy * 2 ^ Z.min xr yr).
      { rewrite Ex at 1. rewrite Ey. apply gcd_pow2_min; auto; lia. }
      assert (G0 : 0 < Z.gcd qx qy).
      { pose proof (Z.gcd_nonneg qx qy). destruct (Z.eq_dec (Z.gcd qx qy) 0) as [Z0|]; [|lia].
        apply Z.gcd_eq_0 in Z0. lia. }
      rewrite GE in Hg |- *.
      assert (Hs2 : 0 <= shift + Z.min xr yr < d).
      { split; [lia|]. rewrite <- Z.mul_assoc, <- Z.pow_add_r in Hg by lia.
        apply (Z.pow_lt_mono_r_iff 2); [lia|lia|].
        replace (shift + Z.min xr yr) with (Z.min xr yr + shift) by ring.
        apply (factor_lt Hg); [exact G0|apply P2; lia]. }
      assert (T : forall p q, Z.gcd p q = Z.gcd qx qy -> word d (p - q) -> word d q -> q <= p -> 
        p - q + q + 1 < Z.of_nat f -> gcd_loop k lenient f (p - q) q (shift + Z.min xr yr) =
        Some (Z.gcd qx qy * 2 ^ Z.min xr yr * 2 ^ shift)).
      { intros p q Epq H1 H2 H3 H4.
        rewrite IH; auto.
        - rewrite gcd_step, Epq by auto. f_equal. rewrite Z.pow_add_r by lia. ring.
        - rewrite gcd_step, Epq by auto. rewrite Z.pow_add_r by lia.
          rewrite (Z.mul_comm (2 ^ shift)), Z.mul_assoc. exact Hg.
        - destruct H1, H2. lia. }
      destruct Hx, Hy. destruct (Z.ltb_spec qx qy).
      + apply T; [apply Z.gcd_comm|split; lia|split; lia|lia|lia].
      + apply T; [reflexivity|split; lia|split; lia|lia|lia].
  Qed.
  Lemma gcd_native_spec f x y : word d x -> word d y -> x + y + 1 < Z.of_nat f ->
    gcd k lenient f x y = Some (Z.gcd x y).
  Proof.
    intros Hx Hy Hf. unfold gcd. pose proof (@lvl_bits_pos k).
    assert (L : Z.gcd x y < 2 ^ d).
    { destruct (Z.eq_dec x 0) as [->|].
      - rewrite Z.gcd_0_l. destruct Hy. rewrite Z.abs_eq; auto.
      - destruct Hx. assert (0 < x) by lia. pose proof (Z.divide_pos_le _ _ H2 (Z.gcd_divide_l x y)). lia. }
    destruct Hx, Hy.
    rewrite gcd_loop_spec; try (split; assumption); try lia.
    f_equal. lia.
  Qed.
End Native.

(** With the language's rule a call on 32-bit or wider words always shifts a zero by
    its whole width before it can finish. *)
Lemma gcd_strict_none k : 32 <= lvl_bits k -> forall f x y shift, word (lvl_bits k) x -> word (lvl_bits k) y ->
  y <> 0 -> gcd_loop k false f x y shift = None.
Proof.
  intros Hk. induction f as [|f IH]; intros x y shift Hx Hy Hy0; [reflexivity|]. cbn [gcd_loop].
  destruct (Z.eqb_spec y 0); [contradiction|].
  pose proof (@lvl_bits_pos k) as Hd.
  assert (P2 : forall n, 0 <= n -> 0 < 2 ^ n) by (intros; apply Z.pow_pos_nonneg; lia).
  destruct (countr_zero_spec Hx) as (xr & -> & Rx). cbn [obind].
  destruct (countr_zero_spec Hy) as (yr & -> & Ry). cbn [obind].
  destruct (low_run_odd Hy Hy0 Ry) as (Hyr & qy & Ey & Oy & Sy).
  destruct (Z.eq_dec x 0) as [->|Hx0].
  - apply low_run_zero in Rx. subst xr. unfold gshr at 1.
    destruct (Z.ltb_spec (lvl_bits k) (Z.max 32 (lvl_bits k))); [lia|]. reflexivity.
  - destruct (low_run_odd Hx Hx0 Rx) as (Hxr & qx & Ex & Ox & Sx).
    unfold gshr. destruct (Z.ltb_spec xr (Z.max 32 (lvl_bits k))); [|lia].
    destruct (Z.ltb_spec yr (Z.max 32 (lvl_bits k))); [|lia].
    rewrite <- Sx, <- Sy. cbn [obind].
    
    assert (0 < qx <= x) by (apply (quot_range Ex); [apply P2; lia|apply Hx|exact Hx0]).
    assert (0 < qy <= y) by (apply (quot_range Ey); [apply P2; lia|apply Hy|exact Hy0]).
    destruct Hx, Hy.
    destruct (Z.ltb_spec qx qy); apply IH; try (split; lia); lia.
Qed.

(** *** Big integers *)
Section Big.
  Variable w : Z.
  Hypothesis Hw : 0 < w.
  Notation B := (base w).
  Notation val := (val B).
  Notation canon := (canon B).
  Let HB : 2 <= B := base_ge2 Hw.
  Lemma ugcd_loop_spec f : forall x y shift, canon x -> canon y -> 0 <= shift ->
    (y <> [] -> x = [] -> val y mod 2 = 1) ->
    (y = [] \/ (x = [] /\ 2 <= Z.of_nat f) \/ val x + val y + 1 < Z.of_nat f) -> (0 < f)%nat ->
    denotes B (ugcd_loop w f x y shift) (Z.gcd (val x) (val y) * 2 ^ shift).
  Proof.
    induction f as [|f IH]; intros x y shift Hx Hy Hs Hodd Hf Hf0; [lia|]. cbn [ugcd_loop].
    assert (P2 : forall n, 0 <= n -> 0 < 2 ^ n) by (intros; apply Z.pow_pos_nonneg; lia).
    pose proof (@unot_spec w Hw y Hy) as Hu. pose proof HB as HB2.
    pose proof (val_bound HB2 (canon_ok Hx)) as [Vx _]. pose proof (val_bound HB2 (canon_ok Hy)) as [Vy _].
    destruct (unot y) eqn:Eu.
    { assert (V0 : val y = 0) by (apply Hu; auto). rewrite V0, Z.gcd_0_r, Z.abs_eq by auto.
      destruct (@ushl_spec w Hw x shift Hx Hs) as [C E]. eexists. split; [reflexivity|]. auto. }
    assert (Hyn : y <> []) by (intros ->; cbn in Eu; discriminate).
    destruct (@ucountr_zero_spec w Hw y Hy Hyn) as (qy & Ey & Oy & Hyr).
    destruct (@ushr_assign_spec w Hw y (ucountr_zero w y) Hy Hyr) as [Cy Sy].
    assert (Sy' : val (ushr_assign w y (ucountr_zero w y)) = qy).
    { rewrite Sy, Ey. apply Z.div_mul. pose proof (P2 _ Hyr). lia. }
    pose proof (canon_pos HB2 Hy Hyn) as Py.
    assert (Qy : 0 < qy <= val y). { apply (quot_range Ey); [apply P2; lia|lia|lia]. }
    set (yr := ucountr_zero w y) in *. set (y1 := ushr_assign w y yr) in *. clearbody yr y1.
    cbv zeta.
    destruct x as [|x0 x'] eqn:Exl.
    - (* x = 0 and y odd *)
      specialize (Hodd Hyn eq_refl).
      assert (yr = 0) as ->.
      { destruct (Z.eq_dec yr 0); auto. exfalso. rewrite Ey in Hodd.
        replace yr with (Z.succ (yr - 1)) in Hodd by lia. rewrite Z.pow_succ_r in Hodd by lia.
        rewrite Z.mul_assoc, (Z.mul_comm qy), <- Z.mul_assoc, Z.mul_comm in Hodd.
        rewrite Z_mod_mult in Hodd. discriminate. }
      rewrite Z.pow_0_r, Z.mul_1_r in Ey. 
      change (ucountr_zero w []) with 0. 
      destruct (@ushr_assign_spec w Hw [] 0 (@canon_nil B) ltac:(lia)) as [Cx Sx].
      rewrite (ucompare_spec HB2 Cx Cy), Sx, Sy'. change (val [] / 2 ^ 0) with 0.
      destruct (Z.compare_spec 0 qy) as [|_|]; [lia| |lia].
      destruct (usub_spec Hw Cy Cx) as (x3 & E3 & C3 & V3). rewrite E3. cbn [obind].
      rewrite Sx, Sy' in V3. change (val [] / 2 ^ 0) with 0 in V3.
      assert (E0 : ushr_assign w [] 0 = []) by (apply (canon_zero HB2 Cx); rewrite Sx; reflexivity).
      rewrite E0.
      assert (F0 : (0 < f)%nat) by (destruct Hf as [|[[_ ?]|?]]; [congruence|lia|lia]).
      assert (D : denotes B (ugcd_loop w f x3 [] (shift + Z.min 0 0))
         (Z.gcd (val x3) (val []) * 2 ^ (shift + Z.min 0 0))).
      { apply IH; auto; try apply canon_nil; try lia; intros; congruence. }
      destruct D as (r & Er & Cr & Vr).
      exists r. split; auto. split; auto. change (Z.min 0 0) with 0 in Vr. rewrite Vr, V3, Ey, Z.add_0_r. f_equal.
      change (val []) with 0. rewrite Z.gcd_comm. f_equal. lia.
    - rewrite <- Exl in *. assert (Hxn : x <> []) by congruence. clear Exl x0 x'.
      destruct (@ucountr_zero_spec w Hw x Hx Hxn) as (qx & Ex & Ox & Hxr).
      destruct (@ushr_assign_spec w Hw x (ucountr_zero w x) Hx Hxr) as [Cx Sx].
      assert (Sx' : val (ushr_assign w x (ucountr_zero w x)) = qx).
      { rewrite Sx, Ex. apply Z.div_mul. pose proof (P2 _ Hxr). lia. }
      pose proof (canon_pos HB2 Hx Hxn) as Px.
      assert (Qx : 0 < qx <= val x). { apply (quot_range Ex); [apply P2; lia|lia|lia]. }
      set (xr := ucountr_zero w x) in *. set (x1 := ushr_assign w x xr) in *. clearbody xr x1.
      assert (GE : Z.gcd (val x) (val y) = Z.gcd qx qy * 2 ^ Z.min xr yr).
      { rewrite Ex at 1. rewrite Ey. apply gcd_pow2_min; auto. }
      rewrite GE.
      assert (T : forall p q, canon p -> canon q -> Z.gcd (val p) (val q) = Z.gcd qx qy -> 
        val q <= val p -> Z.odd (val q) = true -> val p + 1 < Z.of_nat f ->
        denotes B (x3 <- usub w p q;; ugcd_loop w f x3 q (shift + Z.min xr yr))
          (Z.gcd qx qy * 2 ^ Z.min xr yr * 2 ^ shift)).
      { intros p q Cp Cq Epq Hle Ho Hff. pose proof (val_bound HB2 (canon_ok Cq)) as [Vq _]. destruct (usub_spec Hw Cp Cq) as (x3 & E3 & C3 & V3).
        rewrite E3. cbn [obind]. rewrite Z.max_r in V3 by lia.
        assert (D : denotes B (ugcd_loop w f x3 q (shift + Z.min xr yr))
           (Z.gcd (val x3) (val q) * 2 ^ (shift + Z.min xr yr))).
        { apply IH; auto.
          - lia.
          - intros _ _. rewrite Zmod_odd, Ho. reflexivity.
          - right. right. lia.
          - lia. }
        destruct D as (r & Er & Cr & Vr).
        exists r. split; auto. split; auto. rewrite Vr, V3, gcd_step, Epq, Z.pow_add_r by lia. ring. }
      rewrite (ucompare_spec HB2 Cx Cy), Sx', Sy'.
      assert (F : val x + val y + 1 < Z.of_nat (S f)) by (destruct Hf as [|[[? ?]|?]]; [congruence|congruence|auto]).
      destruct (Z.compare_spec qx qy).
      + apply T; auto; rewrite ?Sx', ?Sy'; auto; try lia.
      + apply T; auto; rewrite ?Sx', ?Sy'; auto; try lia. apply Z.gcd_comm.
      + apply T; auto; rewrite ?Sx', ?Sy'; auto; try lia.
  Qed.
  Lemma ugcd_spec f x y : canon x -> canon y -> (length x < 256)%nat -> (length y < 256)%nat ->
    (val x = 0 -> y <> [] -> Z.odd (val y) = true) -> val x + val y + 1 < Z.of_nat f ->
    denotes B (ugcd w f x y) (Z.gcd (val x) (val y)).
  Proof.
    intros Hx Hy Lx Ly Ho Hf. unfold ugcd.
    destruct (Nat.leb_spec 256 (Nat.max (length x) (length y))); [lia|].
    pose proof HB as HB2.
    pose proof (val_bound HB2 (canon_ok Hx)) as [Vx _]. pose proof (val_bound HB2 (canon_ok Hy)) as [Vy _].
    destruct (@ugcd_loop_spec f x y 0) as (r & E & C & V); auto; try lia.
    - intros Hn ->. rewrite Zmod_odd, Ho; auto.
    - exists r. split; auto. split; auto. rewrite V. lia.
  Qed.
End Big.

(** *** Euclid *)
Lemma euclid_loop_spec f : forall x y, 0 < x -> 0 <= y -> (y = 0 /\ 1 <= Z.of_nat f) \/ x + y < Z.of_nat f ->
  euclid_loop f x y = Some (Z.gcd x y).
Proof.
  induction f as [|f IH]; intros x y Hx Hy Hf; [lia|]. cbn [euclid_loop].
  destruct (Z.eqb_spec y 0) as [->|Hy0]; [rewrite Z.gcd_0_r; f_equal; lia|].
  assert (T : forall p q, 0 < q <= p -> p + q <= Z.of_nat f -> euclid_loop f q (Z.rem p q) = Some (Z.gcd p q)).
  { intros p q Hq Hpq. rewrite Z.rem_mod_nonneg by lia.
    pose proof (Z.mod_pos_bound p q ltac:(lia)).
    rewrite IH; [|lia|lia|]; [f_equal; rewrite Z.gcd_comm, Z.gcd_mod, Z.gcd_comm by lia; reflexivity|].
    destruct (Z.eq_dec (p mod q) 0); [left; lia|right].
    assert (p mod q < p). { apply Z.lt_le_trans with q; lia. }
    lia. }
  destruct (Z.ltb_spec x y).
  - destruct (Z.eqb_spec x 0); [lia|]. rewrite Z.gcd_comm. apply T; lia.
  - destruct (Z.eqb_spec y 0); [lia|]. apply T; lia.
Qed.
Lemma euclid_spec f x y : (0 < x /\ 0 <= y) \/ (x < 0 /\ y < 0) -> Z.abs x + Z.abs y < Z.of_nat f ->
  euclid_gcd f x y = Some (Z.gcd x y).
Proof.
  intros H Hf. unfold euclid_gcd. destruct H.
  - destruct (Z.ltb_spec x 0); [lia|]. cbn [andb]. apply euclid_loop_spec; lia.
  - destruct (Z.ltb_spec x 0); [|lia]. destruct (Z.ltb_spec y 0); [|lia]. cbn [andb].
    rewrite euclid_loop_spec by lia. rewrite Z.gcd_opp_l, Z.gcd_opp_r. reflexivity.
Qed.
Lemma euclid_zero f y : 0 < y -> euclid_gcd f 0 y = None.
Proof.
  intros Hp. unfold euclid_gcd. cbn [andb]. destruct (Z.ltb_spec 0 0); [lia|]. cbn [andb].
  destruct f as [|f]; [reflexivity|]. cbn [euclid_loop]. destruct (Z.eqb_spec y 0); [lia|].
  destruct (Z.ltb_spec 0 y); [|lia]. reflexivity.
Qed.
Lemma euclid_stuck f : euclid_loop f (-4) 2 = None.
Proof. induction f as [|f IH]; [reflexivity|]. exact IH. Qed.
Lemma euclid_mixed f : euclid_gcd f (-4) 6 = None.
Proof. destruct f as [|f]; [reflexivity|]. exact (euclid_stuck f). Qed.
