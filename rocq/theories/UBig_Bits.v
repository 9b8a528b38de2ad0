(** Bit queries, self-assignment. *)
From Verif Require Import Base UBig_Model UBig_Spec UBig_Basics UBig_AddSub UBig_Mul UBig_Kara UBig_Shift.
Local Open Scope Z_scope.
Local Open Scope omonad_scope.

Section Bits.
Variable w : Z.
Hypothesis Hw : 0 < w.
Notation B := (base w).
Notation val := (val B).
Notation digits_ok := (digits_ok B).
Notation canon := (canon B).
Let HB : 2 <= B := base_ge2 Hw.
Ltac HB := let h := fresh "HB2_" in pose proof HB as h.
Local Hint Resolve canon_ok : core.

Lemma digit_testbit x n : 0 <= x < B -> w <= n -> Z.testbit x n = false.
Proof.
  intros Hx Hn. rewrite <- (Z.mod_small x B) by lia. unfold base. apply Z.mod_pow2_bits_high. lia.
Qed.

Lemma val_testbit a : forall n, digits_ok a -> 0 <= n ->
  Z.testbit (val a) n = Z.testbit (nth (Z.to_nat (n / w)) a 0) (n mod w).
Proof.
  induction a as [|x a IH]; intros n Ha Hn; HB.
  - cbn [UBig_Spec.val]. rewrite Z.bits_0. destruct (Z.to_nat (n / w)); cbn [nth]; rewrite Z.bits_0; reflexivity.
  - apply digits_ok_cons in Ha. destruct Ha as [Hx Ha]. cbn [UBig_Spec.val].
    assert (E : x + B * val a = Z.lor (val a * 2 ^ w) x).
    { rewrite lor_add_disjoint by (unfold base in *; lia). unfold base. ring. }
    rewrite E, Z.lor_spec.
    destruct (Z_lt_ge_dec n w) as [Hlt|Hge].
    + rewrite Z.mul_pow2_bits_low by lia. rewrite Z.div_small, Z.mod_small by lia. reflexivity.
    + rewrite Z.mul_pow2_bits by lia. rewrite (digit_testbit Hx) by lia. rewrite orb_false_r.
      rewrite IH by (auto; lia).
      assert (Hd : n / w = (n - w) / w + 1).
      { replace n with ((n - w) + 1 * w) at 1 by ring. rewrite Z.div_add by lia. reflexivity. }
      assert (Hm : n mod w = (n - w) mod w).
      { replace n with ((n - w) + 1 * w) at 1 by ring. rewrite Z.mod_add by lia. reflexivity. }
      pose proof (Z.div_pos (n - w) w ltac:(lia) Hw).
      rewrite Hd, Hm. replace (Z.to_nat ((n - w) / w + 1)) with (S (Z.to_nat ((n - w) / w))) by lia.
      reflexivity.
Qed.

Lemma land_bit x k : 0 <= k -> negb (Z.land x (Z.shiftl 1 k) =? 0) = Z.testbit x k.
Proof.
  intros Hk. rewrite Z.shiftl_1_l. destruct (Z.testbit x k) eqn:E.
  - apply negb_true_iff. apply Z.eqb_neq. intros H0.
    assert (Z.testbit (Z.land x (2 ^ k)) k = true) by (rewrite Z.land_spec, E, Z.pow2_bits_true by lia; reflexivity).
    rewrite H0, Z.bits_0 in H. discriminate.
  - apply negb_false_iff. apply Z.eqb_eq. apply Z.bits_inj'. intros n Hn.
    rewrite Z.land_spec, Z.bits_0. destruct (Z.eq_dec n k) as [->|Hne].
    + rewrite E. reflexivity.
    + rewrite Z.pow2_bits_false by lia. apply andb_false_r.
Qed.

Lemma bit_at_spec a n : digits_ok a -> 0 <= n -> (w <= 32 \/ n mod w < 32) ->
  bit_at w a n = Some (Z.testbit (val a) n).
Proof.
  intros Ha Hn H32. unfold bit_at. cbv zeta. pose proof (Z.mod_pos_bound n w Hw) as Hm.
  rewrite val_testbit by auto.
  destruct (Nat.leb_spec (length a) (Z.to_nat (n / w))) as [Hl|Hl].
  - rewrite nth_overflow by lia. rewrite Z.bits_0. reflexivity.
  - destruct (Z.leb_spec 32 (n mod w)); [lia|]. rewrite land_bit by lia. reflexivity.
Qed.

Lemma is_odd_spec a : digits_ok a -> 0 < w -> is_odd a = Z.odd (val a).
Proof.
  intros Ha _. destruct a as [|x a]; [reflexivity|]. cbn [is_odd UBig_Spec.val].
  change 1 with (Z.shiftl 1 0) at 1. rewrite land_bit by lia. rewrite Z.bit0_odd.
  rewrite Z.odd_add, Z.odd_mul. unfold base. rewrite Z.odd_pow by lia.
  change (Z.odd 2) with false. cbn. rewrite xorb_false_r. reflexivity.
Qed.

Lemma unot_spec a : canon a -> (unot a = true <-> val a = 0).
Proof.
  intros Ha. HB. unfold unot. rewrite shrink_id with (B := B) by auto. destruct a as [|x a].
  - cbn. tauto.
  - pose proof (canon_pos HB Ha ltac:(congruence)). split; [discriminate|lia].
Qed.

Lemma uget_bitnum_spec a : canon a -> a <> [] -> uget_bitnum w a = Z.log2 (val a) + 1.
Proof.
  intros Ha Hn. HB. unfold uget_bitnum.
  assert (E : Z.log2 (val a) = Z.of_nat (length a - 1) * w + Z.log2 (last a 0)).
  { pose proof (canon_last_pos Ha Hn) as Hl. rewrite (val_last w Hn).
    pose proof (val_bound HB (digits_ok_removelast (canon_ok Ha))) as Hr.
    rewrite removelast_length' in Hr by auto.
    assert (H0 : (0 < length a)%nat) by (destruct a; [congruence|cbn [length]; lia]).
    replace (Z.of_nat (length a) - 1) with (Z.of_nat (length a - 1)) by lia.
    set (k := (length a - 1)%nat) in *.
    assert (EB : B ^ Z.of_nat k = 2 ^ (Z.of_nat k * w)).
    { unfold base. rewrite <- Z.pow_mul_r by lia. f_equal. ring. }
    rewrite EB in *. apply Z.log2_unique'  with (c := val (removelast a) + 2 ^ (Z.of_nat k * w) * (last a 0 - 2 ^ Z.log2 (last a 0))).
    - pose proof (Z.log2_nonneg (last a 0)). nia.
    - pose proof (Z.log2_spec (last a 0) ltac:(lia)) as Hls.
      pose proof (Z.log2_nonneg (last a 0)).
      rewrite Z.pow_succ_r in Hls by lia. rewrite Z.pow_add_r by nia. nia.
    - pose proof (Z.log2_nonneg (last a 0)). rewrite Z.pow_add_r by nia. ring. }
  assert (H0 : (0 < length a)%nat) by (destruct a; [congruence|cbn [length]; lia]).
  destruct a as [|x a]; [congruence|]. rewrite E.
  replace (Z.of_nat (length (x :: a) - 1)) with (Z.of_nat (length (x :: a)) - 1) by lia. ring.
Qed.

Lemma ctz_fuel_spec f : forall x, 0 < x < 2 ^ Z.of_nat f ->
  exists q, x = q * 2 ^ ctz_fuel f x /\ Z.odd q = true /\ 0 <= ctz_fuel f x.
Proof.
  induction f as [|f IH]; intros x Hx.
  - change (2 ^ Z.of_nat 0) with 1 in Hx. lia.
  - cbn [ctz_fuel]. destruct (Z.odd x) eqn:E.
    + exists x. split; [change (2 ^ 0) with 1; lia|]. split; [auto|lia].
    + rewrite Nat2Z.inj_succ, Z.pow_succ_r in Hx by lia.
      pose proof (Zdiv2_odd_eqn x) as H2. rewrite E in H2. rewrite Z.div2_div in H2.
      destruct (IH (x / 2)) as (q & Hq & Ho & H0).
      { lia. }
      exists q. split; [|split; [auto|lia]].
      rewrite Z.pow_add_r by lia. change (2 ^ 1) with 2. nia.
Qed.

Lemma ucountr_zero_spec a : canon a -> a <> [] ->
  exists q, val a = q * 2 ^ ucountr_zero w a /\ Z.odd q = true /\ 0 <= ucountr_zero w a.
Proof.
  induction a as [|x a IH]; intros Ha Hn; [congruence|]. HB.
  pose proof (canon_ok Ha) as Hd. apply digits_ok_cons in Hd. destruct Hd as [Hx Hd].
  cbn [ucountr_zero UBig_Spec.val]. destruct (Z.eqb_spec x 0) as [->|Hx0].
  - destruct a as [|y a].
    + pose proof (canon_pos HB Ha Hn) as Hp. cbn [UBig_Spec.val] in Hp. lia.
    + destruct (IH (canon_tail Ha) ltac:(congruence)) as (q & Hq & Ho & H0).
      exists q. split; [|split; [auto|lia]]. rewrite Hq, Z.pow_add_r by lia. unfold base. ring.
  - destruct (@ctz_fuel_spec (Z.to_nat w) x) as (q & Hq & Ho & H0).
    { rewrite Z2Nat.id by lia. unfold base in Hx. lia. }
    set (k := ctz_fuel (Z.to_nat w) x) in *.
    assert (Hk : k < w).
    { destruct (Z_lt_ge_dec k w) as [|Hge]; [auto|exfalso].
      assert (2 ^ w <= 2 ^ k) by (apply Z.pow_le_mono_r; lia).
      assert (0 < q) by (destruct (Z_lt_ge_dec 0 q); [auto|nia]). unfold base in Hx. nia. }
    exists (q + 2 ^ (w - k) * val a). split; [|split; [|lia]].
    + rewrite Z.mul_add_distr_r, <- Hq. unfold base at 1.
      replace w with ((w - k) + k) at 1 by lia. rewrite Z.pow_add_r by lia. ring.
    + rewrite Z.odd_add, Ho, Z.odd_mul, Z.odd_pow by lia. reflexivity.
Qed.

(** ** Self-assignment *)
Lemma add_assign_self_sound a r : canon a -> add_assign_self w a = Some r -> canon r /\ val r = val a + val a.
Proof.
  intros Ha H. HB. unfold add_assign_self in H. destruct a as [|x a].
  - injection H as <-. split; [apply canon_nil|reflexivity].
  - apply obind_some in H. destruct H as (n & En & H).
    destruct (Nat.eqb_spec (n - length (x :: a)) 0) as [E|]; [|discriminate].
    destruct (size_need_spec Hw Ha Ha ltac:(congruence) ltac:(congruence) En) as (H1 & _ & H3).
    assert (Hn : n = (length (x :: a) + 0)%nat) by lia. rewrite Hn in H3.
    destruct (@add_padded w Hw (x :: a) (x :: a) 0) as (t & Et & Hc & Hvt); auto; [lia|congruence|].
    cbn [repeat] in Et. rewrite app_nil_r in Et. rewrite Et in H. injection H as <-.
    cbn [Nat.eqb] in *. auto.
Qed.

Lemma add_assign_self_small a : canon a -> a <> [] -> 2 * last a 0 + 1 < B ->
  denotes B (add_assign_self w a) (val a + val a).
Proof.
  intros Ha Hn Hl. HB.
  assert (Hex : exists r, add_assign_self w a = Some r).
  2:{ destruct Hex as [r E]. exists r. split; [auto|]. apply add_assign_self_sound; auto. }
  unfold add_assign_self. destruct a as [|x a]; [congruence|]. set (l := x :: a) in *.
  pose proof (canon_last_pos Ha Hn) as Hlp.
  assert (Hs : size_diff w l l = Some 0%nat).
  { unfold size_diff. rewrite Nat.eqb_refl.
    assert (E : Z.to_nat (trc w (last l 0 + last l 0 + 1) / B) = 0%nat).
    { unfold trc. rewrite Z.mod_small by nia. rewrite Z.div_small by lia. reflexivity. }
    rewrite E. reflexivity. }
  assert (Hsn : size_need w l l = Some (length l)).
  { unfold size_need. rewrite Nat.ltb_irrefl, Hs. cbn [obind]. f_equal. lia. }
  rewrite Hsn. cbn [obind]. rewrite Nat.sub_diag. cbn [Nat.eqb].
  pose proof (size_diff_spec Hw Ha Ha Hn (le_n _) Hs) as Hsz. rewrite Nat.add_0_r in Hsz.
  destruct (@add_buf_ok w Hw l l false) as (r & Er & _); auto.
  - cbn [b2z]. lia.
  - rewrite Er. eauto.
Qed.

End Bits.

(** ** The constructor under the computed radix constant *)
Lemma base_type_mod_narrow w : 0 < w < 64 -> base_type_mod w = base w.
Proof.
  intros Hw. unfold base_type_mod, base.
  assert (H1 : 2 ^ w <= 2 ^ 63) by (apply Z.pow_le_mono_r; lia).
  assert (H2 : 0 < 2 ^ w) by (apply Z.pow_pos_nonneg; lia).
  assert (H3 : 2 ^ 63 < 2 ^ 64) by reflexivity.
  rewrite (Z.mod_small (2 ^ w - 1)), Z.mod_small by lia. lia.
Qed.
Lemma of_uint_cfg_narrow w f v : 0 < w < 64 -> 0 <= v < base w ^ Z.of_nat f ->
  denotes (base w) (of_uint_cfg w f v) v.
Proof.
  intros Hw Hv. unfold of_uint_cfg. rewrite base_type_mod_narrow by auto.
  pose proof (@base_ge2 w ltac:(lia)) as HB.
  destruct (Z.eqb_spec (base w) 0) as [E|_]; [lia|]. cbn [andb].
  destruct (@round_trip_native w ltac:(lia) f (base w ^ Z.of_nat f) v Hv ltac:(lia)) as (l & H1 & H2 & H3 & _).
  rewrite H1. unfold denotes. eauto.
Qed.
Lemma of_uint_cfg_64 f v : v <> 0 -> of_uint_cfg 64 f v = None.
Proof.
  intros Hv. unfold of_uint_cfg. change (base_type_mod 64 =? 0) with true.
  destruct (Z.eqb_spec v 0); [contradiction|reflexivity].
Qed.
