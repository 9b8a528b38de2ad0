(** Shifts and native conversions. *)
From Verif Require Import Base UBig_Model UBig_Spec UBig_Basics UBig_AddSub UBig_Mul UBig_Kara.
Local Open Scope Z_scope.
Local Open Scope omonad_scope.

(** Disjoint bits: [or] is addition. *)
Lemma lor_add_disjoint a c k : 0 <= k -> 0 <= c < 2 ^ k -> Z.lor (a * 2 ^ k) c = a * 2 ^ k + c.
Proof.
  intros Hk Hc. symmetry. rewrite <- Z.lxor_lor.
  - apply Z.add_nocarry_lxor. apply Z.bits_inj'. intros n Hn. rewrite Z.land_spec, Z.bits_0.
    destruct (Z_lt_ge_dec n k) as [H|H].
    + rewrite Z.mul_pow2_bits_low by lia. reflexivity.
    + rewrite <- (Z.mod_small c (2 ^ k)) by lia. rewrite Z.mod_pow2_bits_high by lia.
      apply andb_false_r.
  - apply Z.bits_inj'. intros n Hn. rewrite Z.land_spec, Z.bits_0.
    destruct (Z_lt_ge_dec n k) as [H|H].
    + rewrite Z.mul_pow2_bits_low by lia. reflexivity.
    + rewrite <- (Z.mod_small c (2 ^ k)) by lia. rewrite Z.mod_pow2_bits_high by lia.
      apply andb_false_r.
Qed.

Section Shift.
Variable w : Z.
Hypothesis Hw : 0 < w.
Notation B := (base w).
Notation val := (val B).
Notation digits_ok := (digits_ok B).
Notation canon := (canon B).
Let HB : 2 <= B := base_ge2 Hw.
Ltac HB := let h := fresh "HB2_" in pose proof HB as h.
Local Hint Resolve canon_ok : core.

Lemma base_split off : 0 <= off <= w -> B = 2 ^ (w - off) * 2 ^ off.
Proof. intros H. unfold base. rewrite <- Z.pow_add_r by lia. f_equal. lia. Qed.

(** One digit shifted left. *)
Lemma shl_digit x off carry : 0 <= off < w -> 0 <= x < B -> 0 <= carry < 2 ^ off ->
  let lo := Z.lor (tr w (Z.shiftl x off)) carry in
  let hi := Z.shiftr x (w - off) in
  0 <= lo < B /\ 0 <= hi < 2 ^ off /\ lo + B * hi = x * 2 ^ off + carry.
Proof.
  intros Ho Hx Hc. cbv zeta. HB.
  rewrite Z.shiftl_mul_pow2, Z.shiftr_div_pow2 by lia.
  pose proof (@base_split off ltac:(lia)) as HBs.
  assert (P1 : 0 < 2 ^ off) by (apply Z.pow_pos_nonneg; lia).
  assert (P2 : 0 < 2 ^ (w - off)) by (apply Z.pow_pos_nonneg; lia).
  set (p := 2 ^ off) in *. set (r := 2 ^ (w - off)) in *.
  pose proof (Z.div_mod x r ltac:(lia)) as Hdm. pose proof (Z.mod_pos_bound x r P2) as Hm.
  assert (Htr : tr w (x * p) = (x mod r) * p).
  { unfold tr. rewrite HBs. rewrite Z.mul_mod_distr_r by lia. reflexivity. }
  rewrite Htr. unfold p. rewrite lor_add_disjoint by (fold p; lia). fold p.
  assert (Hh : 0 <= x / r < p).
  { split; [apply Z.div_pos; lia|apply Z.div_lt_upper_bound; lia]. }
  split; [nia|]. split; [exact Hh|]. nia.
Qed.

Lemma shl_loop_spec a : forall off carry, 0 <= off < w -> digits_ok a -> 0 <= carry < 2 ^ off ->
  digits_ok (shl_loop w a off carry) /\ val (shl_loop w a off carry) = val a * 2 ^ off + carry.
Proof.
  induction a as [|x a IH]; intros off carry Ho Ha Hc; HB.
  - cbn [shl_loop UBig_Spec.val]. destruct (Z.eqb_spec carry 0) as [->|Hn].
    + split; [constructor|reflexivity].
    + assert (2 ^ off <= B) by (unfold base; apply Z.pow_le_mono_r; lia).
      split; [apply digits_ok_cons; split; [lia|constructor]|]. cbn [UBig_Spec.val]. lia.
  - apply digits_ok_cons in Ha. destruct Ha as [Hx Ha]. cbn [shl_loop].
    destruct (shl_digit Ho Hx Hc) as (H1 & H2 & H3). destruct (IH off _ Ho Ha H2) as [H4 H5].
    split; [apply digits_ok_cons; auto|]. cbn [UBig_Spec.val]. rewrite H5. nia.
Qed.

Lemma shl_loop_canon a : forall off carry, 0 <= off < w -> canon a -> 0 <= carry < 2 ^ off ->
  canon (shl_loop w a off carry).
Proof.
  induction a as [|x a IH]; intros off carry Ho Ha Hc; HB.
  - cbn [shl_loop]. destruct (Z.eqb_spec carry 0) as [->|Hn]; [apply canon_nil|].
    assert (2 ^ off <= B) by (unfold base; apply Z.pow_le_mono_r; lia).
    apply canon_cons; [lia|apply canon_nil|auto].
  - pose proof (canon_ok Ha) as Hd. apply digits_ok_cons in Hd. destruct Hd as [Hx Hd].
    cbn [shl_loop]. destruct (shl_digit Ho Hx Hc) as (H1 & H2 & H3).
    apply canon_cons; [exact H1|apply IH; auto; eapply canon_tail; exact Ha|].
    intros E Hlo. destruct a as [|y a].
    + cbn [shl_loop] in E. destruct (Z.eqb_spec (Z.shiftr x (w - off)) 0) as [E0|E0]; [|congruence].
      pose proof (canon_pos HB Ha ltac:(congruence)) as Hp. cbn [UBig_Spec.val] in Hp.
      assert (0 < 2 ^ off) by (apply Z.pow_pos_nonneg; lia). nia.
    + cbn [shl_loop] in E. congruence.
Qed.

Lemma pow_div_mod n : 0 <= n -> 2 ^ n = B ^ (n / w) * 2 ^ (n mod w).
Proof.
  intros Hn. unfold base. rewrite <- Z.pow_mul_r, <- Z.pow_add_r;
    pose proof (Z.div_mod n w ltac:(lia)); pose proof (Z.mod_pos_bound n w Hw);
    pose proof (Z.div_pos n w Hn Hw); try lia; try nia.
  f_equal. lia.
Qed.

Lemma canon_prepend0 k a : canon a -> a <> [] -> canon (repeat 0 k ++ a).
Proof.
  intros Ha Hn. HB. induction k as [|k IH]; [exact Ha|]. cbn [repeat app].
  apply canon_cons; [lia|exact IH|]. intros E. apply app_eq_nil in E. tauto.
Qed.

Lemma ushl_spec a n : canon a -> 0 <= n ->
  canon (ushl w a n) /\ val (ushl w a n) = val a * 2 ^ n.
Proof.
  intros Ha Hn. HB. unfold ushl. destruct a as [|x a].
  - split; [apply canon_nil|cbn [UBig_Spec.val]; lia].
  - cbv zeta. set (l := x :: a) in *. pose proof (Z.mod_pos_bound n w Hw) as Hm.
    pose proof (Z.div_pos n w Hn Hw) as Hd.
    assert (Hn' : (if Nat.eqb (Z.to_nat (n / w)) 0 then n else n mod w) = n mod w).
    { destruct (Nat.eqb_spec (Z.to_nat (n / w)) 0) as [E|]; [|reflexivity].
      assert (n / w = 0) as E' by lia. pose proof (Z.div_mod n w ltac:(lia)). rewrite E' in *. lia. }
    rewrite Hn'. rewrite (pow_div_mod Hn).
    set (k := Z.to_nat (n / w)).
    replace (B ^ (n / w)) with (B ^ Z.of_nat k) by (f_equal; unfold k; lia).
    destruct (Z.eqb_spec (n mod w) 0) as [E|E].
    + split; [apply canon_prepend0; auto; unfold l; congruence|].
      rewrite val_app, val_repeat0, repeat_length, E. change (2 ^ 0) with 1. ring.
    + assert (P : 0 < 2 ^ (n mod w)) by (apply Z.pow_pos_nonneg; lia).
      destruct (@shl_loop_spec l (n mod w) 0) as [H1 H2]; auto; try lia.
      split.
      * apply canon_prepend0; [apply shl_loop_canon; auto; lia|].
        intros Hnil. rewrite Hnil in H2. cbn [UBig_Spec.val] in H2.
        pose proof (canon_pos HB Ha ltac:(unfold l; congruence)). nia.
      * rewrite val_app, val_repeat0, repeat_length, H2. ring.
Qed.

(** Right shift within digits. *)
Lemma shr_loop_spec a off : 0 <= off < w -> digits_ok a ->
  digits_ok (fst (shr_loop w a off)) /\
  exists m, 0 <= m < 2 ^ off /\ val a = val (fst (shr_loop w a off)) * 2 ^ off + m /\
            snd (shr_loop w a off) = m * 2 ^ (w - off).
Proof.
  intros Ho. HB.
  pose proof (@base_split off ltac:(lia)) as HBs.
  assert (P1 : 0 < 2 ^ off) by (apply Z.pow_pos_nonneg; lia).
  assert (P2 : 0 < 2 ^ (w - off)) by (apply Z.pow_pos_nonneg; lia).
  induction a as [|x a IH]; intros Ha.
  - cbn [shr_loop fst snd UBig_Spec.val]. split; [constructor|]. exists 0. lia.
  - apply digits_ok_cons in Ha. destruct Ha as [Hx Ha].
    destruct (IH Ha) as (H1 & m & Hm & Hv & Hc). cbn [shr_loop].
    destruct (shr_loop w a off) as [r c] eqn:E. cbn [fst snd] in *.
    rewrite Hc, Z.shiftr_div_pow2, Z.shiftl_mul_pow2 by lia.
    assert (Hq : 0 <= x / 2 ^ off < 2 ^ (w - off)).
    { split; [apply Z.div_pos; lia|apply Z.div_lt_upper_bound; lia]. }
    rewrite Z.lor_comm, lor_add_disjoint by lia.
    pose proof (Z.div_mod x (2 ^ off) ltac:(lia)) as Hdm.
    pose proof (Z.mod_pos_bound x (2 ^ off) P1) as Hmm.
    split.
    + apply digits_ok_cons. split; [nia|auto].
    + exists (x mod 2 ^ off). split; [exact Hmm|]. split.
      * cbn [UBig_Spec.val]. rewrite Hv. nia.
      * unfold tr. rewrite HBs.
        rewrite (Z.mul_comm (2 ^ (w - off)) (2 ^ off)), Z.mul_mod_distr_r by lia. reflexivity.
Qed.

Lemma val_skipn_div k a : digits_ok a -> val (skipn k a) = val a / B ^ Z.of_nat k.
Proof.
  intros Ha. HB. rewrite (val_cut w k a).
  pose proof (powB_pos HB k) as HP. pose proof (val_bound HB (digits_ok_firstn k Ha)) as Hf.
  rewrite firstn_length in Hf.
  assert (B ^ Z.of_nat (Nat.min k (length a)) <= B ^ Z.of_nat k) by (apply Z.pow_le_mono_r; lia).
  apply (Z.div_unique_pos _ _ _ (val (firstn k a))); [lia|ring].
Qed.

Lemma shr_loop_div a off : 0 <= off < w -> digits_ok a ->
  canon (shrink (fst (shr_loop w a off))) /\ val (shrink (fst (shr_loop w a off))) = val a / 2 ^ off.
Proof.
  intros Ho Ha. destruct (shr_loop_spec Ho Ha) as (H1 & m & Hm & Hv & _).
  split; [apply shrink_canon; auto|]. rewrite val_shrink.
  apply (Z.div_unique_pos _ _ _ m); [auto|lia].
Qed.

Lemma shr_parts a n : 0 <= n -> digits_ok a ->
  val a / 2 ^ n = val (skipn (Z.to_nat (n / w)) a) / 2 ^ (n mod w).
Proof.
  intros Hn Ha. HB. rewrite (pow_div_mod Hn), val_skipn_div by auto.
  pose proof (Z.div_pos n w Hn Hw). pose proof (Z.mod_pos_bound n w Hw).
  rewrite Z2Nat.id by lia.
  rewrite Z.div_div; [reflexivity| |]; [|apply Z.pow_pos_nonneg; lia].
  apply Z.pow_nonzero; lia.
Qed.

Lemma small_count n : 0 <= n -> Z.to_nat (n / w) = 0%nat -> n mod w = n.
Proof.
  intros Hn E. pose proof (Z.div_pos n w Hn Hw). pose proof (Z.div_mod n w ltac:(lia)).
  assert (n / w = 0) as E' by lia. rewrite E' in *. lia.
Qed.

Lemma skipn_all_zero k a : (length a <= k)%nat -> skipn k a = ([] : list Z).
Proof. apply skipn_all2. Qed.

Lemma ushr_assign_spec a n : canon a -> 0 <= n ->
  canon (ushr_assign w a n) /\ val (ushr_assign w a n) = val a / 2 ^ n.
Proof.
  intros Ha Hn. HB. pose proof (Z.mod_pos_bound n w Hw) as Hm.
  unfold ushr_assign. destruct a as [|x a].
  - split; [apply canon_nil|]. cbn [UBig_Spec.val]. rewrite Zdiv_0_l. reflexivity.
  - cbv zeta. set (l := x :: a) in *. rewrite (shr_parts Hn (canon_ok Ha)).
    destruct (Nat.eqb_spec (Z.to_nat (n / w)) 0) as [E|E].
    + rewrite E, (small_count Hn E). cbn [skipn].
      destruct (Z.eqb_spec n 0) as [->|Hn0].
      * change (2 ^ 0) with 1. rewrite Z.div_1_r. auto.
      * apply shr_loop_div; auto. rewrite (small_count Hn E) in Hm. lia.
    + destruct (Nat.leb_spec (length l) (Z.to_nat (n / w))) as [Hl|Hl].
      * rewrite skipn_all_zero by exact Hl. cbn [UBig_Spec.val]. rewrite Zdiv_0_l.
        split; [apply canon_nil|reflexivity].
      * destruct (Z.eqb_spec (n mod w) 0) as [->|Hm0].
        -- change (2 ^ 0) with 1. rewrite Z.div_1_r. split; [apply canon_skipn; auto|reflexivity].
        -- apply shr_loop_div; [lia|]. apply digits_ok_skipn. auto.
Qed.

(** By-value right shift: exact unless the count is at least one digit and not a
    whole number of digits, in which case (and with digits left) it is
    undefined. *)
Lemma ushr_spec a n : canon a -> 0 <= n ->
  match ushr w a n with
  | Some r => canon r /\ val r = val a / 2 ^ n
  | None => w <= n /\ n mod w <> 0 /\ 2 ^ n <= B * val a
  end.
Proof.
  intros Ha Hn. HB. pose proof (Z.mod_pos_bound n w Hw) as Hm.
  unfold ushr. destruct a as [|x a].
  - split; [apply canon_nil|]. cbn [UBig_Spec.val]. rewrite Zdiv_0_l. reflexivity.
  - cbv zeta. set (l := x :: a) in *. rewrite (shr_parts Hn (canon_ok Ha)).
    destruct (Nat.leb_spec (length l) (Z.to_nat (n / w))) as [Hl|Hl].
    + rewrite skipn_all_zero by exact Hl. cbn [UBig_Spec.val]. rewrite Zdiv_0_l.
      split; [apply canon_nil|reflexivity].
    + destruct (Nat.eqb_spec (Z.to_nat (n / w)) 0) as [E|E].
      * rewrite E, (small_count Hn E). cbn [skipn].
        destruct (Z.eqb_spec n 0) as [->|Hn0].
        -- change (2 ^ 0) with 1. rewrite Z.div_1_r. auto.
        -- apply shr_loop_div; auto. rewrite (small_count Hn E) in Hm. lia.
      * destruct (Z.eqb_spec (n mod w) 0) as [Hm0|Hm0].
        -- rewrite Hm0. change (2 ^ 0) with 1. rewrite Z.div_1_r. split; [apply canon_skipn; auto|reflexivity].
        -- split; [|split; [exact Hm0|]].
           ++ destruct (Z_lt_ge_dec n w) as [Hlt|]; [|lia]. rewrite Z.div_small in E by lia. lia.
           ++ pose proof (canon_lower HB Ha ltac:(unfold l; congruence)) as Hlow.
              rewrite (pow_div_mod Hn).
              assert (H1 : 2 ^ (n mod w) <= B) by (unfold base; apply Z.pow_le_mono_r; lia).
              assert (H2 : B ^ (n / w) <= B ^ (Z.of_nat (length l) - 1)).
              { apply Z.pow_le_mono_r; [lia|]. pose proof (Z.div_pos n w Hn Hw). lia. }
              assert (0 < B ^ (n / w)) by (apply Z.pow_pos_nonneg; [lia|apply Z.div_pos; lia]).
              assert (0 < 2 ^ (n mod w)) by (apply Z.pow_pos_nonneg; lia). nia.
Qed.

Lemma ushl_digits_spec a k : canon a ->
  canon (ushl_digits a k) /\ val (ushl_digits a k) = val a * B ^ Z.of_nat k.
Proof.
  intros Ha. unfold ushl_digits. destruct a as [|x a].
  - split; [apply canon_nil|cbn; lia].
  - split; [apply canon_prepend0; [auto|congruence]|]. rewrite val_app, val_repeat0, repeat_length. ring.
Qed.
Lemma ushr_digits_spec a k : canon a ->
  canon (ushr_digits a k) /\ val (ushr_digits a k) = val a / B ^ Z.of_nat k.
Proof.
  intros Ha. unfold ushr_digits. destruct (Nat.leb_spec (length a) k).
  - rewrite <- val_skipn_div by auto. rewrite skipn_all2 by lia. split; [apply canon_nil|reflexivity].
  - rewrite <- val_skipn_div by auto. split; [apply canon_skipn; auto|reflexivity].
Qed.

(** ** Native conversions *)
Lemma of_uint_spec f : forall v, 0 <= v < B ^ Z.of_nat f -> denotes B (of_uint w f v) v.
Proof.
  induction f as [|f IH]; intros v Hv; HB; cbn [of_uint].
  - change (B ^ Z.of_nat 0) with 1 in Hv. destruct (Z.eqb_spec v 0) as [->|]; [|lia].
    exists []. split; [reflexivity|]. split; [apply canon_nil|reflexivity].
  - destruct (Z.eqb_spec v 0) as [->|Hn].
    + exists []. split; [reflexivity|]. split; [apply canon_nil|reflexivity].
    + rewrite Nat2Z.inj_succ, Z.pow_succ_r in Hv by lia.
      destruct (IH (v / B)) as (l & -> & Hc & Hvl).
      { split; [apply Z.div_pos; lia|apply Z.div_lt_upper_bound; lia]. }
      cbn [obind]. exists (v mod B :: l). split; [reflexivity|].
      pose proof (Z.div_mod v B ltac:(lia)) as Hdm. pose proof (Z.mod_pos_bound v B ltac:(lia)) as Hm.
      split.
      * apply canon_cons; auto. intros -> E. cbn [UBig_Spec.val] in Hvl. rewrite <- Hvl, E in Hdm. lia.
      * cbn [UBig_Spec.val]. lia.
Qed.

Lemma convert_to_spec m a : 0 < m -> convert_to w m a = val a mod m.
Proof.
  intros Hm. unfold convert_to. induction a as [|x a IH]; cbn [fold_right UBig_Spec.val].
  - rewrite Z.mod_0_l by lia. reflexivity.
  - rewrite IH. rewrite Z.add_mod_idemp_l by lia.
    rewrite (Z.add_comm _ x). rewrite Z.add_mod by lia. rewrite Z.mul_mod_idemp_l by lia.
    rewrite <- Z.add_mod by lia. f_equal. ring.
Qed.

Lemma round_trip_native f m v : 0 <= v < B ^ Z.of_nat f -> v < m ->
  exists l, of_uint w f v = Some l /\ canon l /\ val l = v /\ convert_to w m l = v.
Proof.
  intros Hv Hm. destruct (of_uint_spec Hv) as (l & E & Hc & Hvl).
  exists l. repeat split; auto; try apply Hc. rewrite convert_to_spec by lia. rewrite Hvl.
  apply Z.mod_small. lia.
Qed.

(** Equality with a native value: equal numbers always compare equal. *)
Lemma eq_native_complete a : digits_ok a -> eq_native w a (val a) = true.
Proof.
  induction a as [|x a IH]; intros Ha; HB; cbn [eq_native UBig_Spec.val]; [reflexivity|].
  apply digits_ok_cons in Ha. destruct Ha as [Hx Ha]. pose proof (val_nonneg HB Ha).
  destruct (Z.ltb_spec (x + B * val a) x); [nia|].
  replace ((x + B * val a - x) / B) with (val a); [auto|].
  replace (x + B * val a - x) with (val a * B) by ring. rewrite Z.div_mul by lia. reflexivity.
Qed.

(** Comparison with a native value of [nd] digits: right when the number has
    more digits than the native type. *)
Lemma cmp_native_long nd a t : canon a -> (nd < length a)%nat -> 0 <= t < B ^ Z.of_nat nd ->
  cmp_native w nd a t = (val a ?= t).
Proof.
  intros Ha Hl Ht. HB. unfold cmp_native.
  destruct (Nat.compare_spec (length a) nd); try lia.
  symmetry. apply Z.compare_gt_iff.
  assert (Hn : a <> []) by (intros ->; cbn in Hl; lia).
  pose proof (canon_lower HB Ha Hn).
  assert (B ^ Z.of_nat nd <= B ^ (Z.of_nat (length a) - 1)) by (apply Z.pow_le_mono_r; lia). lia.
Qed.
Lemma cmp_native_zero nd t : 0 <= t -> cmp_native w nd [] t = (0 ?= t) \/ (nd <> 0%nat /\ t = 0).
Proof.
  intros Ht. unfold cmp_native. cbn [length]. destruct nd; cbn [Nat.compare].
  - left. cbn [cmp_native_loop]. destruct (Z.eqb_spec t 0) as [->|]; [reflexivity|].
    symmetry. apply Z.compare_lt_iff. lia.
  - destruct (Z.eq_dec t 0); [right; auto|left]. symmetry. apply Z.compare_lt_iff. lia.
Qed.

(** ** Addition of a native value *)
Lemma addT_loop1_spec m a : forall t, digits_ok a -> 0 <= t -> t + B <= m -> B * B <= m ->
  let '(done, rest, tf, oF) := addT_loop1 w m a t false in
  digits_ok (done ++ rest) /\ length (done ++ rest) = length a /\ oF = false /\ 0 <= tf < m /\
  (tf <> 0 -> rest = []) /\ val (done ++ rest) + B ^ Z.of_nat (length a) * tf = val a + t.
Proof.
  induction a as [|x a IH]; intros t Ha Ht Htm Hm; HB.
  - cbn [addT_loop1 app length UBig_Spec.val]. rewrite Z.pow_0_r.
    split; [constructor|]. repeat split; lia.
  - apply digits_ok_cons in Ha. destruct Ha as [Hx Ha]. cbn [addT_loop1].
    destruct (Z.eqb_spec t 0) as [->|Hn].
    + cbn [app]. split; [apply digits_ok_cons; auto|]. repeat split; try lia.
    + assert (E : add_carry3_in m x t false = (x + t, false)).
      { unfold add_carry3_in. cbn [b2z]. cbv zeta. rewrite Z.add_0_r, (Z.mod_small x) by lia.
        destruct (Z.eqb_spec x 0) as [->|]; [reflexivity|].
        rewrite Z.mod_small by lia. destruct (Z.ltb_spec (x + t) x); [lia|reflexivity]. }
      rewrite E.
      pose proof (Z.div_mod (x + t) B ltac:(lia)) as Hdm.
      pose proof (Z.mod_pos_bound (x + t) B ltac:(lia)) as Hmb.
      assert (Hq : 0 <= (x + t) / B) by (apply Z.div_pos; lia).
      specialize (IH ((x + t) / B) Ha Hq ltac:(nia) Hm).
      destruct (addT_loop1 w m a ((x + t) / B) false) as [[[done rest] tf] oF].
      destruct IH as (H1 & H2 & H3 & H4 & H5 & H6). cbn [app length UBig_Spec.val].
      split; [apply digits_ok_cons; split; [apply tr_range; auto|auto]|].
      repeat split; auto; try lia.
      rewrite Nat2Z.inj_succ, Z.pow_succ_r by lia. unfold tr. nia.
Qed.

Lemma addT_loop2_of_uint f : forall t, 0 <= t -> addT_loop2 w f t false = of_uint w f t.
Proof.
  induction f as [|f IH]; intros t Ht; HB; cbn [addT_loop2 of_uint]; [reflexivity|].
  destruct (Z.eqb_spec t 0); [reflexivity|].
  unfold add_carry1. cbv zeta. cbn [b2z]. rewrite Z.add_0_r.
  rewrite (tr_small (w := w) (x := tr w t)) by (apply tr_range; auto).
  replace (if tr w t =? 0 then false else false) with false by (destruct (tr w t =? 0); reflexivity).
  rewrite IH by (apply Z.div_pos; lia). reflexivity.
Qed.

(** Adding a native value is exact unless it lies within one digit of the top of
    its (at least two digits wide) calculation type. *)
Lemma addT_spec nd a t : canon a -> (2 <= nd)%nat -> 0 <= t -> t + B <= B ^ Z.of_nat nd ->
  denotes B (addT w nd a t) (val a + t).
Proof.
  intros Ha Hnd Ht Htm. HB. unfold addT. cbv zeta.
  assert (Hm : B * B <= B ^ Z.of_nat nd).
  { replace (B * B) with (B ^ 2) by ring. apply Z.pow_le_mono_r; lia. }
  pose proof (addT_loop1_spec (canon_ok Ha) Ht Htm Hm) as H.
  destruct (addT_loop1 w (B ^ Z.of_nat nd) a t false) as [[[done rest] tf] oF].
  destruct H as (H1 & H2 & -> & H4 & H5 & H6).
  destruct (Z.eqb_spec tf 0) as [->|Hn].
  - exists (done ++ rest). split; [reflexivity|]. rewrite Z.mul_0_r, Z.add_0_r in H6.
    split; [|exact H6]. destruct a as [|x a].
    + destruct (done ++ rest); [apply canon_nil|cbn in H2; lia].
    + apply (canon_of_lower HB); [auto|intros E; rewrite E in H2; cbn in H2; lia|].
      rewrite H2, H6. pose proof (canon_lower HB Ha ltac:(congruence)). lia.
  - specialize (H5 Hn). subst rest. rewrite app_nil_r in *.
    rewrite addT_loop2_of_uint by lia.
    destruct (@of_uint_spec nd tf ltac:(lia)) as (r & -> & Hc & Hv). cbn [obind].
    exists (done ++ r). split; [reflexivity|]. split.
    + assert (Hr : r <> []) by (intros ->; cbn in Hv; lia).
      clear - HB H1 Hc Hr. induction done as [|y d IH]; [exact Hc|].
      apply digits_ok_cons in H1. destruct H1 as [Hy Hd]. cbn [app].
      apply canon_cons; auto. intros E. apply app_eq_nil in E. tauto.
    + rewrite val_app, Hv, H2. exact H6.
Qed.

End Shift.
