(** Division of any size: what every result that is produced satisfies, when a
    result is produced, and when none can be. *)
From Verif Require Import Base UBig_Model UBig_Spec UBig_Basics UBig_AddSub UBig_Mul UBig_Kara
  UBig_Div UBigDiv_Model.
Local Open Scope Z_scope.

Lemma dbind_ok {A C} (m : dres A) (k : A -> dres C) y :
  dbind m k = DOk y -> exists x, m = DOk x /\ k x = DOk y.
Proof. destruct m; cbn [dbind]; intros H; try discriminate. eauto. Qed.
Lemma lift_ok {A} (o : option A) x : lift o = DOk x -> o = Some x.
Proof. destruct o; cbn [lift]; intros H; congruence. Qed.

Section Loose.
Variable w : Z.
Hypothesis Hw : 0 < w.
Notation B := (base w).
Notation val := (val B).
Notation digits_ok := (digits_ok B).
Notation canon := (canon B).
Let HB : 2 <= B := base_ge2 Hw.
Ltac HB := let h := fresh "HB2_" in pose proof HB as h.
Local Hint Resolve canon_ok : core.

(** ** Operations on digit sequences that need not be canonical *)

Lemma last_ok a : digits_ok a -> a <> [] -> 0 <= last a 0 < B.
Proof.
  induction a as [|x a IH]; intros H Hn; [congruence|].
  apply digits_ok_cons in H. destruct H as [H1 H2].
  destruct a as [|y a]; [exact H1|]. apply IH; [exact H2|congruence].
Qed.

Lemma size_diff_any a b d : digits_ok a -> digits_ok b -> b <> [] -> (length b <= length a)%nat ->
  size_diff w a b = Some d -> val a + val b < B ^ Z.of_nat (length a + d).
Proof.
  intros Ha Hb Hnb Hl H. unfold size_diff in H. HB.
  pose proof (val_bound HB Ha) as Hva. pose proof (val_bound HB Hb) as Hvb.
  destruct (Nat.eqb_spec (length a) (length b)) as [E|E].
  - assert (Hna : a <> []) by (destruct a, b; cbn in *; congruence).
    assert (Hd : d = Z.to_nat (trc w (last a 0 + last b 0 + 1) / B)).
    { destruct a, b; congruence. }
    clear H.
    assert (Hpa : (0 < length a)%nat) by (destruct a; [congruence|cbn [length]; lia]).
    pose proof (last_ok Ha Hna) as Hla. pose proof (last_ok Hb Hnb) as Hlb.
    unfold trc in Hd. rewrite Z.mod_small in Hd by nia.
    rewrite (val_last w Hna), (val_last w Hnb).
    pose proof (val_bound HB (digits_ok_removelast Ha)) as Hra.
    pose proof (val_bound HB (digits_ok_removelast Hb)) as Hrb.
    rewrite removelast_length' in Hra by auto. rewrite removelast_length' in Hrb by auto.
    replace (Z.of_nat (length a - 1)) with (Z.of_nat (length a) - 1) in Hra by lia.
    replace (Z.of_nat (length b - 1)) with (Z.of_nat (length a) - 1) in Hrb by lia.
    rewrite <- E.
    assert (HP : B ^ Z.of_nat (length a) = B * B ^ (Z.of_nat (length a) - 1)).
    { rewrite <- Z.pow_succ_r by lia. f_equal. lia. }
    set (P := B ^ (Z.of_nat (length a) - 1)) in *.
    destruct (Z_lt_ge_dec (last a 0 + last b 0 + 1) B) as [Hc|Hc].
    + rewrite Z.div_small in Hd by lia. cbn in Hd. subst d. rewrite Nat.add_0_r, HP. nia.
    + assert (Hq : (last a 0 + last b 0 + 1) / B = 1).
      { symmetry. apply (Z.div_unique_pos _ _ _ (last a 0 + last b 0 + 1 - B)); lia. }
      rewrite Hq in Hd. change (Z.to_nat 1) with 1%nat in Hd. subst d.
      rewrite Nat.add_1_r, Nat2Z.inj_succ, Z.pow_succ_r, HP by lia. nia.
  - assert (Hlt : (length b < length a)%nat) by lia.
    destruct (all_max_from w (length b) a) eqn:Em; injection H as <-.
    + rewrite Nat.add_1_r, Nat2Z.inj_succ, Z.pow_succ_r by lia.
      assert (B ^ Z.of_nat (length b) <= B ^ Z.of_nat (length a)) by (apply Z.pow_le_mono_r; lia). nia.
    + rewrite Nat.add_0_r.
      pose proof (not_all_max_val Hw Ha Em) as Hm.
      rewrite (@val_split w (length b) a) by lia.
      pose proof (val_bound HB (digits_ok_firstn (length b) Ha)) as Hf.
      rewrite firstn_length_le in Hf by lia.
      rewrite skipn_length in Hm.
      replace (Z.of_nat (length a)) with (Z.of_nat (length b) + Z.of_nat (length a - length b)) by lia.
      rewrite Z.pow_add_r by lia. nia.
Qed.

Lemma add_pad_any a b d : digits_ok a -> digits_ok b -> (length b <= length a + d)%nat ->
  val a + val b < B ^ Z.of_nat (length a + d) ->
  exists t, add_buf w (a ++ repeat 0 d) b false = Some t /\
    digits_ok (if Nat.eqb d 0 then t else shrink t) /\
    val (if Nat.eqb d 0 then t else shrink t) = val a + val b.
Proof.
  intros Ha Hb Hl Hv. HB.
  destruct (@add_buf_ok w Hw (a ++ repeat 0 d) b false) as (t & Et & Ht & Hlt & Hvt).
  - apply pad_ok; auto.
  - auto.
  - rewrite pad_length; lia.
  - rewrite pad_length, pad_val. cbn [b2z]. lia.
  - rewrite pad_val in Hvt. cbn [b2z] in Hvt.
    exists t. split; [exact Et|]. destruct (Nat.eqb_spec d 0) as [->|Hd].
    + split; [auto|lia].
    + split; [apply canon_ok, shrink_canon; auto|]. rewrite val_shrink. lia.
Qed.

Lemma add_base_ord_any a b : digits_ok a -> digits_ok b -> (length b <= length a)%nat ->
  exists t, add_base_ord w a b = Some t /\ digits_ok t /\ val t = val a + val b.
Proof.
  intros Ha Hb Hl. unfold add_base_ord. destruct b as [|y b].
  - exists a. cbn [UBig_Spec.val]. repeat split; [auto|lia].
  - destruct (@size_diff_some w a (y :: b)) as [d Ed]; [congruence|auto|].
    rewrite Ed. cbn [obind].
    pose proof (size_diff_any Ha Hb ltac:(congruence) Hl Ed) as Hv.
    destruct (@add_pad_any a (y :: b) d) as (t & Et & Hc & Hvt); auto.
    + cbn [length] in *; lia.
    + rewrite Et. cbn [obind]. eexists. split; [reflexivity|]. split; [exact Hc|exact Hvt].
Qed.
Lemma add_base_any a b : digits_ok a -> digits_ok b ->
  exists t, add_base w a b = Some t /\ digits_ok t /\ val t = val a + val b.
Proof.
  intros Ha Hb. unfold add_base. destruct (Nat.ltb_spec (length a) (length b)).
  - rewrite Z.add_comm. apply add_base_ord_any; auto; lia.
  - apply add_base_ord_any; auto.
Qed.

Lemma size_need_any a b n : digits_ok a -> digits_ok b -> a <> [] -> b <> [] ->
  size_need w a b = Some n ->
  (length a <= n)%nat /\ (length b <= n)%nat /\ val a + val b < B ^ Z.of_nat n.
Proof.
  intros Ha Hb Hna Hnb H. unfold size_need in H.
  destruct (Nat.ltb_spec (length a) (length b)) as [Hl|Hl];
    apply obind_some in H; destruct H as (d & Ed & H); injection H as <-.
  - pose proof (size_diff_any Hb Ha Hna ltac:(lia) Ed). repeat split; lia.
  - pose proof (size_diff_any Ha Hb Hnb Hl Ed). repeat split; lia.
Qed.

Lemma add_to_base_any a b : digits_ok a -> digits_ok b ->
  exists t, add_to_base w a b = Some t /\ digits_ok t /\ val t = val a + val b /\
    (canon a -> a <> [] -> canon t).
Proof.
  intros Ha Hb. unfold add_to_base. destruct b as [|y b].
  - exists a. cbn [UBig_Spec.val]. repeat split; auto; try lia; try tauto; apply H.
  - destruct a as [|x a].
    + exists (y :: b). repeat split; auto; congruence.
    + destruct (@size_need_some w (x :: a) (y :: b)) as [n En]; [congruence|congruence|].
      rewrite En. cbn [obind].
      destruct (size_need_any Ha Hb ltac:(congruence) ltac:(congruence) En) as (H1 & H2 & H3).
      set (d := (n - length (x :: a))%nat).
      assert (Hn : n = (length (x :: a) + d)%nat) by lia.
      destruct (@add_pad_any (x :: a) (y :: b) d) as (t & Et & Hc & Hvt); auto.
      * lia.
      * rewrite <- Hn. auto.
      * cbv zeta. rewrite Et. cbn [obind]. eexists. split; [reflexivity|].
        split; [exact Hc|]. split; [exact Hvt|]. intros Ca _.
        destruct (@add_padded w Hw (x :: a) (y :: b) d) as (t' & Et' & Hc' & _); auto; try lia; try congruence.
        -- rewrite Et in Et'. injection Et' as <-. exact Hc'.
Qed.

Lemma mul_base_ord_any a b : digits_ok a -> digits_ok b ->
  denotes B (mul_base_ord w a b) (val a * val b).
Proof.
  intros Ha Hb. HB. unfold mul_base_ord, mul_buf.
  destruct (low_zeros a) as [za a'] eqn:Ea. destruct (low_zeros b) as [zb b'] eqn:Eb.
  apply low_zeros_spec in Ea, Eb. destruct Ea as [Ea _], Eb as [Eb _].
  assert (Ha' : digits_ok a') by (rewrite Ea in Ha; apply digits_ok_app in Ha; tauto).
  assert (Hb' : digits_ok b') by (rewrite Eb in Hb; apply digits_ok_app in Hb; tauto).
  assert (Hla : length a = (za + length a')%nat) by (rewrite Ea, app_length, repeat_length; lia).
  assert (Hlb : length b = (zb + length b')%nat) by (rewrite Eb, app_length, repeat_length; lia).
  rewrite skipn_repeat.
  replace (length a + length b - (za + zb))%nat with (length a' + length b')%nat by lia.
  destruct (@mul_rows_spec w Hw b' (repeat 0 (length a' + length b')) a') as (r & E & Hr & Hlr & Hvr); auto.
  - apply digits_ok_repeat0; lia.
  - rewrite repeat_length; lia.
  - rewrite val_repeat0, repeat_length, Z.add_0_l. apply (val_mul_bound Hw); auto.
  - cbv zeta. rewrite E. cbn [obind]. rewrite val_repeat0 in Hvr.
    eexists. split; [reflexivity|].
    assert (Hd : digits_ok (repeat 0 (za + zb) ++ r)).
    { apply digits_ok_app. split; [apply digits_ok_repeat0; lia|auto]. }
    split; [apply shrink_canon; auto|]. rewrite val_shrink, val_app, val_repeat0, repeat_length, Hvr.
    rewrite Ea, Eb, !val_app, !val_repeat0, !repeat_length, Nat2Z.inj_add, Z.pow_add_r by lia. ring.
Qed.
Lemma mul_base_any a b : digits_ok a -> digits_ok b -> denotes B (mul_base w a b) (val a * val b).
Proof.
  intros Ha Hb. unfold mul_base. destruct (Nat.ltb _ _).
  - rewrite Z.mul_comm. apply mul_base_ord_any; auto.
  - apply mul_base_ord_any; auto.
Qed.

Lemma fast_mul_f_any thr f : forall a b r, digits_ok a -> digits_ok b ->
  fast_mul_f w thr f a b = Some r -> canon r /\ val r = val a * val b.
Proof.
  induction f as [|f IH]; intros a b r Ha Hb H; cbn [fast_mul_f] in H;
    destruct (Nat.ltb _ thr).
  - eapply denotes_inv; [apply mul_base_any; auto|exact H].
  - discriminate.
  - eapply denotes_inv; [apply mul_base_any; auto|exact H].
  - cbv zeta in H. set (s := split_point (length a) (length b)) in *. HB.
    pose proof (shrink_canon (digits_ok_firstn s Ha)) as Hal.
    pose proof (shrink_canon (digits_ok_firstn s Hb)) as Hbl.
    pose proof (digits_ok_skipn s Ha) as Hah. pose proof (digits_ok_skipn s Hb) as Hbh.
    apply obind_some in H. destruct H as (high & E1 & H).
    apply obind_some in H. destruct H as (low & E2 & H).
    apply obind_some in H. destruct H as (sa & E3 & H).
    apply obind_some in H. destruct H as (sb & E4 & H).
    apply obind_some in H. destruct H as (mid0 & E5 & H).
    apply obind_some in H. destruct H as (hl & E6 & H).
    apply obind_some in H. destruct H as (mid & E7 & H).
    apply obind_some in H. destruct H as (r1 & E8 & H).
    destruct (IH _ _ _ Hah Hbh E1) as [C1 V1].
    destruct (IH _ _ _ (canon_ok Hal) (canon_ok Hbl) E2) as [C2 V2].
    destruct (add_base_any Hah (canon_ok Hal)) as (sa' & E3' & C3 & V3).
    rewrite E3 in E3'. injection E3' as <-.
    destruct (add_base_any Hbh (canon_ok Hbl)) as (sb' & E4' & C4 & V4).
    rewrite E4 in E4'. injection E4' as <-.
    destruct (IH _ _ _ C3 C4 E5) as [C5 V5].
    destruct (denotes_inv (add_base_spec Hw C1 C2) E6) as [C6 V6].
    destruct (denotes_inv (usub_spec Hw C5 C6) E7) as [C7 V7].
    pose proof (@offset_add_spec w Hw low high (s * 2) ltac:(auto) ltac:(auto)) as S1. rewrite E8 in S1.
    destruct S1 as [C8 V8].
    pose proof (@offset_add_spec w Hw r1 mid s ltac:(auto) ltac:(auto)) as S2. rewrite H in S2.
    destruct S2 as [C9 V9]. split; [exact C9|].
    rewrite V9, V8, V7, V6, V5, V4, V3, V2, V1, !val_shrink.
    rewrite (val_cut w s a), (val_cut w s b).
    pose proof (val_nonneg HB (digits_ok_firstn s Ha)).
    pose proof (val_nonneg HB (digits_ok_firstn s Hb)).
    pose proof (val_nonneg HB (digits_ok_skipn s Ha)).
    pose proof (val_nonneg HB (digits_ok_skipn s Hb)).
    rewrite Z.max_r by nia.
    replace (Z.of_nat (s * 2)) with (Z.of_nat s + Z.of_nat s) by lia.
    rewrite Z.pow_add_r by lia. ring.
Qed.
Lemma umul_any a b r : digits_ok a -> digits_ok b -> umul w a b = Some r ->
  canon r /\ val r = val a * val b.
Proof. intros Ha Hb H. exact (fast_mul_f_any Ha Hb H). Qed.

Lemma sub_base_inv a b r : digits_ok a -> digits_ok b -> sub_base w a b = Some r ->
  canon r /\ val r = val a - val b.
Proof.
  intros Ha Hb H. HB. unfold sub_base in H. apply obind_some in H. destruct H as (t & Et & H).
  injection H as <-.
  assert (Hl : (length b <= length a)%nat).
  { destruct (le_lt_dec (length b) (length a)) as [|Hgt]; [auto|].
    rewrite sub_buf_short in Et by lia. discriminate. }
  pose proof (@sub_buf_spec w Hw a b false Ha Hb Hl) as Hs. rewrite Et in Hs.
  destruct Hs as (Ht & _ & Hv). cbn [b2z] in Hv.
  split; [apply shrink_canon; auto|]. rewrite val_shrink. lia.
Qed.

(** Comparison with a canonical number on one side. *)
Lemma ucompare_lt a b : digits_ok a -> canon b -> ucompare a b = Lt ->
  val a < val b /\ (length a <= length b)%nat.
Proof.
  intros Ha Hb H. HB. unfold ucompare in H.
  destruct (Nat.compare_spec (length a) (length b)) as [E|E|E]; try discriminate.
  - rewrite (cmp_digits_spec HB Ha (canon_ok Hb) E) in H. split; [exact H|lia].
  - split; [|lia]. assert (Hn : b <> []) by (destruct b; cbn in *; [lia|congruence]).
    pose proof (canon_lower HB Hb Hn). pose proof (val_bound HB Ha).
    assert (B ^ Z.of_nat (length a) <= B ^ (Z.of_nat (length b) - 1)) by (apply Z.pow_le_mono_r; lia).
    lia.
Qed.
Lemma ucompare_ge a b : ucompare a b <> Lt -> (length b <= length a)%nat.
Proof.
  unfold ucompare. destruct (Nat.compare_spec (length a) (length b)) as [E|E|E]; intros H; try lia.
  congruence.
Qed.
Lemma ucompare_gt a b : canon a -> digits_ok b -> ucompare a b = Gt -> val b < val a.
Proof.
  intros Ha Hb H. HB. unfold ucompare in H.
  destruct (Nat.compare_spec (length a) (length b)) as [E|E|E]; try discriminate.
  - rewrite (cmp_digits_spec HB (canon_ok Ha) Hb E) in H. apply Z.compare_gt_iff in H. exact H.
  - assert (Hn : a <> []) by (destruct a; cbn in *; [lia|congruence]).
    pose proof (canon_lower HB Ha Hn). pose proof (val_bound HB Hb).
    assert (B ^ Z.of_nat (length b) <= B ^ (Z.of_nat (length a) - 1)) by (apply Z.pow_le_mono_r; lia).
    lia.
Qed.

Lemma sub_one_any l : digits_ok l -> digits_ok (sub_one w l) /\ val l - 1 <= val (sub_one w l) /\
  (canon l -> canon (sub_one w l)).
Proof.
  intros H. HB. destruct l as [|x r]; cbn [sub_one].
  - split; [auto|]. split; [lia|auto].
  - apply digits_ok_cons in H. destruct H as [Hx Hr].
    set (x1 := if x =? 0 then B - 1 else x).
    assert (Hx1 : 1 <= x1 < B /\ x <= x1) by (unfold x1; destruct (Z.eqb_spec x 0); lia).
    cbv zeta. rewrite (tr_small (w := w) (x := x1 - 1)) by lia.
    destruct (Z.eqb_spec (x1 - 1) 0) as [E|E]; destruct r as [|y r]; cbn [andb removelast].
    + split; [apply digits_ok_nil|]. split; [cbn [UBig_Spec.val]; lia|]. intros _. apply canon_nil.
    + split; [apply digits_ok_cons; split; [lia|exact Hr]|].
      split; [cbn [UBig_Spec.val]; lia|]. intros C. apply canon_tail in C.
      apply (canon_cons (B := B)); [lia|exact C|congruence].
    + split; [apply digits_ok_cons; split; [lia|exact Hr]|].
      split; [cbn [UBig_Spec.val]; lia|]. intros C.
      apply (canon_cons (B := B)); [lia|apply canon_nil|intros _; lia].
    + split; [apply digits_ok_cons; split; [lia|exact Hr]|].
      split; [cbn [UBig_Spec.val]; lia|]. intros C. apply canon_tail in C.
      apply (canon_cons (B := B)); [lia|exact C|congruence].
Qed.

(** ** The schoolbook base case *)

Lemma divmod_base_sound a b q r : digits_ok a -> canon b -> b <> [] -> (length b <= length a)%nat ->
  divmod_base w a b = Some (q, r) ->
  canon q /\ canon r /\ val q = val a / val b /\ val r = val a mod val b.
Proof.
  intros Ha Hb Hnb Hge H. HB. unfold divmod_base in H.
  pose proof (canon_pos HB Hb Hnb) as Hbp.
  destruct (@no_mod_opt_spec w Hw a b) as (k & a1 & b1 & E & Ea & Eb & Hd1 & Hc1 & Hn1 & Hl1 & Hbd); auto.
  rewrite E in H. cbn [obind] in H. destruct (Nat.eqb_spec k 0) as [Ek|Ek].
  - destruct (@long_div_spec w Hw a b) as (q' & r' & E1 & Hq & Hr & Hvq & Hvr); auto.
    rewrite E1 in H. cbn [obind] in H. injection H as <- <-. rewrite val_shrink.
    split; [auto|]. split; [apply shrink_canon; auto|]. auto.
  - rewrite <- Ea, <- Eb in H.
    destruct (long_div_spec Hw Hd1 Hc1 Hn1 Hl1) as (q' & r' & E1 & Hq & Hr & Hvq & Hvr).
    rewrite E1 in H. cbn [obind] in H.
    apply obind_some in H. destruct H as (p & Ep & H).
    apply obind_some in H. destruct H as (r2 & Er & H). injection H as <- <-.
    destruct (fast_mul_f_any (canon_ok Hq) (canon_ok Hb) Ep) as [Cp Vp].
    destruct (sub_base_inv Ha (canon_ok Cp) Er) as [Cr Vr].
    pose proof (val_nonneg HB (canon_ok Cr)) as Ht0.
    rewrite <- Hvq in Hbd.
    pose proof (Z.div_mod (val a) (val b) ltac:(lia)) as Hdm.
    pose proof (Z.mod_pos_bound (val a) (val b) ltac:(lia)) as Hmb.
    assert (val q' = val a / val b) by nia.
    split; [auto|]. split; [auto|]. split; [auto|]. nia.
Qed.

Lemma divmod_base_total a b : digits_ok a -> canon b -> b <> [] -> (length b <= length a <= 63)%nat ->
  (2 * length b <= length a + 2)%nat ->
  exists q r, divmod_base w a b = Some (q, r).
Proof.
  intros Ha Hb Hnb Hl H2. HB. unfold divmod_base.
  destruct (@no_mod_opt_exact_z w Hw a b) as (k & E & Hc1 & Hn1 & Hl1 & Hbd & Hz); auto; try lia.
  { apply short_divisor_z; lia. }
  rewrite E. cbn [obind]. destruct (Nat.eqb_spec k 0) as [Ek|Ek].
  - destruct (@long_div_spec w Hw a b) as (q' & r' & E1 & _); auto; try lia.
    rewrite E1. cbn [obind]. eauto.
  - destruct (long_div_spec Hw (digits_ok_skipn k Ha) Hc1 Hn1 Hl1) as (q & r & E1 & Hq & Hr & Hvq & Hvr).
    rewrite E1. cbn [obind].
    pose proof (canon_pos HB Hb Hnb) as Hbp.
    pose proof (val_bound HB Ha) as Ha0.
    rewrite Hbd in Hvq.
    pose proof (Z.mul_div_le (val a) (val b) Hbp) as Hle.
    destruct (@umul_small w Hw q b Hq Hb) as (p & Ep & Cp & Vp).
    { lia. }
    unfold umul in Ep. rewrite Ep. cbn [obind].
    destruct (@sub_base_spec w Hw a p) as (r2 & Er & Cr & Vr); auto.
    + apply (canon_length_le Hw); auto. nia.
    + nia.
    + rewrite Er. cbn [obind]. eauto.
Qed.

End Loose.

Lemma half_two n : (n <= 2 * ((n + 1) / 2) <= n + 1)%nat.
Proof.
  pose proof (Nat.div_mod (n + 1) 2 ltac:(lia)).
  pose proof (Nat.mod_upper_bound (n + 1) 2 ltac:(lia)). lia.
Qed.
Lemma split_len la lb : (0 < lb)%nat -> (32 < la)%nat -> ((lb + 1) / 2 * 3 < la)%nat ->
  let half := ((lb + 1) / 2)%nat in
  let k := if Nat.ltb (half * 4) la then (la / 2)%nat else half in
  (1 <= k)%nat /\ (k + lb < la)%nat.
Proof.
  intros Hb Ha H half k. pose proof (half_two lb) as Hh. fold half in H, Hh.
  unfold k. destruct (Nat.ltb_spec (half * 4) la) as [H4|H4]; [|lia].
  pose proof (Nat.div_mod la 2 ltac:(lia)).
  pose proof (Nat.mod_upper_bound la 2 ltac:(lia)). lia.
Qed.

Section FastDiv.
Variable w : Z.
Hypothesis Hw : 0 < w.
Variable ediv : nat -> nat.
Hypothesis Hed : forall n, (21 <= n)%nat -> (1 <= ediv n < n)%nat.
Notation B := (base w).
Notation val := (val B).
Notation digits_ok := (digits_ok B).
Notation canon := (canon B).
Let HB : 2 <= B := base_ge2 Hw.
Ltac HB := let h := fresh "HB2_" in pose proof HB as h.
Local Hint Resolve canon_ok : core.

(** ** Every result that is produced *)

(** Dropping low digits of both operands never makes the quotient smaller. *)
Lemma skipn_div k a b : digits_ok a -> digits_ok b -> 0 < val (skipn k b) ->
  val a / val b <= val (skipn k a) / val (skipn k b).
Proof.
  intros Ha Hb Hp. HB.
  pose proof (val_bound HB (digits_ok_firstn k Ha)) as H1.
  pose proof (val_bound HB (digits_ok_firstn k Hb)) as H2.
  pose proof (val_nonneg HB (digits_ok_skipn k Ha)) as H3.
  assert (Hk : B ^ Z.of_nat (length (firstn k a)) <= B ^ Z.of_nat k).
  { apply Z.pow_le_mono_r; [lia|]. rewrite firstn_length. lia. }
  pose proof (val_cut w k a) as Ea. pose proof (val_cut w k b) as Eb.
  pose proof (powB_pos HB k) as HP.
  assert (Hbp : 0 < val b) by nia.
  pose proof (Z.mul_div_le (val a) (val b) Hbp) as Hle.
  apply Z.div_le_lower_bound; [exact Hp|].
  assert (Hq : 0 <= val a / val b) by (apply Z.div_pos; nia).
  set (Q := val a / val b) in *.
  assert (Q * (B ^ Z.of_nat k * val (skipn k b)) <= Q * val b) by nia.
  assert (B ^ Z.of_nat k * (Q * val (skipn k b)) < B ^ Z.of_nat k * (val (skipn k a) + 1)) by nia.
  assert (Q * val (skipn k b) < val (skipn k a) + 1) by nia. lia.
Qed.

Lemma fix_down_sound lf : forall p q t a b p' q',
  canon p -> digits_ok q -> digits_ok a -> canon b -> b <> [] ->
  val p = t * val b -> t <= val q -> val a / val b <= t ->
  fix_down w lf p q a b = DOk (p', q') ->
  canon p' /\ digits_ok q' /\ (canon q -> canon q') /\
  exists t', val p' = t' * val b /\ t' <= val q' /\ val a / val b <= t'.
Proof.
  induction lf as [|lf IH]; intros p q t a b p' q' Hp Hq Ha Hb Hnb Ht Htq Hqt H; cbn [fix_down] in H.
  - destruct (ucompare p a); inversion H; subst; eauto 7.
  - destruct (ucompare p a) eqn:E.
    + injection H as <- <-. eauto 7.
    + injection H as <- <-. eauto 7.
    + HB. pose proof (ucompare_gt Hw Hp Ha E) as Hgt.
      apply dbind_ok in H. destruct H as (p1 & E1 & H). apply lift_ok in E1.
      destruct (sub_base_inv Hw (canon_ok Hp) (canon_ok Hb) E1) as [C1 V1].
      destruct (sub_one_any Hw Hq) as (D1 & L1 & K1).
      pose proof (canon_pos HB Hb Hnb) as Hbp.
      pose proof (Z.mul_div_le (val a) (val b) Hbp) as Hle.
      assert (val a / val b < t) by nia.
      destruct (IH p1 (sub_one w q) (t - 1) a b p' q') as (R1 & R2 & R3 & R4); auto; try lia.
      split; [exact R1|]. split; [exact R2|]. split; [auto|exact R4].
Qed.

(** The body of [impl] once the dividend is not the smaller one. *)
Definition impl_ge lf f a b :=
  (if Nat.leb (length a) 32 then lift (divmod_base w a b)
   else
     let half := ((length b + 1) / 2)%nat in
     if Nat.leb (length a) (half * 3) then
       let k := ediv (length b) in
       dbind (lift (no_mod_opt (skipn k a) (skipn k b))) (fun '(_, a1, b1) =>
       dbind (impl w ediv lf f a1 b1) (fun '(q, _) =>
       dbind (lift (umul w q b)) (fun p =>
       dbind (fix_down w lf p q a b) (fun '(p', q') =>
       dbind (lift (sub_base w a p')) (fun r => DOk (q', r))))))
     else
       let k := if Nat.ltb (half * 4) (length a) then (length a / 2)%nat else half in
       dbind (impl w ediv lf f (skipn k a) b) (fun '(q1, r1) =>
       dbind (impl w ediv lf f (firstn k a ++ r1) b) (fun '(q2, r2) =>
       dbind (lift (add_to_base w (repeat 0 k ++ q1) q2)) (fun q => DOk (q, r2))))).
Lemma impl_S lf f a b : ucompare a b <> Lt -> impl w ediv lf (S f) a b = impl_ge lf f a b.
Proof. intros H. cbn [impl]. destruct (ucompare a b); [reflexivity|congruence|reflexivity]. Qed.
Lemma impl_S_lt lf f a b : ucompare a b = Lt -> impl w ediv lf (S f) a b = DOk ([], a).
Proof. intros H. cbn [impl]. rewrite H. reflexivity. Qed.
Lemma cmp_lt_dec (c : comparison) : {c = Lt} + {c <> Lt}.
Proof. decide equality. Qed.

Lemma impl_sound lf fuel : forall a b q r, digits_ok a -> canon b -> b <> [] ->
  impl w ediv lf fuel a b = DOk (q, r) ->
  digits_ok q /\ digits_ok r /\ val r = val a mod val b /\ val a / val b <= val q /\
  (canon a -> canon q) /\ (length r <= length b)%nat /\
  ((length b <= 20)%nat -> val q = val a / val b).
Proof.
  induction fuel as [|f IH]; intros a b q r Ha Hb Hnb H; [discriminate|]. HB.
  pose proof (canon_pos HB Hb Hnb) as Hbp.
  pose proof (val_nonneg HB Ha) as Ha0.
  destruct (cmp_lt_dec (ucompare a b)) as [Ec|Ec].
  { rewrite impl_S_lt in H by exact Ec.
    injection H as <- <-. destruct (ucompare_lt Hw Ha Hb Ec) as [H1 H2].
    rewrite Z.div_small, Z.mod_small by lia.
    split; [apply digits_ok_nil|]. split; [exact Ha|]. split; [reflexivity|].
    split; [cbn [UBig_Spec.val]; lia|]. split; [intros _; apply canon_nil|]. split; [exact H2|].
    intros _. reflexivity. }
  rewrite impl_S in H by exact Ec. unfold impl_ge in H.
  assert (Hge : (length b <= length a)%nat) by (apply ucompare_ge; exact Ec). clear Ec.
  destruct (Nat.leb_spec (length a) 32) as [H32|H32].
  { apply lift_ok in H. destruct (divmod_base_sound Hw Ha Hb Hnb Hge H) as (C1 & C2 & V1 & V2).
    split; [auto|]. split; [auto|]. split; [exact V2|]. split; [lia|]. split; [auto|]. split; [|auto].
    apply (canon_le_length Hw C2 Hb). rewrite V2.
    pose proof (Z.mod_pos_bound (val a) (val b) Hbp). lia. }
  pose proof (half_two (length b)) as Hh. cbv zeta in H.
  set (half := ((length b + 1) / 2)%nat) in *.
  destruct (Nat.leb_spec (length a) (half * 3)) as [H3|H3].
  - assert (Hlb : (21 <= length b)%nat) by lia.
    destruct (Hed Hlb) as [Hk1 Hk2]. set (k := ediv (length b)) in *.
    assert (Hsb : skipn k b <> []).
    { intros E0. apply (f_equal (@length Z)) in E0. rewrite skipn_length in E0. cbn in E0. lia. }
    pose proof (canon_skipn k Hb) as Csb.
    pose proof (digits_ok_skipn k Ha) as Dsa.
    destruct (@no_mod_opt_spec w Hw (skipn k a) (skipn k b))
      as (k2 & a1 & b1 & E & Ea & Eb & Hd1 & Hc1 & Hn1 & Hl1 & Hbd); auto.
    { rewrite !skipn_length. lia. }
    rewrite E in H. cbn [lift dbind] in H.
    apply dbind_ok in H. destruct H as ([q0 r0] & E1 & H).
    destruct (IH _ _ _ _ Hd1 Hc1 Hn1 E1) as (Dq0 & Dr0 & _ & Lq0 & Cq0 & _ & _).
    apply dbind_ok in H. destruct H as (p & E2 & H). apply lift_ok in E2.
    destruct (umul_any Hw Dq0 (canon_ok Hb) E2) as [Cp Vp].
    apply dbind_ok in H. destruct H as ([p' q'] & E3 & H).
    apply dbind_ok in H. destruct H as (r' & E4 & H). apply lift_ok in E4. injection H as <- <-.
    pose proof (skipn_div Ha (canon_ok Hb) (canon_pos HB Csb Hsb)) as Hest.
    destruct (@fix_down_sound lf p q0 (val q0) a b p' q') as (R1 & R2 & R3 & t & R4 & R5 & R6); auto; try lia.
    destruct (sub_base_inv Hw Ha (canon_ok R1) E4) as [Cr Vr].
    pose proof (val_nonneg HB (canon_ok Cr)) as Hr0.
    pose proof (Z.div_mod (val a) (val b) ltac:(lia)) as Hdm.
    pose proof (Z.mod_pos_bound (val a) (val b) ltac:(lia)) as Hmb.
    assert (Et : t = val a / val b).
    { assert (t < val a / val b + 1); [|lia].
      apply (Z.mul_lt_mono_pos_r (val b)); [exact Hbp|]. rewrite R4 in Vr. lia. }
    assert (Vr' : val r' = val a mod val b) by (rewrite Vr, R4, Et; lia).
    split; [exact R2|]. split; [auto|]. split; [exact Vr'|]. split; [lia|].
    split.
    { intros Ca. apply R3, Cq0. rewrite Ea. apply canon_skipn, canon_skipn. exact Ca. }
    split; [apply (canon_le_length Hw Cr Hb); lia|lia].
  - assert (Hlb : (0 < length b)%nat) by (destruct b; [congruence|cbn; lia]).
    destruct (@split_len (length a) (length b) Hlb H32 H3) as [Hk1 Hk2]. fold half in Hk1, Hk2.
    set (k := if Nat.ltb (half * 4) (length a) then (length a / 2)%nat else half) in *.
    apply dbind_ok in H. destruct H as ([q1 r1] & E1 & H).
    apply dbind_ok in H. destruct H as ([q2 r2] & E2 & H).
    destruct (IH _ _ _ _ (digits_ok_skipn k Ha) Hb Hnb E1) as (Dq1 & Dr1 & Vr1 & Lq1 & Cq1 & Ll1 & X1).
    assert (Dm : digits_ok (firstn k a ++ r1)) by (apply digits_ok_app; split; [apply digits_ok_firstn|]; auto).
    destruct (IH _ _ _ _ Dm Hb Hnb E2) as (Dq2 & Dr2 & Vr2 & Lq2 & _ & Ll2 & X2).
    assert (Dz : digits_ok (repeat 0 k ++ q1)).
    { apply digits_ok_app. split; [apply digits_ok_repeat0; lia|auto]. }
    destruct (add_to_base_any Hw Dz Dq2) as (s & Es & Ds & Vs & Cs).
    rewrite Es in H. cbn [lift dbind] in H. injection H as <- <-.
    rewrite val_app, val_repeat0, repeat_length in Vs.
    rewrite val_app, firstn_length_le in Vr2, Lq2, X2 by lia.
    pose proof (val_cut w k a) as Va.
    pose proof (Z.div_mod (val (skipn k a)) (val b) ltac:(lia)) as Hdm1.
    rewrite <- Vr1 in Hdm1.
    assert (Hsum : val a = (B ^ Z.of_nat k * (val (skipn k a) / val b)) * val b +
                   (val (firstn k a) + B ^ Z.of_nat k * val r1)).
    { rewrite Va. rewrite Hdm1 at 1. ring. }
    assert (Hdiv : val a / val b = B ^ Z.of_nat k * (val (skipn k a) / val b) +
                   (val (firstn k a) + B ^ Z.of_nat k * val r1) / val b).
    { rewrite Hsum at 1. rewrite Z.div_add_l by lia. reflexivity. }
    assert (Hmod : val a mod val b = (val (firstn k a) + B ^ Z.of_nat k * val r1) mod val b).
    { rewrite Hsum at 1. rewrite Z.add_comm, Z.mod_add by lia. reflexivity. }
    pose proof (powB_pos HB k) as HP.
    split; [exact Ds|]. split; [exact Dr2|]. split; [lia|]. split.
    { rewrite Vs, Hdiv.
      pose proof (Z.mul_le_mono_nonneg_l _ _ (B ^ Z.of_nat k) ltac:(lia) Lq1). lia. }
    split; [|split; [exact Ll2|intros H20; rewrite Vs, Hdiv, X1, X2 by exact H20; lia]].
    intros Ca.
    assert (Hsk : skipn k a <> []).
    { intros E0. apply (f_equal (@length Z)) in E0. rewrite skipn_length in E0. cbn in E0. lia. }
    pose proof (canon_skipn k Ca) as Csk.
    pose proof (Cq1 Csk) as Cq1'.
    assert (Hlt : val b < val (skipn k a)).
    { apply (canon_length_lt HB Hb Csk). rewrite skipn_length. lia. }
    assert (Hone : 1 <= val (skipn k a) / val b) by (apply Z.div_le_lower_bound; lia).
    assert (Hq1 : q1 <> []) by (intros ->; cbn [UBig_Spec.val] in Lq1; lia).
    apply Cs.
    + apply (canon_of_lower HB); [exact Dz|intros E0; apply app_eq_nil in E0; tauto|].
      rewrite val_app, val_repeat0, app_length, repeat_length.
      pose proof (canon_lower HB Cq1' Hq1) as Hlow.
      replace (Z.of_nat (k + length q1) - 1) with (Z.of_nat k + (Z.of_nat (length q1) - 1)) by lia.
      assert (0 < length q1)%nat by (destruct q1; [congruence|cbn; lia]).
      rewrite Z.pow_add_r by lia. rewrite Z.add_0_l.
      apply Z.mul_le_mono_nonneg_l; [lia|exact Hlow].
    + intros E0. apply app_eq_nil in E0. tauto.
Qed.

(** ** The recursion ends *)

Lemma fix_down_ends n : forall p q a b, canon p -> canon b -> b <> [] -> digits_ok a -> val p < Z.of_nat n ->
  exists t, forall lf, (n <= lf)%nat -> fix_down w lf p q a b = t /\ t <> DOut.
Proof.
  induction n as [|n IH]; intros p q a b Hp Hb Hnb Ha Hv; HB.
  - pose proof (val_nonneg HB (canon_ok Hp)). lia.
  - destruct (ucompare p a) eqn:Ec.
    + exists (DOk (p, q)). intros [|lf]; cbn [fix_down]; rewrite Ec; split; congruence.
    + exists (DOk (p, q)). intros [|lf]; cbn [fix_down]; rewrite Ec; split; congruence.
    + destruct (sub_base w p b) as [p1|] eqn:E1.
      * destruct (sub_base_inv Hw (canon_ok Hp) (canon_ok Hb) E1) as [C1 V1].
        pose proof (canon_pos HB Hb Hnb).
        destruct (IH p1 (sub_one w q) a b C1 Hb Hnb Ha ltac:(lia)) as [t Ht]. exists t.
        intros [|lf] Hlf; [lia|]. cbn [fix_down]. rewrite Ec, E1. cbn [lift dbind]. apply Ht. lia.
      * exists DUb. intros [|lf] Hlf; [lia|]. cbn [fix_down]. rewrite Ec, E1. cbn [lift dbind].
        split; congruence.
Qed.

(** The result no longer depends on the bounds once they are large enough. *)
Lemma impl_ends n : forall a b, digits_ok a -> canon b -> b <> [] -> (length a < n)%nat ->
  exists lf0 t, forall lf fuel, (lf0 <= lf)%nat -> (n <= fuel)%nat ->
    impl w ediv lf fuel a b = t /\ t <> DOut.
Proof.
  induction n as [|n IH]; intros a b Ha Hb Hnb Hn; [lia|]. HB.
  destruct (cmp_lt_dec (ucompare a b)) as [Ec|Ec].
  { exists O, (DOk ([], a)). intros lf [|f] _ Hf; [lia|]. rewrite impl_S_lt by exact Ec. split; congruence. }
  assert (Hge : (length b <= length a)%nat) by (apply ucompare_ge; exact Ec).
  destruct (Nat.leb_spec (length a) 32) as [H32|H32].
  { exists O, (lift (divmod_base w a b)). intros lf [|f] _ Hf; [lia|].
    rewrite impl_S by exact Ec. unfold impl_ge. rewrite (proj2 (Nat.leb_le _ _) H32).
    split; [reflexivity|]. destruct (divmod_base w a b); cbn [lift]; congruence. }
  pose proof (half_two (length b)) as Hh.
  set (half := ((length b + 1) / 2)%nat) in *.
  destruct (Nat.leb_spec (length a) (half * 3)) as [H3|H3].
  - assert (Hlb : (21 <= length b)%nat) by lia.
    destruct (Hed Hlb) as [Hk1 Hk2]. set (k := ediv (length b)) in *.
    assert (Hsb : skipn k b <> []).
    { intros E0. apply (f_equal (@length Z)) in E0. rewrite skipn_length in E0. cbn in E0. lia. }
    pose proof (canon_skipn k Hb) as Csb.
    pose proof (digits_ok_skipn k Ha) as Dsa.
    destruct (@no_mod_opt_spec w Hw (skipn k a) (skipn k b))
      as (k2 & a1 & b1 & E & Ea & Eb & Hd1 & Hc1 & Hn1 & Hl1 & Hbd); auto.
    { rewrite !skipn_length. lia. }
    assert (Hla1 : (length a1 < n)%nat) by (rewrite Ea, !skipn_length; lia).
    destruct (IH a1 b1 Hd1 Hc1 Hn1 Hla1) as (lf1 & t1 & H1).
    assert (Hfold : forall lf fuel, (lf1 <= lf)%nat -> (S n <= fuel)%nat ->
      impl w ediv lf fuel a b =
      dbind t1 (fun '(q, _) => dbind (lift (umul w q b)) (fun p =>
        dbind (fix_down w lf p q a b) (fun '(p', q') =>
        dbind (lift (sub_base w a p')) (fun r => DOk (q', r)))))).
    { intros lf [|f] Hl1' Hf; [lia|]. rewrite impl_S by exact Ec. unfold impl_ge. cbv zeta. fold half. fold k.
      destruct (Nat.leb_spec (length a) 32); [lia|]. rewrite (proj2 (Nat.leb_le _ _) H3).
      rewrite E. cbn [lift dbind]. destruct (H1 lf f Hl1' ltac:(lia)) as [-> _]. reflexivity. }
    destruct (H1 lf1 n (le_n _) (le_n _)) as [Ht1 Hn1'].
    destruct t1 as [[q0 r0]| |]; [|exists lf1, DUb; intros lf fuel Hl Hf; rewrite Hfold by lia;
      cbn [dbind]; split; congruence|congruence].
    destruct (impl_sound Hd1 Hc1 Hn1 Ht1) as (Dq0 & _).
    destruct (umul w q0 b) as [p|] eqn:E2.
    2:{ exists lf1, DUb. intros lf fuel Hl Hf. rewrite Hfold by lia. cbn [dbind]. rewrite E2.
        cbn [lift dbind]. split; congruence. }
    destruct (umul_any Hw Dq0 (canon_ok Hb) E2) as [Cp Vp].
    pose proof (val_nonneg HB (canon_ok Cp)) as Hp0.
    destruct (@fix_down_ends (Z.to_nat (val p + 1)) p q0 a b) as [t2 H2]; auto; [lia|].
    exists (Nat.max lf1 (Z.to_nat (val p + 1))),
      (dbind t2 (fun '(p', q') => dbind (lift (sub_base w a p')) (fun r => DOk (q', r)))).
    intros lf fuel Hl Hf. rewrite Hfold by lia. cbn [dbind]. rewrite E2. cbn [lift dbind].
    destruct (H2 lf ltac:(lia)) as [-> Ht2]. split; [reflexivity|].
    destruct t2 as [[p' q']| |]; cbn [dbind]; [|congruence|congruence].
    destruct (sub_base w a p'); cbn [lift dbind]; congruence.
  - assert (Hlb : (0 < length b)%nat) by (destruct b; [congruence|cbn; lia]).
    destruct (@split_len (length a) (length b) Hlb H32 H3) as [Hk1 Hk2]. fold half in Hk1, Hk2.
    set (k := if Nat.ltb (half * 4) (length a) then (length a / 2)%nat else half) in *.
    destruct (IH (skipn k a) b) as (lf1 & t1 & H1); auto; [apply digits_ok_skipn; auto|rewrite skipn_length; lia|].
    assert (Hfold : forall lf fuel, (lf1 <= lf)%nat -> (S n <= fuel)%nat ->
      impl w ediv lf fuel a b =
      dbind t1 (fun '(q1, r1) => dbind (impl w ediv lf (fuel - 1) (firstn k a ++ r1) b) (fun '(q2, r2) =>
       dbind (lift (add_to_base w (repeat 0 k ++ q1) q2)) (fun q => DOk (q, r2))))).
    { intros lf [|f] Hl1' Hf; [lia|]. rewrite impl_S by exact Ec. unfold impl_ge. cbv zeta. fold half. fold k.
      destruct (Nat.leb_spec (length a) 32); [lia|].
      destruct (Nat.leb_spec (length a) (half * 3)); [lia|].
      replace (S f - 1)%nat with f by lia.
      destruct (H1 lf f Hl1' ltac:(lia)) as [-> _]. reflexivity. }
    destruct (H1 lf1 n (le_n _) (le_n _)) as [Ht1 Hn1'].
    destruct t1 as [[q1 r1]| |]; [|exists lf1, DUb; intros lf fuel Hl Hf; rewrite Hfold by lia;
      cbn [dbind]; split; congruence|congruence].
    destruct (impl_sound (digits_ok_skipn k Ha) Hb Hnb Ht1) as (Dq1 & Dr1 & _ & _ & _ & Ll1 & _).
    destruct (IH (firstn k a ++ r1) b) as (lf2 & t2 & H2); auto.
    { apply digits_ok_app; split; [apply digits_ok_firstn|]; auto. }
    { rewrite app_length, firstn_length. lia. }
    exists (Nat.max lf1 lf2), (dbind t2 (fun '(q2, r2) =>
       dbind (lift (add_to_base w (repeat 0 k ++ q1) q2)) (fun q => DOk (q, r2)))).
    intros lf fuel Hl Hf. rewrite Hfold by lia. cbn [dbind].
    destruct (H2 lf (fuel - 1)%nat ltac:(lia) ltac:(lia)) as [-> Ht2]. split; [reflexivity|].
    destruct t2 as [[q2 r2]| |]; cbn [dbind]; [|congruence|congruence].
    destruct (add_to_base w (repeat 0 k ++ q1) q2); cbn [lift dbind]; congruence.
Qed.

End FastDiv.
