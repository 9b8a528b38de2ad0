(** Addition, subtraction, increment: the model computes the exact result and
    never runs off its buffer. *)
From Verif Require Import Base UBig_Model UBig_Spec UBig_Basics.
Local Open Scope Z_scope.
Local Open Scope omonad_scope.

Lemma base_ge2 w : 0 < w -> 2 <= base w.
Proof.
  intros H. unfold base. change 2 with (2 ^ 1) at 1. apply Z.pow_le_mono_r; lia.
Qed.

Section AddSub.
Variable w : Z.
Hypothesis Hw : 0 < w.
Notation B := (base w).
Notation val := (val B).
Notation digits_ok := (digits_ok B).
Notation canon := (canon B).
Let HB : 2 <= B := base_ge2 Hw.
Ltac HB := let h := fresh "HB2_" in pose proof HB as h.
Local Hint Resolve canon_ok : core.

Lemma tr_small x : 0 <= x < B -> tr w x = x.
Proof. intros H. unfold tr. apply Z.mod_small. exact H. Qed.
Lemma tr_range x : 0 <= tr w x < B.
Proof. HB. unfold tr. apply Z.mod_pos_bound. lia. Qed.

Lemma tr_over x : B <= x < 2 * B -> tr w x = x - B.
Proof.
  intros H. unfold tr. symmetry. apply (Z.mod_unique _ _ 1); [left; lia|lia].
Qed.
Lemma tr_under x : - B <= x < 0 -> tr w x = x + B.
Proof.
  intros H. unfold tr. symmetry. apply (Z.mod_unique _ _ (-1)); [left; lia|lia].
Qed.

Lemma add_carry2_spec a b c o : 0 <= a < B -> 0 <= b < B -> add_carry2 w a b = (c, o) ->
  0 <= c < B /\ c + B * b2z o = a + b.
Proof.
  intros Ha Hb H. unfold add_carry2 in H. injection H as <- <-.
  destruct (Z_lt_ge_dec (a + b) B) as [Hlt|Hge].
  - rewrite tr_small by lia.
    destruct (Z.ltb_spec (a + b) a); cbn [b2z]; lia.
  - rewrite tr_over by lia.
    destruct (Z.ltb_spec (a + b - B) a); cbn [b2z]; lia.
Qed.

Lemma b2z_range o : 0 <= b2z o <= 1.
Proof. destruct o; cbn; lia. Qed.

Lemma add_carry3_spec a b o c o' : 0 <= a < B -> 0 <= b < B -> add_carry3 w a b o = (c, o') ->
  0 <= c < B /\ c + B * b2z o' = a + b + b2z o.
Proof.
  intros Ha Hb H. unfold add_carry3 in H. cbv zeta in H. HB.
  pose proof (b2z_range o) as Ho.
  destruct (Z.eqb_spec (tr w (a + b2z o)) 0) as [E|E].
  - injection H as <- <-.
    destruct (Z_lt_ge_dec (a + b2z o) B) as [Hlt|Hge].
    + rewrite tr_small in E by lia.
      assert (b2z o = 0) by lia. lia.
    + destruct o; cbn [b2z] in *; lia.
  - pose proof (tr_range (a + b2z o)) as Hr.
    destruct (add_carry2_spec Hr Hb H) as [H1 H2]. split; [exact H1|].
    destruct (Z_lt_ge_dec (a + b2z o) B) as [Hlt|Hge].
    + rewrite tr_small in H2 by lia. lia.
    + rewrite tr_over in E by lia. lia.
Qed.

Lemma add_carry1_spec a o c o' : 0 <= a < B -> add_carry1 w a o = (c, o') ->
  0 <= c < B /\ c + B * b2z o' = a + b2z o.
Proof.
  intros Ha H. unfold add_carry1 in H. cbv zeta in H. HB.
  pose proof (b2z_range o) as Ho. injection H as <- <-.
  split; [apply tr_range|].
  destruct (Z_lt_ge_dec (a + b2z o) B) as [Hlt|Hge].
  - rewrite tr_small by lia. destruct (Z.eqb_spec (a + b2z o) 0); cbn [b2z]; destruct o; cbn [b2z] in *; lia.
  - rewrite tr_over by lia. destruct (Z.eqb_spec (a + b2z o - B) 0); cbn [b2z]; destruct o; cbn [b2z] in *; lia.
Qed.

Lemma sub_borrow2_spec a b c u : 0 <= a < B -> 0 <= b < B -> sub_borrow2 w a b = (c, u) ->
  0 <= c < B /\ c - B * b2z u = a - b.
Proof.
  intros Ha Hb H. unfold sub_borrow2 in H. injection H as <- <-.
  destruct (Z_lt_ge_dec (a - b) 0) as [Hlt|Hge].
  - rewrite tr_under by lia. destruct (Z.ltb_spec a (a - b + B)); cbn [b2z]; lia.
  - rewrite tr_small by lia. destruct (Z.ltb_spec a (a - b)); cbn [b2z]; lia.
Qed.

Lemma sub_borrow3_spec a b u c u' : 0 <= a < B -> 0 <= b < B -> sub_borrow3 w a b u = (c, u') ->
  0 <= c < B /\ c - B * b2z u' = a - b - b2z u.
Proof.
  intros Ha Hb H. unfold sub_borrow3 in H. cbv zeta in H. HB.
  pose proof (b2z_range u) as Hu.
  destruct (Z.eqb_spec (tr w (b + b2z u)) 0) as [E|E].
  - injection H as <- <-.
    destruct (Z_lt_ge_dec (b + b2z u) B) as [Hlt|Hge].
    + rewrite tr_small in E by lia. assert (b2z u = 0) by lia. lia.
    + destruct u; cbn [b2z] in *; lia.
  - pose proof (tr_range (b + b2z u)) as Hr.
    destruct (sub_borrow2_spec Ha Hr H) as [H1 H2]. split; [exact H1|].
    destruct (Z_lt_ge_dec (b + b2z u) B) as [Hlt|Hge].
    + rewrite tr_small in H2 by lia. lia.
    + rewrite tr_over in E by lia. lia.
Qed.

Lemma sub_borrow1_spec a u c u' : 0 <= a < B -> sub_borrow1 w a u = (c, u') ->
  0 <= c < B /\ c - B * b2z u' = a - b2z u.
Proof.
  intros Ha H. unfold sub_borrow1 in H. HB. destruct u.
  - injection H as <- <-. split; [apply tr_range|].
    destruct (Z.eqb_spec a 0) as [->|E]; cbn [b2z].
    + rewrite tr_under by lia. lia.
    + rewrite tr_small by lia. lia.
  - injection H as <- <-. cbn [b2z]. lia.
Qed.

(** ** Buffer loops *)
Lemma add_tail_spec buf o : digits_ok buf ->
  match add_tail w buf o with
  | Some r => digits_ok r /\ length r = length buf /\ val r = val buf + b2z o
  | None => B ^ Z.of_nat (length buf) <= val buf + b2z o
  end.
Proof.
  revert o. induction buf as [|x buf IH]; intros o Hd.
  - cbn [add_tail]. destruct o; cbn [b2z UBig_Spec.val length].
    + rewrite Z.pow_0_r. lia.
    + split; [constructor|split; [reflexivity|lia]].
  - apply digits_ok_cons in Hd. destruct Hd as [Hx Hd]. cbn [add_tail].
    destruct o.
    + destruct (add_carry1 w x true) as [c o'] eqn:E.
      destruct (add_carry1_spec Hx E) as [Hc Hco].
      specialize (IH o' Hd). destruct (add_tail w buf o') as [r|]; cbn [obind].
      * destruct IH as (Hr & Hl & Hv). repeat split.
        -- apply digits_ok_cons; auto.
        -- cbn [length]; lia.
        -- cbn [UBig_Spec.val]. rewrite Hv. cbn [b2z] in *. lia.
      * cbn [UBig_Spec.val length]. rewrite Nat2Z.inj_succ, Z.pow_succ_r by lia.
        cbn [b2z] in *. HB. nia.
    + split; [apply digits_ok_cons; auto|split; [reflexivity|cbn [b2z]; lia]].
Qed.

Lemma add_buf_spec buf b o : digits_ok buf -> digits_ok b ->
  (length b <= length buf)%nat ->
  match add_buf w buf b o with
  | Some r => digits_ok r /\ length r = length buf /\ val r = val buf + val b + b2z o
  | None => B ^ Z.of_nat (length buf) <= val buf + val b + b2z o
  end.
Proof.
  revert buf o. induction b as [|y b IH]; intros buf o Hd Hb Hl.
  - replace (add_buf w buf [] o) with (add_tail w buf o) by (destruct buf; reflexivity).
    cbn [UBig_Spec.val]. pose proof (add_tail_spec o Hd) as H.
    destruct (add_tail w buf o); rewrite Z.add_0_r; exact H.
  - destruct buf as [|x buf]; [cbn in Hl; lia|].
    apply digits_ok_cons in Hd, Hb. destruct Hd as [Hx Hd], Hb as [Hy Hb].
    cbn [length] in Hl. cbn [add_buf].
    destruct (add_carry3 w x y o) as [c o'] eqn:E.
    destruct (add_carry3_spec Hx Hy E) as [Hc Hco].
    specialize (IH buf o' Hd Hb ltac:(lia)).
    destruct (add_buf w buf b o') as [r|]; cbn [obind].
    + destruct IH as (Hr & Hlr & Hv). repeat split.
      * apply digits_ok_cons; auto.
      * cbn [length]; lia.
      * cbn [UBig_Spec.val]. rewrite Hv. lia.
    + cbn [UBig_Spec.val length]. rewrite Nat2Z.inj_succ, Z.pow_succ_r by lia. HB. nia.
Qed.

(** When the exact sum fits, the loop succeeds. *)
Lemma add_buf_ok buf b o : digits_ok buf -> digits_ok b ->
  (length b <= length buf)%nat ->
  val buf + val b + b2z o < B ^ Z.of_nat (length buf) ->
  exists r, add_buf w buf b o = Some r /\ digits_ok r /\ length r = length buf /\
            val r = val buf + val b + b2z o.
Proof.
  intros Hd Hb Hl Hv. pose proof (add_buf_spec o Hd Hb Hl) as H.
  destruct (add_buf w buf b o) as [r|]; [exists r; tauto|lia].
Qed.

(** Too short a buffer is undefined behaviour. *)
Lemma add_buf_short buf b o : (length buf < length b)%nat -> add_buf w buf b o = None.
Proof.
  revert buf o. induction b as [|y b IH]; intros [|x buf] o Hl; cbn in *; try lia; auto.
  destruct (add_carry3 w x y o) as [c o']. rewrite IH by lia. reflexivity.
Qed.

Lemma all_max_val n a : all_max_from w n a = true ->
  val (skipn n a) = B ^ Z.of_nat (length (skipn n a)) - 1.
Proof.
  unfold all_max_from. induction (skipn n a) as [|x l IH]; cbn [forallb UBig_Spec.val length].
  - intros _. rewrite Z.pow_0_r. lia.
  - intros H. apply andb_true_iff in H. destruct H as [H1 H2].
    apply Z.eqb_eq in H1. rewrite (IH H2), H1, Nat2Z.inj_succ, Z.pow_succ_r by lia. ring.
Qed.

Lemma not_all_max_val n a : digits_ok a -> all_max_from w n a = false ->
  val (skipn n a) < B ^ Z.of_nat (length (skipn n a)) - 1.
Proof.
  intros Hd. pose proof (digits_ok_skipn n Hd) as Hs. unfold all_max_from.
  induction (skipn n a) as [|x l IH]; cbn [forallb UBig_Spec.val length]; [congruence|].
  intros H. apply digits_ok_cons in Hs. destruct Hs as [Hx Hl].
  pose proof (val_bound HB Hl) as Hb.
  rewrite Nat2Z.inj_succ, Z.pow_succ_r by lia. HB.
  apply andb_false_iff in H. destruct H as [H|H].
  - apply Z.eqb_neq in H. nia.
  - specialize (IH Hl H). nia.
Qed.

Lemma val_split n a : (n <= length a)%nat ->
  val a = val (firstn n a) + B ^ Z.of_nat n * val (skipn n a).
Proof.
  intros H. rewrite <- (firstn_skipn n a) at 1. rewrite val_app, firstn_length_le by lia. reflexivity.
Qed.

Lemma val_last a : a <> [] ->
  val a = val (removelast a) + B ^ (Z.of_nat (length a) - 1) * last a 0.
Proof.
  intros Hn. destruct (exists_last Hn) as [m [t ->]].
  rewrite removelast_last, last_last, val_app, app_length. cbn [length UBig_Spec.val].
  replace (Z.of_nat (length m + 1) - 1) with (Z.of_nat (length m)) by lia. ring.
Qed.

Lemma digits_ok_removelast a : digits_ok a -> digits_ok (removelast a).
Proof.
  destruct a as [|x a]; [auto|]. intros H.
  destruct (exists_last (l := x :: a) ltac:(congruence)) as [m [t E]]. rewrite E in *.
  rewrite removelast_last. apply digits_ok_app in H. tauto.
Qed.

Lemma removelast_length' (a : list Z) : a <> [] -> length (removelast a) = (length a - 1)%nat.
Proof.
  intros Hn. destruct (exists_last Hn) as [m [t ->]].
  rewrite removelast_last, app_length. cbn. lia.
Qed.

(** The reserved size always suffices, and 0 extra digits are reserved only if
    the sum keeps the length. *)
Lemma size_diff_spec a b d : canon a -> canon b -> b <> [] -> (length b <= length a)%nat ->
  size_diff w a b = Some d ->
  val a + val b < B ^ Z.of_nat (length a + d).
Proof.
  intros Ha Hb Hnb Hl H. unfold size_diff in H. HB.
  pose proof (val_bound HB (canon_ok Ha)) as Hva. pose proof (val_bound HB (canon_ok Hb)) as Hvb.
  destruct (Nat.eqb_spec (length a) (length b)) as [E|E].
  - assert (Hna : a <> []) by (destruct a, b; cbn in *; congruence).
    assert (Hd : d = Z.to_nat (trc w (last a 0 + last b 0 + 1) / B)).
    { destruct a, b; congruence. }
    clear H.
    assert (Hpa : (0 < length a)%nat) by (destruct a; [congruence|cbn [length]; lia]).
    pose proof (canon_last_pos Ha Hna) as Hla. pose proof (canon_last_pos Hb Hnb) as Hlb.
    unfold trc in Hd. rewrite Z.mod_small in Hd by nia.
    rewrite (val_last Hna), (val_last Hnb).
    pose proof (val_bound HB (digits_ok_removelast (canon_ok Ha))) as Hra.
    pose proof (val_bound HB (digits_ok_removelast (canon_ok Hb))) as Hrb.
    rewrite removelast_length' in Hra by auto. rewrite removelast_length' in Hrb by auto.
    replace (Z.of_nat (length a - 1)) with (Z.of_nat (length a) - 1) in Hra by lia.
    replace (Z.of_nat (length b - 1)) with (Z.of_nat (length a) - 1) in Hrb by lia.
    rewrite <- E.
    assert (HP : B ^ Z.of_nat (length a) = B * B ^ (Z.of_nat (length a) - 1)).
    { rewrite <- Z.pow_succ_r by lia. f_equal. lia. }
    set (P := B ^ (Z.of_nat (length a) - 1)) in *.
    destruct (Z_lt_ge_dec (last a 0 + last b 0 + 1) B) as [Hc|Hc].
    + rewrite Z.div_small in Hd by lia. cbn in Hd. subst d. rewrite Nat.add_0_r, HP. nia.
    + assert (Hq : (last a 0 + last b 0 + 1) / B = 1).
      { symmetry. apply (Z.div_unique_pos _ _ _ (last a 0 + last b 0 + 1 - B)); lia. }
      rewrite Hq in Hd. change (Z.to_nat 1) with 1%nat in Hd. subst d.
      rewrite Nat.add_1_r, Nat2Z.inj_succ, Z.pow_succ_r, HP by lia. nia.
  - assert (Hlt : (length b < length a)%nat) by lia.
    destruct (all_max_from w (length b) a) eqn:Em; injection H as <-.
    + rewrite Nat.add_1_r, Nat2Z.inj_succ, Z.pow_succ_r by lia.
      assert (B ^ Z.of_nat (length b) <= B ^ Z.of_nat (length a)) by (apply Z.pow_le_mono_r; lia). nia.
    + rewrite Nat.add_0_r.
      pose proof (not_all_max_val (canon_ok Ha) Em) as Hm.
      rewrite (val_split (n := length b) (a := a)) by lia.
      pose proof (val_bound HB (digits_ok_firstn (length b) (canon_ok Ha))) as Hf.
      rewrite firstn_length_le in Hf by lia.
      rewrite skipn_length in Hm.
      replace (Z.of_nat (length a)) with (Z.of_nat (length b) + Z.of_nat (length a - length b)) by lia.
      rewrite Z.pow_add_r by lia. nia.
Qed.

Lemma size_diff_some a b : b <> [] -> (length b <= length a)%nat -> exists d, size_diff w a b = Some d.
Proof.
  intros Hb Hl. unfold size_diff. destruct (Nat.eqb_spec (length a) (length b)).
  - destruct a, b; cbn in *; try congruence; try lia. eauto.
  - eauto.
Qed.

Lemma pad_length (a : list Z) d : length (a ++ repeat 0 d) = (length a + d)%nat.
Proof. rewrite app_length, repeat_length. lia. Qed.
Lemma pad_val a d : val (a ++ repeat 0 d) = val a.
Proof. rewrite val_app, val_repeat0. lia. Qed.
Lemma pad_ok a d : digits_ok a -> digits_ok (a ++ repeat 0 d).
Proof. intros H. HB. apply digits_ok_app. split; [auto|apply digits_ok_repeat0; lia]. Qed.

(** Adding into a padded canonical number. *)
Lemma add_padded a b d : canon a -> digits_ok b -> (length b <= length a + d)%nat ->
  val a + val b < B ^ Z.of_nat (length a + d) ->
  (d = 0%nat -> a <> []) ->
  exists t, add_buf w (a ++ repeat 0 d) b false = Some t /\
    canon (if Nat.eqb d 0 then t else shrink t) /\
    val (if Nat.eqb d 0 then t else shrink t) = val a + val b.
Proof.
  intros Ha Hb Hl Hv Hd0. HB.
  destruct (@add_buf_ok (a ++ repeat 0 d) b false) as (t & Et & Ht & Hlt & Hvt).
  - apply pad_ok; auto.
  - auto.
  - rewrite pad_length; lia.
  - rewrite pad_length, pad_val. cbn [b2z]. lia.
  - rewrite pad_length in Hlt. rewrite pad_val in Hvt. cbn [b2z] in Hvt.
    exists t. split; [exact Et|]. destruct (Nat.eqb_spec d 0) as [->|Hd].
    + split; [|lia]. specialize (Hd0 eq_refl).
      apply (canon_of_lower HB); [auto|destruct t, a; cbn in *; congruence|].
      rewrite Hlt, Nat.add_0_r. pose proof (canon_lower HB Ha Hd0) as Hlow.
      pose proof (val_nonneg HB Hb). lia.
    + split; [apply shrink_canon; auto|]. rewrite val_shrink. lia.
Qed.

Lemma add_base_ord_spec a b : canon a -> canon b -> (length b <= length a)%nat ->
  denotes B (add_base_ord w a b) (val a + val b).
Proof.
  intros Ha Hb Hl. unfold add_base_ord. destruct b as [|y b].
  - exists a. cbn [UBig_Spec.val]. repeat split; [apply Ha|apply Ha|lia].
  - destruct (@size_diff_some a (y :: b)) as [d Ed]; [congruence|auto|].
    rewrite Ed. cbn [obind].
    pose proof (size_diff_spec Ha Hb ltac:(congruence) Hl Ed) as Hv.
    destruct (@add_padded a (y :: b) d) as (t & Et & Hc & Hvt); auto.
    + cbn [length] in *; lia.
    + intros _ ->. cbn in Hl. lia.
    + rewrite Et. cbn [obind]. eexists. split; [reflexivity|]. split; [exact Hc|exact Hvt].
Qed.

Lemma add_base_spec a b : canon a -> canon b -> denotes B (add_base w a b) (val a + val b).
Proof.
  intros Ha Hb. unfold add_base. destruct (Nat.ltb_spec (length a) (length b)).
  - rewrite Z.add_comm. apply add_base_ord_spec; auto; lia.
  - apply add_base_ord_spec; auto.
Qed.

Lemma size_need_spec a b n : canon a -> canon b -> a <> [] -> b <> [] ->
  size_need w a b = Some n ->
  (length a <= n)%nat /\ (length b <= n)%nat /\ val a + val b < B ^ Z.of_nat n.
Proof.
  intros Ha Hb Hna Hnb H. unfold size_need in H.
  destruct (Nat.ltb_spec (length a) (length b)) as [Hl|Hl];
    apply obind_some in H; destruct H as (d & Ed & H); injection H as <-.
  - pose proof (size_diff_spec Hb Ha Hna ltac:(lia) Ed). repeat split; lia.
  - pose proof (size_diff_spec Ha Hb Hnb Hl Ed). repeat split; lia.
Qed.
Lemma size_need_some a b : a <> [] -> b <> [] -> exists n, size_need w a b = Some n.
Proof.
  intros Ha Hb. unfold size_need. destruct (Nat.ltb_spec (length a) (length b)) as [Hl|Hl].
  - destruct (@size_diff_some b a) as [d ->]; [auto|lia|]. cbn. eauto.
  - destruct (@size_diff_some a b) as [d ->]; [auto|lia|]. cbn. eauto.
Qed.

Lemma add_to_base_spec a b : canon a -> canon b -> denotes B (add_to_base w a b) (val a + val b).
Proof.
  intros Ha Hb. unfold add_to_base. destruct b as [|y b].
  - exists a. cbn [UBig_Spec.val]. repeat split; [apply Ha|apply Ha|lia].
  - destruct a as [|x a].
    + exists (y :: b). repeat split; [apply Hb|apply Hb].
    + destruct (@size_need_some (x :: a) (y :: b)) as [n En]; [congruence|congruence|].
      rewrite En. cbn [obind].
      destruct (size_need_spec Ha Hb ltac:(congruence) ltac:(congruence) En) as (H1 & H2 & H3).
      set (d := (n - length (x :: a))%nat).
      assert (Hn : n = (length (x :: a) + d)%nat) by lia.
      destruct (@add_padded (x :: a) (y :: b) d) as (t & Et & Hc & Hvt); auto.
      * lia.
      * rewrite <- Hn. auto.
      * congruence.
      * cbv zeta. rewrite Et. cbn [obind]. eexists. split; [reflexivity|]. split; [exact Hc|exact Hvt].
Qed.

(** ** Subtraction *)
Lemma sub_tail_spec buf u : digits_ok buf ->
  match sub_tail w buf u with
  | Some r => digits_ok r /\ length r = length buf /\ val r = val buf - b2z u
  | None => val buf < b2z u
  end.
Proof.
  revert u. induction buf as [|x buf IH]; intros u Hd.
  - cbn [sub_tail]. destruct u; cbn [b2z UBig_Spec.val length]; [lia|].
    split; [constructor|split; [reflexivity|lia]].
  - apply digits_ok_cons in Hd. destruct Hd as [Hx Hd]. cbn [sub_tail].
    destruct u.
    + destruct (sub_borrow1 w x true) as [c u'] eqn:E.
      destruct (sub_borrow1_spec Hx E) as [Hc Hco].
      specialize (IH u' Hd). destruct (sub_tail w buf u') as [r|]; cbn [obind].
      * destruct IH as (Hr & Hl & Hv). repeat split.
        -- apply digits_ok_cons; auto.
        -- cbn [length]; lia.
        -- cbn [UBig_Spec.val]. rewrite Hv. cbn [b2z] in *. lia.
      * cbn [UBig_Spec.val]. pose proof (val_nonneg HB Hd). pose proof (b2z_range u'). cbn [b2z] in *. HB. nia.
    + split; [apply digits_ok_cons; auto|split; [reflexivity|cbn [b2z]; lia]].
Qed.

Lemma sub_buf_spec buf b u : digits_ok buf -> digits_ok b ->
  (length b <= length buf)%nat ->
  match sub_buf w buf b u with
  | Some r => digits_ok r /\ length r = length buf /\ val r = val buf - val b - b2z u
  | None => val buf < val b + b2z u
  end.
Proof.
  revert buf u. induction b as [|y b IH]; intros buf u Hd Hb Hl.
  - replace (sub_buf w buf [] u) with (sub_tail w buf u) by (destruct buf; reflexivity).
    cbn [UBig_Spec.val]. pose proof (sub_tail_spec u Hd) as H.
    destruct (sub_tail w buf u); [|lia]. rewrite Z.sub_0_r. exact H.
  - destruct buf as [|x buf]; [cbn in Hl; lia|].
    apply digits_ok_cons in Hd, Hb. destruct Hd as [Hx Hd], Hb as [Hy Hb].
    cbn [length] in Hl. cbn [sub_buf].
    destruct (sub_borrow3 w x y u) as [c u'] eqn:E.
    destruct (sub_borrow3_spec Hx Hy E) as [Hc Hco].
    specialize (IH buf u' Hd Hb ltac:(lia)).
    destruct (sub_buf w buf b u') as [r|]; cbn [obind].
    + destruct IH as (Hr & Hlr & Hv). repeat split.
      * apply digits_ok_cons; auto.
      * cbn [length]; lia.
      * cbn [UBig_Spec.val]. rewrite Hv. lia.
    + cbn [UBig_Spec.val]. HB. nia.
Qed.

Lemma sub_buf_short buf b u : (length buf < length b)%nat -> sub_buf w buf b u = None.
Proof.
  revert buf u. induction b as [|y b IH]; intros [|x buf] u Hl; cbn in *; try lia; auto.
  destruct (sub_borrow3 w x y u) as [c u']. rewrite IH by lia. reflexivity.
Qed.

Lemma sub_base_spec a b : digits_ok a -> digits_ok b -> (length b <= length a)%nat -> val b <= val a ->
  denotes B (sub_base w a b) (val a - val b).
Proof.
  intros Ha Hb Hl Hv. unfold sub_base.
  pose proof (sub_buf_spec false Ha Hb Hl) as H.
  destruct (sub_buf w a b false) as [r|]; cbn [obind b2z] in *; [|lia].
  destruct H as (Hr & _ & Hvr). exists (shrink r).
  split; [reflexivity|]. split; [apply shrink_canon; auto using HB|]. rewrite val_shrink. lia.
Qed.

Lemma canon_le_length a b : canon a -> canon b -> val a <= val b -> (length a <= length b)%nat.
Proof.
  intros Ha Hb H. destruct (le_lt_dec (length a) (length b)) as [Hl|Hl]; [exact Hl|].
  pose proof (canon_length_lt HB Hb Ha Hl). lia.
Qed.

Lemma usub_spec a b : canon a -> canon b -> denotes B (usub w a b) (Z.max 0 (val a - val b)).
Proof.
  intros Ha Hb. unfold usub. rewrite (ucompare_spec HB Ha Hb).
  destruct (Z.compare_spec (val a) (val b)) as [H|H|H].
  - rewrite Z.max_r by lia. apply sub_base_spec; auto; [|lia].
    apply canon_le_length; auto; lia.
  - rewrite Z.max_l by lia. exists []. repeat split; [constructor|cbn; lia].
  - rewrite Z.max_r by lia. apply sub_base_spec; auto; [|lia].
    apply canon_le_length; auto; lia.
Qed.

(** ** Increment *)
Lemma add_one_val l : digits_ok l -> digits_ok (add_one w l) /\ val (add_one w l) = val l + 1.
Proof.
  induction l as [|x l IH]; intros Hd; HB.
  - cbn [add_one UBig_Spec.val]. split; [|lia]. apply digits_ok_cons. split; [lia|constructor].
  - apply digits_ok_cons in Hd. destruct Hd as [Hx Hd]. destruct (IH Hd) as [H1 H2].
    cbn [add_one]. cbv zeta. destruct (Z_lt_ge_dec (x + 1) B) as [Hlt|Hge].
    + rewrite tr_small by lia. destruct (Z.eqb_spec (x + 1) 0); [lia|].
      split; [apply digits_ok_cons; split; [lia|auto]|]. cbn [UBig_Spec.val]. lia.
    + rewrite tr_over by lia. destruct (Z.eqb_spec (x + 1 - B) 0) as [E|]; [|lia].
      split; [apply digits_ok_cons; split; [lia|auto]|]. cbn [UBig_Spec.val]. rewrite H2. lia.
Qed.

Lemma add_one_nonempty l : add_one w l <> [].
Proof. destruct l; cbn [add_one]; [congruence|]. cbv zeta. destruct (_ =? 0); congruence. Qed.

Lemma add_one_canon l : canon l -> canon (add_one w l).
Proof.
  induction l as [|x l IH]; intros Hc; HB.
  - cbn [add_one]. apply canon_cons; [lia|apply canon_nil|lia].
  - pose proof (canon_tail Hc) as Ht. specialize (IH Ht).
    pose proof (canon_ok Hc) as Hd. apply digits_ok_cons in Hd. destruct Hd as [Hx _].
    cbn [add_one]. cbv zeta. pose proof (tr_range (x + 1)) as Hr.
    destruct (Z.eqb_spec (tr w (x + 1)) 0) as [E|E].
    + apply canon_cons; auto. intros He. exfalso. exact (add_one_nonempty He).
    + apply canon_cons; auto.
Qed.

(** ** Decrement: correct exactly when the lowest digit is not zero. *)
Lemma sub_one_spec x l : canon (x :: l) -> x <> 0 ->
  canon (sub_one w (x :: l)) /\ val (sub_one w (x :: l)) = val (x :: l) - 1.
Proof.
  intros Hc Hx. HB. pose proof (canon_ok Hc) as Hd. apply digits_ok_cons in Hd. destruct Hd as [Hxr Hl].
  cbn [sub_one]. cbv zeta. destruct (Z.eqb_spec x 0); [lia|].
  rewrite tr_small by lia. destruct l as [|y l].
  - destruct (Z.eqb_spec (x - 1) 0) as [E|E]; cbn [andb removelast UBig_Spec.val].
    + split; [apply canon_nil|lia].
    + split; [|lia]. apply canon_cons; [lia|apply canon_nil|auto].
  - rewrite andb_false_r. split.
    + apply canon_cons; [lia|eapply canon_tail; exact Hc|congruence].
    + cbn [UBig_Spec.val]. lia.
Qed.

(** With a zero lowest digit the result exceeds the operand by [B-2] instead. *)
Lemma sub_one_zero l : canon (0 :: l) -> 2 < B ->
  val (sub_one w (0 :: l)) = val (0 :: l) + (B - 2).
Proof.
  intros Hc HB3. HB. cbn [sub_one]. cbv zeta. rewrite Z.eqb_refl.
  rewrite tr_small by lia. destruct (Z.eqb_spec (B - 1 - 1) 0); [lia|].
  cbn [andb UBig_Spec.val]. lia.
Qed.

End AddSub.
