(** Lemmas on digit sequences. *)
From Verif Require Import Base UBig_Model UBig_Spec.
Local Open Scope Z_scope.
Local Open Scope omonad_scope.

Section Basics.
Variable B : Z.
Hypothesis HB : 2 <= B.
Notation val := (val B).
Notation digits_ok := (digits_ok B).
Notation canon := (canon B).

Lemma val_app a b : val (a ++ b) = val a + B ^ Z.of_nat (length a) * val b.
Proof.
  induction a as [|x a IH]; cbn [app UBig_Spec.val length].
  - rewrite Z.pow_0_r. lia.
  - rewrite IH, Nat2Z.inj_succ, Z.pow_succ_r by lia. ring.
Qed.

Lemma val_repeat0 n : val (repeat 0 n) = 0.
Proof. induction n; cbn [repeat UBig_Spec.val]; lia. Qed.

Lemma digits_ok_app a b : digits_ok (a ++ b) <-> digits_ok a /\ digits_ok b.
Proof. unfold UBig_Spec.digits_ok. apply Forall_app. Qed.

Lemma digits_ok_cons x l : digits_ok (x :: l) <-> (0 <= x < B) /\ digits_ok l.
Proof. unfold UBig_Spec.digits_ok. split; intros H; [inversion H; auto|constructor; tauto]. Qed.

Lemma digits_ok_nil : digits_ok [].
Proof. constructor. Qed.

Lemma digits_ok_repeat0 n : digits_ok (repeat 0 n).
Proof. apply Forall_forall. intros x Hx. apply repeat_spec in Hx. lia. Qed.

Lemma digits_ok_skipn n l : digits_ok l -> digits_ok (skipn n l).
Proof.
  intros H. rewrite <- (firstn_skipn n l), digits_ok_app in H. tauto.
Qed.
Lemma digits_ok_firstn n l : digits_ok l -> digits_ok (firstn n l).
Proof.
  intros H. rewrite <- (firstn_skipn n l), digits_ok_app in H. tauto.
Qed.

Lemma powB_pos n : 0 < B ^ Z.of_nat n.
Proof. apply Z.pow_pos_nonneg; lia. Qed.

Lemma val_nonneg l : digits_ok l -> 0 <= val l.
Proof.
  induction l as [|x l IH]; cbn [UBig_Spec.val]; [lia|].
  rewrite digits_ok_cons. intros [Hx Hl]. specialize (IH Hl). nia.
Qed.

Lemma val_bound l : digits_ok l -> 0 <= val l < B ^ Z.of_nat (length l).
Proof.
  induction l as [|x l IH]; cbn [UBig_Spec.val length].
  - rewrite Z.pow_0_r. lia.
  - rewrite digits_ok_cons. intros [Hx Hl]. specialize (IH Hl).
    rewrite Nat2Z.inj_succ, Z.pow_succ_r by lia. nia.
Qed.

Lemma canonb_ok l : canonb B l = true -> canon l.
Proof.
  unfold canonb. intros H. apply andb_true_iff in H. destruct H as [H1 H2]. split.
  - rewrite forallb_forall in H1. apply Forall_forall. intros x Hx. specialize (H1 x Hx). lia.
  - lia.
Qed.

Lemma canon_nil : canon [].
Proof. split; [constructor|cbn; lia]. Qed.

Lemma canon_ok l : canon l -> digits_ok l.
Proof. intros [H _]; exact H. Qed.
Hint Resolve canon_ok : core.

Lemma last_cons (x d d' : Z) l : l <> [] -> last (x :: l) d = last l d'.
Proof.
  revert x. induction l as [|y l IH]; intros x H; [congruence|].
  destruct l as [|z l]; [reflexivity|].
  change (last (x :: y :: z :: l) d) with (last (y :: z :: l) d).
  rewrite IH by congruence. reflexivity.
Qed.

Lemma canon_cons x l : 0 <= x < B -> canon l -> (l = [] -> x <> 0) -> canon (x :: l).
Proof.
  intros Hx [Hl Hlast] Hz. split.
  - apply digits_ok_cons; auto.
  - destruct l as [|y l]; [cbn; auto|]. rewrite (last_cons x 1 1) by congruence. auto.
Qed.

Lemma canon_tail x l : canon (x :: l) -> canon l.
Proof.
  intros [H Hl]. apply digits_ok_cons in H. split; [tauto|].
  destruct l as [|y l]; [cbn; lia|]. rewrite (last_cons x 1 1) in Hl by congruence. auto.
Qed.

Lemma canon_lower l : canon l -> l <> [] ->
  B ^ (Z.of_nat (length l) - 1) <= val l.
Proof.
  induction l as [|x l IH]; intros Hc Hn; [congruence|].
  assert (Hx : 0 <= x < B) by (destruct Hc as [Hd _]; apply digits_ok_cons in Hd; tauto).
  destruct l as [|y l].
  - cbn [UBig_Spec.val length]. change (Z.of_nat 1 - 1) with 0.
    rewrite Z.pow_0_r. destruct Hc as [_ Hl]; cbn in Hl. lia.
  - pose proof (canon_tail Hc) as Ht. specialize (IH Ht ltac:(congruence)).
    cbn [UBig_Spec.val length] in *.
    replace (Z.of_nat (S (S (length l))) - 1) with (Z.succ (Z.of_nat (S (length l)) - 1)) by lia.
    rewrite Z.pow_succ_r by lia. nia.
Qed.

Lemma canon_pos l : canon l -> l <> [] -> 0 < val l.
Proof.
  intros Hc Hn. pose proof (canon_lower Hc Hn) as H.
  destruct l as [|x l]; [congruence|].
  assert (0 < B ^ (Z.of_nat (length (x :: l)) - 1)).
  { apply Z.pow_pos_nonneg; cbn [length]; lia. }
  lia.
Qed.

Lemma canon_zero l : canon l -> val l = 0 -> l = [].
Proof.
  intros Hc Hv. destruct l as [|x l]; [reflexivity|].
  pose proof (canon_pos Hc ltac:(congruence)). lia.
Qed.

(** Two canonical representations of the same number are identical. *)
Lemma val_digits_inj a b : digits_ok a -> digits_ok b -> length a = length b ->
  val a = val b -> a = b.
Proof.
  revert b. induction a as [|x a IH]; intros [|y b] Ha Hb Hlen Hv; cbn in Hlen; try lia; [reflexivity|].
  apply digits_ok_cons in Ha, Hb. destruct Ha as [Hx Ha], Hb as [Hy Hb].
  cbn [UBig_Spec.val] in Hv.
  assert (Hab : val a = val b) by nia.
  assert (x = y) by nia. subst y. f_equal. apply IH; auto.
Qed.

Lemma canon_length_lt a b : canon a -> canon b ->
  (length a < length b)%nat -> val a < val b.
Proof.
  intros Ha Hb Hl.
  pose proof (val_bound (canon_ok Ha)) as Hva.
  assert (Hnb : b <> []) by (destruct b; cbn in Hl; [lia|congruence]).
  pose proof (canon_lower Hb Hnb) as Hvb.
  assert (B ^ Z.of_nat (length a) <= B ^ (Z.of_nat (length b) - 1)).
  { apply Z.pow_le_mono_r; lia. }
  lia.
Qed.

Lemma canon_unique a b : canon a -> canon b -> val a = val b -> a = b.
Proof.
  intros Ha Hb Hv.
  destruct (lt_eq_lt_dec (length a) (length b)) as [[H|H]|H].
  - pose proof (canon_length_lt Ha Hb H); lia.
  - apply val_digits_inj; auto.
  - pose proof (canon_length_lt Hb Ha H); lia.
Qed.

(** ** shrink *)
Lemma val_shrink l : val (shrink l) = val l.
Proof.
  induction l as [|x l IH]; [reflexivity|].
  cbn [shrink UBig_Spec.val]. destruct (shrink l) as [|y r].
  - cbn [UBig_Spec.val] in IH. destruct (Z.eqb_spec x 0); cbn [UBig_Spec.val]; lia.
  - change (val (x :: y :: r)) with (x + B * val (y :: r)). rewrite IH. reflexivity.
Qed.

Lemma shrink_canon l : digits_ok l -> canon (shrink l).
Proof.
  induction l as [|x l IH]; intros H.
  - apply canon_nil.
  - apply digits_ok_cons in H. destruct H as [Hx Hl]. specialize (IH Hl).
    cbn [shrink]. destruct (shrink l) as [|y r].
    + destruct (Z.eqb_spec x 0); [apply canon_nil|].
      apply canon_cons; [auto|apply canon_nil|auto].
    + apply canon_cons; auto. congruence.
Qed.

Lemma shrink_length l : (length (shrink l) <= length l)%nat.
Proof.
  induction l as [|x l IH]; cbn [shrink length]; [lia|].
  destruct (shrink l) as [|y r]; [destruct (x =? 0)|]; cbn [length] in *; lia.
Qed.

Lemma shrink_id l : canon l -> shrink l = l.
Proof.
  intros H. apply canon_unique; [apply shrink_canon; auto|auto|apply val_shrink].
Qed.

(** [canon] from a size argument. *)
Lemma canon_of_lower l : digits_ok l -> l <> [] ->
  B ^ (Z.of_nat (length l) - 1) <= val l -> canon l.
Proof.
  intros Hd Hn Hv. split; [exact Hd|].
  destruct (exists_last Hn) as [m [t Ht]]. subst l.
  rewrite last_last. intros Ht0. subst t.
  rewrite val_app in Hv. cbn [UBig_Spec.val] in Hv.
  apply digits_ok_app in Hd. destruct Hd as [Hm _].
  pose proof (val_bound Hm) as Hb.
  rewrite app_length in Hv. cbn [length] in Hv.
  replace (Z.of_nat (length m + 1) - 1) with (Z.of_nat (length m)) in Hv by lia. lia.
Qed.

(** ** low_zeros *)
Lemma low_zeros_spec l z r : low_zeros l = (z, r) ->
  l = repeat 0 z ++ r /\ (r <> [] -> hd 0 r <> 0).
Proof.
  revert z r. induction l as [|x l IH]; intros z r H; cbn [low_zeros] in H.
  - injection H as <- <-. split; [reflexivity|congruence].
  - destruct (Z.eqb_spec x 0) as [->|Hx].
    + destruct (low_zeros l) as [n r'] eqn:E. injection H as <- <-.
      destruct (IH _ _ eq_refl) as [-> Hh]. split; [reflexivity|auto].
    + injection H as <- <-. split; [reflexivity|]. intros _. cbn. auto.
Qed.

Lemma canon_app_r a b : canon (a ++ b) -> canon b.
Proof.
  induction a as [|x a IH]; [auto|]. intros H. apply IH. eapply canon_tail; exact H.
Qed.

Lemma canon_skipn n l : canon l -> canon (skipn n l).
Proof. intros H. rewrite <- (firstn_skipn n l) in H. eapply canon_app_r; exact H. Qed.

Lemma canon_last_pos l : canon l -> l <> [] -> 0 < last l 0 < B.
Proof.
  intros [Hd Hl] Hn. destruct (exists_last Hn) as [m [t Ht]]. subst l.
  rewrite last_last in *. apply digits_ok_app in Hd. destruct Hd as [_ Ht].
  apply digits_ok_cons in Ht. lia.
Qed.

(** ** compare *)
Lemma cmp_digits_spec a b : digits_ok a -> digits_ok b -> length a = length b ->
  cmp_digits a b = (val a ?= val b).
Proof.
  revert b. induction a as [|x a IH]; intros [|y b] Ha Hb Hlen; cbn in Hlen; try lia.
  - reflexivity.
  - apply digits_ok_cons in Ha, Hb. destruct Ha as [Hx Ha], Hb as [Hy Hb].
    cbn [cmp_digits UBig_Spec.val]. rewrite IH by auto.
    destruct (Z.compare_spec (val a) (val b)) as [H|H|H].
    + rewrite H. destruct (Z.compare_spec x y); symmetry;
        [apply Z.compare_eq_iff|apply Z.compare_lt_iff|apply Z.compare_gt_iff]; lia.
    + symmetry. apply Z.compare_lt_iff. nia.
    + symmetry. apply Z.compare_gt_iff. nia.
Qed.

Lemma ucompare_spec a b : canon a -> canon b -> ucompare a b = (val a ?= val b).
Proof.
  intros Ha Hb. unfold ucompare.
  destruct (Nat.compare_spec (length a) (length b)) as [H|H|H].
  - apply cmp_digits_spec; auto.
  - symmetry. apply Z.compare_lt_iff. apply canon_length_lt; auto.
  - symmetry. apply Z.compare_gt_iff. apply canon_length_lt; auto.
Qed.

Lemma eq_digits_spec a b : eq_digits a b = true <-> a = b.
Proof.
  revert b. induction a as [|x a IH]; intros [|y b]; cbn [eq_digits]; split; intros H; try congruence.
  - apply andb_true_iff in H. destruct H as [H1 H2].
    apply Z.eqb_eq in H1. apply IH in H2. congruence.
  - injection H as -> ->. rewrite Z.eqb_refl. apply IH. reflexivity.
Qed.

Lemma eq_digits_val a b : canon a -> canon b -> (eq_digits a b = true <-> val a = val b).
Proof.
  intros Ha Hb. rewrite eq_digits_spec. split; [congruence|]. apply canon_unique; auto.
Qed.

End Basics.
