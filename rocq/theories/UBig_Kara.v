(** Divide-and-conquer multiplication (ubigint.hpp:535-559): exact whenever it is
    defined; recursion depth bounded; undefined on some inputs. *)
From Verif Require Import Base UBig_Model UBig_Spec UBig_Basics UBig_AddSub UBig_Mul.
Local Open Scope Z_scope.
Local Open Scope omonad_scope.

Section Kara.
Variable w : Z.
Hypothesis Hw : 0 < w.
Notation B := (base w).
Notation val := (val B).
Notation digits_ok := (digits_ok B).
Notation canon := (canon B).
Let HB : 2 <= B := base_ge2 Hw.
Ltac HB := let h := fresh "HB2_" in pose proof HB as h.
Local Hint Resolve canon_ok : core.

Lemma val_cut n a : val a = val (firstn n a) + B ^ Z.of_nat n * val (skipn n a).
Proof.
  destruct (le_lt_dec n (length a)) as [H|H]; [apply val_split; exact H|].
  rewrite firstn_all2, skipn_all2 by lia. cbn [UBig_Spec.val]. lia.
Qed.

Lemma denotes_inv r n l : denotes B r n -> r = Some l -> canon l /\ val l = n.
Proof. intros (l' & E & H) E2. rewrite E in E2. injection E2 as <-. exact H. Qed.

Lemma canon_firstn_shrink n a : canon a -> canon (shrink (firstn n a)).
Proof. intros H. apply shrink_canon. apply digits_ok_firstn. auto. Qed.

Lemma fast_mul_f_sound thr f : forall a b r, canon a -> canon b ->
  fast_mul_f w thr f a b = Some r -> canon r /\ val r = val a * val b.
Proof.
  induction f as [|f IH]; intros a b r Ha Hb H; cbn [fast_mul_f] in H;
    destruct (Nat.ltb _ thr).
  - eapply denotes_inv; [apply mul_base_spec; auto|exact H].
  - discriminate.
  - eapply denotes_inv; [apply mul_base_spec; auto|exact H].
  - cbv zeta in H. set (s := split_point (length a) (length b)) in *.
    pose proof (canon_firstn_shrink s Ha) as Hal. pose proof (canon_firstn_shrink s Hb) as Hbl.
    pose proof (canon_skipn s Ha) as Hah. pose proof (canon_skipn s Hb) as Hbh.
    apply obind_some in H. destruct H as (high & E1 & H).
    apply obind_some in H. destruct H as (low & E2 & H).
    apply obind_some in H. destruct H as (sa & E3 & H).
    apply obind_some in H. destruct H as (sb & E4 & H).
    apply obind_some in H. destruct H as (mid0 & E5 & H).
    apply obind_some in H. destruct H as (hl & E6 & H).
    apply obind_some in H. destruct H as (mid & E7 & H).
    apply obind_some in H. destruct H as (r1 & E8 & H).
    destruct (IH _ _ _ Hah Hbh E1) as [C1 V1].
    destruct (IH _ _ _ Hal Hbl E2) as [C2 V2].
    destruct (denotes_inv (add_base_spec Hw Hah Hal) E3) as [C3 V3].
    destruct (denotes_inv (add_base_spec Hw Hbh Hbl) E4) as [C4 V4].
    destruct (IH _ _ _ C3 C4 E5) as [C5 V5].
    destruct (denotes_inv (add_base_spec Hw C1 C2) E6) as [C6 V6].
    destruct (denotes_inv (usub_spec Hw C5 C6) E7) as [C7 V7].
    pose proof (@offset_add_spec w Hw low high (s * 2) ltac:(auto) ltac:(auto)) as S1. rewrite E8 in S1.
    destruct S1 as [C8 V8].
    pose proof (@offset_add_spec w Hw r1 mid s ltac:(auto) ltac:(auto)) as S2. rewrite H in S2.
    destruct S2 as [C9 V9]. split; [exact C9|].
    rewrite V9, V8, V7, V6, V5, V4, V3, V2, V1, !val_shrink.
    rewrite (val_cut s a), (val_cut s b).
    pose proof (val_nonneg HB (digits_ok_firstn s (canon_ok Ha))).
    pose proof (val_nonneg HB (digits_ok_firstn s (canon_ok Hb))).
    pose proof (val_nonneg HB (digits_ok_skipn s (canon_ok Ha))).
    pose proof (val_nonneg HB (digits_ok_skipn s (canon_ok Hb))).
    rewrite Z.max_r by nia.
    replace (Z.of_nat (s * 2)) with (Z.of_nat s + Z.of_nat s) by lia.
    rewrite Z.pow_add_r by lia. ring.
Qed.

(** ** The recursion bound is never the reason for an undefined result. *)
Lemma add_base_length a b c : canon a -> canon b -> add_base w a b = Some c ->
  (length c <= Nat.max (length a) (length b) + 1)%nat.
Proof.
  intros Ha Hb E. HB. destruct (denotes_inv (add_base_spec Hw Ha Hb) E) as [C V].
  apply canon_length_le with (w := w); auto. rewrite V.
  pose proof (val_bound HB (canon_ok Ha)). pose proof (val_bound HB (canon_ok Hb)).
  assert (B ^ Z.of_nat (length a) <= B ^ Z.of_nat (Nat.max (length a) (length b))) by (apply Z.pow_le_mono_r; lia).
  assert (B ^ Z.of_nat (length b) <= B ^ Z.of_nat (Nat.max (length a) (length b))) by (apply Z.pow_le_mono_r; lia).
  rewrite Nat.add_1_r, Nat2Z.inj_succ, Z.pow_succ_r by lia. nia.
Qed.

Lemma split_point_bounds m n : (4 <= m)%nat -> (4 <= n)%nat ->
  let s := split_point m n in
  (2 <= s /\ s <= m /\ s <= n /\ 2 * s + 2 < m + n)%nat.
Proof.
  intros Hm Hn. unfold split_point. cbv zeta.
  pose proof (Nat.div_mod (m + 1) 2 ltac:(lia)). pose proof (Nat.mod_upper_bound (m + 1) 2 ltac:(lia)).
  pose proof (Nat.div_mod (n + 1) 2 ltac:(lia)). pose proof (Nat.mod_upper_bound (n + 1) 2 ltac:(lia)).
  set (p := ((m + 1) / 2)%nat) in *. set (q := ((n + 1) / 2)%nat) in *. lia.
Qed.

Lemma fast_mul_f_fuel thr : (4 <= thr)%nat -> forall k f f' a b, canon a -> canon b ->
  (length a + length b <= k)%nat -> (length a + length b <= f)%nat -> (length a + length b <= f')%nat ->
  fast_mul_f w thr f a b = fast_mul_f w thr f' a b.
Proof.
  intros Ht. induction k as [|k IH]; intros f f' a b Ha Hb Hk Hf Hf'.
  - assert (Nat.ltb (Nat.min (length a) (length b)) thr = true) as E by (apply Nat.ltb_lt; lia).
    destruct f, f'; cbn [fast_mul_f]; rewrite E; reflexivity.
  - destruct (Nat.ltb (Nat.min (length a) (length b)) thr) eqn:E.
    + destruct f, f'; cbn [fast_mul_f]; rewrite E; reflexivity.
    + apply Nat.ltb_ge in E. destruct f as [|f]; [lia|]. destruct f' as [|f']; [lia|].
      cbn [fast_mul_f]. apply Nat.ltb_ge in E. rewrite E. apply Nat.ltb_ge in E. cbv zeta.
      destruct (@split_point_bounds (length a) (length b)) as (S1 & S2 & S3 & S4); [lia|lia|].
      set (s := split_point (length a) (length b)) in *.
      pose proof (canon_firstn_shrink s Ha) as Hal. pose proof (canon_firstn_shrink s Hb) as Hbl.
      pose proof (canon_skipn s Ha) as Hah. pose proof (canon_skipn s Hb) as Hbh.
      assert (L1 : length (skipn s a) = (length a - s)%nat) by apply skipn_length.
      assert (L2 : length (skipn s b) = (length b - s)%nat) by apply skipn_length.
      pose proof (shrink_length (firstn s a)) as L3. pose proof (shrink_length (firstn s b)) as L4.
      rewrite firstn_length_le in L3, L4 by lia.
      rewrite (IH f f' (skipn s a) (skipn s b)) by (auto; lia).
      rewrite (IH f f' (shrink (firstn s a)) (shrink (firstn s b))) by (auto; lia).
      destruct (fast_mul_f w thr f' (skipn s a) (skipn s b)) as [high|]; [|reflexivity].
      destruct (fast_mul_f w thr f' (shrink (firstn s a)) (shrink (firstn s b))) as [low|]; [|reflexivity].
      cbn [obind].
      destruct (add_base w (skipn s a) (shrink (firstn s a))) as [sa|] eqn:Ea; [|reflexivity].
      cbn [obind].
      destruct (add_base w (skipn s b) (shrink (firstn s b))) as [sb|] eqn:Eb; [|reflexivity].
      cbn [obind].
      pose proof (add_base_length Hah Hal Ea) as La. pose proof (add_base_length Hbh Hbl Eb) as Lb.
      destruct (denotes_inv (add_base_spec Hw Hah Hal) Ea) as [Ca _].
      destruct (denotes_inv (add_base_spec Hw Hbh Hbl) Eb) as [Cb _].
      rewrite (IH f f' sa sb) by (auto; lia). reflexivity.
Qed.

Lemma umul_fuel f a b : canon a -> canon b -> (length a + length b <= f)%nat ->
  umul w a b = fast_mul_f w 64 f a b.
Proof.
  intros Ha Hb Hf. unfold umul, fast_mul_thr.
  apply (fast_mul_f_fuel (thr := 64) ltac:(lia) (k := length a + length b)); auto.
Qed.

Lemma umul_sound a b r : canon a -> canon b -> umul w a b = Some r -> canon r /\ val r = val a * val b.
Proof. apply fast_mul_f_sound. Qed.

Lemma umul_small a b : canon a -> canon b -> (Nat.min (length a) (length b) < 64)%nat ->
  denotes B (umul w a b) (val a * val b).
Proof.
  intros Ha Hb Hs. unfold umul, fast_mul_thr.
  destruct (length a + length b)%nat; cbn [fast_mul_f];
    rewrite (proj2 (Nat.ltb_lt _ _) Hs); apply mul_base_spec; auto.
Qed.

End Kara.
