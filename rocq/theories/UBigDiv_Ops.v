(** The division operators on numbers of any size. *)
From Verif Require Import Base UBig_Model UBig_Spec UBig_Basics UBig_AddSub UBig_Mul UBig_Kara
  UBig_Div UBigDiv_Model UBigDiv_Proofs.
Local Open Scope Z_scope.

Section FastDiv.
Variable w : Z.
Hypothesis Hw : 0 < w.
Variable ediv : nat -> nat.
Hypothesis Hed : forall n, (21 <= n)%nat -> (1 <= ediv n < n)%nat.
Notation B := (base w).
Notation val := (val B).
Notation digits_ok := (digits_ok B).
Notation canon := (canon B).
Let HB : 2 <= B := base_ge2 Hw.
Ltac HB := let h := fresh "HB2_" in pose proof HB as h.
Local Hint Resolve canon_ok : core.

(** ** Scaling the operands *)

Lemma top2_rev b : (2 <= length b)%nat ->
  exists hi lo rest, rev b = hi :: lo :: rest /\ b = rev rest ++ [lo; hi] /\
    val (skipn (length b - 2) b) = lo + B * hi /\ length b = (length rest + 2)%nat.
Proof.
  clear Hed.
  intros H. destruct (rev b) as [|hi [|lo rest]] eqn:E.
  - apply (f_equal (@length Z)) in E. rewrite rev_length in E. cbn in E. lia.
  - apply (f_equal (@length Z)) in E. rewrite rev_length in E. cbn in E. lia.
  - exists hi, lo, rest. split; [reflexivity|].
    assert (Eb : b = rev rest ++ [lo; hi]).
    { rewrite <- (rev_involutive b), E. cbn [rev]. rewrite <- app_assoc. reflexivity. }
    split; [exact Eb|].
    assert (El : length b = (length rest + 2)%nat) by (rewrite Eb, app_length, rev_length; reflexivity).
    split; [|exact El]. rewrite El. replace (length rest + 2 - 2)%nat with (length rest) by lia.
    rewrite Eb, skipn_app_exact by (apply rev_length). cbn [UBig_Spec.val]. lia.
Qed.

Lemma regularise_none a b : canon b ->
  ((length b < 2)%nat \/ val (skipn (length b - 2) b) = B * B - 1) -> regularise w a b = DUb.
Proof.
  clear Hed.
  intros Hb [H|H]; unfold regularise.
  - destruct (rev b) as [|x [|y r]] eqn:E; try reflexivity.
    apply (f_equal (@length Z)) in E. rewrite rev_length in E. cbn in E. lia.
  - HB. destruct (le_lt_dec 2 (length b)) as [H2|H2].
    + destruct (top2_rev H2) as (hi & lo & rest & -> & _ & Ht & _).
      cbv zeta. destruct (Z.eqb_spec (hi * B + lo + 1) (B * B)); [reflexivity|lia].
    + destruct (rev b) as [|x [|y r]] eqn:E; try reflexivity.
      apply (f_equal (@length Z)) in E. rewrite rev_length in E. cbn in E. lia.
Qed.

Lemma of_uint_digit m : 0 < m < B -> of_uint w 2 m = Some [m].
Proof.
  clear Hed.
  intros Hm. cbn [of_uint]. destruct (Z.eqb_spec m 0); [lia|].
  rewrite Z.div_small, (Z.mod_small m) by lia. cbn [Z.eqb obind]. reflexivity.
Qed.

Lemma canon_digit m : 0 < m < B -> canon [m].
Proof. intros H. apply (canon_cons (B := B)); [lia|apply canon_nil|intros _; lia]. Qed.
Lemma val_digit m : val [m] = m.
Proof. cbn [UBig_Spec.val]. lia. Qed.

Lemma regularise_ok a b : canon a -> canon b -> (2 <= length b)%nat ->
  val (skipn (length b - 2) b) <> B * B - 1 ->
  exists a' b' m, regularise w a b = DOk (a', b', [m]) /\ 0 < m < B /\
    m = (B * B - 1) / (val (skipn (length b - 2) b) + 1) /\
    canon a' /\ canon b' /\ val a' = val a * m /\ val b' = val b * m /\
    length b' = length b /\ (length a <= length a' <= length a + 1)%nat.
Proof.
  intros Ha Hb H2 Ht. HB. unfold regularise.
  destruct (top2_rev H2) as (hi & lo & rest & Er & Eb & Hv & Hl). rewrite Er. cbv zeta.
  assert (Hd : digits_ok (rev rest) /\ 0 <= lo < B /\ 0 <= hi < B).
  { pose proof (canon_ok Hb) as D. rewrite Eb in D. apply digits_ok_app in D. destruct D as [D1 D2].
    apply digits_ok_cons in D2. destruct D2 as [D2 D3]. apply digits_ok_cons in D3. tauto. }
  destruct Hd as (Dr & Dlo & Dhi).
  assert (Hhi : 0 < hi).
  { assert (Hn : b <> []) by (destruct b; cbn in *; [lia|congruence]).
    pose proof (canon_last_pos Hb Hn) as Hp. rewrite Eb in Hp.
    change [lo; hi] with ([lo] ++ [hi]) in Hp. rewrite app_assoc, last_last in Hp. lia. }
  rewrite Hv in *. clear Hv.
  set (first2 := hi * B + lo + 1).
  assert (Hf : B + 1 <= first2 <= B * B - 1) by (unfold first2; nia).
  destruct (Z.eqb_spec first2 (B * B)) as [E|E]; [lia|].
  replace (lo + B * hi + 1) with first2 by (unfold first2; lia).
  set (m := (B * B - 1) / first2).
  assert (Hm : 0 < m < B).
  { unfold m. split.
    - apply Z.div_str_pos. lia.
    - apply Z.div_lt_upper_bound; nia. }
  assert (Hm2 : first2 * m <= B * B - 1) by (apply Z.mul_div_le; lia).
  rewrite of_uint_digit by exact Hm. cbn [lift dbind].
  pose proof (canon_digit Hm) as Cm.
  destruct (@umul_small w Hw a [m] Ha Cm) as (a' & Ea' & Ca' & Va').
  { cbn [length]. lia. }
  destruct (@umul_small w Hw b [m] Hb Cm) as (b' & Eb' & Cb' & Vb').
  { cbn [length]. lia. }
  rewrite val_digit in Va', Vb'. rewrite Ea', Eb'. cbn [lift dbind].
  exists a', b', m. split; [reflexivity|]. split; [exact Hm|]. split; [reflexivity|].
  split; [exact Ca'|]. split; [exact Cb'|]. split; [exact Va'|]. split; [exact Vb'|].
  pose proof (val_nonneg HB (canon_ok Ha)) as Ha0. pose proof (val_nonneg HB (canon_ok Hb)) as Hb0.
  split.
  - apply Nat.le_antisymm.
    + apply (canon_length_le Hw Cb'). rewrite Vb'.
      assert (Hvb : val b = val (rev rest) + B ^ Z.of_nat (length rest) * (first2 - 1)).
      { rewrite Eb, val_app, rev_length. cbn [UBig_Spec.val]. unfold first2. ring. }
      pose proof (val_bound HB Dr) as Hr. rewrite rev_length in Hr.
      pose proof (powB_pos HB (length rest)) as HP.
      rewrite Hl, Nat2Z.inj_add, Z.pow_add_r by lia. change (B ^ Z.of_nat 2) with (B * (B * 1)).
      assert (val b < B ^ Z.of_nat (length rest) * first2) by lia.
      assert (val b * m < B ^ Z.of_nat (length rest) * first2 * m) by (apply Z.mul_lt_mono_pos_r; lia).
      assert (B ^ Z.of_nat (length rest) * (first2 * m) <= B ^ Z.of_nat (length rest) * (B * B - 1))
        by (apply Z.mul_le_mono_nonneg_l; lia).
      lia.
    + apply (canon_le_length Hw Hb Cb'). rewrite Vb'. nia.
  - split; [apply (canon_le_length Hw Ha Ca'); rewrite Va'; nia|].
    apply (canon_length_le Hw Ca'). rewrite Va'.
    pose proof (val_bound HB (canon_ok Ha)) as Hba.
    rewrite Nat2Z.inj_add, Z.pow_add_r by lia. change (B ^ Z.of_nat 1) with (B * 1).
    apply Z.mul_lt_mono_nonneg; lia.
Qed.

Lemma regularise_inv a b x : canon a -> canon b -> regularise w a b = DOk x ->
  (2 <= length b)%nat /\ val (skipn (length b - 2) b) <> B * B - 1.
Proof.
  intros Ha Hb H. destruct (le_lt_dec 2 (length b)) as [H2|H2].
  - split; [exact H2|]. intros E. rewrite regularise_none in H by auto. discriminate.
  - rewrite regularise_none in H by auto. discriminate.
Qed.

(** ** Division by one digit, the last step of [%] *)

Lemma no_mod_opt_digit a m : 0 < m -> no_mod_opt a [m] = Some (0%nat, a, [m]).
Proof.
  clear Hed.
  intros H. unfold no_mod_opt. cbn [length no_mod_opt_f low_zeros].
  destruct (Z.eqb_spec m 0); [lia|]. cbn [skipn length]. reflexivity.
Qed.

Lemma fdiv_digit lf fuel a m : digits_ok a -> 0 < m < B -> (length a <= 32)%nat ->
  exists q, fdiv w ediv lf fuel a [m] = DOk q /\ canon q /\ val q = val a / m.
Proof.
  intros Ha Hm Hl. HB. unfold fdiv. destruct (Nat.ltb_spec (length a) (length [m])) as [H|H].
  - exists []. split; [reflexivity|]. split; [apply canon_nil|].
    destruct a; [|cbn in H; lia]. cbn [UBig_Spec.val]. rewrite Z.div_0_l by lia. reflexivity.
  - rewrite no_mod_opt_digit by lia. cbn [lift dbind].
    rewrite (proj2 (Nat.leb_le _ _) Hl).
    destruct (@long_div_spec w Hw a [m] Ha (canon_digit Hm)) as (q & r & E & Cq & Dr & Vq & Vr); auto; [congruence|].
    rewrite E. cbn [lift dbind]. exists q. rewrite val_digit in Vq. auto.
Qed.
Lemma fdiv_digit_long lf fuel a m : 0 < m < B -> (32 < length a)%nat ->
  fdiv w ediv lf fuel a [m] = DUb.
Proof.
  clear Hed.
  intros Hm Hl. unfold fdiv. destruct (Nat.ltb_spec (length a) (length [m])) as [H|H]; [cbn in H; lia|].
  rewrite no_mod_opt_digit by lia. cbn [lift dbind].
  destruct (Nat.leb_spec (length a) 32); [lia|]. reflexivity.
Qed.

(** ** The operators: every result *)

Lemma div_scale x y m : 0 < y -> 0 < m -> (x * m) / (y * m) = x / y.
Proof. intros. apply Z.div_mul_cancel_r; lia. Qed.
Lemma mod_scale x y m : 0 < y -> 0 < m -> (x * m) mod (y * m) = (x mod y) * m.
Proof. intros. apply Z.mul_mod_distr_r; lia. Qed.

Lemma small_divmod a b : canon a -> canon b -> (length a < length b)%nat ->
  val a / val b = 0 /\ val a mod val b = val a.
Proof.
  intros Ha Hb H. HB. pose proof (canon_lt_length Hw Ha Hb H) as Hv.
  pose proof (val_nonneg HB (canon_ok Ha)). rewrite Z.div_small, Z.mod_small by lia. auto.
Qed.

Lemma fmod_sound lf fuel a b r : canon a -> canon b -> b <> [] ->
  fmod w ediv lf fuel a b = DOk r -> canon r /\ val r = val a mod val b.
Proof.
  intros Ha Hb Hnb H. HB. pose proof (canon_pos HB Hb Hnb) as Hbp. unfold fmod in H.
  destruct b as [|y b']; [congruence|]. set (b := y :: b') in *.
  destruct (Nat.ltb_spec (length a) (length b)) as [Hl|Hl].
  { injection H as <-. destruct (small_divmod Ha Hb Hl). split; [auto|lia]. }
  destruct (Nat.leb_spec (length a) 32) as [H32|H32].
  { apply lift_ok in H. eapply denotes_inv; [apply mod_base_spec; auto|exact H]. }
  apply dbind_ok in H. destruct H as ([[a2 b2] mu] & E1 & H).
  destruct (regularise_inv Ha Hb E1) as [H2 Ht].
  destruct (regularise_ok Ha Hb H2 Ht) as (a' & b'' & m & E & Hm & _ & Ca & Cb & Va & Vb & Lb & La).
  rewrite E in E1. injection E1 as <- <- <-.
  apply dbind_ok in H. destruct H as ([q0 r0] & E2 & H).
  assert (Hn2 : b'' <> []) by (intros E0; rewrite E0 in Lb; unfold b in Lb; cbn in Lb; lia).
  destruct (impl_sound Hw Hed (canon_ok Ca) Cb Hn2 E2) as (_ & Dr & Vr & _).
  rewrite Va, Vb, mod_scale in Vr by lia.
  destruct (le_lt_dec (length r0) 32) as [Hr|Hr].
  - destruct (@fdiv_digit lf fuel r0 m Dr Hm Hr) as (q & Eq & Cq & Vq).
    rewrite Eq in H. injection H as <-. split; [exact Cq|]. rewrite Vq, Vr, Z.div_mul by lia. reflexivity.
  - rewrite fdiv_digit_long in H by lia. discriminate.
Qed.

Lemma fdivmod_sound lf fuel a b q r : canon a -> canon b -> b <> [] ->
  fdivmod w ediv lf fuel a b = DOk (q, r) ->
  canon q /\ canon r /\ val r = val a mod val b /\ val a / val b <= val q /\
  ((length b <= 20)%nat -> val q = val a / val b).
Proof.
  intros Ha Hb Hnb H. HB. pose proof (canon_pos HB Hb Hnb) as Hbp. unfold fdivmod in H.
  destruct b as [|y b']; [congruence|]. set (b := y :: b') in *.
  destruct (Nat.ltb_spec (length a) (length b)) as [Hl|Hl].
  { injection H as <- <-. destruct (small_divmod Ha Hb Hl). split; [apply canon_nil|]. split; [auto|].
    cbn [UBig_Spec.val]. split; [lia|]. split; [lia|]. intros _. cbn [UBig_Spec.val] in *. lia. }
  destruct (Nat.leb_spec (length a) 32) as [H32|H32].
  { apply lift_ok in H. destruct (divmod_base_sound Hw (canon_ok Ha) Hb Hnb Hl H) as (C1 & C2 & V1 & V2).
    split; [exact C1|]. split; [exact C2|]. split; [exact V2|]. split; [lia|auto]. }
  apply dbind_ok in H. destruct H as ([[a2 b2] mu] & E1 & H).
  destruct (regularise_inv Ha Hb E1) as [H2 Ht].
  destruct (regularise_ok Ha Hb H2 Ht) as (a' & b'' & m & E & Hm & _ & Ca & Cb & Va & Vb & Lb & La).
  rewrite E in E1. injection E1 as <- <- <-.
  apply dbind_ok in H. destruct H as ([q0 r0] & E2 & H).
  apply dbind_ok in H. destruct H as (r1 & E3 & H). injection H as <- <-.
  assert (Hn2 : b'' <> []) by (intros E0; rewrite E0 in Lb; unfold b in Lb; cbn in Lb; lia).
  destruct (impl_sound Hw Hed (canon_ok Ca) Cb Hn2 E2) as (_ & Dr & Vr & Lq & Cq & _ & Xq).
  rewrite Va, Vb, mod_scale in Vr by lia. rewrite Va, Vb, div_scale in Lq, Xq by lia.
  destruct (le_lt_dec (length r0) 32) as [Hr|Hr].
  - destruct (@fdiv_digit lf fuel r0 m Dr Hm Hr) as (q & Eq & Cq' & Vq).
    rewrite Eq in E3. injection E3 as <-.
    split; [auto|]. split; [exact Cq'|]. split; [rewrite Vq, Vr, Z.div_mul by lia; reflexivity|].
    split; [exact Lq|]. rewrite <- Lb. exact Xq.
  - rewrite fdiv_digit_long in E3 by lia. discriminate.
Qed.

Lemma fdiv_sound lf fuel a b q : canon a -> canon b -> b <> [] ->
  fdiv w ediv lf fuel a b = DOk q ->
  canon q /\ val a / val b <= val q /\
  ((length b <= 20)%nat -> val q <= val a / val b + 1 /\ ((val b | val a) -> val q = val a / val b)) /\
  ((length b <= 20)%nat -> (2 * length b <= length a + 2)%nat -> val q = val a / val b).
Proof.
  intros Ha Hb Hnb H. HB. pose proof (canon_pos HB Hb Hnb) as Hbp. unfold fdiv in H.
  destruct b as [|y b']; [congruence|]. set (b := y :: b') in *.
  destruct (Nat.ltb_spec (length a) (length b)) as [Hl|Hl].
  { injection H as <-. destruct (small_divmod Ha Hb Hl) as [E _].
    split; [apply canon_nil|]. cbn [UBig_Spec.val]. rewrite E. repeat split; lia. }
  destruct (@no_mod_opt_full w Hw a b) as (k & a1 & b1 & E & Ea & Eb & Hd1 & Hc1 & Hn1 & Hl1 & Hbd & Hmul); auto.
  assert (Hex : (2 * length b <= length a + 2)%nat -> val a1 / val b1 = val a / val b).
  { intros H2. destruct (@no_mod_opt_exact_z w Hw a b) as (k' & E' & _ & _ & _ & Hx & _); auto.
    - apply short_divisor_z; auto.
    - rewrite E in E'. injection E' as <- -> ->. exact Hx. }
  rewrite E in H. cbn [lift dbind] in H.
  assert (C1 : canon a1) by (rewrite Ea; apply canon_skipn; exact Ha).
  assert (Lb1 : (length b1 <= length b)%nat) by (rewrite Eb, skipn_length; lia).
  assert (Hgo : canon q /\ val a1 / val b1 <= val q /\ ((length b1 <= 20)%nat -> val q = val a1 / val b1)).
  2:{ destruct Hgo as (Cq & Lq & Xq). split; [exact Cq|]. split; [lia|]. split.
      - intros H20. rewrite Xq by lia. split; [lia|exact Hmul].
      - intros H20 H2. rewrite Xq by lia. apply Hex. exact H2. }
  destruct (Nat.leb_spec (length a1) 32) as [H32|H32].
  - destruct (long_div_spec Hw Hd1 Hc1 Hn1 Hl1) as (q' & r' & E1 & Hq & Hr & Hvq & Hvr).
    rewrite E1 in H. cbn [lift dbind] in H. injection H as <-. split; [exact Hq|]. split; [lia|auto].
  - pose proof (canon_pos HB Hc1 Hn1) as Hbp1.
    apply dbind_ok in H. destruct H as ([[a2 b2] mu] & E1 & H).
    destruct (regularise_inv C1 Hc1 E1) as [H2 Ht].
    destruct (regularise_ok C1 Hc1 H2 Ht) as (a' & b'' & m & E0 & Hm & _ & Ca & Cb & Va & Vb & Lb & La).
    rewrite E0 in E1. injection E1 as <- <- <-.
    apply dbind_ok in H. destruct H as ([q0 r0] & E2 & H). injection H as <-.
    assert (Hn2 : b'' <> []) by (intros E3; rewrite E3 in Lb; cbn in Lb; lia).
    destruct (impl_sound Hw Hed (canon_ok Ca) Cb Hn2 E2) as (_ & _ & _ & Lq & Cq & _ & Xq).
    rewrite Va, Vb, div_scale in Lq, Xq by lia.
    split; [auto|]. split; [exact Lq|]. rewrite <- Lb. exact Xq.
Qed.

(** ** Divisors of at most nine digits: always a result *)

Lemma impl_small lf fuel : forall a b, digits_ok a -> canon b -> b <> [] -> (length b <= 9)%nat ->
  (16 <= length a < fuel)%nat -> exists q r, impl w ediv lf fuel a b = DOk (q, r).
Proof.
  induction fuel as [|f IH]; intros a b Ha Hb Hnb H9 Hl; [lia|]. HB.
  destruct (cmp_lt_dec (ucompare a b)) as [Ec|Ec].
  { rewrite impl_S_lt by exact Ec. eauto. }
  rewrite impl_S by exact Ec. unfold impl_ge.
  destruct (Nat.leb_spec (length a) 32) as [H32|H32].
  { destruct (@divmod_base_total w Hw a b) as (q & r & E); auto; try lia. rewrite E. cbn [lift]. eauto. }
  pose proof (half_two (length b)) as Hh. cbv zeta.
  set (half := ((length b + 1) / 2)%nat) in *.
  destruct (Nat.leb_spec (length a) (half * 3)) as [H3|H3]; [lia|].
  destruct (Nat.ltb_spec (half * 4) (length a)) as [H4|H4]; [|lia].
  set (k := (length a / 2)%nat).
  assert (Hk : (2 * k <= length a < 2 * k + 2)%nat).
  { unfold k. pose proof (Nat.div_mod (length a) 2 ltac:(lia)).
    pose proof (Nat.mod_upper_bound (length a) 2 ltac:(lia)). lia. }
  destruct (IH (skipn k a) b) as (q1 & r1 & E1); auto.
  { apply digits_ok_skipn; auto. }
  { rewrite skipn_length. lia. }
  rewrite E1. cbn [dbind].
  destruct (impl_sound Hw Hed (digits_ok_skipn k Ha) Hb Hnb E1) as (D1 & Dr1 & _ & _ & _ & L1 & _).
  assert (Dm : digits_ok (firstn k a ++ r1)) by (apply digits_ok_app; split; [apply digits_ok_firstn|]; auto).
  destruct (IH (firstn k a ++ r1) b) as (q2 & r2 & E2); auto.
  { rewrite app_length, firstn_length_le by lia. lia. }
  rewrite E2. cbn [dbind].
  destruct (impl_sound Hw Hed Dm Hb Hnb E2) as (D2 & _).
  destruct (@add_to_base_any w Hw (repeat 0 k ++ q1) q2) as (s & Es & _); auto.
  { apply digits_ok_app. split; [apply digits_ok_repeat0; lia|auto]. }
  rewrite Es. cbn [lift dbind]. eauto.
Qed.

Lemma fdivmod_short lf fuel a b : canon a -> canon b -> (2 <= length b <= 9)%nat ->
  (32 < length a)%nat -> (length a + 1 < fuel)%nat -> val (skipn (length b - 2) b) <> B * B - 1 ->
  exists q r, fdivmod w ediv lf fuel a b = DOk (q, r) /\ fmod w ediv lf fuel a b = DOk r /\
    canon q /\ canon r /\ val q = val a / val b /\ val r = val a mod val b.
Proof.
  intros Ha Hb Hlb Hla Hf Ht. HB.
  assert (Hnb : b <> []) by (destruct b; cbn in *; [lia|congruence]).
  assert (Hex : exists q r, fdivmod w ediv lf fuel a b = DOk (q, r) /\ fmod w ediv lf fuel a b = DOk r).
  2:{ destruct Hex as (q & r & E1 & E2). exists q, r. split; [exact E1|]. split; [exact E2|].
      destruct (fdivmod_sound Ha Hb Hnb E1) as (C1 & C2 & V2 & _ & X). repeat split; auto; try (apply C1); try (apply C2).
      apply X. lia. }
  destruct (regularise_ok Ha Hb (proj1 Hlb) Ht) as (a' & b'' & m & E & Hm & _ & Ca & Cb & Va & Vb & Lb & La).
  assert (Hn2 : b'' <> []) by (intros E3; rewrite E3 in Lb; cbn in Lb; lia).
  destruct (@impl_small lf fuel a' b'') as (q & r & E1); auto; try lia.
  destruct (impl_sound Hw Hed (canon_ok Ca) Cb Hn2 E1) as (_ & Dr & _ & _ & _ & Lr & _).
  destruct (@fdiv_digit lf fuel r m Dr Hm ltac:(lia)) as (r' & E2 & _).
  unfold fdivmod, fmod. destruct b as [|y b']; [congruence|].
  destruct (Nat.ltb_spec (length a) (length (y :: b'))); [lia|].
  destruct (Nat.leb_spec (length a) 32); [lia|].
  rewrite E. cbn [dbind]. rewrite E1. cbn [dbind]. rewrite E2. cbn [dbind]. eauto.
Qed.

Lemma fdiv_short lf fuel a b : canon a -> canon b -> (length b <= 9)%nat -> b <> [] ->
  (16 <= length a)%nat -> (length a + 1 < fuel)%nat ->
  (2 <= length (snd (low_zeros b)))%nat -> val (skipn (length b - 2) b) <> B * B - 1 ->
  exists q, fdiv w ediv lf fuel a b = DOk q /\ canon q /\ val q = val a / val b.
Proof.
  intros Ha Hb H9 Hnb Hla Hf H2 Ht. HB.
  assert (Hex : exists q, fdiv w ediv lf fuel a b = DOk q).
  2:{ destruct Hex as (q & E). exists q. split; [exact E|].
      destruct (fdiv_sound Ha Hb Hnb E) as (C1 & _ & _ & X). split; [exact C1|]. apply X; lia. }
  unfold fdiv. destruct b as [|y b']; [congruence|]. set (b := y :: b') in *.
  destruct (Nat.ltb_spec (length a) (length b)); [lia|].
  destruct (@no_mod_opt_exact_z w Hw a b) as (k & E & Hc1 & Hn1 & Hl1 & Hbd & Hz); auto; try lia.
  { apply short_divisor_z; lia. }
  rewrite E. cbn [lift dbind]. rewrite Hz in H2. cbn [snd] in H2.
  destruct (Nat.leb_spec (length (skipn k a)) 32) as [H32|H32].
  - destruct (long_div_spec Hw (digits_ok_skipn k (canon_ok Ha)) Hc1 Hn1 Hl1) as (q & r & E1 & _).
    rewrite E1. cbn [lift dbind]. eauto.
  - assert (Hkb : (k + 2 <= length b)%nat) by (rewrite skipn_length in H2; lia).
    assert (Ht' : val (skipn (length (skipn k b) - 2) (skipn k b)) <> B * B - 1).
    { rewrite skipn_skipn, skipn_length. replace (length b - k - 2 + k)%nat with (length b - 2)%nat by lia.
      exact Ht. }
    destruct (regularise_ok (canon_skipn k Ha) Hc1 H2 Ht') as (a' & b'' & m & E0 & Hm & _ & Ca & Cb & Va & Vb & Lb & La).
    rewrite E0. cbn [dbind].
    assert (Hn2 : b'' <> []) by (intros E3; rewrite E3 in Lb; cbn in Lb; lia).
    rewrite !skipn_length in *.
    destruct (@impl_small lf fuel a' b'') as (q & r & E1); auto; try lia.
    rewrite E1. cbn [dbind]. eauto.
Qed.

(** ** No result *)

Lemma one_digit_undefined lf fuel a d : canon a -> 0 < d < B -> (32 < length a)%nat ->
  fdiv w ediv lf fuel a [d] = DUb /\ fmod w ediv lf fuel a [d] = DUb /\
  fdivmod w ediv lf fuel a [d] = DUb.
Proof.
  clear Hed.
  intros Ha Hd Hl. split; [apply fdiv_digit_long; auto|].
  unfold fmod, fdivmod.
  destruct (Nat.ltb_spec (length a) (length [d])) as [H|H]; [cbn in H; lia|].
  destruct (Nat.leb_spec (length a) 32); [lia|]. split; reflexivity.
Qed.

Lemma top_max_undefined lf fuel a b : canon a -> canon b -> (2 <= length b)%nat ->
  (length b <= length a)%nat -> (32 < length a)%nat ->
  val (skipn (length b - 2) b) = B * B - 1 ->
  fmod w ediv lf fuel a b = DUb /\ fdivmod w ediv lf fuel a b = DUb.
Proof.
  clear Hed.
  intros Ha Hb H2 Hl H32 Ht. unfold fmod, fdivmod.
  destruct b as [|y b']; [cbn in H2; lia|].
  destruct (Nat.ltb_spec (length a) (length (y :: b'))); [lia|].
  destruct (Nat.leb_spec (length a) 32); [lia|].
  rewrite regularise_none by auto. split; reflexivity.
Qed.

Lemma long_remainder_undefined lf fuel a b r : canon a -> canon b -> (2 <= length b)%nat ->
  (length b <= length a)%nat -> (32 < length a)%nat ->
  B ^ 32 <= (val a mod val b) * ((B * B - 1) / (val (skipn (length b - 2) b) + 1)) ->
  fmod w ediv lf fuel a b <> DOk r /\ forall q, fdivmod w ediv lf fuel a b <> DOk (q, r).
Proof.
  intros Ha Hb H2 Hl H32 Hr. HB.
  assert (Hnb : b <> []) by (destruct b; cbn in *; [lia|congruence]).
  pose proof (canon_pos HB Hb Hnb) as Hbp.
  assert (Hgo : forall a2 b2 mu q0 r0, regularise w a b = DOk (a2, b2, mu) ->
    impl w ediv lf fuel a2 b2 = DOk (q0, r0) -> fdiv w ediv lf fuel r0 mu = DUb).
  { intros a2 b2 mu q0 r0 E1 E2.
    destruct (regularise_inv Ha Hb E1) as [_ Ht].
    destruct (regularise_ok Ha Hb H2 Ht) as (a' & b'' & m & E & Hm & Em & Ca & Cb & Va & Vb & Lb & La).
    rewrite E in E1. injection E1 as <- <- <-.
    assert (Hn2 : b'' <> []) by (intros E0; rewrite E0 in Lb; cbn in Lb; lia).
    destruct (impl_sound Hw Hed (canon_ok Ca) Cb Hn2 E2) as (_ & Dr & Vr & _).
    rewrite Va, Vb, mod_scale in Vr by lia. rewrite <- Em, <- Vr in Hr.
    apply fdiv_digit_long; [lia|].
    destruct (le_lt_dec (length r0) 32) as [H|H]; [|exact H].
    pose proof (val_bound HB Dr) as Hb0.
    assert (B ^ Z.of_nat (length r0) <= B ^ 32) by (apply Z.pow_le_mono_r; lia). lia. }
  unfold fmod, fdivmod. destruct b as [|y b']; [congruence|].
  destruct (Nat.ltb_spec (length a) (length (y :: b'))); [lia|].
  destruct (Nat.leb_spec (length a) 32); [lia|].
  split.
  - intros H1. apply dbind_ok in H1. destruct H1 as ([[a2 b2] mu] & E1 & H1).
    apply dbind_ok in H1. destruct H1 as ([q0 r0] & E2 & H1). rewrite (Hgo _ _ _ _ _ E1 E2) in H1. discriminate.
  - intros q H1. apply dbind_ok in H1. destruct H1 as ([[a2 b2] mu] & E1 & H1).
    apply dbind_ok in H1. destruct H1 as ([q0 r0] & E2 & H1). rewrite (Hgo _ _ _ _ _ E1 E2) in H1. discriminate.
Qed.

(** ** The bounds of the model do not matter *)

Lemma fdiv_ends a b : canon a -> canon b ->
  exists n t, forall lf fuel, (n <= lf)%nat -> (n <= fuel)%nat ->
    fdiv w ediv lf fuel a b = t /\ t <> DOut.
Proof.
  intros Ha Hb. HB. unfold fdiv. destruct b as [|y b']; [exists O, (DOk []); split; congruence|].
  set (b := y :: b') in *. assert (Hnb : b <> []) by (unfold b; congruence). clearbody b.
  destruct (Nat.ltb_spec (length a) (length b)) as [Hl|Hl]; [exists O, (DOk []); split; congruence|].
  destruct (@no_mod_opt_full w Hw a b) as (k & a1 & b1 & E & Ea & Eb & Hd1 & Hc1 & Hn1 & Hl1 & _); auto.
  rewrite E. cbn [lift dbind].
  assert (C1 : canon a1) by (rewrite Ea; apply canon_skipn; exact Ha).
  destruct (Nat.leb_spec (length a1) 32) as [H32|H32].
  { destruct (long_div_spec Hw Hd1 Hc1 Hn1 Hl1) as (q' & r' & E1 & _).
    rewrite E1. cbn [lift dbind]. exists O, (DOk q'). split; congruence. }
  destruct (regularise w a1 b1) as [[[a2 b2] mu]| |] eqn:E1; cbn [dbind].
  - destruct (regularise_inv C1 Hc1 E1) as [H2 Ht].
    destruct (regularise_ok C1 Hc1 H2 Ht) as (a' & b'' & m & E0 & Hm & _ & Ca & Cb & Va & Vb & Lb & La).
    rewrite E0 in E1. injection E1 as <- <- <-.
    assert (Hn2 : b'' <> []) by (intros E3; rewrite E3 in Lb; cbn in Lb; lia).
    destruct (@impl_ends w Hw ediv Hed (S (length a')) a' b'') as (lf0 & t & Hend); auto.
    exists (Nat.max lf0 (S (length a'))), (dbind t (fun '(q, _) => DOk q)).
    intros lf fuel H1 H3. destruct (Hend lf fuel ltac:(lia) ltac:(lia)) as [-> Hn]. split; [reflexivity|].
    destruct t as [[q0 r0]| |]; cbn [dbind]; congruence.
  - exists O, DUb. split; congruence.
  - exfalso. unfold regularise in E1. destruct (rev b1) as [|x [|x' l]]; try discriminate.
    cbv zeta in E1. destruct (x * B + x' + 1 =? B * B); [discriminate|].
    destruct (of_uint w 2 _); cbn [lift dbind] in E1; [|discriminate].
    destruct (umul w a1 _); cbn [lift dbind] in E1; [|discriminate].
    destruct (umul w b1 _); cbn [lift dbind] in E1; discriminate.
Qed.

Lemma fdivmod_ends a b : canon a -> canon b ->
  exists n t, forall lf fuel, (n <= lf)%nat -> (n <= fuel)%nat ->
    fdivmod w ediv lf fuel a b = t /\ t <> DOut /\
    fmod w ediv lf fuel a b <> DOut /\
    (forall q r, t = DOk (q, r) -> fmod w ediv lf fuel a b = DOk r).
Proof.
  intros Ha Hb. HB. unfold fdivmod, fmod. destruct b as [|y b'].
  { exists O, (DOk ([], [])). repeat split; congruence. }
  set (b := y :: b') in *. assert (Hnb : b <> []) by (unfold b; congruence). clearbody b.
  destruct (Nat.ltb_spec (length a) (length b)) as [Hl|Hl].
  { exists O, (DOk ([], a)). repeat split; congruence. }
  destruct (Nat.leb_spec (length a) 32) as [H32|H32].
  { exists O, (lift (divmod_base w a b)). intros lf fuel _ _. split; [reflexivity|].
    split; [destruct (divmod_base w a b); cbn [lift]; congruence|].
    split; [destruct (mod_base w a b); cbn [lift]; congruence|].
    intros q r Hqr. apply lift_ok in Hqr.
    destruct (divmod_base_sound Hw (canon_ok Ha) Hb Hnb Hl Hqr) as (_ & C2 & _ & V2).
    destruct (@mod_base_spec w Hw a b) as (r' & E' & C' & V'); auto.
    rewrite E'. cbn [lift]. f_equal. apply (canon_unique HB); auto. lia. }
  destruct (regularise w a b) as [[[a2 b2] mu]| |] eqn:E1; cbn [dbind].
  - destruct (regularise_inv Ha Hb E1) as [H2 Ht].
    destruct (regularise_ok Ha Hb H2 Ht) as (a' & b'' & m & E0 & Hm & _ & Ca & Cb & Va & Vb & Lb & La).
    rewrite E0 in E1. injection E1 as <- <- <-.
    assert (Hn2 : b'' <> []) by (intros E3; rewrite E3 in Lb; cbn in Lb; lia).
    destruct (@impl_ends w Hw ediv Hed (S (length a')) a' b'') as (lf0 & t & Hend); auto.
    assert (Hr : forall q0 r0, t = DOk (q0, r0) -> exists u, u <> DOut /\ forall lf fuel,
      fdiv w ediv lf fuel r0 [m] = u).
    { intros q0 r0 ->. destruct (Hend lf0 (S (length a')) (le_n _) (le_n _)) as [Et _].
      destruct (impl_sound Hw Hed (canon_ok Ca) Cb Hn2 Et) as (_ & Dr & _).
      destruct (le_lt_dec (length r0) 32) as [Hr|Hr].
      - destruct (@fdiv_digit 0 0 r0 m Dr Hm Hr) as (q & Eq & Cq & Vq). exists (DOk q).
        split; [congruence|]. intros lf fuel.
        destruct (@fdiv_digit lf fuel r0 m Dr Hm Hr) as (q' & Eq' & Cq' & Vq').
        rewrite Eq'. f_equal. apply (canon_unique HB); auto. lia.
      - exists DUb. split; [congruence|]. intros lf fuel. apply fdiv_digit_long; auto. }
    destruct t as [[q0 r0]| |].
    + destruct (Hr q0 r0 eq_refl) as (u & Hu & Hfd).
      exists (Nat.max lf0 (S (length a'))), (dbind u (fun r' => DOk (q0, r'))).
      intros lf fuel H1 H3. destruct (Hend lf fuel ltac:(lia) ltac:(lia)) as [-> Hn].
      cbn [dbind]. rewrite !Hfd. split; [reflexivity|].
      split; [destruct u; cbn [dbind]; congruence|]. split; [exact Hu|].
      intros q r Hqr. destruct u; cbn [dbind] in Hqr; congruence.
    + exists (Nat.max lf0 (S (length a'))), DUb.
      intros lf fuel H1 H3. destruct (Hend lf fuel ltac:(lia) ltac:(lia)) as [-> Hn].
      cbn [dbind]. repeat split; congruence.
    + destruct (Hend lf0 (S (length a')) (le_n _) (le_n _)) as [_ Hn]. congruence.
  - exists O, DUb. repeat split; congruence.
  - exfalso. unfold regularise in E1. destruct (rev b) as [|x [|x' l]]; try discriminate.
    cbv zeta in E1. destruct (x * B + x' + 1 =? B * B); [discriminate|].
    destruct (of_uint w 2 _); cbn [lift dbind] in E1; [|discriminate].
    destruct (umul w a _); cbn [lift dbind] in E1; [|discriminate].
    destruct (umul w b _); cbn [lift dbind] in E1; discriminate.
Qed.

(** A result obtained under some bounds is the result under larger ones. *)
Lemma fix_down_mono lf : forall lf' p q a b, (lf <= lf')%nat -> fix_down w lf p q a b <> DOut ->
  fix_down w lf' p q a b = fix_down w lf p q a b.
Proof.
  clear Hed.
  induction lf as [|lf IH]; intros [|lf'] p q a b Hl H; cbn [fix_down] in *;
    destruct (ucompare p a); auto; try lia; try congruence.
  destruct (sub_base w p b); cbn [lift dbind] in *; [|reflexivity].
  apply IH; [lia|exact H].
Qed.
Lemma dbind_mono {A C} (m m' : dres A) (k k' : A -> dres C) :
  (m <> DOut -> m' = m) -> (forall x, k x <> DOut -> k' x = k x) ->
  dbind m k <> DOut -> dbind m' k' = dbind m k.
Proof.
  intros H1 H2 H. destruct m as [x| |]; cbn [dbind] in *; [| |congruence];
    rewrite H1 by congruence; cbn [dbind]; auto.
Qed.
Lemma impl_mono fuel : forall lf lf' fuel' a b, (lf <= lf')%nat -> (fuel <= fuel')%nat ->
  impl w ediv lf fuel a b <> DOut -> impl w ediv lf' fuel' a b = impl w ediv lf fuel a b.
Proof.
  clear Hed.
  induction fuel as [|f IH]; intros lf lf' fuel' a b Hl Hf H; [cbn in H; congruence|].
  destruct fuel' as [|f']; [lia|]. assert (Hf' : (f <= f')%nat) by lia.
  destruct (cmp_lt_dec (ucompare a b)) as [Ec|Ec].
  { rewrite !impl_S_lt by exact Ec. reflexivity. }
  rewrite impl_S in H by exact Ec. rewrite !impl_S by exact Ec. revert H. unfold impl_ge. cbv zeta.
  destruct (Nat.leb (length a) 32); [reflexivity|].
  destruct (Nat.leb _ _).
  - apply dbind_mono; [auto|]. intros [[k a1] b1].
    apply dbind_mono; [apply IH; auto|]. intros [q r].
    apply dbind_mono; [auto|]. intros p.
    apply dbind_mono; [apply fix_down_mono; auto|]. intros [p' q'].
    apply dbind_mono; auto.
  - apply dbind_mono; [apply IH; auto|]. intros [q1 r1].
    apply dbind_mono; [apply IH; auto|]. intros [q2 r2].
    apply dbind_mono; auto.
Qed.
Lemma fdiv_mono lf lf' fuel fuel' a b : (lf <= lf')%nat -> (fuel <= fuel')%nat ->
  fdiv w ediv lf fuel a b <> DOut -> fdiv w ediv lf' fuel' a b = fdiv w ediv lf fuel a b.
Proof.
  clear Hed.
  intros Hl Hf. unfold fdiv. destruct b as [|y b]; [reflexivity|].
  destruct (Nat.ltb _ _); [reflexivity|]. apply dbind_mono; [auto|]. intros [[k a1] b1].
  destruct (Nat.leb _ _); [reflexivity|].
  apply dbind_mono; [auto|]. intros [[a2 b2] mu].
  apply dbind_mono; [apply impl_mono; auto|]. intros [q r]. auto.
Qed.
Lemma fdivmod_mono lf lf' fuel fuel' a b : (lf <= lf')%nat -> (fuel <= fuel')%nat ->
  fdivmod w ediv lf fuel a b <> DOut -> fdivmod w ediv lf' fuel' a b = fdivmod w ediv lf fuel a b.
Proof.
  clear Hed.
  intros Hl Hf. unfold fdivmod. destruct b as [|y b]; [reflexivity|].
  destruct (Nat.ltb _ _); [reflexivity|]. destruct (Nat.leb _ _); [reflexivity|].
  apply dbind_mono; [auto|]. intros [[a2 b2] mu].
  apply dbind_mono; [apply impl_mono; auto|]. intros [q r].
  apply dbind_mono; [apply fdiv_mono; auto|]. auto.
Qed.
Lemma div_stable a b t t2 lf fuel : fdiv w ediv lf fuel a b = t -> fdivmod w ediv lf fuel a b = t2 ->
  t <> DOut -> t2 <> DOut ->
  forall lf' fuel', (lf <= lf')%nat -> (fuel <= fuel')%nat ->
  fdiv w ediv lf' fuel' a b = t /\ fdivmod w ediv lf' fuel' a b = t2.
Proof.
  clear Hed.
  intros E1 E2 H1 H2 lf' fuel' Hl Hf. rewrite <- E1 in *. rewrite <- E2 in *.
  split; [apply fdiv_mono|apply fdivmod_mono]; auto.
Qed.

(** ** Agreement with the model of the short path *)

Lemma fdiv_udiv lf fuel a b q : udiv w a b = Some q -> fdiv w ediv lf fuel a b = DOk q.
Proof.
  unfold udiv, fdiv. destruct b as [|y b]; [intros H; injection H as <-; reflexivity|].
  destruct (Nat.ltb _ _); [intros H; injection H as <-; reflexivity|].
  destruct (no_mod_opt a (y :: b)) as [[[k a1] b1]|]; cbn [obind lift dbind]; [|discriminate].
  destruct (Nat.leb _ 32); [|discriminate].
  destruct (long_div w a1 b1) as [[q' r']|]; cbn [obind lift dbind]; [|discriminate].
  intros H; injection H as <-; reflexivity.
Qed.
Lemma fmod_umod lf fuel a b r : umod w a b = Some r -> fmod w ediv lf fuel a b = DOk r.
Proof.
  unfold umod, fmod. destruct b as [|y b]; [intros H; injection H as <-; reflexivity|].
  destruct (Nat.ltb _ _); [intros H; injection H as <-; reflexivity|].
  destruct (Nat.leb _ 32); [|discriminate]. intros ->. reflexivity.
Qed.
Lemma fdivmod_udivmod lf fuel a b x : udivmod w a b = Some x -> fdivmod w ediv lf fuel a b = DOk x.
Proof.
  unfold udivmod, fdivmod. destruct b as [|y b]; [intros H; injection H as <-; reflexivity|].
  destruct (Nat.ltb _ _); [intros H; injection H as <-; reflexivity|].
  destruct (Nat.leb _ 32); [|discriminate]. intros ->. reflexivity.
Qed.

End FastDiv.

Lemma e_floor_ok n : (21 <= n)%nat -> (1 <= e_floor n < n)%nat.
Proof.
  intros H. unfold e_floor.
  assert (1 <= Z.of_nat n * 100000 / 271828 < Z.of_nat n); [|lia].
  split; [apply Z.div_le_lower_bound; lia|apply Z.div_lt_upper_bound; lia].
Qed.
