(** Multiplication: schoolbook product is exact; the divide-and-conquer product
    is exact whenever it is defined, and its fuel never runs out. *)
From Verif Require Import Base UBig_Model UBig_Spec UBig_Basics UBig_AddSub.
Local Open Scope Z_scope.
Local Open Scope omonad_scope.

Section Mul.
Variable w : Z.
Hypothesis Hw : 0 < w.
Notation B := (base w).
Notation val := (val B).
Notation digits_ok := (digits_ok B).
Notation canon := (canon B).
Let HB : 2 <= B := base_ge2 Hw.
Ltac HB := let h := fresh "HB2_" in pose proof HB as h.
Local Hint Resolve canon_ok : core.

Lemma mul_digit_loop_spec a b num : digits_ok a -> 0 <= b < B -> 0 <= num < B ->
  digits_ok (mul_digit_loop w a b num) /\
  length (mul_digit_loop w a b num) = (length a + 1)%nat /\
  val (mul_digit_loop w a b num) = val a * b + num.
Proof.
  revert num. induction a as [|x a IH]; intros num Ha Hb Hn; HB.
  - cbn [mul_digit_loop]. rewrite tr_small by lia. split; [|split].
    + apply digits_ok_cons. split; [lia|constructor].
    + reflexivity.
    + cbn [UBig_Spec.val]. lia.
  - apply digits_ok_cons in Ha. destruct Ha as [Hx Ha].
    cbn [mul_digit_loop]. cbv zeta. unfold trc.
    assert (Hxb : 0 <= x * b < B * B) by nia.
    assert (Hs : 0 <= num + x * b < B * B) by nia.
    rewrite (Z.mod_small (x * b)) by lia. rewrite (Z.mod_small (num + x * b)) by lia.
    set (n := num + x * b) in *.
    assert (Hq : 0 <= n / B < B) by (split; [apply Z.div_pos; lia|apply Z.div_lt_upper_bound; lia]).
    assert (Hr : 0 <= n mod B < B) by (apply Z.mod_pos_bound; lia).
    rewrite (tr_small Hr). destruct (IH (n / B) Ha Hb Hq) as (H1 & H2 & H3).
    split; [|split].
    + apply digits_ok_cons; auto.
    + cbn [length]. lia.
    + cbn [UBig_Spec.val]. rewrite H3. pose proof (Z.div_mod n B ltac:(lia)). unfold n in *. lia.
Qed.

Lemma mul_digit_raw_spec a b : digits_ok a -> 0 <= b < B ->
  digits_ok (mul_digit_raw w a b) /\
  length (mul_digit_raw w a b) = (length a + 1)%nat /\
  val (mul_digit_raw w a b) = val a * b.
Proof.
  intros Ha Hb. HB. unfold mul_digit_raw.
  destruct (@mul_digit_loop_spec a b 0) as (H1 & H2 & H3); auto; [lia|].
  rewrite Z.add_0_r in H3. auto.
Qed.

Lemma mul_digit_spec a b : digits_ok a -> 0 <= b < B ->
  digits_ok (mul_digit w a b) /\
  length (mul_digit w a b) = (length a + 1)%nat /\
  val (mul_digit w a b) = val a * b.
Proof.
  intros Ha Hb. HB. unfold mul_digit. destruct (Z.eqb_spec b 0) as [->|Hn].
  - rewrite val_repeat0, repeat_length. split; [apply digits_ok_repeat0; lia|lia].
  - destruct (low_zeros a) as [z a'] eqn:E. apply low_zeros_spec in E. destruct E as [-> _].
    apply digits_ok_app in Ha. destruct Ha as [Hz Ha].
    destruct (mul_digit_raw_spec Ha Hb) as (H1 & H2 & H3).
    split; [apply digits_ok_app; auto|]. rewrite !app_length, repeat_length, !val_app, val_repeat0, H3, repeat_length.
    split; [lia|]. ring.
Qed.

(** A canonical number of value below [B^n] has at most [n] digits. *)
Lemma canon_length_le l n : canon l -> val l < B ^ Z.of_nat n -> (length l <= n)%nat.
Proof.
  intros Hc Hv. HB. destruct (le_lt_dec (length l) n) as [H|H]; [exact H|].
  assert (Hn : l <> []) by (intros ->; cbn in H; lia).
  pose proof (canon_lower HB Hc Hn) as Hl.
  assert (B ^ Z.of_nat n <= B ^ (Z.of_nat (length l) - 1)) by (apply Z.pow_le_mono_r; lia). lia.
Qed.

Lemma mul_rows_spec b : forall buf a, digits_ok buf -> digits_ok a -> digits_ok b ->
  (length b <= length buf)%nat ->
  val buf + val a * val b < B ^ Z.of_nat (length buf) ->
  exists r, mul_rows w buf a b = Some r /\ digits_ok r /\ length r = length buf /\
            val r = val buf + val a * val b.
Proof.
  induction b as [|d b IH]; intros buf a Hbuf Ha Hb Hl Hv; HB.
  - exists buf. cbn [mul_rows UBig_Spec.val]. repeat split; auto. lia.
  - apply digits_ok_cons in Hb. destruct Hb as [Hd Hb].
    pose proof (val_nonneg HB Ha) as Ha0. pose proof (val_nonneg HB Hb) as Hb0.
    cbn [UBig_Spec.val] in Hv |- *. cbn [mul_rows].
    assert (Hrow : exists buf1,
      (if d =? 0 then Some buf else add_buf w buf (shrink (mul_digit_raw w a d)) false) = Some buf1
      /\ digits_ok buf1 /\ length buf1 = length buf /\ val buf1 = val buf + val a * d).
    { destruct (Z.eqb_spec d 0) as [->|Hnd].
      - exists buf. repeat split; auto. lia.
      - destruct (mul_digit_raw_spec Ha Hd) as (H1 & H2 & H3).
        pose proof (shrink_canon H1) as Hsc. pose proof (val_shrink B (mul_digit_raw w a d)) as Hsv.
        pose proof (val_nonneg HB Hbuf).
        assert (val buf + val a * d <= val buf + val a * (d + B * val b)) by nia.
        destruct (@add_buf_ok w Hw buf (shrink (mul_digit_raw w a d)) false) as (r & E & Hr & Hlr & Hvr); auto.
        + apply canon_length_le; auto. rewrite Hsv, H3. lia.
        + cbn [b2z]. rewrite Hsv, H3. lia.
        + exists r. cbn [b2z] in Hvr. repeat split; auto. rewrite Hvr, Hsv, H3. lia. }
    destruct Hrow as (buf1 & -> & Hd1 & Hl1 & Hv1). cbn [obind].
    destruct buf1 as [|x r]; [cbn [length] in *; lia|].
    apply digits_ok_cons in Hd1. destruct Hd1 as [Hx Hr]. cbn [length UBig_Spec.val] in *.
    destruct (IH r a Hr Ha Hb ltac:(lia)) as (r' & -> & Hr' & Hlr' & Hvr').
    + rewrite <- Hl1, Nat2Z.inj_succ, Z.pow_succ_r in Hv by lia. nia.
    + cbn [obind]. exists (x :: r'). split; [reflexivity|]. split; [apply digits_ok_cons; auto|].
      cbn [length UBig_Spec.val]. split; [lia|]. rewrite Hvr'. lia.
Qed.

Lemma skipn_repeat {A} (x : A) n k : skipn k (repeat x n) = repeat x (n - k).
Proof.
  revert n. induction k as [|k IH]; intros [|n]; cbn [skipn repeat Nat.sub]; auto.
Qed.

Lemma val_mul_bound a b : digits_ok a -> digits_ok b ->
  val a * val b < B ^ Z.of_nat (length a + length b).
Proof.
  intros Ha Hb. pose proof (val_bound HB Ha). pose proof (val_bound HB Hb).
  rewrite Nat2Z.inj_add, Z.pow_add_r by lia. nia.
Qed.

Lemma mul_base_ord_spec a b : canon a -> canon b ->
  denotes B (mul_base_ord w a b) (val a * val b).
Proof.
  intros Ha Hb. HB. unfold mul_base_ord, mul_buf.
  destruct (low_zeros a) as [za a'] eqn:Ea. destruct (low_zeros b) as [zb b'] eqn:Eb.
  apply low_zeros_spec in Ea, Eb. destruct Ea as [Ea _], Eb as [Eb _].
  assert (Ha' : digits_ok a') by (apply canon_ok in Ha; rewrite Ea in Ha; apply digits_ok_app in Ha; tauto).
  assert (Hb' : digits_ok b') by (apply canon_ok in Hb; rewrite Eb in Hb; apply digits_ok_app in Hb; tauto).
  assert (Hla : length a = (za + length a')%nat) by (rewrite Ea, app_length, repeat_length; lia).
  assert (Hlb : length b = (zb + length b')%nat) by (rewrite Eb, app_length, repeat_length; lia).
  rewrite skipn_repeat.
  replace (length a + length b - (za + zb))%nat with (length a' + length b')%nat by lia.
  destruct (@mul_rows_spec b' (repeat 0 (length a' + length b')) a') as (r & E & Hr & Hlr & Hvr); auto.
  - apply digits_ok_repeat0; lia.
  - rewrite repeat_length; lia.
  - rewrite val_repeat0, repeat_length, Z.add_0_l. apply val_mul_bound; auto.
  - cbv zeta. rewrite E. cbn [obind]. rewrite val_repeat0 in Hvr.
    eexists. split; [reflexivity|].
    assert (Hd : digits_ok (repeat 0 (za + zb) ++ r)).
    { apply digits_ok_app. split; [apply digits_ok_repeat0; lia|auto]. }
    split; [apply shrink_canon; auto|]. rewrite val_shrink, val_app, val_repeat0, repeat_length, Hvr.
    rewrite Ea, Eb, !val_app, !val_repeat0, !repeat_length, Nat2Z.inj_add, Z.pow_add_r by lia. ring.
Qed.

Lemma mul_base_spec a b : canon a -> canon b -> denotes B (mul_base w a b) (val a * val b).
Proof.
  intros Ha Hb. unfold mul_base. destruct (Nat.ltb _ _).
  - rewrite Z.mul_comm. apply mul_base_ord_spec; auto.
  - apply mul_base_ord_spec; auto.
Qed.

(** Addition at an offset: exact when defined. *)
Lemma offset_add_spec buf b off : digits_ok buf -> digits_ok b ->
  match offset_add w buf b off with
  | Some r => canon r /\ val r = val buf + B ^ Z.of_nat off * val b
  | None => (off + length b < length buf)%nat /\
            B ^ Z.of_nat (length buf) <= val buf + B ^ Z.of_nat off * val b
  end.
Proof.
  intros Hbuf Hb. HB. unfold offset_add. cbv zeta.
  set (buf' := if Nat.leb (length buf) (off + length b) then _ else buf).
  assert (Hp : digits_ok buf' /\ val buf' = val buf /\ (off + length b < length buf')%nat /\
     ((buf' = buf /\ off + length b < length buf)%nat \/
      (length buf <= off + length b /\ length buf' = off + length b + 1)%nat)).
  { unfold buf'. destruct (Nat.leb_spec (length buf) (off + length b)) as [H|H].
    - split; [|split; [|split]].
      + apply digits_ok_app. split; [auto|apply digits_ok_repeat0; lia].
      + rewrite val_app, val_repeat0. lia.
      + rewrite app_length, repeat_length. lia.
      + rewrite app_length, repeat_length. lia.
    - repeat split; auto. }
  destruct Hp as (Hd & Hv & Hl & Hcase). clearbody buf'.
  assert (Hsk : length (skipn off buf') = (length buf' - off)%nat) by apply skipn_length.
  pose proof (@add_buf_spec w Hw (skipn off buf') b false (digits_ok_skipn off Hd) Hb ltac:(lia)) as H.
  pose proof (val_bound HB (digits_ok_firstn off Hd)) as Hf. rewrite firstn_length_le in Hf by lia.
  assert (Hsp : val buf' = val (firstn off buf') + B ^ Z.of_nat off * val (skipn off buf')).
  { apply val_split. lia. }
  destruct (add_buf w (skipn off buf') b false) as [r|]; cbn [obind].
  - destruct H as (Hr & Hlr & Hvr). split.
    + apply shrink_canon. apply digits_ok_app. split; [apply digits_ok_firstn; auto|auto].
    + rewrite val_shrink, val_app, firstn_length_le, Hvr by lia. cbn [b2z]. nia.
  - rewrite Hsk in H. cbn [b2z] in H.
    assert (HP : B ^ Z.of_nat (length buf') = B ^ Z.of_nat off * B ^ Z.of_nat (length buf' - off)).
    { rewrite <- Z.pow_add_r by lia. f_equal. lia. }
    pose proof (powB_pos HB off) as Hp0.
    assert (Hge : B ^ Z.of_nat (length buf') <= val buf + B ^ Z.of_nat off * val b) by nia.
    destruct Hcase as [[-> Hc]|[H1 Hc]].
    + split; [lia|exact Hge].
    + exfalso. pose proof (val_bound HB Hb) as Hvb.
      pose proof (val_bound HB Hbuf) as Hvbuf.
      assert (B ^ Z.of_nat (length buf) <= B ^ Z.of_nat (off + length b)) by (apply Z.pow_le_mono_r; lia).
      assert (B ^ Z.of_nat (length buf') = B * B ^ Z.of_nat (off + length b)).
      { rewrite Hc, Nat.add_1_r, Nat2Z.inj_succ, Z.pow_succ_r by lia. reflexivity. }
      assert (B ^ Z.of_nat (off + length b) = B ^ Z.of_nat off * B ^ Z.of_nat (length b)).
      { rewrite Nat2Z.inj_add, Z.pow_add_r by lia. reflexivity. }
      nia.
Qed.

End Mul.
