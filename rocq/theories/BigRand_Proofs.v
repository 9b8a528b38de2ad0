(** Proofs about random big integers. *)
From Verif Require Import Base UBig_Model UBig_Spec UBig_Basics UBig_Bits UBig_AddSub BigRand_Model BigRand_Spec.
Local Open Scope Z_scope.

Section P.
Variable w : Z.
Hypothesis Hw : 0 < w.
Notation B := (base w).
Variable raw : nat -> Z.
Hypothesis Hraw : words_ok w raw.

Lemma pw_pos n : 0 <= n -> 0 < 2 ^ n.
Proof. intros. apply Z.pow_pos_nonneg; lia. Qed.
Lemma digit_count_small n : 0 <= n <= w -> digit_count w n = 1%nat.
Proof.
  intros H. unfold digit_count. f_equal. destruct (Z.eq_dec n 0) as [->|].
  - assert ((0 - 1) / w < 0) by (apply Z.div_lt_upper_bound; lia). lia.
  - rewrite Z.div_small by lia. reflexivity.
Qed.
Lemma digit_count_step n : w < n -> digit_count w n = S (digit_count w (n - w)).
Proof.
  intros H. unfold digit_count. f_equal.
  replace (n - 1) with (n - w - 1 + 1 * w) by lia. rewrite Z.div_add by lia.
  assert (0 <= (n - w - 1) / w) by (apply Z.div_pos; lia). lia.
Qed.
Lemma whole_step n : w < n -> (whole_digits w n <-> whole_digits w (n - w)).
Proof.
  intros H. unfold whole_digits.
  replace (n mod w) with ((n - w) mod w).
  - split; intros [? ?]; split; try assumption; lia.
  - replace n with (n - w + 1 * w) at 2 by lia. rewrite Z.mod_add by lia. reflexivity.
Qed.
Lemma whole_small n : 0 <= n <= w -> (whole_digits w n <-> n = w).
Proof.
  intros H. unfold whole_digits. split.
  - intros [H1 H2]. destruct (Z.eq_dec n w) as [|Hn]; [assumption|].
    rewrite Z.mod_small in H2 by lia. lia.
  - intros ->. split; [lia|]. apply Z.mod_same. lia.
Qed.
Lemma land_low x n : 0 <= n -> Z.land x (2 ^ n - 1) = x mod 2 ^ n.
Proof. intros H. rewrite <- (Z.land_ones x n H). f_equal. rewrite Z.ones_equiv. lia. Qed.

Lemma mod_low_part r x n : 0 <= r < 2 ^ w -> w < n ->
  (r + 2 ^ w * x) mod 2 ^ n = r + 2 ^ w * (x mod 2 ^ (n - w)).
Proof.
  intros Hr Hn.
  assert (E : 2 ^ n = 2 ^ w * 2 ^ (n - w)) by (rewrite <- Z.pow_add_r by lia; f_equal; lia).
  assert (P1 : 0 < 2 ^ w) by (apply pw_pos; lia). assert (P2 : 0 < 2 ^ (n - w)) by (apply pw_pos; lia).
  symmetry. apply (Z.mod_unique _ _ (x / 2 ^ (n - w))).
  - left. assert (0 <= x mod 2 ^ (n - w) < 2 ^ (n - w)) by (apply Z.mod_pos_bound; lia).
    rewrite E. nia.
  - rewrite E. assert (D := Z.div_mod x (2 ^ (n - w))).
    rewrite D at 1 by lia. ring.
Qed.

Lemma draw_digits_spec f : forall i n acc, 0 <= n -> (Z.to_nat n < f)%nat -> digits_ok B acc ->
  (32 <= w /\ whole_digits w n -> draw_digits w raw f i n acc = Undefined) /\
  (~ (32 <= w /\ whole_digits w n) ->
   exists l, draw_digits w raw f i n acc = Got (l, (i + digit_count w n)%nat) /\ canon B l /\
     val B l = val B acc + B ^ Z.of_nat (length acc) * (words_value w raw i (digit_count w n) mod 2 ^ n)).
Proof.
  induction f as [|f IH]; intros i n acc Hn Hf Hacc; [lia|].
  cbn [draw_digits]. destruct (Z.ltb_spec w n) as [L|L].
  - assert (Hacc' : digits_ok B (acc ++ [raw i])).
    { apply digits_ok_app. split; [assumption|]. apply digits_ok_cons. split; [apply Hraw|apply digits_ok_nil]. }
    destruct (IH (S i) (n - w) (acc ++ [raw i]) ltac:(lia) ltac:(lia) Hacc') as [I1 I2].
    rewrite (whole_step L). rewrite (digit_count_step L). split; [exact I1|].
    intros H. destruct (I2 H) as (l & E & C & V). exists l.
    split; [rewrite E; do 2 f_equal; lia|]. split; [exact C|].
    rewrite V, val_app, app_length. cbn [val length words_value].
    rewrite (mod_low_part _ (Hraw i) L).
    replace (Z.of_nat (length acc + 1)) with (Z.of_nat (length acc) + 1) by lia.
    rewrite Z.pow_add_r by lia. unfold base. rewrite Z.pow_1_r. ring.
  - unfold top_digit. rewrite (whole_small (conj Hn L)), (digit_count_small (conj Hn L)).
    split.
    + intros [H1 ->]. replace (w <? Z.max 32 w) with false by (symmetry; apply Z.ltb_ge; lia). reflexivity.
    + intros H. replace (n <? Z.max 32 w) with true by (symmetry; apply Z.ltb_lt; lia).
      rewrite (land_low (raw i) Hn). eexists. split; [do 2 f_equal; lia|].
      assert (Hm : 0 <= raw i mod 2 ^ n < B).
      { assert (P := pw_pos Hn). assert (0 <= raw i mod 2 ^ n < 2 ^ n) by (apply Z.mod_pos_bound; lia).
        assert (2 ^ n <= 2 ^ w) by (apply Z.pow_le_mono_r; lia). unfold base. lia. }
      assert (HB : 2 <= B) by (apply base_ge2; exact Hw).
      split.
      * apply shrink_canon. apply digits_ok_app. split; [assumption|].
        apply digits_ok_cons. split; [exact Hm|apply digits_ok_nil].
      * rewrite val_shrink, val_app. cbn [val words_value].
        rewrite !Z.mul_0_r, !Z.add_0_r. reflexivity.
Qed.

Lemma draw_spec i n : 0 <= n -> ~ (32 <= w /\ whole_digits w n) ->
  exists l, draw w raw i n = Got (l, (i + digit_count w n)%nat) /\ canon B l /\
    val B l = words_value w raw i (digit_count w n) mod 2 ^ n.
Proof.
  intros Hn H. unfold draw.
  destruct (@draw_digits_spec (S (Z.to_nat n)) i n [] Hn ltac:(lia) (digits_ok_nil B)) as [_ D].
  destruct (D H) as (l & E & C & V). exists l. split; [exact E|]. split; [exact C|].
  rewrite V. cbn [val length]. change (Z.of_nat 0) with 0. rewrite Z.pow_0_r. ring.
Qed.
Lemma draw_undefined i n : 32 <= w -> whole_digits w n -> draw w raw i n = Undefined.
Proof.
  intros H1 H2. unfold draw.
  destruct (@draw_digits_spec (S (Z.to_nat n)) i n [] ltac:(destruct H2; lia) ltac:(lia) (digits_ok_nil B)) as [D _].
  exact (D (conj H1 H2)).
Qed.

Notation cand := (cand w raw).
Lemma okc_dec excl x d : {okc excl x d} + {~ okc excl x d}.
Proof. unfold okc. destruct excl; [destruct (Z_lt_dec x d)|destruct (Z_le_dec x d)]; auto. Qed.

Lemma reject_step excl n diff j f : 0 <= n -> ~ (32 <= w /\ whole_digits w n) -> canon B diff ->
  (okc excl (cand n j) (val B diff) -> exists x, canon B x /\ val B x = cand n j /\
     reject_big w raw (S f) (j * digit_count w n) excl n diff = Got x) /\
  (~ okc excl (cand n j) (val B diff) ->
     reject_big w raw (S f) (j * digit_count w n) excl n diff =
     reject_big w raw f (S j * digit_count w n) excl n diff).
Proof.
  intros Hn H Hd. cbn [reject_big].
  destruct (draw_spec (j * digit_count w n) Hn H) as (l & E & C & V). rewrite E.
  fold (cand n j) in V.
  assert (HB : 2 <= B) by (apply base_ge2; exact Hw).
  rewrite (ucompare_spec HB C Hd), V. unfold okc.
  replace (j * digit_count w n + digit_count w n)%nat with (S j * digit_count w n)%nat by lia.
  split; intros Hk.
  - exists l. split; [exact C|]. split; [exact V|].
    destruct excl; destruct (Z.compare_spec (cand n j) (val B diff)); try lia; reflexivity.
  - destruct excl; destruct (Z.compare_spec (cand n j) (val B diff)); try lia; reflexivity.
Qed.

Lemma reject_spec excl n diff f : 0 <= n -> ~ (32 <= w /\ whole_digits w n) -> canon B diff ->
  forall j,
  (exists m x, (j <= m < j + f)%nat /\ okc excl (cand n m) (val B diff) /\
     (forall i, (j <= i < m)%nat -> ~ okc excl (cand n i) (val B diff)) /\
     canon B x /\ val B x = cand n m /\
     reject_big w raw f (j * digit_count w n) excl n diff = Got x) \/
  (reject_big w raw f (j * digit_count w n) excl n diff = Running /\
   forall i, (j <= i < j + f)%nat -> ~ okc excl (cand n i) (val B diff)).
Proof.
  intros Hn H Hd. induction f as [|f IH]; intros j.
  - right. split; [reflexivity|]. intros; lia.
  - destruct (reject_step excl j f Hn H Hd) as [R1 R2].
    destruct (okc_dec excl (cand n j) (val B diff)) as [K|K].
    + left. destruct (R1 K) as (x & C & V & E). exists j, x.
      split; [lia|]. split; [exact K|]. split; [intros; lia|]. auto.
    + rewrite (R2 K). destruct (IH (S j)) as [(m & x & Hm & Km & Hi & C & V & E)|[E Hi]].
      * left. exists m, x. split; [lia|]. split; [exact Km|]. split; [|auto].
        intros i Hij. destruct (Nat.eq_dec i j) as [->|]; [exact K|]. apply Hi; lia.
      * right. split; [exact E|]. intros i Hij. destruct (Nat.eq_dec i j) as [->|]; [exact K|]. apply Hi; lia.
Qed.

Lemma bitnum_blen l : canon B l -> uget_bitnum w l = blen (val B l) .
Proof.
  intros C. assert (HB : 2 <= B) by (apply base_ge2; exact Hw).
  unfold blen. destruct l as [|x l]; [reflexivity|].
  assert (P := canon_pos HB C ltac:(discriminate)).
  rewrite (uget_bitnum_spec Hw C ltac:(discriminate)).
  destruct (Z.eqb_spec (val B (x :: l)) 0); [lia|reflexivity].
Qed.
Lemma blen_nonneg d : 0 <= blen d.
Proof. unfold blen. destruct (Z.eqb_spec d 0); [lia|]. assert (0 <= Z.log2 d) by apply Z.log2_nonneg. lia. Qed.
Lemma blen_upper d : 0 <= d -> d < 2 ^ blen d.
Proof.
  intros H. unfold blen. destruct (Z.eqb_spec d 0); [subst; reflexivity|].
  destruct (Z.log2_spec d ltac:(lia)) as [_ U]. rewrite Z.add_1_r. exact U.
Qed.

Definition lo_of (a b : list Z) := match ucompare b a with Gt => a | _ => b end.
Definition hi_of (a b : list Z) := match ucompare b a with Gt => b | _ => a end.
Lemma order_spec a b : canon B a -> canon B b ->
  canon B (lo_of a b) /\ canon B (hi_of a b) /\
  val B (lo_of a b) = Z.min (val B a) (val B b) /\ val B (hi_of a b) = Z.max (val B a) (val B b).
Proof.
  intros Ha Hb. assert (HB : 2 <= B) by (apply base_ge2; exact Hw).
  unfold lo_of, hi_of. rewrite (ucompare_spec HB Hb Ha).
  destruct (Z.compare_spec (val B b) (val B a)); (split; [assumption|]); (split; [assumption|]); lia.
Qed.

Definition gap (a b : list Z) : Z := Z.abs (val B a - val B b).
Definition bad_gap a b : Prop := undrawable w (gap a b).

Lemma diff_spec a b : canon B a -> canon B b ->
  exists diff, usub w (hi_of a b) (lo_of a b) = Some diff /\ canon B diff /\ val B diff = gap a b.
Proof.
  intros Ha Hb. destruct (order_spec Ha Hb) as (Cl & Ch & Vl & Vh).
  destruct (usub_spec Hw Ch Cl) as (diff & E & C & V).
  exists diff. split; [exact E|]. split; [exact C|]. rewrite V, Vl, Vh. unfold gap. lia.
Qed.

Lemma between_spec f excl a b : canon B a -> canon B b -> ~ bad_gap a b ->
  (exists m r, (m < f)%nat /\ okc excl (cand (blen (gap a b)) m) (gap a b) /\
     (forall i, (i < m)%nat -> ~ okc excl (cand (blen (gap a b)) i) (gap a b)) /\
     canon B r /\ val B r = Z.min (val B a) (val B b) + cand (blen (gap a b)) m /\
     between_big w raw f excl a b = Got r) \/
  (between_big w raw f excl a b = Running /\
   forall i, (i < f)%nat -> ~ okc excl (cand (blen (gap a b)) i) (gap a b)).
Proof.
  intros Ha Hb Hg. destruct (order_spec Ha Hb) as (Cl & Ch & Vl & Vh).
  destruct (diff_spec Ha Hb) as (diff & E & C & V).
  unfold between_big. fold (lo_of a b). fold (hi_of a b). cbv zeta. rewrite E.
  rewrite (bitnum_blen C), V.
  assert (N := @blen_nonneg (gap a b)).
  destruct (reject_spec excl f N Hg C 0) as [(m & x & Hm & Km & Hi & Cx & Vx & R)|[R Hi]];
    change (0 * digit_count w (blen (gap a b)))%nat with 0%nat in R; rewrite V in *; rewrite R.
  - left. destruct (add_base_spec Hw Cl Cx) as (r & Er & Cr & Vr). rewrite Er.
    exists m, r. split; [lia|]. split; [exact Km|]. split; [intros; apply Hi; lia|].
    split; [exact Cr|]. split; [rewrite Vr, Vl, Vx; reflexivity|reflexivity].
  - right. split; [reflexivity|]. intros; apply Hi; lia.
Qed.

Lemma between_undefined f excl a b : canon B a -> canon B b -> bad_gap a b ->
  between_big w raw (S f) excl a b = Undefined.
Proof.
  intros Ha Hb [H1 H2]. destruct (diff_spec Ha Hb) as (diff & E & C & V).
  unfold between_big. fold (lo_of a b). fold (hi_of a b). cbv zeta. rewrite E.
  rewrite (bitnum_blen C), V. cbn [reject_big]. rewrite (draw_undefined 0 H1 H2). reflexivity.
Qed.
End P.

(** Words spelling a given number. *)
Lemma words_value_digits w t : 0 < w -> 0 <= t -> forall k i,
  words_value w (fun j => (t / 2 ^ (w * Z.of_nat j)) mod 2 ^ w) i k =
  (t / 2 ^ (w * Z.of_nat i)) mod 2 ^ (w * Z.of_nat k).
Proof.
  intros Hw Ht k. induction k as [|k IH]; intros i.
  - cbn [words_value]. replace (w * Z.of_nat 0) with 0 by lia. rewrite Z.pow_0_r, Z.mod_1_r. reflexivity.
  - cbn [words_value]. rewrite IH.
    replace (w * Z.of_nat (S i)) with (w * Z.of_nat i + w) by lia.
    rewrite (Z.pow_add_r 2 (w * Z.of_nat i) w) by lia.
    rewrite <- Z.div_div by (try (assert (0 < 2 ^ (w * Z.of_nat i)) by (apply Z.pow_pos_nonneg; lia); lia); apply Z.pow_pos_nonneg; lia).
    set (u := t / 2 ^ (w * Z.of_nat i)).
    replace (w * Z.of_nat (S k)) with (w + w * Z.of_nat k) by lia.
    rewrite Z.pow_add_r by lia.
    rewrite Z.rem_mul_r by (try apply Z.pow_pos_nonneg; try (assert (0 < 2 ^ w) by (apply Z.pow_pos_nonneg; lia)); lia).
    reflexivity.
Qed.
Lemma digit_count_covers w n : 0 < w -> 0 <= n -> n <= w * Z.of_nat (digit_count w n).
Proof.
  intros Hw Hn. unfold digit_count.
  assert (D := Z.div_mod (n - 1) w ltac:(lia)). assert (M := Z.mod_pos_bound (n - 1) w Hw).
  destruct (Z.eq_dec n 0) as [->|]; [lia|].
  assert (0 <= (n - 1) / w) by (apply Z.div_pos; lia). nia.
Qed.

Lemma between_attained w (excl : bool) a b v : 0 < w -> canon (base w) a -> canon (base w) b ->
  ~ bad_gap w a b -> canon (base w) v ->
  Z.min (val (base w) a) (val (base w) b) <= val (base w) v ->
  (if excl then val (base w) v < Z.max (val (base w) a) (val (base w) b)
   else val (base w) v <= Z.max (val (base w) a) (val (base w) b)) ->
  exists raw, words_ok w raw /\ between_big w raw 1 excl a b = Got v.
Proof.
  intros Hw Ha Hb Hg Hv Hlo Hhi.
  set (t := val (base w) v - Z.min (val (base w) a) (val (base w) b)).
  assert (Ht : 0 <= t) by (unfold t; lia).
  exists (fun j : nat => (t / 2 ^ (w * Z.of_nat j)) mod 2 ^ w).
  assert (Hraw : words_ok w (fun j : nat => (t / 2 ^ (w * Z.of_nat j)) mod 2 ^ w)).
  { intros i. apply Z.mod_pos_bound. apply Z.pow_pos_nonneg; lia. }
  split; [exact Hraw|].
  assert (HB : 2 <= base w) by (apply base_ge2; exact Hw).
  assert (Hgap : 0 <= gap w a b) by (unfold gap; lia).
  assert (Htg : t <= gap w a b) by (unfold t, gap; destruct excl; lia).
  assert (Hc : cand w (fun j : nat => (t / 2 ^ (w * Z.of_nat j)) mod 2 ^ w) (blen (gap w a b)) 0 = t).
  { unfold cand. rewrite (words_value_digits Hw Ht). cbn [Nat.mul].
    replace (w * Z.of_nat 0) with 0 by lia. rewrite Z.pow_0_r, Z.div_1_r.
    assert (U := blen_upper Hgap).
    assert (N := @blen_nonneg (gap w a b)).
    assert (D := digit_count_covers Hw N).
    assert (2 ^ blen (gap w a b) <= 2 ^ (w * Z.of_nat (digit_count w (blen (gap w a b))))) by (apply Z.pow_le_mono_r; lia).
    rewrite (Z.mod_small t) by lia. apply Z.mod_small. lia. }
  assert (Hok : okc excl t (gap w a b)).
  { unfold okc, t, gap in *. destruct excl; lia. }
  destruct (between_spec Hw Hraw 1 excl Ha Hb Hg) as [(m & r & Hm & Km & Hi & Cr & Vr & E)|[_ Hi]].
  - replace m with 0%nat in Vr by lia. rewrite Hc in Vr.
    rewrite E. f_equal. apply (canon_unique HB Cr Hv). rewrite Vr. unfold t. lia.
  - exfalso. apply (Hi 0%nat); [lia|]. rewrite Hc. exact Hok.
Qed.

Lemma between_iff w raw f (excl : bool) a b r : 0 < w -> words_ok w raw ->
  canon (base w) a -> canon (base w) b -> ~ undrawable w (gap w a b) -> canon (base w) r ->
  (between_big w raw f excl a b = Got r <->
   exists m, (m < f)%nat /\ okc excl (cand w raw (blen (gap w a b)) m) (gap w a b) /\
     (forall i, (i < m)%nat -> ~ okc excl (cand w raw (blen (gap w a b)) i) (gap w a b)) /\
     val (base w) r = Z.min (val (base w) a) (val (base w) b) + cand w raw (blen (gap w a b)) m).
Proof.
  intros Hw Hraw Ha Hb Hg Hr.
  assert (HB : 2 <= base w) by (apply base_ge2; exact Hw).
  destruct (between_spec Hw Hraw f excl Ha Hb Hg) as [(m & r' & Hm & Km & Hi & Cr & Vr & E)|[E Hi]].
  - split.
    + intros E'. rewrite E in E'. injection E' as <-. exists m. auto.
    + intros (m' & Hm' & Km' & Hi' & V). rewrite E. f_equal.
      assert (m' = m).
      { destruct (Nat.lt_trichotomy m m') as [L|[L|L]]; [|congruence|].
        - exfalso. exact (Hi' m L Km).
        - exfalso. exact (Hi m' L Km'). }
      subst m'. apply (canon_unique HB Cr Hr). congruence.
  - split.
    + intros E'. rewrite E in E'. discriminate.
    + intros (m' & Hm' & Km' & _). exfalso. exact (Hi m' Hm' Km').
Qed.

Lemma between_range w raw f (excl : bool) a b r : 0 < w -> words_ok w raw ->
  canon (base w) a -> canon (base w) b -> between_big w raw f excl a b = Got r ->
  canon (base w) r /\ Z.min (val (base w) a) (val (base w) b) <= val (base w) r /\
  (if excl then val (base w) r < Z.max (val (base w) a) (val (base w) b)
   else val (base w) r <= Z.max (val (base w) a) (val (base w) b)).
Proof.
  intros Hw Hraw Ha Hb E.
  assert (Hd : ~ undrawable w (gap w a b)).
  { intros Hu. destruct f as [|f].
    - unfold between_big in E. destruct (diff_spec Hw Ha Hb) as (diff & E1 & _).
      fold (lo_of a b) in E. fold (hi_of a b) in E. cbv zeta in E. rewrite E1 in E. discriminate.
    - rewrite (between_undefined Hw Hraw f excl Ha Hb Hu) in E. discriminate. }
  destruct (between_spec Hw Hraw f excl Ha Hb Hd) as [(m & r' & Hm & Km & Hi & Cr & Vr & E')|[E' Hi]];
    [|congruence].
  assert (r' = r) by congruence. subst r'. split; [exact Cr|].
  assert (0 <= cand w raw (blen (gap w a b)) m).
  { apply Z.mod_pos_bound. apply Z.pow_pos_nonneg; [lia|]. apply blen_nonneg. }
  rewrite Vr. split; [lia|]. unfold okc, gap in *. destruct excl; lia.
Qed.

Lemma between_equal w raw f a : 0 < w -> words_ok w raw -> canon (base w) a ->
  between_big w raw f true a a = Running.
Proof.
  intros Hw Hraw Ha.
  assert (G : gap w a a = 0) by (unfold gap; lia).
  assert (Hd : ~ undrawable w (gap w a a)).
  { rewrite G. unfold undrawable, whole_digits, blen. cbn [Z.eqb]. lia. }
  destruct (between_spec Hw Hraw f true Ha Ha Hd) as [(m & r' & Hm & Km & _)|[E' _]]; [|exact E'].
  exfalso. rewrite G in Km. unfold okc in Km.
  assert (0 <= cand w raw (blen 0) m) by (apply Z.mod_pos_bound; reflexivity). lia.
Qed.
Lemma between_one w raw f a : 0 < w -> words_ok w raw -> canon (base w) a ->
  between_big w raw (S f) false a a = Got a.
Proof.
  intros Hw Hraw Ha.
  assert (G : gap w a a = 0) by (unfold gap; lia).
  assert (Hd : ~ undrawable w (gap w a a)).
  { rewrite G. unfold undrawable, whole_digits, blen. cbn [Z.eqb]. lia. }
  apply (@between_iff w raw (S f) false a a a Hw Hraw Ha Ha Hd Ha). rewrite G. exists 0%nat.
  assert (C : cand w raw (blen 0) 0 = 0) by (unfold cand; change (2 ^ blen 0) with 1; apply Z.mod_1_r).
  rewrite C. split; [lia|]. split; [unfold okc; lia|]. split; [intros; lia|]. lia.
Qed.
