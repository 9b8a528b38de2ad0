(** Long division is exact; the "no remainder needed" truncation is off by at
    most one. *)
From Verif Require Import Base UBig_Model UBig_Spec UBig_Basics UBig_AddSub UBig_Mul UBig_Kara.
Local Open Scope Z_scope.
Local Open Scope omonad_scope.

Section Div.
Variable w : Z.
Hypothesis Hw : 0 < w.
Notation B := (base w).
Notation val := (val B).
Notation digits_ok := (digits_ok B).
Notation canon := (canon B).
Let HB : 2 <= B := base_ge2 Hw.
Ltac HB := let h := fresh "HB2_" in pose proof HB as h.
Local Hint Resolve canon_ok : core.

Lemma bsearch_spec fuel : forall tryto b left right last_work q,
  canon tryto -> canon b -> 0 < val b ->
  q = val tryto / val b -> 0 <= left -> q <= right -> right <= B - 1 ->
  (left <= q \/ (left = q + 1 /\ last_work = q)) ->
  right - left + 1 < 2 ^ Z.of_nat fuel ->
  bsearch w fuel tryto b left right last_work = Some q.
Proof.
  induction fuel as [|f IH]; intros tryto b left right last_work q Ht Hb Hbp Hq Hl Hqr Hr Hinv Hsz; HB.
  - cbn [bsearch]. change (2 ^ Z.of_nat 0) with 1 in Hsz.
    destruct (Z.leb_spec left right); [lia|].
    destruct Hinv as [H1|[H1 H2]]; [lia|congruence].
  - cbn [bsearch]. destruct (Z.leb_spec left right) as [Hle|Hgt].
    2:{ destruct Hinv as [H1|[H1 H2]]; [lia|congruence]. }
    cbv zeta. unfold trc. rewrite (Z.mod_small (left + right)) by nia.
    set (test := (left + right) / 2).
    assert (Htest : left <= test <= right /\ 2 * test <= left + right < 2 * test + 2).
    { unfold test. pose proof (Z.div_mod (left + right) 2 ltac:(lia)).
      pose proof (Z.mod_pos_bound (left + right) 2 ltac:(lia)). lia. }
    rewrite (tr_small (w := w) (x := test)) by lia.
    destruct (@mul_digit_spec w Hw b test ltac:(auto) ltac:(lia)) as (M1 & M2 & M3).
    rewrite (ucompare_spec HB Ht (shrink_canon M1)), val_shrink, M3.
    pose proof (Z.div_mod (val tryto) (val b) ltac:(lia)) as Hdm. rewrite <- Hq in Hdm.
    pose proof (Z.mod_pos_bound (val tryto) (val b) ltac:(lia)) as Hmb.
    assert (Hq0 : 0 <= q) by (rewrite Hq; apply Z.div_pos; [apply (val_nonneg HB); auto|lia]).
    rewrite Nat2Z.inj_succ, Z.pow_succ_r in Hsz by lia.
    destruct (Z.compare_spec (val tryto) (val b * test)) as [H|H|H].
    + f_equal. nia.
    + assert (q < test) by nia. rewrite Z.mod_small by nia.
      apply IH; auto; lia.
    + assert (test <= q) by nia.
      destruct (Z_lt_ge_dec (test + 1) B) as [H1|H1].
      * rewrite tr_small by lia. destruct (Z.eqb_spec (test + 1) 0); [lia|].
        apply IH; auto; lia.
      * rewrite tr_over by lia. destruct (Z.eqb_spec (test + 1 - B) 0); [f_equal; lia|lia].
Qed.

Lemma nth_val_top a n : digits_ok a -> (n < length a)%nat -> 0 <= nth n a 0 < B.
Proof.
  intros Hd Hn. unfold UBig_Spec.digits_ok in Hd. rewrite Forall_forall in Hd.
  apply Hd. apply nth_In. exact Hn.
Qed.

Lemma firstn_S_val a n : digits_ok a -> (n < length a)%nat ->
  val (firstn (S n) a) = val (firstn n a) + B ^ Z.of_nat n * nth n a 0.
Proof.
  revert n. induction a as [|x a IH]; intros n Hd Hn; [cbn in Hn; lia|].
  apply digits_ok_cons in Hd. destruct Hd as [Hx Hd]. cbn [length] in Hn.
  destruct n as [|n].
  - cbn [firstn UBig_Spec.val nth]. rewrite Z.pow_0_r. lia.
  - cbn [nth]. change (firstn (S (S n)) (x :: a)) with (x :: firstn (S n) a).
    change (firstn (S n) (x :: a)) with (x :: firstn n a).
    cbn [UBig_Spec.val]. rewrite (IH n Hd) by lia.
    rewrite Nat2Z.inj_succ, Z.pow_succ_r by lia. ring.
Qed.

(** The digit estimate from the two top digits of the slice and the top digit of
    the divisor brackets the quotient. *)
Lemma estimate_bounds a b D d P al bl :
  0 < P -> a = al + P * D -> 0 <= al < P -> b = bl + P * d -> 0 <= bl < P -> 0 < d -> 0 <= D ->
  0 <= D / (d + 1) <= a / b /\ a / b <= D / d.
Proof.
  intros HP Ea Hal Eb Hbl Hd HD.
  assert (Hb : 0 < b) by nia. assert (Ha : 0 <= a) by nia.
  assert (H0 : 0 <= D / (d + 1)) by (apply Z.div_pos; lia).
  split; [split; [exact H0|]|].
  - apply Z.div_le_lower_bound; [lia|].
    pose proof (Z.mul_div_le D (d + 1) ltac:(lia)) as H1. set (l := D / (d + 1)) in *. clearbody l.
    assert (H2 : b * l <= P * (d + 1) * l) by (apply Z.mul_le_mono_nonneg_r; lia).
    assert (H3 : P * ((d + 1) * l) <= P * D) by (apply Z.mul_le_mono_nonneg_l; lia). lia.
  - apply Z.div_le_lower_bound; [lia|].
    pose proof (Z.mul_div_le a b Hb) as H1.
    assert (Hq0 : 0 <= a / b) by (apply Z.div_pos; lia).
    set (q := a / b) in *. clearbody q.
    assert (H2 : P * d * q <= b * q) by (apply Z.mul_le_mono_nonneg_r; lia).
    assert (H3 : P * (d * q) < P * (D + 1)) by lia.
    apply Z.mul_lt_mono_pos_l in H3; [lia|exact HP].
Qed.

Lemma div_digit_spec a b : digits_ok a -> canon b -> b <> [] ->
  (length b < length a)%nat -> val a < B * val b ->
  exists q a', div_digit w a b = Some (q, a') /\ 0 <= q < B /\ digits_ok a' /\
    length a' = length a /\ val a = q * val b + val a' /\ 0 <= val a' < val b.
Proof.
  intros Ha Hb Hnb Hl Hv. HB. unfold div_digit. cbv zeta.
  set (n := length b). assert (Hn0 : (0 < n)%nat) by (unfold n; destruct b; [congruence|cbn [length]; lia]).
  destruct (Nat.ltb_spec (length a) (n + 1)) as [H|_]; [unfold n in H; lia|].
  pose proof (canon_last_pos Hb Hnb) as Hlast.
  pose proof (canon_pos HB Hb Hnb) as Hbp.
  assert (Hdv : match b with [] => None (A := Z * list Z) | _ :: _ => Some (0, []) end <> None).
  { destruct b; congruence. }
  pose proof (val_bound HB (canon_ok Hb)) as Hbb. fold n in Hbb.
  (* the slice has the value of the whole buffer *)
  assert (Hslice : val (firstn (n + 1) a) = val a /\ val (skipn (n + 1) a) = 0).
  { pose proof (val_split w (n := n + 1) (a := a) ltac:(unfold n; lia)) as Hs.
    pose proof (val_nonneg HB (digits_ok_skipn (n + 1) Ha)) as Hs0.
    pose proof (val_nonneg HB (digits_ok_firstn (n + 1) Ha)) as Hf0.
    assert (Hp1 : B ^ Z.of_nat (n + 1) = B * B ^ Z.of_nat n).
    { rewrite Nat.add_1_r, Nat2Z.inj_succ, Z.pow_succ_r by lia. reflexivity. }
    assert (val (skipn (n + 1) a) = 0) by nia. nia. }
  destruct Hslice as [Hsl Hsk].
  set (P := B ^ Z.of_nat (n - 1)).
  assert (HP : 0 < P) by apply (powB_pos HB).
  assert (Hdec : val a = val (firstn (n - 1) a) + P * (nth n a 0 * B + nth (n - 1) a 0)).
  { rewrite <- Hsl. replace (n + 1)%nat with (S n) by lia.
    rewrite firstn_S_val by (auto; unfold n; lia).
    replace (firstn n a) with (firstn (S (n - 1)) a) by (f_equal; lia).
    rewrite firstn_S_val by (auto; unfold n; lia). fold P.
    replace (Z.of_nat n) with (Z.succ (Z.of_nat (n - 1))) by lia.
    rewrite Z.pow_succ_r by lia. fold P. ring. }
  pose proof (val_bound HB (digits_ok_firstn (n - 1) Ha)) as Hlow.
  rewrite firstn_length_le in Hlow by (unfold n; lia). fold P in Hlow.
  assert (Hbdec : val b = val (removelast b) + P * last b 0).
  { rewrite (val_last w Hnb) at 1. unfold P. fold n. do 3 f_equal. lia. }
  pose proof (val_bound HB (digits_ok_removelast (canon_ok Hb))) as Hrb.
  rewrite removelast_length' in Hrb by auto. fold n P in Hrb.
  set (D := nth n a 0 * B + nth (n - 1) a 0) in *.
  assert (Hx1 : 0 <= nth n a 0 < B) by (apply nth_val_top; auto; unfold n; lia).
  assert (Hx2 : 0 <= nth (n - 1) a 0 < B) by (apply nth_val_top; auto; unfold n; lia).
  assert (HD : 0 <= D < B * B) by (unfold D; nia).
  assert (Htrc : trc w (trc w (nth n a 0 * B) + nth (n - 1) a 0) = D).
  { unfold trc. rewrite (Z.mod_small (nth n a 0 * B)) by nia. apply Z.mod_small. exact HD. }
  rewrite Htrc. set (d := last b 0) in *.
  set (q := val a / val b).
  pose proof (Z.div_mod (val a) (val b) ltac:(lia)) as Hdm. fold q in Hdm.
  pose proof (Z.mod_pos_bound (val a) (val b) ltac:(lia)) as Hmb.
  pose proof (val_nonneg HB Ha) as Ha0.
  assert (Hq : 0 <= q < B).
  { unfold q. split; [apply Z.div_pos; lia|apply Z.div_lt_upper_bound; lia]. }
  assert (Hest : 0 <= D / (d + 1) <= q /\ q <= D / d).
  { unfold q. apply (@estimate_bounds (val a) (val b) D d P (val (firstn (n - 1) a)) (val (removelast b))); auto; lia. }
  destruct Hest as [Hleft Hright].
  destruct b as [|b0 bs]; [congruence|].
  destruct (Z.eqb_spec d 0) as [|_]; [lia|].
  assert (Hzero : q = 0 -> exists q0 a', Some (0, a) = Some (q0, a') /\ 0 <= q0 < B /\ digits_ok a' /\
    length a' = length a /\ val a = q0 * val (b0 :: bs) + val a' /\ 0 <= val a' < val (b0 :: bs)).
  { intros E. exists 0, a. repeat split; auto; try lia. }
  destruct (Z.eqb_spec (Z.min (D / d) (B - 1)) 0) as [Er|Er].
  - apply Hzero. lia.
  - pose proof (shrink_canon (digits_ok_firstn (n + 1) Ha)) as Htc.
    rewrite (@bsearch_spec (Z.to_nat (w + 2)) (shrink (firstn (n + 1) a)) (b0 :: bs) (D / (d + 1))
               (Z.min (D / d) (B - 1)) 0 q); auto; try lia.
    + cbn [obind]. destruct (Z.eqb_spec q 0) as [E0|E0]; [apply Hzero; exact E0|].
      destruct (@mul_digit_spec w Hw (b0 :: bs) q ltac:(auto) ltac:(lia)) as (M1 & M2 & M3).
      pose proof (@sub_buf_spec w Hw a (shrink (mul_digit w (b0 :: bs) q)) false Ha
                    (canon_ok (shrink_canon M1))) as Hs.
      pose proof (shrink_length (mul_digit w (b0 :: bs) q)) as Hsl2.
      rewrite M2 in Hsl2. fold n in Hsl2. specialize (Hs ltac:(fold n in Hl; lia)).
      rewrite val_shrink, M3 in Hs. cbn [b2z] in Hs.
      assert (Hqb : q * val (b0 :: bs) = val a - val a mod val (b0 :: bs)) by (clear - Hdm; lia).
      rewrite Z.mul_comm, Hqb in Hs. clear - Hs Hqb Hmb Ha0 Hq.
      destruct (sub_buf w a _ false) as [a'|]; cbn [obind]; [|exfalso; clear - Hs Hmb; lia].
      destruct Hs as (S1 & S2 & S3). exists q, a'.
      split; [reflexivity|]. split; [exact Hq|]. split; [exact S1|]. split; [exact S2|]. lia.
    + rewrite val_shrink, Hsl. reflexivity.
    + rewrite Z2Nat.id by lia.
      replace (w + 2) with (w + 1 + 1) by lia. rewrite !Z.pow_add_r by lia.
      change (2 ^ w) with B. change (2 ^ 1) with 2. lia.
Qed.

Lemma skipn_cons_nth (a : list Z) n : (n < length a)%nat -> skipn n a = nth n a 0 :: skipn (S n) a.
Proof.
  revert n. induction a as [|x a IH]; intros [|n] H; cbn [length] in H; try lia; [reflexivity|].
  cbn [skipn nth]. apply IH. lia.
Qed.

Lemma skipn_skipn (x y : nat) (l : list Z) : skipn x (skipn y l) = skipn (x + y) l.
Proof.
  revert x l. induction y as [|y IH]; intros x l.
  - rewrite Nat.add_0_r. reflexivity.
  - rewrite Nat.add_succ_r. destruct l as [|a l]; [destruct x; reflexivity|]. cbn [skipn]. apply IH.
Qed.

Lemma skipn_app_exact (l r : list Z) n : length l = n -> skipn n (l ++ r) = r.
Proof. intros <-. rewrite skipn_app, skipn_all, Nat.sub_diag. reflexivity. Qed.

Lemma div_loop_spec cnt : forall a b, digits_ok a -> canon b -> b <> [] ->
  (cnt + length b <= length a)%nat -> val (skipn cnt a) < val b ->
  exists q r, div_loop w cnt a b = Some (q, r) /\ digits_ok q /\ length q = cnt /\ digits_ok r /\
    val a = val q * val b + val r /\ 0 <= val r < val b.
Proof.
  induction cnt as [|pos IH]; intros a b Ha Hb Hnb Hl Hv; HB.
  - exists [], a. cbn [div_loop skipn] in *. pose proof (val_nonneg HB Ha).
    split; [reflexivity|]. split; [constructor|]. split; [reflexivity|]. split; [auto|].
    cbn [UBig_Spec.val]. lia.
  - cbn [div_loop].
    assert (Hsk : skipn pos a = nth pos a 0 :: skipn (S pos) a) by (apply skipn_cons_nth; lia).
    destruct (@div_digit_spec (skipn pos a) b) as (d & hi & -> & Hd & Hhi & Hlh & Heq & Hrem); auto.
    + apply digits_ok_skipn; auto.
    + rewrite skipn_length. lia.
    + rewrite Hsk. cbn [UBig_Spec.val].
      assert (0 <= nth pos a 0 < B) by (apply nth_val_top; auto; lia). nia.
    + cbn [obind].
      assert (Hfl : length (firstn pos a) = pos) by (apply firstn_length_le; lia).
      destruct (IH (firstn pos a ++ hi) b) as (q & r & -> & Hq & Hlq & Hr & Heq2 & Hrr); auto.
      * apply digits_ok_app. split; [apply digits_ok_firstn; auto|auto].
      * rewrite app_length, Hlh, skipn_length. lia.
      * rewrite skipn_app_exact by exact Hfl. lia.
      * cbn [obind]. exists (q ++ [d]), r. split; [reflexivity|].
        split; [apply digits_ok_app; split; [auto|apply digits_ok_cons; split; [auto|constructor]]|].
        split; [rewrite app_length; cbn [length]; lia|]. split; [auto|]. split; [|auto].
        rewrite val_app in *. cbn [UBig_Spec.val]. rewrite Hfl in Heq2. rewrite Hlq.
        rewrite (val_cut w pos a), Heq. nia.
Qed.

Lemma long_div_spec a b : digits_ok a -> canon b -> b <> [] -> (length b <= length a)%nat ->
  exists q r, long_div w a b = Some (q, r) /\ canon q /\ digits_ok r /\
    val q = val a / val b /\ val r = val a mod val b.
Proof.
  intros Ha Hb Hnb Hl. HB. unfold long_div.
  pose proof (canon_pos HB Hb Hnb) as Hbp.
  destruct (@div_loop_spec (length a + 1 - length b) (a ++ [0]) b) as (q & r & -> & Hq & Hlq & Hr & Heq & Hrr); auto.
  - apply digits_ok_app. split; [auto|]. apply digits_ok_cons. split; [lia|constructor].
  - rewrite app_length. cbn [length]. lia.
  - pose proof (canon_lower HB Hb Hnb) as Hlow.
    assert (Hb0 : (0 < length b)%nat) by (destruct b; [congruence|cbn [length]; lia]).
    rewrite skipn_app. replace (length a + 1 - length b - length a)%nat with 0%nat by lia.
    rewrite val_app. cbn [skipn UBig_Spec.val].
    pose proof (val_bound HB (digits_ok_skipn (length a + 1 - length b) Ha)) as Hs.
    rewrite skipn_length in Hs.
    replace (Z.of_nat (length a - (length a + 1 - length b))) with (Z.of_nat (length b) - 1) in Hs by lia.
    lia.
  - cbn [obind]. exists (shrink q), r. split; [reflexivity|].
    split; [apply shrink_canon; auto|]. split; [auto|]. rewrite val_shrink.
    rewrite val_app in Heq. cbn [UBig_Spec.val] in Heq.
    assert (Heq' : val a = val b * val q + val r) by nia.
    split.
    + apply (Z.div_unique_pos _ _ _ (val r)); auto.
    + apply (Z.mod_unique_pos _ _ (val q)); auto.
Qed.

Lemma mod_base_spec a b : digits_ok a -> canon b -> b <> [] -> (length b <= length a)%nat ->
  denotes B (mod_base w a b) (val a mod val b).
Proof.
  intros Ha Hb Hnb Hl. unfold mod_base.
  destruct (long_div_spec Ha Hb Hnb Hl) as (q & r & -> & Hq & Hr & Hvq & Hvr).
  cbn [obind]. exists (shrink r). split; [reflexivity|]. split; [apply shrink_canon; auto|].
  rewrite val_shrink. exact Hvr.
Qed.

Lemma canon_lt_length a b : canon a -> canon b -> (length a < length b)%nat -> val a < val b.
Proof. intros. apply canon_length_lt with (B := B); auto. Qed.

(** Quotient by zero is defined as 0 by the code; [Z.div] agrees.  Remainder by
    zero is 0 in the code. *)
Lemma umod_spec a b : canon a -> canon b -> (length a <= 32)%nat ->
  denotes B (umod w a b) (if val b =? 0 then 0 else val a mod val b).
Proof.
  intros Ha Hb Hl. unfold umod. destruct b as [|y b].
  - exists []. cbn. repeat split; [constructor|cbn; lia].
  - pose proof (canon_pos HB Hb ltac:(congruence)) as Hp.
    destruct (Z.eqb_spec (val (y :: b)) 0) as [|_]; [lia|].
    destruct (Nat.ltb_spec (length a) (length (y :: b))) as [H|H].
    + exists a. pose proof (canon_lt_length Ha Hb H) as Hlt.
      pose proof (val_nonneg HB (canon_ok Ha)). rewrite Z.mod_small by lia. auto.
    + destruct (Nat.leb_spec (length a) 32); [|lia]. apply mod_base_spec; auto. congruence.
Qed.

(** ** Truncated quotient *)

(** When the low zero digits of the divisor are dropped. *)
Lemma strip_zeros_div a b z b1 : digits_ok a -> canon b -> low_zeros b = (z, b1) ->
  val a / val b = val (skipn z a) / val b1 /\ canon b1 /\ (b <> [] -> b1 <> []) /\
  length b = (z + length b1)%nat.
Proof.
  intros Ha Hb E. HB. apply low_zeros_spec in E. destruct E as [E Hh].
  assert (Hc1 : canon b1) by (rewrite E in Hb; eapply canon_app_r; exact Hb).
  split; [|split; [exact Hc1|split]].
  - rewrite (val_cut w z a). rewrite E, val_app, val_repeat0, repeat_length, Z.add_0_l.
    pose proof (val_nonneg HB (canon_ok Hc1)) as H1. pose proof (powB_pos HB z) as HP.
    destruct (Z.eq_dec (val b1) 0) as [E0|E0].
    + rewrite E0, Z.mul_0_r. rewrite !Zdiv_0_r. reflexivity.
    + rewrite <- Z.div_div by lia. f_equal. symmetry.
      apply (Z.div_unique_pos _ _ _ (val (firstn z a))); [|ring].
      pose proof (val_bound HB (digits_ok_firstn z Ha)) as Hf.
      rewrite firstn_length in Hf.
      assert (B ^ Z.of_nat (Nat.min z (length a)) <= B ^ Z.of_nat z) by (apply Z.pow_le_mono_r; lia). lia.
  - intros Hn E1. rewrite E1, app_nil_r in E. apply Hn.
    apply (canon_zero HB Hb). rewrite E. apply val_repeat0.
  - rewrite E at 1. rewrite app_length, repeat_length. reflexivity.
Qed.

(** The truncation keeps enough digits for an error of at most one. *)
Lemma trunc_div_bound (a b S e a2 b2 al bl : Z) :
  0 < S -> 0 <= al < S -> 0 <= bl < S -> a = al + S * a2 -> b = bl + S * b2 ->
  0 < b2 -> 0 <= a2 -> e <= b2 -> a2 < e * e -> 0 < e ->
  a / b <= a2 / b2 <= a / b + 1.
Proof.
  intros HS Hal Hbl Ea Eb Hb2 Ha2 He Ha2e He0.
  assert (Hb : 0 < b) by nia. assert (Ha : 0 <= a) by nia.
  pose proof (Z.div_mod a b ltac:(lia)) as D1. pose proof (Z.mod_pos_bound a b Hb) as M1.
  pose proof (Z.div_mod a2 b2 ltac:(lia)) as D2. pose proof (Z.mod_pos_bound a2 b2 Hb2) as M2.
  set (q := a / b) in *. set (p := a2 / b2) in *.
  assert (Hq : 0 <= q) by (apply Z.div_pos; lia).
  assert (Hp : 0 <= p) by (apply Z.div_pos; lia).
  split.
  - (* q*b <= a < S*(a2+1) *)
    unfold p. apply Z.div_le_lower_bound; [lia|].
    assert (S * (b2 * q) < S * (a2 + 1)) by nia. nia.
  - (* p <= q+1 *)
    (* p < b2 since a2 < e*e <= b2*b2 *)
    assert (Hpb : p < b2) by (unfold p; apply Z.div_lt_upper_bound; nia).
    destruct (Z_le_gt_dec p (q + 1)) as [Hle|Hgt]; [exact Hle|exfalso].
    (* then q+2 <= p, a < (q+1)*b, b < S*(b2+1) *)
    assert (H1 : a < (q + 1) * b) by lia.
    assert (H2 : (q + 1) * b <= (p - 1) * b) by (apply Z.mul_le_mono_nonneg_r; lia).
    assert (Hbu : b <= S * (b2 + 1)) by lia.
    assert (H3 : (p - 1) * b <= (p - 1) * (S * (b2 + 1))) by (apply Z.mul_le_mono_nonneg_l; lia).
    assert (H4 : S * (p * b2) <= S * a2) by (apply Z.mul_le_mono_nonneg_l; lia).
    assert (H5 : S * (p * b2) < S * ((p - 1) * (b2 + 1))).
    { replace (S * ((p - 1) * (b2 + 1))) with ((p - 1) * (S * (b2 + 1))) by ring. lia. }
    apply Z.mul_lt_mono_pos_l in H5; [|exact HS].
    replace ((p - 1) * (b2 + 1)) with (p * b2 + p - b2 - 1) in H5 by ring. lia.
Qed.

(** Result of the truncation. *)
Lemma trunc_div_full (a b S e a2 b2 al bl : Z) :
  0 < S -> 0 <= al < S -> 0 <= bl < S -> a = al + S * a2 -> b = bl + S * b2 ->
  0 < b2 -> 0 <= a2 -> e <= b2 -> a2 < e * e -> 0 < e ->
  a / b <= a2 / b2 <= a / b + 1 /\ ((b | a) -> a2 / b2 = a / b).
Proof.
  intros HS Hal Hbl Ea Eb Hb2 Ha2 He Ha2e He0.
  pose proof (@trunc_div_bound a b S e a2 b2 al bl HS Hal Hbl Ea Eb Hb2 Ha2 He Ha2e He0) as Bd.
  split; [lia|]. intros [q Hq].
  assert (Hb : 0 < b) by nia. rewrite Hq, Z.div_mul in * by lia.
  assert (Hp : a2 / b2 < b2) by (apply Z.div_lt_upper_bound; nia).
  assert (Hq0 : 0 <= q) by nia.
  symmetry. apply Z.div_unique_pos with (r := a2 - b2 * q); [|lia].
  assert (E : S * (a2 - b2 * q) = q * bl - al) by nia.
  split.
  - assert (0 <= S * (a2 - b2 * q) + S - 1) by nia. nia.
  - assert (S * (a2 - b2 * q) < S * b2) by nia. nia.
Qed.
Lemma strip_zeros_mult a b z b1 : digits_ok a -> low_zeros b = (z, b1) ->
  (val b | val a) -> (val b1 | val (skipn z a)).
Proof.
  intros Ha E [q Hq]. HB. pose proof (low_zeros_spec E) as [Eb _].
  destruct (le_lt_dec z (length a)) as [L|L].
  - pose proof (val_cut w z a) as C.
    pose proof (val_bound HB (digits_ok_firstn z Ha)) as F. rewrite firstn_length_le in F by auto.
    assert (V : val b = B ^ Z.of_nat z * val b1).
    { rewrite Eb, val_app, repeat_length, val_repeat0. lia. }
    rewrite V in Hq. pose proof (powB_pos HB z).
    exists q. set (P := B ^ Z.of_nat z) in *.
    assert (val (firstn z a) = P * (q * val b1 - val (skipn z a))) by nia.
    assert (-1 < q * val b1 - val (skipn z a) < 1) by nia. lia.
  - rewrite skipn_all2 by lia. exists 0. reflexivity.
Qed.
Lemma no_mod_opt_full a b : digits_ok a -> canon b -> b <> [] -> (length b <= length a)%nat ->
  exists k a1 b1, no_mod_opt a b = Some (k, a1, b1) /\
    a1 = skipn k a /\ b1 = skipn k b /\
    digits_ok a1 /\ canon b1 /\ b1 <> [] /\ (length b1 <= length a1)%nat /\
    val a / val b <= val a1 / val b1 <= val a / val b + 1 /\
    ((val b | val a) -> val a1 / val b1 = val a / val b).
Proof.
  intros Ha Hb Hnb Hl. HB. unfold no_mod_opt.
  assert (Hlb : exists f, length b = S f) by (destruct b; [congruence|cbn [length]; eauto]).
  destruct Hlb as [f Hf]. rewrite Hf. cbn [no_mod_opt_f].
  destruct (low_zeros b) as [z b1] eqn:E.
  destruct (strip_zeros_div Ha Hb E) as (Hdiv & Hc1 & Hn1 & Hlen). specialize (Hn1 Hnb).
  pose proof (low_zeros_spec E) as [Eb _].
  assert (Hb1 : b1 = skipn z b).
  { rewrite Eb. symmetry. apply skipn_app_exact. apply repeat_length. }
  assert (Hlen1 : (0 < length b1)%nat) by (destruct b1; [congruence|cbn [length]; lia]).
  assert (Hla1 : length (skipn z a) = (length a - z)%nat) by apply skipn_length.
  pose proof (digits_ok_skipn z Ha) as Hd1.
  destruct (Nat.ltb_spec (length (skipn z a)) ((length b1 - 1) * 2)) as [Ht|Ht].
  - set (a1 := skipn z a) in *.
    assert (Hlba : (length b1 <= length a1)%nat) by (clear - Hl Hla1 Hlen; lia).
    set (ans := (length a1 - length b1 + 2)%nat).
    set (shr := (length b1 - ans)%nat).
    assert (Hans : (ans + length b1 = length a1 + 2)%nat) by (unfold ans; clear - Hlba; lia).
    assert (Hshr : (shr + ans = length b1)%nat) by (unfold shr, ans; clear - Hlba Ht Hlen1; lia).
    clearbody shr ans.
    set (a2 := skipn shr a1). set (b2 := skipn shr b1).
    assert (Hl2 : (length a2 + shr = length a1)%nat).
    { unfold a2. rewrite skipn_length. clear - Hshr Hlba. lia. }
    assert (Hlb2 : length b2 = ans).
    { unfold b2. rewrite skipn_length. clear - Hshr Hlba. lia. }
    assert (Hans2 : (2 <= ans)%nat) by (clear - Hans Hlba; lia).
    pose proof (canon_skipn shr Hc1) as Hc2. fold b2 in Hc2.
    pose proof (digits_ok_skipn shr Hd1) as Hd2. fold a2 in Hd2.
    assert (Hn2 : b2 <> []) by (intros E2; rewrite E2 in Hlb2; cbn [length] in Hlb2; clear - Hlb2 Hans2; lia).
    (* error bound of the truncation *)
    assert (Hbound : val a1 / val b1 <= val a2 / val b2 <= val a1 / val b1 + 1 /\
              ((val b1 | val a1) -> val a2 / val b2 = val a1 / val b1)).
    { pose proof (val_cut w shr a1) as Ca. pose proof (val_cut w shr b1) as Cb.
      fold a2 in Ca. fold b2 in Cb.
      pose proof (val_bound HB (digits_ok_firstn shr Hd1)) as Fa.
      pose proof (val_bound HB (digits_ok_firstn shr (canon_ok Hc1))) as Fb.
      rewrite firstn_length_le in Fa by (clear - Hl2; lia).
      rewrite firstn_length_le in Fb by (clear - Hshr; lia).
      pose proof (canon_lower HB Hc2 Hn2) as Lb.
      pose proof (val_bound HB Hd2) as Ub.
      apply (trunc_div_full (S := B ^ Z.of_nat shr) (e := B ^ (Z.of_nat (length b2) - 1))
               (al := val (firstn shr a1)) (bl := val (firstn shr b1))); auto.
      - apply (powB_pos HB).
      - apply (canon_pos HB); auto.
      - apply Ub.
      - eapply Z.lt_le_trans; [apply Ub|].
        rewrite <- Z.pow_add_r by (clear - Hlb2 Hans2; lia).
        apply Z.pow_le_mono_r; [clear - HB2_; lia|]. clear - Hl2 Hlb2 Hans Hshr. lia.
      - apply Z.pow_pos_nonneg; [clear - HB2_; lia|clear - Hlb2 Hans2; lia]. }
    (* the recursive call only strips zeros *)
    destruct f as [|f'].
    { exfalso. clear - Hf Hlen Hshr Hans2 Ht Hlba Hlen1. lia. }
    cbn [no_mod_opt_f]. fold a2 b2.
    destruct (low_zeros b2) as [z2 b3] eqn:E2.
    destruct (strip_zeros_div Hd2 Hc2 E2) as (Hdiv2 & Hc3 & Hn3 & Hlen2). specialize (Hn3 Hn2).
    pose proof (low_zeros_spec E2) as [Eb2 _].
    assert (Hlen3 : (0 < length b3)%nat) by (destruct b3; [congruence|cbn [length]; clear; lia]).
    assert (Hla3 : length (skipn z2 a2) = (length a2 - z2)%nat) by apply skipn_length.
    assert (Hle3 : (length b3 <= length (skipn z2 a2))%nat)
      by (clear - Hla3 Hlen2 Hl2 Hlb2 Hshr Hlba; lia).
    assert (Hno : Nat.ltb (length (skipn z2 a2)) ((length b3 - 1) * 2) = false).
    { apply Nat.ltb_ge. clear - Hla3 Hlen2 Hl2 Hlb2 Hshr Hans Hlen3. lia. }
    rewrite Hno. cbn [obind]. exists (z + shr + z2)%nat, (skipn z2 a2), b3.
    split; [reflexivity|]. split; [|split; [|split; [|split; [|split; [|split; [|split]]]]]]; auto.
    + unfold a2, a1. rewrite !skipn_skipn. f_equal. clear; lia.
    + assert (Hb3 : b3 = skipn z2 b2).
      { rewrite Eb2. symmetry. apply skipn_app_exact. apply repeat_length. }
      rewrite Hb3. unfold b2. rewrite Hb1, !skipn_skipn. f_equal. clear; lia.
    + apply digits_ok_skipn; auto.
    + rewrite <- Hdiv2, Hdiv. apply Hbound.
    + intros D. rewrite <- Hdiv2, Hdiv. apply Hbound.
      apply (strip_zeros_mult Ha E D).
  - exists z, (skipn z a), b1. split; [reflexivity|].
    split; [reflexivity|]. split; [exact Hb1|]. split; [auto|]. split; [auto|]. split; [auto|].
    split; [lia|]. split; [rewrite <- Hdiv; lia|]. intros _. now rewrite Hdiv.
Qed.
Lemma no_mod_opt_spec a b : digits_ok a -> canon b -> b <> [] -> (length b <= length a)%nat ->
  exists k a1 b1, no_mod_opt a b = Some (k, a1, b1) /\
    a1 = skipn k a /\ b1 = skipn k b /\
    digits_ok a1 /\ canon b1 /\ b1 <> [] /\ (length b1 <= length a1)%nat /\
    val a / val b <= val a1 / val b1 <= val a / val b + 1.
Proof.
  intros Ha Hb Hnb Hl.
  destruct (no_mod_opt_full Ha Hb Hnb Hl)
    as (k & a1 & b1 & H1 & H2 & H3 & H4 & H5 & H6 & H7 & H8 & _).
  exists k, a1, b1. auto 10.
Qed.

Lemma udiv_bound a b : canon a -> canon b -> (length a <= 32)%nat ->
  exists q, udiv w a b = Some q /\ canon q /\ val a / val b <= val q <= val a / val b + 1.
Proof.
  intros Ha Hb Hl. HB. unfold udiv. destruct b as [|y b].
  - exists []. cbn [UBig_Spec.val]. rewrite Zdiv_0_r. repeat split; try lia; [constructor|cbn; lia].
  - destruct (Nat.ltb_spec (length a) (length (y :: b))) as [H|H].
    + exists []. pose proof (canon_lt_length Ha Hb H) as Hlt.
      pose proof (val_nonneg HB (canon_ok Ha)). rewrite Z.div_small by lia. cbn [UBig_Spec.val].
      split; [reflexivity|]. split; [apply canon_nil|lia].
    + destruct (@no_mod_opt_spec a (y :: b)) as (k & a1 & b1 & E & Ea & Eb & Hd1 & Hc1 & Hn1 & Hl1 & Hbd); auto; [congruence|].
      rewrite E. cbn [obind].
      assert (length a1 <= length a)%nat by (rewrite Ea, skipn_length; lia).
      destruct (Nat.leb_spec (length a1) 32); [|lia].
      destruct (long_div_spec Hd1 Hc1 Hn1 Hl1) as (q & r & -> & Hq & Hr & Hvq & Hvr).
      cbn [obind]. exists q. rewrite Hvq. auto.
Qed.

(** Exact when the divisor is at most about half as long as the dividend. *)
Lemma udiv_multiple a b : canon a -> canon b -> (length a <= 32)%nat -> (val b | val a) ->
  denotes B (udiv w a b) (val a / val b).
Proof.
  intros Ha Hb Hl D. HB. unfold udiv. destruct b as [|y b].
  - exists []. cbn [UBig_Spec.val]. rewrite Zdiv_0_r. repeat split; try lia; [constructor|cbn; lia].
  - destruct (Nat.ltb_spec (length a) (length (y :: b))) as [H|H].
    + exists []. pose proof (canon_lt_length Ha Hb H) as Hlt.
      pose proof (val_nonneg HB (canon_ok Ha)). rewrite Z.div_small by lia. cbn [UBig_Spec.val].
      split; [reflexivity|]. split; [apply canon_nil|lia].
    + destruct (@no_mod_opt_full a (y :: b)) as (k & a1 & b1 & E & Ea & Eb & Hd1 & Hc1 & Hn1 & Hl1 & Hbd & Hm); auto; [congruence|].
      rewrite E. cbn [obind].
      assert (length a1 <= length a)%nat by (rewrite Ea, skipn_length; lia).
      destruct (Nat.leb_spec (length a1) 32); [|lia].
      destruct (long_div_spec Hd1 Hc1 Hn1 Hl1) as (q & r & -> & Hq & Hr & Hvq & Hvr).
      cbn [obind]. exists q. rewrite Hvq. auto.
Qed.
Lemma no_mod_opt_exact_z a b : digits_ok a -> canon b -> b <> [] -> (length b <= length a)%nat ->
  (2 * length (snd (low_zeros b)) <= length a - fst (low_zeros b) + 2)%nat ->
  exists k, no_mod_opt a b = Some (k, skipn k a, skipn k b) /\ canon (skipn k b) /\ skipn k b <> [] /\
    (length (skipn k b) <= length (skipn k a))%nat /\
    val (skipn k a) / val (skipn k b) = val a / val b /\ low_zeros b = (k, skipn k b).
Proof.
  intros Ha Hb Hnb Hl H2. HB. unfold no_mod_opt.
  assert (Hlb : exists f, length b = S f) by (destruct b; [congruence|cbn [length]; eauto]).
  destruct Hlb as [f Hf]. rewrite Hf. cbn [no_mod_opt_f].
  destruct (low_zeros b) as [z b1] eqn:E. cbn [fst snd] in H2.
  destruct (strip_zeros_div Ha Hb E) as (Hdiv & Hc1 & Hn1 & Hlen). specialize (Hn1 Hnb).
  pose proof (low_zeros_spec E) as [Eb _].
  assert (Hb1 : b1 = skipn z b).
  { rewrite Eb. symmetry. apply skipn_app_exact. apply repeat_length. }
  assert (Hla1 : length (skipn z a) = (length a - z)%nat) by apply skipn_length.
  destruct (Nat.ltb_spec (length (skipn z a)) ((length b1 - 1) * 2)) as [Ht|Ht]; [lia|].
  exists z. rewrite <- Hb1. split; [reflexivity|]. split; [auto|]. split; [auto|]. split; [lia|]. auto.
Qed.

Lemma short_divisor_z (a b : list Z) : (length b <= length a)%nat -> (2 * length b <= length a + 2)%nat ->
  (2 * length (snd (low_zeros b)) <= length a - fst (low_zeros b) + 2)%nat.
Proof.
  intros Hl H2. destruct (low_zeros b) as [z b1] eqn:E. cbn [fst snd].
  pose proof (low_zeros_spec E) as [Eb _]. apply (f_equal (@length Z)) in Eb.
  rewrite app_length, repeat_length in Eb. lia.
Qed.


Lemma udiv_exact a b : canon a -> canon b -> (length a <= 32)%nat ->
  (2 * length b <= length a + 2)%nat ->
  denotes B (udiv w a b) (val a / val b).
Proof.
  intros Ha Hb Hl H2. HB. unfold udiv. destruct b as [|y b].
  - exists []. cbn [UBig_Spec.val]. rewrite Zdiv_0_r. repeat split; [constructor|cbn; lia].
  - destruct (Nat.ltb_spec (length a) (length (y :: b))) as [H|H].
    + exists []. pose proof (canon_lt_length Ha Hb H) as Hlt.
      pose proof (val_nonneg HB (canon_ok Ha)). rewrite Z.div_small by lia. cbn [UBig_Spec.val].
      split; [reflexivity|]. split; [apply canon_nil|reflexivity].
    + destruct (@no_mod_opt_exact_z a (y :: b)) as (k & E & Hc1 & Hn1 & Hl1 & Hbd & _); auto; [congruence|apply short_divisor_z; auto|].
      rewrite E. cbn [obind].
      assert (length (skipn k a) <= length a)%nat by (rewrite skipn_length; lia).
      destruct (Nat.leb_spec (length (skipn k a)) 32); [|lia].
      destruct (long_div_spec (digits_ok_skipn k (canon_ok Ha)) Hc1 Hn1 Hl1) as (q & r & -> & Hq & Hr & Hvq & Hvr).
      cbn [obind]. exists q. rewrite Hvq. auto.
Qed.

(** Quotient and remainder together: exact when the divisor is short, and in
    every case where a result is produced it satisfies the division equation
    with the quotient at most one too large -- which the subtraction then
    rejects, so a produced result is the exact one. *)
Lemma udivmod_sound a b q r : canon a -> canon b -> (length a <= 32)%nat -> b <> [] ->
  udivmod w a b = Some (q, r) ->
  canon q /\ canon r /\ val q = val a / val b /\ val r = val a mod val b.
Proof.
  intros Ha Hb Hl Hnb H. HB. unfold udivmod in H. destruct b as [|y b]; [congruence|].
  pose proof (canon_pos HB Hb Hnb) as Hbp.
  destruct (Nat.ltb_spec (length a) (length (y :: b))) as [Hlt|Hge].
  - injection H as <- <-. pose proof (canon_lt_length Ha Hb Hlt) as Hv.
    pose proof (val_nonneg HB (canon_ok Ha)). rewrite Z.div_small, Z.mod_small by lia.
    split; [apply canon_nil|]. split; [auto|]. split; reflexivity.
  - destruct (Nat.leb_spec (length a) 32); [|lia]. unfold divmod_base in H.
    destruct (@no_mod_opt_spec a (y :: b)) as (k & a1 & b1 & E & Ea & Eb & Hd1 & Hc1 & Hn1 & Hl1 & Hbd); auto.
    rewrite E in H. cbn [obind] in H. destruct (Nat.eqb_spec k 0) as [Ek|Ek].
    + destruct (@long_div_spec a (y :: b)) as (q' & r' & E1 & Hq & Hr & Hvq & Hvr); auto.
      rewrite E1 in H. cbn [obind] in H. injection H as <- <-. rewrite val_shrink.
      split; [auto|]. split; [apply shrink_canon; auto|]. auto.
    + rewrite <- Ea, <- Eb in H.
      destruct (long_div_spec Hd1 Hc1 Hn1 Hl1) as (q' & r' & E1 & Hq & Hr & Hvq & Hvr).
      rewrite E1 in H. cbn [obind] in H.
      apply obind_some in H. destruct H as (p & Ep & H).
      apply obind_some in H. destruct H as (r2 & Er & H). injection H as <- <-.
      destruct (fast_mul_f_sound Hw Hq Hb Ep) as [Cp Vp].
      unfold sub_base in Er. apply obind_some in Er. destruct Er as (t & Et & Er). injection Er as <-.
      assert (Hlp : (length p <= length a)%nat).
      { destruct (le_lt_dec (length p) (length a)) as [|Hgt]; [auto|].
        rewrite sub_buf_short in Et by lia. discriminate. }
      pose proof (@sub_buf_spec w Hw a p false ltac:(auto) ltac:(auto) Hlp) as Hs.
      rewrite Et in Hs. destruct Hs as (Ht & _ & Hvt). cbn [b2z] in Hvt.
      pose proof (val_nonneg HB Ht) as Ht0.
      rewrite val_shrink. rewrite <- Hvq in Hbd.
      pose proof (Z.div_mod (val a) (val (y :: b)) ltac:(lia)) as Hdm.
      pose proof (Z.mod_pos_bound (val a) (val (y :: b)) ltac:(lia)) as Hmb.
      assert (val q' = val a / val (y :: b)) by nia.
      split; [auto|]. split; [apply shrink_canon; auto|]. split; [auto|]. nia.
Qed.

Lemma udivmod_exact_z a b : canon a -> canon b -> (length a <= 32)%nat -> b <> [] ->
  (2 * length (snd (low_zeros b)) <= length a - fst (low_zeros b) + 2)%nat ->
  exists q r, udivmod w a b = Some (q, r) /\ canon q /\ canon r /\
              val q = val a / val b /\ val r = val a mod val b.
Proof.
  intros Ha Hb Hl Hnb H2. HB.
  assert (Hex : exists q r, udivmod w a b = Some (q, r)).
  2:{ destruct Hex as (q & r & E). exists q, r. split; [exact E|]. eapply udivmod_sound; eauto. }
  unfold udivmod. destruct b as [|y b]; [congruence|].
  destruct (Nat.ltb_spec (length a) (length (y :: b))) as [Hlt|Hge]; [eauto|].
  destruct (Nat.leb_spec (length a) 32); [|lia]. unfold divmod_base.
  destruct (@no_mod_opt_exact_z a (y :: b)) as (k & E & Hc1 & Hn1 & Hl1 & Hbd & Hz); auto.
  rewrite E. cbn [obind]. destruct (Nat.eqb_spec k 0) as [Ek|Ek].
  - destruct (@long_div_spec a (y :: b)) as (q' & r' & E1 & _); auto.
    rewrite E1. cbn [obind]. eauto.
  - destruct (long_div_spec (digits_ok_skipn k (canon_ok Ha)) Hc1 Hn1 Hl1) as (q & r & E1 & Hq & Hr & Hvq & Hvr).
    rewrite E1. cbn [obind].
    pose proof (canon_pos HB Hb Hnb) as Hbp.
    pose proof (val_nonneg HB (canon_ok Ha)) as Ha0.
    rewrite Hbd in Hvq.
    pose proof (Z.mul_div_le (val a) (val (y :: b)) Hbp) as Hle.
    assert (Hlq : (length q <= length a)%nat).
    { apply (canon_le_length Hw Hq Ha). rewrite Hvq. apply Z.div_le_upper_bound; nia. }
    destruct (@umul_small w Hw q (y :: b) Hq Hb ltac:(lia)) as (p & Ep & Cp & Vp).
    unfold umul in Ep. rewrite Ep. cbn [obind].
    destruct (@sub_base_spec w Hw a p) as (r2 & Er & Cr & Vr); auto.
    + apply (canon_le_length Hw Cp Ha). nia.
    + nia.
    + rewrite Er. cbn [obind]. eauto.
Qed.

Lemma udivmod_exact a b : canon a -> canon b -> (length a <= 32)%nat -> b <> [] ->
  (2 * length b <= length a + 2)%nat ->
  exists q r, udivmod w a b = Some (q, r) /\ canon q /\ canon r /\
              val q = val a / val b /\ val r = val a mod val b.
Proof.
  intros Ha Hb Hl Hnb H2. HB. destruct (le_lt_dec (length b) (length a)) as [Hle|Hgt].
  - apply udivmod_exact_z; auto. apply short_divisor_z; auto.
  - assert (E : udivmod w a b = Some ([], a)).
    { unfold udivmod. destruct b as [|y b']; [congruence|].
      destruct (Nat.ltb_spec (length a) (length (y :: b'))); [reflexivity|lia]. }
    exists [], a. split; [exact E|]. eapply udivmod_sound; eauto.
Qed.

End Div.
