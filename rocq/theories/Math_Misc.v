(** Proofs about integer logarithm, factorial, powers of big integers, ceiling
    division and absolute value. *)
From Verif Require Import Base Math_Model Math_Spec UBig_Model UBig_Spec UBig_Basics UBig_AddSub UBig_Mul UBig_Kara.
Local Open Scope Z_scope.
Local Open Scope omonad_scope.

(** *** Logarithm *)
Section Log.
  Variables (M a b : Z).
  Hypothesis Hb : 2 <= b.
  Hypothesis Ha : 1 <= a.
  Hypothesis Room : fits M (Z.max a b * Z.max a b).
  Lemma norm_room x y : 0 <= x <= Z.max a b -> 0 <= y <= Z.max a b -> norm M (x * y) = x * y.
  Proof.
    intros Hx Hy. destruct Room as [R0 R]. unfold norm. destruct (Z.eqb_spec M 0); auto.
    apply Z.mod_small. destruct R; [contradiction|]. nia.
  Qed.
  Lemma log_scan_spec f : forall t lv num aret, 1 <= t <= a -> 2 <= lv <= Z.max a b -> a - t < Z.of_nat f ->
    exists e, 0 <= e /\ log_scan M f a t lv num aret = Some (aret + num * e, t * lv ^ e) /\
      t * lv ^ e <= a < t * lv ^ e * lv.
  Proof.
    induction f as [|f IH]; intros t lv num aret Ht Hlv Hf; [lia|]. cbn [log_scan].
    rewrite norm_room by lia. destruct (Z.ltb_spec a (t * lv)).
    - exists 0. rewrite Z.pow_0_r. split; [lia|]. split; [do 2 f_equal; lia|lia].
    - destruct (IH (t * lv) lv num (aret + num)) as (e & He & E & Hle); [nia|lia|nia|].
      exists (e + 1). rewrite E, Z.pow_add_r, Z.pow_1_r by lia. split; [lia|].
      replace (t * (lv ^ e * lv)) with (t * lv * lv ^ e) by ring.
      split; [do 2 f_equal; ring|lia].
  Qed.
  Lemma log_impl_spec f : forall lv num, 2 <= lv <= Z.max a b ->
    2 * a + 3 - lv < Z.of_nat f -> (0 < f)%nat -> a < Z.of_nat f ->
    exists e, 0 <= e /\ log_impl M f a 1 lv num = Some (num * e, lv ^ e) /\ lv ^ e <= a < lv ^ e * lv.
  Proof.
    induction f as [|f IH]; intros lv num Hlv Hf Hf0 Hfa; [lia|]. cbn [log_impl].
    rewrite norm_room by lia. destruct (Z.ltb_spec (lv * lv) a).
    - destruct (IH (lv * lv) (num * 2)) as (e & He & E & Hle); [nia|nia|nia|nia|].
      rewrite E. cbn [obind].
      rewrite <- (Z.pow_2_r lv), <- Z.pow_mul_r in * by lia.
      assert (1 <= lv ^ (2 * e)) by (apply Z.lt_pred_le; apply Z.pow_pos_nonneg; lia).
      destruct (@log_scan_spec (S f) (lv ^ (2 * e)) lv num (num * 2 * e)) as (e2 & He2 & E2 & Hle2); [lia|lia|lia|].
      exists (2 * e + e2). rewrite E2, Z.pow_add_r by lia. split; [lia|]. split; [|exact Hle2].
      do 2 f_equal. ring.
    - cbn [obind]. destruct (@log_scan_spec (S f) 1 lv num 0) as (e & He & E & Hle); [lia|lia|lia|].
      exists e. rewrite E. split; [lia|]. rewrite !Z.mul_1_l in *. split; [do 2 f_equal; lia|exact Hle].
  Qed.
  Lemma integer_log_spec f : 2 * a + 3 < Z.of_nat f ->
    exists r, integer_log M f a b = Some r /\ 0 <= r /\ b ^ r <= a < b ^ (r + 1).
  Proof.
    intros Hf. unfold integer_log. destruct (@log_impl_spec f b 1) as (e & He & E & H); [lia..|].
    rewrite E. cbn [option_map fst]. exists e. split; [f_equal; lia|]. split; [lia|].
    rewrite Z.pow_add_r, Z.pow_1_r by lia. exact H.
  Qed.
End Log.
Lemma log_diverges M f : forall a t num, M <> 0 -> 0 < a -> log_impl M f a t 0 num = None.
Proof.
  induction f as [|f IH]; intros a t num HM Ha; [reflexivity|]. cbn [log_impl].
  assert (E : norm M (0 * 0) = 0) by (unfold norm; destruct (M =? 0); [reflexivity|apply Z.mod_0_l; auto]).
  rewrite E. destruct (Z.ltb_spec 0 a); [|lia]. rewrite IH by auto. reflexivity.
Qed.
Lemma log_65537 f : integer_log (2 ^ 32) f 65537 2 = None.
Proof.
  unfold integer_log.
  assert (L : forall lv lv2, norm (2 ^ 32) (lv * lv) = lv2 -> lv2 <? 65537 = true ->
     (forall f num, log_impl (2 ^ 32) f 65537 1 lv2 num = None) ->
     forall f num, log_impl (2 ^ 32) f 65537 1 lv num = None).
  { intros lv lv2 <- Hlt H [|g] num; [reflexivity|]. cbn [log_impl]. rewrite Hlt, H. reflexivity. }
  assert (N : forall f num, log_impl (2 ^ 32) f 65537 1 2 num = None).
  { do 5 (eapply L; [vm_compute; reflexivity|reflexivity|]).
    intros g num. apply log_diverges; lia. }
  rewrite N. reflexivity.
Qed.

(** *** Factorial *)
Section Fact.
  Variable M : Z.
  Hypothesis HM : type_ok M.
  Lemma norm_mul x y : norm M (norm M x * norm M y) = norm M (x * y).
  Proof.
    unfold norm. destruct (Z.eqb_spec M 0); auto. rewrite <- Z.mul_mod by auto. reflexivity.
  Qed.
  Lemma norm_idem x : norm M (norm M x) = norm M x.
  Proof. unfold norm. destruct (Z.eqb_spec M 0); auto. apply Z.mod_mod; auto. Qed.
  Lemma norm_mul_l x y : norm M (norm M x * y) = norm M (x * y).
  Proof. unfold norm. destruct (Z.eqb_spec M 0); auto. apply Z.mul_mod_idemp_l; auto. Qed.
  Lemma fac_loop_spec n : forall f s start, (n < f)%nat -> 0 <= start -> start + Z.of_nat n < 2 ^ 32 ->
    fac_loop M f (norm M s) start (start + Z.of_nat n) = Some (norm M (s * rising n start)).
  Proof.
    induction n as [|n IH]; intros [|f] s start Hf Hs Hn; try lia; cbn [fac_loop rising].
    - destruct (Z.ltb_spec start (start + Z.of_nat 0)); [lia|]. do 2 f_equal. ring.
    - destruct (Z.ltb_spec start (start + Z.of_nat (S n))); [|lia].
      rewrite Z.mod_small by lia. rewrite norm_mul_l.
      replace (start + Z.of_nat (S n)) with (start + 1 + Z.of_nat n) by lia.
      rewrite IH by lia. do 2 f_equal. ring.
  Qed.
  Lemma rising_app n m : forall s, rising (n + m) s = rising n s * rising m (s + Z.of_nat n).
  Proof.
    induction n as [|n IH]; intros s; cbn [rising Nat.add].
    - replace (s + Z.of_nat 0) with s by lia. ring.
    - rewrite IH. replace (s + 1 + Z.of_nat n) with (s + Z.of_nat (S n)) by lia. ring.
  Qed.
  Lemma factorial_spec f : forall n start, 0 <= n -> 1 <= start -> start + n < 2 ^ 32 -> (0 < f)%nat ->
    n <= 15 * 2 ^ (Z.of_nat f - 1) ->
    factorial M f n start = Some (norm M (rising (Z.to_nat n) start)).
  Proof.
    induction f as [|f IH]; intros n start Hn Hs Hr Hf0 Hf; [lia|]. cbn [factorial].
    destruct (Z.ltb_spec n 16).
    - rewrite Z.mod_small by lia.
      replace (start + n) with (start + Z.of_nat (Z.to_nat n)) by lia.
      rewrite fac_loop_spec by lia. do 2 f_equal. ring.
    - rewrite (Z.mod_small (n + 1)) by lia.
      assert (1 <= f)%nat. { destruct f; [cbn in Hf; lia|lia]. }
      assert (E2 : 2 ^ (Z.of_nat (S f) - 1) = 2 * 2 ^ (Z.of_nat f - 1)).
      { rewrite <- Z.pow_succ_r by lia. f_equal. lia. }
      assert (Hm : 2 * ((n + 1) / 2) <= n + 1 < 2 * ((n + 1) / 2) + 2).
      { pose proof (Z.div_mod (n + 1) 2 ltac:(lia)). pose proof (Z.mod_pos_bound (n + 1) 2 ltac:(lia)). lia. }
      set (m := (n + 1) / 2) in *. clearbody m.
      rewrite IH by lia. cbn [obind]. rewrite (Z.mod_small (start + m)) by lia.
      rewrite IH by lia. cbn [obind]. rewrite norm_mul. do 2 f_equal.
      replace (Z.to_nat n) with (Z.to_nat m + Z.to_nat (n - m))%nat by lia.
      rewrite rising_app. do 2 f_equal. lia.
  Qed.
  Lemma factorial_max_diverges f : forall start, factorial M f (2 ^ 32 - 1) start = None.
  Proof.
    induction f as [|f IH]; intros start; [reflexivity|].
    cbn [factorial]. change (2 ^ 32 - 1 <? 16) with false. cbv iota.
    change ((2 ^ 32 - 1 + 1) mod 2 ^ 32 / 2) with 0. cbv zeta. rewrite Z.sub_0_r, IH.
    destruct (factorial M f 0 start); reflexivity.
  Qed.
End Fact.
Lemma rising_fact n : rising n 1 = Z.of_nat (fact n).
Proof.
  assert (G : forall n s, rising (S n) s = rising n s * (s + Z.of_nat n)).
  { clear n. intros n s. replace (S n) with (n + 1)%nat by lia. rewrite rising_app. cbn [rising]. ring. }
  induction n as [|n IH]; [reflexivity|]. rewrite G, IH. cbn [fact]. lia.
Qed.

(** *** Powers of big integers *)
Section UPow.
  Variable w : Z.
  Hypothesis Hw : 0 < w.
  Notation B := (base w).
  Notation val := (val B).
  Notation canon := (canon B).
  Let HB : 2 <= B := base_ge2 Hw.
  Ltac HB := let h := fresh "HB2_" in pose proof HB as h.
  Lemma upow_loop_sound f : forall x a b r, canon x -> canon a -> 0 <= b ->
    upow_loop w f x a b = Some r -> canon r /\ val r = val x * val a ^ b.
  Proof.
    induction f as [|f IH]; intros x a b r Hx Ha Hb; [discriminate|]. cbn [upow_loop].
    destruct (Z.eqb_spec b 0) as [->|Hb0].
    { intros [= <-]. split; auto. rewrite Z.pow_0_r. lia. }
    assert (X : forall x', (if Z.odd b then umul w x a else Some x) = Some x' ->
      canon x' /\ val x' = val x * val a ^ (b mod 2)).
    { intros x'. rewrite Zmod_odd. destruct (Z.odd b).
      - intros E. rewrite Z.pow_1_r. exact (umul_sound Hw Hx Ha E).
      - intros [= <-]. rewrite Z.pow_0_r. split; auto. lia. }
    destruct (if Z.odd b then umul w x a else Some x) as [x'|] eqn:E; cbn [obind]; [|discriminate].
    destruct (X x' eq_refl) as [Hx' Vx].
    destruct (umul w a a) as [a'|] eqn:E2; cbn [obind]; [|discriminate].
    destruct (umul_sound Hw Ha Ha E2) as [Ha' Va].
    assert (0 <= b / 2) by (apply Z.div_pos; lia).
    intros E3. destruct (IH x' a' (b / 2) r) as [Hr Vr]; auto. split; auto.
    rewrite Vr, Vx, Va. rewrite <- Z.pow_2_r, <- Z.pow_mul_r by lia.
    rewrite <- Z.mul_assoc, <- Z.pow_add_r by (try apply Z.mod_pos_bound; lia).
    do 2 f_equal. pose proof (Z.div_mod b 2 ltac:(lia)). lia.
  Qed.
  Lemma one_canon : canon [1].
  Proof. HB. split; [repeat constructor; lia|cbn; lia]. Qed.
  Lemma upow_sound f a b r : canon a -> 0 <= b -> upow w f a b = Some r -> canon r /\ val r = val a ^ b.
  Proof.
    intros Ha Hb E. destruct (upow_loop_sound one_canon Ha Hb E) as [H1 H2]. split; auto.
    rewrite H2. cbn [UBig_Spec.val]. ring.
  Qed.
  Lemma length_of_val l n : canon l -> val l < B ^ Z.of_nat n -> (length l <= n)%nat.
  Proof.
    intros Hl Hv. HB. destruct (Nat.le_gt_cases (length l) n); auto. exfalso.
    destruct Hl as [Hd Hlast]. destruct (@exists_last _ l) as (l0 & x & E); [destruct l; [cbn in *; lia|discriminate]|].
    subst l. rewrite last_last in Hlast. apply Forall_app in Hd. destruct Hd as [Hd0 Hx].
    apply Forall_inv in Hx. rewrite app_length in H. cbn [length] in H.
    rewrite val_app in Hv. cbn [UBig_Spec.val] in Hv.
    pose proof (val_bound HB Hd0).
    assert (B ^ Z.of_nat n <= B ^ Z.of_nat (length l0)) by (apply Z.pow_le_mono_r; lia). nia.
  Qed.
  Lemma upow_loop_total f : forall x a b, canon x -> canon a -> 0 <= b /\ 2 * b < 2 ^ Z.of_nat f -> (0 < f)%nat ->
    (b <> 0 -> val a ^ b < B ^ 63) -> exists r, upow_loop w f x a b = Some r.
  Proof.
    induction f as [|f IH]; intros x a b Hx Ha Hb Hf0 Hs; [lia|]. cbn [upow_loop].
    destruct (Z.eqb_spec b 0) as [->|Hb0]; [eexists; reflexivity|]. specialize (Hs Hb0).
    pose proof (val_bound HB (canon_ok Ha)) as [Va _].
    rewrite Nat2Z.inj_succ, Z.pow_succ_r in Hb by lia.
    assert (La : (length a <= 63)%nat).
    { apply length_of_val; auto. change (Z.of_nat 63) with 63. eapply Z.le_lt_trans; [|exact Hs].
      destruct (Z.eq_dec (val a) 0) as [->|]; [rewrite Z.pow_0_l by lia; lia|].
      rewrite <- (Z.pow_1_r (val a)) at 1. apply Z.pow_le_mono_r; lia. }
    assert (X : exists x', (if Z.odd b then umul w x a else Some x) = Some x' /\ canon x').
    { destruct (Z.odd b); [|eauto].
      destruct (umul_small Hw Hx Ha) as (r & E & Hr & _); [lia|]. eauto. }
    destruct X as (x' & E & Hx'). rewrite E. cbn [obind].
    destruct (umul_small Hw Ha Ha) as (a' & E2 & Ha' & Va'); [lia|]. rewrite E2. cbn [obind].
    assert (Hb2 : 2 * (b / 2) <= b < 2 * (b / 2) + 2).
    { pose proof (Z.div_mod b 2 ltac:(lia)). pose proof (Z.mod_pos_bound b 2 ltac:(lia)). lia. }
    destruct f as [|f].
    { exfalso. change (2 ^ Z.of_nat 0) with 1 in Hb. lia. }
    apply IH; auto; [lia|lia|]. intros Hn0. rewrite Va', <- Z.pow_2_r, <- Z.pow_mul_r by lia.
    eapply Z.le_lt_trans; [|exact Hs].
    destruct (Z.eq_dec (val a) 0) as [->|]; [rewrite !Z.pow_0_l by lia; lia|].
    apply Z.pow_le_mono_r; lia.
  Qed.
  Lemma upow_total f a b : canon a -> 0 <= b /\ 2 * b < 2 ^ Z.of_nat f -> (0 < f)%nat -> val a ^ b < B ^ 63 ->
    denotes B (upow w f a b) (val a ^ b).
  Proof.
    intros Ha Hb Hf Hs. destruct (upow_loop_total one_canon Ha Hb Hf (fun _ => Hs)) as (r & E).
    exists r. split; auto. apply (upow_sound Ha (proj1 Hb) E).
  Qed.
End UPow.

Lemma ceil_div_spec a b : 0 <= a -> 0 < b -> exists q, ceil_div a b = Some q /\ b * (q - 1) < a <= b * q.
Proof.
  intros Ha Hb. unfold ceil_div. destruct (Z.eqb_spec b 0); [lia|].
  pose proof (Z.div_mod a b ltac:(lia)). pose proof (Z.mod_pos_bound a b Hb).
  eexists. split; [reflexivity|]. destruct (Z.eqb_spec (a mod b) 0); nia.
Qed.
Definition int32 (x : Z) : Prop := - 2 ^ 31 <= x < 2 ^ 31.
Lemma ceil_div_int_same a b : int32 a -> int32 b -> 0 <= a * b -> b <> 0 ->
  ~ (a = - 2 ^ 31 /\ b = -1) ->
  exists q, ceil_div_int a b = Some q /\ Z.abs b * (q - 1) < Z.abs a <= Z.abs b * q.
Proof.
  unfold int32. intros Ha Hb S Hn Hm. unfold ceil_div_int. destruct (Z.eqb_spec b 0); [lia|].
  destruct ((a =? - 2 ^ 31) && (b =? -1)) eqn:M; [lia|].
  assert (Q : Z.quot a b = Z.abs a / Z.abs b /\ (Z.rem a b =? 0) = (Z.abs a mod Z.abs b =? 0)).
  { assert (S' : (0 <= a /\ 0 < b) \/ (a <= 0 /\ b < 0)) by nia.
    destruct S' as [[A B]|[A B]].
    - rewrite !Z.abs_eq, Z.quot_div_nonneg, Z.rem_mod_nonneg by lia. auto.
    - rewrite !Z.abs_neq by lia. rewrite <- Z.quot_opp_opp, Z.quot_div_nonneg by lia. split; [reflexivity|].
      rewrite <- (Z.rem_opp_r a b), <- (Z.opp_involutive a) by lia. rewrite Z.rem_opp_l by lia.
      rewrite Z.rem_mod_nonneg, Z.opp_involutive by lia.
      destruct (Z.eqb_spec (- (- a mod - b)) 0); destruct (Z.eqb_spec (- a mod - b) 0); lia. }
  destruct Q as [-> ->].
  pose proof (Z.div_mod (Z.abs a) (Z.abs b) ltac:(lia)) as D.
  pose proof (Z.mod_pos_bound (Z.abs a) (Z.abs b) ltac:(lia)) as R.
  assert (0 <= Z.abs a / Z.abs b <= 2 ^ 31).
  { split; [apply Z.div_pos; lia|]. apply Z.div_le_upper_bound; nia. }
  eexists. split; [reflexivity|].
  destruct (Z.eqb_spec (Z.abs a mod Z.abs b) 0); rewrite Z.mod_small by lia; nia.
Qed.
Lemma ceil_div_int_mixed a b : int32 a -> int32 b -> a * b < 0 -> Z.rem a b <> 0 ->
  exists q, ceil_div_int a b = Some ((q + 1) mod 2 ^ 32) /\ 0 <= Z.abs b * - q < Z.abs a /\ Z.abs a < Z.abs b * (1 - q).
Proof.
  unfold int32. intros Ha Hb S Hr. unfold ceil_div_int. destruct (Z.eqb_spec b 0); [lia|].
  destruct ((a =? - 2 ^ 31) && (b =? -1)) eqn:M; [lia|].
  destruct (Z.eqb_spec (Z.rem a b) 0); [lia|]. exists (Z.quot a b). split; [reflexivity|].
  pose proof (Z.quot_rem' a b) as D.
  assert (S' : (0 < a /\ b < 0) \/ (a < 0 /\ 0 < b)) by nia.
  destruct S' as [[A B]|[A B]].
  - pose proof (Z.rem_bound_neg_pos a b B ltac:(lia)).
    rewrite (Z.abs_eq a), (Z.abs_neq b) by lia. assert (Z.quot a b <= 0) by nia. split; [split|]; nia.
  - pose proof (Z.rem_bound_pos_neg a b B ltac:(lia)).
    rewrite (Z.abs_neq a), (Z.abs_eq b) by lia. assert (Z.quot a b <= 0) by nia. split; [split|]; nia.
Qed.
Lemma abs_signed_spec d v : - 2 ^ (d - 1) < v < 2 ^ (d - 1) -> abs_signed d v = Some (Z.abs v).
Proof.
  intros H. unfold abs_signed. destruct (Z.ltb_spec v 0); [|f_equal; lia].
  destruct (Z.eqb_spec v (- 2 ^ (d - 1))); [lia|]. f_equal. lia.
Qed.
