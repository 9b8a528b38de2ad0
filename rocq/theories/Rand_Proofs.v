(** Random generator: proofs. *)
From Coq Require Import Znumtheory.
From Verif Require Import Base Bits_Model Bits_Spec Bits_Proofs Rand_Model.
Local Open Scope Z_scope.
Local Open Scope omonad_scope.

(** *** Period *)
(** Sum of the first [n] powers of [a]. *)
Fixpoint geo (a : Z) (n : nat) : Z :=
  match n with O => 0 | S n' => geo a n' + a ^ Z.of_nat n' end.
Lemma geo_add a n m : geo a (n + m) = geo a n + a ^ Z.of_nat n * geo a m.
Proof.
  induction m as [|m IH]; cbn [geo].
  - rewrite Nat.add_0_r. lia.
  - rewrite Nat.add_succ_r. cbn [geo]. rewrite IH, Nat2Z.inj_add, Z.pow_add_r by lia. ring.
Qed.
Lemma geo_double a m : geo a (m + m) = geo a m * (1 + a ^ Z.of_nat m).
Proof. rewrite geo_add. ring. Qed.
Lemma pow_mod4 a n : a mod 4 = 1 -> a ^ Z.of_nat n mod 4 = 1.
Proof.
  intros Ha. induction n as [|n IH]; [reflexivity|].
  rewrite Nat2Z.inj_succ, Z.pow_succ_r by lia. rewrite Z.mul_mod, Ha, IH by lia. reflexivity.
Qed.
Lemma odd_of_mod4 a : a mod 4 = 1 -> a mod 2 = 1.
Proof.
  intros H. pose proof (Z.div_mod a 4 ltac:(lia)). symmetry. apply Z.mod_unique with (2 * (a / 4)); lia.
Qed.
Lemma geo_mod2 a n : a mod 4 = 1 -> geo a n mod 2 = Z.of_nat n mod 2.
Proof.
  intros Ha. induction n as [|n IH]; [reflexivity|]. cbn [geo]. rewrite Nat2Z.inj_succ. unfold Z.succ.
  rewrite Z.add_mod, IH by lia. rewrite (odd_of_mod4 (pow_mod4 n Ha)). rewrite Z.add_mod_idemp_l by lia. reflexivity.
Qed.
Lemma odd_rel_prime q w : q mod 2 = 1 -> 0 <= w -> rel_prime (2 ^ w) q.
Proof.
  intros Hq Hw. revert w Hw. apply natlike_ind.
  - apply rel_prime_sym, rel_prime_1 || apply rel_prime_1.
  - intros w Hw IH. rewrite Z.pow_succ_r by lia. apply rel_prime_sym. apply rel_prime_mult; apply rel_prime_sym; auto.
    apply prime_rel_prime; [exact prime_2|]. intros [c ->]. rewrite Z_mod_mult in Hq. discriminate.
Qed.
Lemma geo_divide a w : a mod 4 = 1 -> 0 <= w -> forall n, (2 ^ w | geo a n) <-> (2 ^ w | Z.of_nat n).
Proof.
  intros Ha Hw. revert w Hw. apply (natlike_ind (fun w => forall n, (2 ^ w | geo a n) <-> (2 ^ w | Z.of_nat n))).
  - intros n. split; intros; apply Z.divide_1_l.
  - intros w Hw IH n. rewrite Z.pow_succ_r by lia. destruct (Nat.Even_or_Odd n) as [[m Hm]|[m Hm]].
    + replace n with (m + m)%nat by lia. rewrite geo_double, Nat2Z.inj_add.
      pose proof (pow_mod4 m Ha) as P4. pose proof (Z.div_mod (a ^ Z.of_nat m) 4 ltac:(lia)) as E4.
      set (q := 1 + 2 * (a ^ Z.of_nat m / 4)) in *.
      assert (Eq : 1 + a ^ Z.of_nat m = 2 * q) by (unfold q; lia).
      assert (Oq : q mod 2 = 1) by (unfold q; symmetry; apply Z.mod_unique with (a ^ Z.of_nat m / 4); lia).
      rewrite Eq. replace (geo a m * (2 * q)) with (2 * (geo a m * q)) by ring.
      replace (Z.of_nat m + Z.of_nat m) with (2 * Z.of_nat m) by ring.
      assert (C : forall u v, (2 * u | 2 * v) <-> (u | v)).
      { intros u v. split; [apply Z.mul_divide_cancel_l; lia|apply Z.mul_divide_mono_l]. }
      rewrite !C, <- IH. split.
      * intros D. apply Gauss with q; [rewrite Z.mul_comm; exact D|]. apply odd_rel_prime; auto.
      * intros D. apply Z.divide_mul_l. exact D.
    + assert (Odd : Z.of_nat n mod 2 = 1) by (symmetry; apply Z.mod_unique with (Z.of_nat m); lia).
      split; intros [c Hc]; exfalso.
      * pose proof (geo_mod2 n Ha) as G. rewrite Hc, Odd in G.
        replace (c * (2 * 2 ^ w)) with (c * 2 ^ w * 2) in G by ring. rewrite Z_mod_mult in G. discriminate.
      * rewrite Hc in Odd. replace (c * (2 * 2 ^ w)) with (c * 2 ^ w * 2) in Odd by ring.
        rewrite Z_mod_mult in Odd. discriminate.
Qed.
Section Period.
  Variables (w a c : Z).
  Hypothesis Hw : 0 <= w.
  Hypothesis Ha : a mod 4 = 1.
  Hypothesis Hc : c mod 2 = 1.
  Let P : 0 < 2 ^ w. Proof. apply Z.pow_pos_nonneg; lia. Qed.
  Lemma lcg_range n x : 0 <= x < 2 ^ w -> 0 <= lcg_iter w a c n x < 2 ^ w.
  Proof. intros Hx. destruct n; [exact Hx|]. cbn. apply Z.mod_pos_bound. exact P. Qed.
  Lemma lcg_closed n x : 0 <= x < 2 ^ w ->
    lcg_iter w a c n x = (x + geo a n * ((a - 1) * x + c)) mod 2 ^ w.
  Proof.
    intros Hx. induction n as [|n IH]; cbn [lcg_iter geo].
    - rewrite Z.mod_small; lia.
    - unfold lcg_step. rewrite IH. rewrite <- Z.add_mod_idemp_l, Z.mul_mod_idemp_r, Z.add_mod_idemp_l by lia.
      f_equal.
      assert (G : geo a n * (a - 1) = a ^ Z.of_nat n - 1).
      { clear. induction n as [|n IH]; [reflexivity|]. cbn [geo].
        rewrite Nat2Z.inj_succ, Z.pow_succ_r by lia. nia. }
      replace (a ^ Z.of_nat n) with (geo a n * (a - 1) + 1) by lia. ring.
  Qed.
  Lemma lcg_same n m x : 0 <= x < 2 ^ w -> (n <= m)%nat ->
    (lcg_iter w a c n x = lcg_iter w a c m x <-> (2 ^ w | Z.of_nat (m - n))).
  Proof.
    intros Hx Hnm. rewrite !lcg_closed by auto. replace m with (n + (m - n))%nat at 1 by lia.
    rewrite geo_add. set (k := (m - n)%nat). set (q := (a - 1) * x + c).
    assert (Oq : q mod 2 = 1).
    { unfold q. pose proof (Z.div_mod a 4 ltac:(lia)) as E.
      replace ((a - 1) * x + c) with (c + (2 * (a / 4) * x) * 2) by nia. rewrite Z_mod_plus_full. exact Hc. }
    assert (Oa : (a ^ Z.of_nat n) mod 2 = 1) by (apply odd_of_mod4, pow_mod4, Ha).
    rewrite <- (geo_divide Ha Hw k).
    assert (E : (x + geo a n * q) mod 2 ^ w = (x + (geo a n + a ^ Z.of_nat n * geo a k) * q) mod 2 ^ w <->
      (2 ^ w | (a ^ Z.of_nat n * q) * geo a k)).
    { split.
      - intros H. apply Z.mod_divide; [lia|].
        replace (a ^ Z.of_nat n * q * geo a k) with
          ((x + (geo a n + a ^ Z.of_nat n * geo a k) * q) - (x + geo a n * q)) by ring.
        rewrite Zminus_mod, <- H, Z.sub_diag. apply Z.mod_0_l. lia.
      - intros [z Hz].
        replace (x + (geo a n + a ^ Z.of_nat n * geo a k) * q) with
          (x + geo a n * q + a ^ Z.of_nat n * q * geo a k) by ring.
        rewrite Hz, Z_mod_plus_full. reflexivity. }
    rewrite E. split.
    - intros D. apply Gauss with (a ^ Z.of_nat n * q); auto.
      apply odd_rel_prime; auto. rewrite Z.mul_mod, Oa, Oq by lia. reflexivity.
    - intros D. apply Z.divide_mul_r. exact D.
  Qed.
  Lemma lcg_period n x : 0 <= x < 2 ^ w -> (lcg_iter w a c n x = x <-> (2 ^ w | Z.of_nat n)).
  Proof.
    intros Hx. rewrite <- (Nat.sub_0_r n) at 2. rewrite <- (@lcg_same 0 n x Hx ltac:(lia)).
    cbn [lcg_iter]. split; auto.
  Qed.
  Lemma lcg_reaches x y : 0 <= x < 2 ^ w -> 0 <= y < 2 ^ w ->
    exists n, Z.of_nat n < 2 ^ w /\ lcg_iter w a c n x = y.
  Proof.
    intros Hx Hy. set (N := Z.to_nat (2 ^ w)).
    set (l := map (fun n => Z.to_nat (lcg_iter w a c n x)) (seq 0 N)).
    assert (ND : NoDup l).
    { unfold l.
      assert (G : forall k s, (s + k <= N)%nat -> NoDup (map (fun n => Z.to_nat (lcg_iter w a c n x)) (seq s k))).
      { induction k as [|k IH]; intros s Hs; cbn [seq map]; constructor.
        - intros I. apply in_map_iff in I. destruct I as (m & E & I). apply in_seq in I.
          pose proof (lcg_range s Hx). pose proof (lcg_range m Hx).
          assert (E2 : lcg_iter w a c s x = lcg_iter w a c m x) by lia.
          apply lcg_same in E2; [|auto|lia]. apply Z.divide_pos_le in E2; [|lia]. unfold N in Hs. lia.
        - apply IH. lia. }
      apply G. lia. }
    assert (I : incl (seq 0 N) l).
    { apply NoDup_length_incl; auto.
      - unfold l. rewrite map_length. lia.
      - intros z Hz. unfold l in Hz. apply in_map_iff in Hz. destruct Hz as (n & <- & _).
        apply in_seq. pose proof (lcg_range n Hx). unfold N. lia. }
    specialize (I (Z.to_nat y)). assert (J : In (Z.to_nat y) (seq 0 N)) by (apply in_seq; unfold N; lia).
    apply I in J. unfold l in J. apply in_map_iff in J. destruct J as (n & E & J). apply in_seq in J.
    exists n. pose proof (lcg_range n Hx). unfold N in J. split; lia.
  Qed.
End Period.

(** *** The multiplier *)
Lemma mod_pow64_mod4 x : (x mod 2 ^ 64) mod 4 = x mod 4.
Proof.
  rewrite (Z.div_mod x (2 ^ 64)) at 2 by lia.
  replace (2 ^ 64 * (x / 2 ^ 64) + x mod 2 ^ 64) with (x mod 2 ^ 64 + (2 ^ 62 * (x / 2 ^ 64)) * 4).
  - rewrite Z_mod_plus_full. reflexivity.
  - change (2 ^ 64) with (2 ^ 62 * 4). ring.
Qed.
Lemma four_loop_spec f : forall m off r, m mod 4 = 0 -> four_loop f m off = Some r -> r mod 4 = 0.
Proof.
  induction f as [|f IH]; intros m off r Hm; [discriminate|]. cbn [four_loop].
  rewrite Hm. cbn [Z.eqb andb]. destruct (Z.eqb_spec (off mod 4) 0); cbn [negb].
  - intros [= <-]. auto.
  - apply IH. auto.
Qed.
Lemma grow_loop_spec next f : forall sm off r, off mod 4 = 0 -> grow_loop next f sm off = Some r -> r mod 4 = 0.
Proof.
  induction f as [|f IH]; intros sm off r Ho; [discriminate|]. cbn [grow_loop].
  assert (O' : ((off * next off) mod 2 ^ 64) mod 4 = 0).
  { rewrite mod_pow64_mod4, Z.mul_mod, Ho by lia. reflexivity. }
  destruct (_ <? sm); [apply IH; auto|]. intros [= <-]. auto.
Qed.
Lemma multiplier_spec next sqrt f m a : m mod 4 = 0 -> multiplier next sqrt f m = Some a -> a mod 4 = 1.
Proof.
  intros Hm. unfold multiplier.
  assert (Hm' : (if m =? 0 then 2 ^ 64 - 4 else m) mod 4 = 0) by (destruct (m =? 0); [reflexivity|auto]).
  destruct (factor_loop next f 2 2 1) as [o|]; cbn [obind]; [|discriminate].
  destruct (four_loop f _ o) as [o2|] eqn:E; cbn [obind]; [|discriminate].
  apply four_loop_spec in E; auto.
  destruct (grow_loop next f _ o2) as [o3|] eqn:E2; cbn [obind]; [|discriminate].
  apply grow_loop_spec in E2; auto. intros [= <-].
  rewrite mod_pow64_mod4, Z.add_mod, E2 by lia. reflexivity.
Qed.

(** *** Values in a range *)
Section Between.
  Variable k : nat.
  Variable sgn : bool.
  Notation d := (lvl_bits k).
  (** Values of the type. *)
  Definition in_type (x : Z) : Prop :=
    if sgn then - 2 ^ (d - 1) <= x < 2 ^ (d - 1) else 0 <= x < 2 ^ d.
  Lemma two_d : 2 ^ d = 2 * 2 ^ (d - 1).
  Proof. pose proof (@lvl_bits_pos k). rewrite <- Z.pow_succ_r by lia. f_equal. lia. Qed.
  Lemma half_pos : 0 < 2 ^ (d - 1).
  Proof. pose proof (@lvl_bits_pos k). apply Z.pow_pos_nonneg; lia. Qed.
  Lemma wrap_in_type x : in_type x -> wrap_T k sgn x = x.
  Proof.
    unfold in_type, wrap_T. pose proof two_d as T. pose proof half_pos. destruct sgn; cbn [andb].
    - intros Hx. destruct (Z_lt_ge_dec x 0).
      + assert (E : x mod 2 ^ d = x + 2 ^ d) by (symmetry; apply Z.mod_unique with (-1); lia). rewrite E.
        destruct (Z.leb_spec (2 ^ (d - 1)) (x + 2 ^ d)); lia.
      + rewrite Z.mod_small by lia. destruct (Z.leb_spec (2 ^ (d - 1)) x); lia.
    - intros Hx. apply Z.mod_small. auto.
  Qed.
  Lemma diff_range lo hi : in_type lo -> in_type hi -> lo <= hi -> 0 <= hi - lo < 2 ^ d.
  Proof. unfold in_type. pose proof two_d. destruct sgn; lia. Qed.
  Lemma between_type lo hi x : in_type lo -> in_type hi -> lo <= x <= hi -> in_type x.
  Proof. unfold in_type. destruct sgn; lia. Qed.
  Variable raw : nat -> Z.
  Lemma reject_spec f : forall i excl bn diff x, reject k raw f i excl bn diff = Some x -> 0 <= bn ->
    0 <= x /\ (if excl then x < diff else x <= diff).
  Proof.
    induction f as [|f IH]; intros i excl bn diff x; [discriminate|]. cbn [reject]. unfold masked.
    destruct (bn <? Z.max 32 d); cbn [obind]; [|discriminate]. intros E Hbn.
    assert (0 <= Z.land (raw i) (2 ^ bn - 1)).
    { apply Z.land_nonneg. right. assert (0 < 2 ^ bn) by (apply Z.pow_pos_nonneg; lia). lia. }
    destruct excl.
    - destruct (Z.leb_spec diff (Z.land (raw i) (2 ^ bn - 1))); [exact (IH _ _ _ _ _ E Hbn)|]. injection E as <-. lia.
    - destruct (Z.ltb_spec diff (Z.land (raw i) (2 ^ bn - 1))); [exact (IH _ _ _ _ _ E Hbn)|]. injection E as <-. lia.
  Qed.
  Lemma bitnum_nonneg v n : get_bitnum k v = Some n -> word d v -> 0 <= n.
  Proof.
    intros E Hv. rewrite (get_bitnum_spec Hv) in E. injection E as <-.
    destruct (v =? 0); [lia|]. pose proof (Z.log2_nonneg v). lia.
  Qed.
  Lemma between_sound f excl a b r : in_type a -> in_type b -> between k sgn raw f excl a b = Some r ->
    Z.min a b <= r /\ (if excl then r < Z.max a b else r <= Z.max a b).
  Proof.
    intros Ta Tb. unfold between, difference. rewrite (Z.min_comm b a), (Z.max_comm b a).
    assert (Tlo : in_type (Z.min a b)) by (destruct (Z.min_spec a b) as [[_ ->]|[_ ->]]; auto).
    assert (Thi : in_type (Z.max a b)) by (destruct (Z.max_spec a b) as [[_ ->]|[_ ->]]; auto).
    set (lo := Z.min a b) in *. set (hi := Z.max a b) in *. assert (Hlh : lo <= hi) by (unfold lo, hi; lia).
    pose proof (diff_range Tlo Thi Hlh) as Hd.
    destruct (sgn && (32 <=? d) && (2 ^ (d - 1) <=? hi - lo)); cbn [obind]; [discriminate|].
    rewrite Z.mod_small by auto.
    destruct (get_bitnum k (hi - lo)) as [bn|] eqn:E; cbn [obind]; [|discriminate].
    assert (Hbn : 0 <= bn) by (eapply bitnum_nonneg; eauto).
    destruct (reject k raw f 0 excl bn (hi - lo)) as [x|] eqn:E2; cbn [obind]; [|discriminate].
    intros [= <-]. destruct (reject_spec E2 Hbn) as [H0 H1].
    rewrite wrap_in_type.
    - destruct excl; lia.
    - apply (between_type Tlo Thi). destruct excl; lia.
  Qed.
  (** The mask keeps a number below the difference unchanged. *)
  Lemma masked_hit i diff x bn : word d diff -> get_bitnum k diff = Some bn ->
    raw i = x -> 0 <= x <= diff -> diff < 2 ^ (d - 1) \/ d < 32 -> masked k raw i bn = Some x.
  Proof.
    intros Hd E Hr Hx Hs. rewrite (get_bitnum_spec Hd) in E. injection E as <-.
    pose proof (@lvl_bits_pos k).
    assert (L : (if diff =? 0 then 0 else Z.log2 diff + 1) <= (if d <? 32 then d else d - 1)).
    { destruct (Z.eqb_spec diff 0); [destruct (d <? 32); lia|]. destruct Hd as [Hd0 Hd1].
      destruct (Z.ltb_spec d 32).
      - assert (Z.log2 diff < d) by (apply Z.log2_lt_pow2; lia). lia.
      - assert (Z.log2 diff < d - 1) by (apply Z.log2_lt_pow2; lia). lia. }
    unfold masked. destruct (Z.ltb_spec (if diff =? 0 then 0 else Z.log2 diff + 1) (Z.max 32 d)).
    2:{ destruct (Z.ltb_spec d 32); lia. }
    f_equal. rewrite Hr. destruct (Z.eqb_spec diff 0).
    - replace x with 0 by lia. reflexivity.
    - pose proof (Z.log2_nonneg diff).
      replace (2 ^ (Z.log2 diff + 1) - 1) with (Z.ones (Z.log2 diff + 1)) by (rewrite Z.ones_equiv; lia).
      rewrite Z.land_ones by lia. apply Z.mod_small. split; [lia|].
      destruct (Z.log2_spec diff ltac:(lia)) as [_ U]. unfold Z.succ in U. lia.
  Qed.
  Lemma between_hit (excl : bool) a b v : in_type a -> in_type b ->
    Z.max a b - Z.min a b < 2 ^ (d - 1) \/ d < 32 ->
    Z.min a b <= v -> (if excl then v < Z.max a b else v <= Z.max a b) ->
    forall f, (0 < f)%nat -> raw 0%nat = v - Z.min a b -> between k sgn raw f excl a b = Some v.
  Proof.
    intros Ta Tb Hs Hv1 Hv2 f Hf Hr. unfold between, difference. rewrite (Z.min_comm b a), (Z.max_comm b a).
    assert (Tlo : in_type (Z.min a b)) by (destruct (Z.min_spec a b) as [[_ ->]|[_ ->]]; auto).
    assert (Thi : in_type (Z.max a b)) by (destruct (Z.max_spec a b) as [[_ ->]|[_ ->]]; auto).
    set (lo := Z.min a b) in *. set (hi := Z.max a b) in *. assert (Hlh : lo <= hi) by (unfold lo, hi; lia).
    pose proof (diff_range Tlo Thi Hlh) as Hd. pose proof (@lvl_bits_pos k).
    assert (E0 : sgn && (32 <=? d) && (2 ^ (d - 1) <=? hi - lo) = false).
    { destruct sgn; [|reflexivity]. destruct (Z.leb_spec 32 d); [|reflexivity].
      destruct (Z.leb_spec (2 ^ (d - 1)) (hi - lo)); [lia|reflexivity]. }
    rewrite E0. cbn [obind]. rewrite Z.mod_small by auto.
    assert (Wd : word d (hi - lo)) by exact Hd.
    rewrite (get_bitnum_spec Wd). cbn [obind].
    destruct f as [|f]; [lia|]. cbn [reject].
    rewrite (@masked_hit 0%nat (hi - lo) (v - lo) _ Wd (get_bitnum_spec Wd) Hr); [|destruct excl; lia|auto].
    cbn [obind]. assert (Hc : (if excl then hi - lo <=? v - lo else hi - lo <? v - lo) = false).
    { destruct excl; [apply Z.leb_gt|apply Z.ltb_ge]; lia. }
    rewrite Hc. cbn [obind]. replace (lo + (v - lo)) with v by lia. f_equal. apply wrap_in_type.
    apply (between_type Tlo Thi). destruct excl; lia.
  Qed.
  Lemma between_wide f excl a b : in_type a -> in_type b -> 32 <= d -> 2 ^ (d - 1) <= Z.max a b - Z.min a b ->
    between k sgn raw f excl a b = None.
  Proof.
    intros Ta Tb Hd Hw. unfold between, difference. rewrite (Z.min_comm b a), (Z.max_comm b a).
    assert (Tlo : in_type (Z.min a b)) by (destruct (Z.min_spec a b) as [[_ ->]|[_ ->]]; auto).
    assert (Thi : in_type (Z.max a b)) by (destruct (Z.max_spec a b) as [[_ ->]|[_ ->]]; auto).
    set (lo := Z.min a b) in *. set (hi := Z.max a b) in *. assert (Hlh : lo <= hi) by (unfold lo, hi; lia).
    pose proof (diff_range Tlo Thi Hlh) as Hr.
    destruct (Z.leb_spec 32 d); [|lia]. destruct (Z.leb_spec (2 ^ (d - 1)) (hi - lo)); [|lia].
    destruct sgn; [reflexivity|]. cbn [andb obind]. rewrite Z.mod_small by auto.
    assert (Wd : word d (hi - lo)) by exact Hr.
    rewrite (get_bitnum_spec Wd). cbn [obind]. pose proof half_pos.
    destruct (Z.eqb_spec (hi - lo) 0); [lia|].
    assert (d - 1 <= Z.log2 (hi - lo)) by (apply Z.log2_le_pow2; lia).
    destruct f as [|f]; [reflexivity|]. cbn [reject]. unfold masked.
    destruct (Z.ltb_spec (Z.log2 (hi - lo) + 1) (Z.max 32 d)); [lia|reflexivity].
  Qed.
  Lemma between_empty f a : in_type a -> between k sgn raw f true a a = None.
  Proof.
    intros Ta. destruct (between k sgn raw f true a a) as [r|] eqn:E; auto.
    apply between_sound in E; auto. cbn in E. lia.
  Qed.
End Between.
Lemma sow_period w x n : 0 <= w -> 0 <= x < 2 ^ w -> (Nat.iter n (sow_step w) x = x <-> (2 ^ w | Z.of_nat n)).
Proof.
  intros Hw Hx. rewrite <- (@lcg_period w 13 7 Hw eq_refl eq_refl n x Hx).
  assert (E : forall m, Nat.iter m (sow_step w) x = lcg_iter w 13 7 m x).
  { induction m as [|m IH]; [reflexivity|]. cbn [Nat.iter nat_rect lcg_iter]. unfold Nat.iter in IH. rewrite IH. reflexivity. }
  rewrite E. reflexivity.
Qed.
