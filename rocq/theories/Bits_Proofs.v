(** Proofs about rotations, bit counts and the sequence hash. *)
From Verif Require Import Base Bits_Model Bits_Spec.
Local Open Scope Z_scope.

Lemma word_testbit_high d v i : 0 <= d -> word d v -> d <= i -> Z.testbit v i = false.
Proof.
  intros Hd [H1 H2] Hi. rewrite <- (Z.mod_small v (2 ^ d)) by lia. apply Z.mod_pow2_bits_high. lia.
Qed.

(** A non-negative number without bits at or above [d] is a word. *)
Lemma word_of_bits d v : 0 <= d -> 0 <= v -> (forall i, d <= i -> Z.testbit v i = false) -> word d v.
Proof.
  intros Hd Hv H. split; [exact Hv|].
  assert (E : v = v mod 2 ^ d).
  { apply Z.bits_inj'. intros n Hn. destruct (Z_lt_ge_dec n d) as [Hl|Hl].
    - rewrite Z.mod_pow2_bits_low by lia. reflexivity.
    - rewrite H, Z.mod_pow2_bits_high by lia. reflexivity. }
  rewrite E. apply Z.mod_pos_bound. apply Z.pow_pos_nonneg; lia.
Qed.

Lemma word_ext d x y : 0 <= d -> word d x -> word d y ->
  (forall i, 0 <= i < d -> Z.testbit x i = Z.testbit y i) -> x = y.
Proof.
  intros Hd Hx Hy H. apply Z.bits_inj'. intros n Hn. destruct (Z_lt_ge_dec n d) as [Hl|Hl].
  - apply H. lia.
  - rewrite (word_testbit_high Hd Hx), (word_testbit_high Hd Hy) by lia. reflexivity.
Qed.

Lemma rotl_base_spec d v r : 0 < r < d -> word d v -> rotated_left d v r (rotl_base d v r).
Proof.
  intros Hr Hv. unfold rotl_base.
  assert (HP : 0 < 2 ^ d) by (apply Z.pow_pos_nonneg; lia).
  assert (Hbits : forall i, 0 <= i -> Z.testbit (Z.lor (Z.shiftl v r mod 2 ^ d) (Z.shiftr v (d - r))) i =
    if i <? d then Z.testbit v ((i - r) mod d) else false).
  { intros i Hi. rewrite Z.lor_spec, Z.shiftr_spec by lia.
    destruct (Z.ltb_spec i d) as [Hl|Hl].
    - rewrite Z.mod_pow2_bits_low, Z.shiftl_spec by lia.
      destruct (Z_lt_ge_dec i r) as [H|H].
      + rewrite Z.testbit_neg_r by lia. cbn [orb].
        f_equal. apply (Z.mod_unique_pos (i - r) d (-1)); lia.
      + rewrite (word_testbit_high (d := d)) with (i := i + (d - r)) by (auto; lia).
        rewrite orb_false_r. f_equal. symmetry. apply Z.mod_small. lia.
    - rewrite Z.mod_pow2_bits_high by lia.
      rewrite (word_testbit_high (d := d)) with (i := i + (d - r)) by (auto; lia). reflexivity. }
  split.
  - apply word_of_bits; [lia| |].
    + apply Z.lor_nonneg. split; [apply Z.mod_pos_bound; lia|apply Z.shiftr_nonneg; apply Hv].
    + intros i Hi. rewrite Hbits by lia. destruct (Z.ltb_spec i d); [lia|reflexivity].
  - intros i Hi. rewrite Hbits by lia. destruct (Z.ltb_spec i d); [reflexivity|lia].
Qed.

Lemma rotr_base_rotl d v r : rotr_base d v r = rotl_base d v (d - r).
Proof.
  unfold rotr_base, rotl_base. rewrite Z.lor_comm. f_equal. f_equal. ring.
Qed.

Lemma rotated_left_eqmod d v r r' x : 0 < d -> (r - r') mod d = 0 ->
  rotated_left d v r x -> rotated_left d v r' x.
Proof.
  intros Hd Hm [H1 H2]. split; [exact H1|]. intros i Hi. rewrite (H2 i Hi). f_equal.
  replace (i - r') with ((i - r) + (r - r')) by ring.
  rewrite Z.add_mod by lia. rewrite Hm, Z.add_0_r, Z.mod_mod by lia. reflexivity.
Qed.

Lemma rotated_left_0 d v : 0 < d -> word d v -> rotated_left d v 0 v.
Proof.
  intros Hd Hv. split; [exact Hv|]. intros i Hi. rewrite Z.sub_0_r, Z.mod_small by lia. reflexivity.
Qed.

Lemma rotl_nomod_spec d v r : 0 < d -> - d < r < d -> word d v -> rotated_left d v r (rotl_nomod d v r).
Proof.
  intros Hd Hr Hv. unfold rotl_nomod. destruct (Z.ltb_spec 0 r); [apply rotl_base_spec; auto; lia|].
  destruct (Z.eqb_spec r 0) as [->|]; [apply rotated_left_0; auto|].
  rewrite rotr_base_rotl. apply rotated_left_eqmod with (r := d - (0 - r)); auto.
  - replace (d - (0 - r) - r) with (1 * d) by ring. apply Z.mod_mul. lia.
  - apply rotl_base_spec; auto; lia.
Qed.
Lemma rotr_nomod_spec d v r : 0 < d -> - d < r < d -> word d v -> rotated_left d v (- r) (rotr_nomod d v r).
Proof.
  intros Hd Hr Hv. unfold rotr_nomod. destruct (Z.ltb_spec 0 r).
  - rewrite rotr_base_rotl. apply rotated_left_eqmod with (r := d - r); auto.
    + replace (d - r - - r) with (1 * d) by ring. apply Z.mod_mul. lia.
    + apply rotl_base_spec; auto; lia.
  - destruct (Z.eqb_spec r 0) as [->|]; [apply rotated_left_0; auto|].
    replace (- r) with (0 - r) by ring. apply rotl_base_spec; auto; lia.
Qed.

Lemma rem_bound r d : 0 < d -> - d < Z.rem r d < d.
Proof.
  intros Hd. pose proof (Z.rem_bound_abs r d ltac:(lia)). lia.
Qed.
Lemma rem_eqmod r d : 0 < d -> (Z.rem r d - r) mod d = 0.
Proof.
  intros Hd. pose proof (Z.quot_rem r d ltac:(lia)).
  replace (Z.rem r d - r) with (- (Z.quot r d) * d) by lia. apply Z.mod_mul. lia.
Qed.
Lemma mod_opp0 x d : 0 < d -> x mod d = 0 -> (- x) mod d = 0.
Proof. intros Hd H. rewrite Z.mod_opp_l_z; lia. Qed.

Lemma rotl_spec d v r : 0 < d -> word d v -> rotated_left d v r (rotl d v r).
Proof.
  intros Hd Hv. unfold rotl. apply rotated_left_eqmod with (r := Z.rem r d); auto.
  - apply rem_eqmod; auto.
  - apply rotl_nomod_spec; auto. apply rem_bound; auto.
Qed.
Lemma rotr_spec d v r : 0 < d -> word d v -> rotated_left d v (- r) (rotr d v r).
Proof.
  intros Hd Hv. unfold rotr. apply rotated_left_eqmod with (r := - Z.rem r d); auto.
  - replace (- Z.rem r d - - r) with (- (Z.rem r d - r)) by ring. apply mod_opp0; auto. apply rem_eqmod; auto.
  - apply rotr_nomod_spec; auto. apply rem_bound; auto.
Qed.

Lemma rotated_left_unique d v r x y : 0 < d -> rotated_left d v r x -> rotated_left d v r y -> x = y.
Proof.
  intros Hd [H1 H2] [H3 H4]. apply (word_ext (d := d)); auto; [lia|].
  intros i Hi. rewrite H2, H4 by auto. reflexivity.
Qed.
Lemma rotated_left_compose d v r s x y : 0 < d -> rotated_left d v r x -> rotated_left d x s y ->
  rotated_left d v (r + s) y.
Proof.
  intros Hd [H1 H2] [H3 H4]. split; [exact H3|]. intros i Hi. rewrite H4 by auto.
  rewrite H2 by (apply Z.mod_pos_bound; lia). f_equal.
  rewrite Zminus_mod_idemp_l. f_equal. ring.
Qed.

Lemma rotl_word d v r : 0 < d -> word d v -> word d (rotl d v r).
Proof. intros Hd Hv. apply (rotl_spec r Hd Hv). Qed.
Lemma rotr_word d v r : 0 < d -> word d v -> word d (rotr d v r).
Proof. intros Hd Hv. apply (rotr_spec r Hd Hv). Qed.

Lemma rotl_add d v r s : 0 < d -> word d v -> rotl d (rotl d v r) s = rotl d v (r + s).
Proof.
  intros Hd Hv. apply (rotated_left_unique (d := d) (v := v) (r := r + s)); auto.
  - eapply rotated_left_compose; [auto|apply rotl_spec; auto|apply rotl_spec; auto; apply rotl_word; auto].
  - apply rotl_spec; auto.
Qed.
Lemma rotr_rotl d v r : 0 < d -> word d v -> rotr d (rotl d v r) r = v.
Proof.
  intros Hd Hv. apply (rotated_left_unique (d := d) (v := v) (r := r + - r)); auto.
  - eapply rotated_left_compose; [auto|apply rotl_spec; auto|apply rotr_spec; auto; apply rotl_word; auto].
  - replace (r + - r) with 0 by ring. apply rotated_left_0; auto.
Qed.
Lemma rotl_rotr d v r : 0 < d -> word d v -> rotl d (rotr d v r) r = v.
Proof.
  intros Hd Hv. apply (rotated_left_unique (d := d) (v := v) (r := - r + r)); auto.
  - eapply rotated_left_compose; [auto|apply rotr_spec; auto|apply rotl_spec; auto; apply rotr_word; auto].
  - replace (- r + r) with 0 by ring. apply rotated_left_0; auto.
Qed.

(** ** Rotation iterator *)
Lemma rot_inc_spec d off : 0 < d -> 0 <= off < d -> rot_inc d off = (off + 1) mod d.
Proof.
  intros Hd Ho. unfold rot_inc. destruct (Z.eqb_spec (off + 1) d) as [E|E].
  - rewrite E, Z.mod_same by lia. reflexivity.
  - rewrite Z.mod_small by lia. reflexivity.
Qed.
Lemma rot_dec_spec d off : 0 < d -> 0 <= off < d -> rot_dec d off = (off - 1) mod d.
Proof.
  intros Hd Ho. unfold rot_dec. destruct (Z.eqb_spec off 0) as [->|E].
  - apply (Z.mod_unique_pos _ _ (-1)); lia.
  - rewrite Z.mod_small by lia. reflexivity.
Qed.

(** ** Bit counts *)
Lemma lvl_bits_pos k : 8 <= lvl_bits k.
Proof. unfold lvl_bits. pose proof (Z.pow_pos_nonneg 2 (Z.of_nat k) ltac:(lia) ltac:(lia)). lia. Qed.
Lemma lvl_bits_S k : lvl_bits (S k) = lvl_bits k + lvl_bits k.
Proof. unfold lvl_bits. rewrite Nat2Z.inj_succ, Z.pow_succ_r by lia. ring. Qed.

(** Splitting a word into halves. *)
Lemma half_split h v : 0 < h -> word (h + h) v ->
  let high := Z.shiftr v h mod 2 ^ h in let low := v mod 2 ^ h in
  word h high /\ word h low /\ v = high * 2 ^ h + low /\
  (forall i, 0 <= i < h -> Z.testbit low i = Z.testbit v i) /\
  (forall i, 0 <= i < h -> Z.testbit high i = Z.testbit v (i + h)).
Proof.
  intros Hh [Hv1 Hv2]. cbv zeta.
  assert (HP : 0 < 2 ^ h) by (apply Z.pow_pos_nonneg; lia).
  rewrite Z.pow_add_r in Hv2 by lia.
  assert (E : Z.shiftr v h mod 2 ^ h = v / 2 ^ h).
  { rewrite Z.shiftr_div_pow2 by lia. apply Z.mod_small.
    split; [apply Z.div_pos; lia|apply Z.div_lt_upper_bound; lia]. }
  split; [apply Z.mod_pos_bound; lia|]. split; [apply Z.mod_pos_bound; lia|].
  split; [rewrite E; pose proof (Z.div_mod v (2 ^ h) ltac:(lia)); lia|].
  split; intros i Hi.
  - apply Z.mod_pow2_bits_low. lia.
  - rewrite Z.mod_pow2_bits_low, Z.shiftr_spec by lia. reflexivity.
Qed.

Lemma bitnum_byte_spec f : forall v, 0 <= v < 2 ^ Z.of_nat f ->
  bitnum_byte f v = Some (if v =? 0 then 0 else Z.log2 v + 1).
Proof.
  induction f as [|f IH]; intros v Hv; cbn [bitnum_byte].
  - change (2 ^ Z.of_nat 0) with 1 in Hv. destruct (Z.eqb_spec v 0); [reflexivity|lia].
  - destruct (Z.eqb_spec v 0) as [|Hn]; [reflexivity|].
    rewrite Nat2Z.inj_succ, Z.pow_succ_r in Hv by lia.
    rewrite IH by (split; [apply Z.div_pos; lia|apply Z.div_lt_upper_bound; lia]).
    cbn [option_map]. f_equal. destruct (Z.eqb_spec (v / 2) 0) as [E|E].
    + assert (v = 1) as -> by (apply Z.div_small_iff in E; lia). reflexivity.
    + rewrite <- Z.div2_div. rewrite <- Z.div2_div in E.
      pose proof (Z.log2_shiftr v 1 ltac:(lia)) as Hl.
      rewrite <- Z.div2_spec in Hl.
      assert (1 < v) by (destruct (Z.eq_dec v 1) as [->|]; [contradiction E; reflexivity|lia]).
      assert (1 <= Z.log2 v) by (apply Z.log2_le_pow2; lia).
      lia.
Qed.

Lemma get_bitnum_spec k : forall v, word (lvl_bits k) v ->
  get_bitnum k v = Some (if v =? 0 then 0 else Z.log2 v + 1).
Proof.
  induction k as [|k IH]; intros v Hv; cbn [get_bitnum].
  - apply bitnum_byte_spec. exact Hv.
  - rewrite lvl_bits_S in Hv. pose proof (@lvl_bits_pos k) as Hp.
    destruct (half_split (h := lvl_bits k) ltac:(lia) Hv) as (H1 & H2 & H3 & _ & _).
    set (h := lvl_bits k) in *. cbv zeta.
    set (high := Z.shiftr v h mod 2 ^ h) in *. set (low := v mod 2 ^ h) in *.
    clearbody high low.
    destruct (Z.eqb_spec high 0) as [E|E].
    + rewrite IH by auto. assert (low = v) as -> by lia. reflexivity.
    + rewrite IH by auto. destruct (Z.eqb_spec high 0) as [|_]; [contradiction|].
      assert (HP : 0 < 2 ^ h) by (apply Z.pow_pos_nonneg; lia).
      destruct H1 as [H1 H1'], H2 as [H2 H2'].
      destruct (Z.eqb_spec v 0) as [|_]; [nia|]. cbn [option_map]. f_equal.
      assert (Z.log2 v = Z.log2 high + h); [|lia].
      pose proof (Z.log2_spec high ltac:(lia)) as Hs. pose proof (Z.log2_nonneg high) as Hn.
      rewrite Z.pow_succ_r in Hs by lia.
      apply Z.log2_unique; [lia|]. rewrite Z.pow_succ_r, Z.pow_add_r by lia. nia.
Qed.

Lemma pow2_le_of_log2 d v : 0 < d -> word d v -> v <> 0 -> Z.log2 v < d.
Proof. intros Hd [H1 H2] Hn. apply Z.log2_lt_pow2; lia. Qed.

Lemma log2_high_run d v : 0 < d -> word d v ->
  high_run d v false (d - (if v =? 0 then 0 else Z.log2 v + 1)).
Proof.
  intros Hd Hv. destruct (Z.eqb_spec v 0) as [->|Hn].
  - split; [lia|]. split; [intros; apply Z.bits_0|lia].
  - pose proof (pow2_le_of_log2 Hd Hv Hn) as Hl. destruct Hv as [H1 H2].
    pose proof (Z.log2_nonneg v).
    split; [lia|]. split.
    + intros i Hi. apply Z.bits_above_log2; lia.
    + intros _. replace (d - 1 - (d - (Z.log2 v + 1))) with (Z.log2 v) by ring.
      rewrite Z.bit_log2 by lia. reflexivity.
Qed.

(** Runs of the halves make runs of the whole. *)
Lemma high_run_join h v high low b n : 0 < h -> word (h + h) v ->
  (forall i, 0 <= i < h -> Z.testbit low i = Z.testbit v i) ->
  (forall i, 0 <= i < h -> Z.testbit high i = Z.testbit v (i + h)) ->
  (forall i, 0 <= i < h -> Z.testbit high i = b) ->
  high_run h low b n -> high_run (h + h) v b (h + n).
Proof.
  intros Hh Hv Hlo Hhi Hall (H1 & H2 & H3). split; [lia|]. split.
  - intros i Hi. destruct (Z_lt_ge_dec i h) as [Hl|Hl].
    + rewrite <- Hlo by lia. apply H2. lia.
    + specialize (Hhi (i - h) ltac:(lia)). replace (i - h + h) with i in Hhi by ring.
      rewrite <- Hhi. apply Hall. lia.
  - intros Hn. replace (h + h - 1 - (h + n)) with (h - 1 - n) by ring.
    rewrite <- Hlo by lia. apply H3. lia.
Qed.
Lemma high_run_top h v high b n : 0 < h -> word (h + h) v ->
  (forall i, 0 <= i < h -> Z.testbit high i = Z.testbit v (i + h)) ->
  n < h -> high_run h high b n -> high_run (h + h) v b n.
Proof.
  intros Hh Hv Hhi Hlt (H1 & H2 & H3). split; [lia|]. split.
  - intros i Hi. specialize (Hhi (i - h) ltac:(lia)). replace (i - h + h) with i in Hhi by ring.
    rewrite <- Hhi. apply H2. lia.
  - intros _. specialize (Hhi (h - 1 - n) ltac:(lia)).
    replace (h + h - 1 - n) with (h - 1 - n + h) by ring. rewrite <- Hhi. apply H3. exact Hlt.
Qed.
Lemma low_run_join h v high low b n : 0 < h -> word (h + h) v ->
  (forall i, 0 <= i < h -> Z.testbit low i = Z.testbit v i) ->
  (forall i, 0 <= i < h -> Z.testbit high i = Z.testbit v (i + h)) ->
  (forall i, 0 <= i < h -> Z.testbit low i = b) ->
  low_run h high b n -> low_run (h + h) v b (h + n).
Proof.
  intros Hh Hv Hlo Hhi Hall (H1 & H2 & H3). split; [lia|]. split.
  - intros i Hi. destruct (Z_lt_ge_dec i h) as [Hl|Hl].
    + rewrite <- Hlo by lia. apply Hall. lia.
    + specialize (Hhi (i - h) ltac:(lia)). replace (i - h + h) with i in Hhi by ring.
      rewrite <- Hhi. apply H2. lia.
  - intros Hn. replace (h + n) with (n + h) by ring. rewrite <- Hhi by lia. apply H3. lia.
Qed.
Lemma low_run_bottom h v low b n : 0 < h -> word (h + h) v ->
  (forall i, 0 <= i < h -> Z.testbit low i = Z.testbit v i) ->
  n < h -> low_run h low b n -> low_run (h + h) v b n.
Proof.
  intros Hh Hv Hlo Hlt (H1 & H2 & H3). split; [lia|]. split.
  - intros i Hi. rewrite <- Hlo by lia. apply H2. lia.
  - intros _. rewrite <- Hlo by lia. apply H3. exact Hlt.
Qed.

(** A full run determines the word. *)
Lemma all_false_zero d v : 0 <= d -> word d v -> (forall i, 0 <= i < d -> Z.testbit v i = false) -> v = 0.
Proof.
  intros Hd Hv H. apply (word_ext (d := d)); auto.
  - split; [lia|]. apply Z.pow_pos_nonneg; lia.
  - intros i Hi. rewrite H by auto. rewrite Z.bits_0. reflexivity.
Qed.
Lemma ones_testbit d i : 0 <= i < d -> Z.testbit (2 ^ d - 1) i = true.
Proof.
  intros Hi. replace (2 ^ d - 1) with (Z.ones d) by (rewrite Z.ones_equiv; lia).
  apply Z.ones_spec_low. lia.
Qed.
Lemma all_true_ones d v : 0 <= d -> word d v -> (forall i, 0 <= i < d -> Z.testbit v i = true) -> v = 2 ^ d - 1.
Proof.
  intros Hd Hv H. assert (0 < 2 ^ d) by (apply Z.pow_pos_nonneg; lia).
  apply (word_ext (d := d)); auto.
  - split; lia.
  - intros i Hi. rewrite H, ones_testbit by auto. reflexivity.
Qed.
Lemma high_run_lt d v b n : 0 < d -> word d v -> high_run d v b n ->
  v <> (if b then 2 ^ d - 1 else 0) -> n < d.
Proof.
  intros Hd Hv (H1 & H2 & _) Hne. destruct (Z_lt_ge_dec n d) as [|Hge]; [auto|exfalso].
  apply Hne. assert (n = d) by lia. subst n. rewrite Z.sub_diag in H2. destruct b.
  - apply all_true_ones; auto; lia.
  - apply all_false_zero with (d := d); auto; lia.
Qed.
Lemma low_run_lt d v b n : 0 < d -> word d v -> low_run d v b n ->
  v <> (if b then 2 ^ d - 1 else 0) -> n < d.
Proof.
  intros Hd Hv (H1 & H2 & _) Hne. destruct (Z_lt_ge_dec n d) as [|Hge]; [auto|exfalso].
  apply Hne. assert (n = d) by lia. subst n. destruct b.
  - apply all_true_ones; auto; lia.
  - apply all_false_zero with (d := d); auto; lia.
Qed.

Lemma countl_zero_spec k : forall v, word (lvl_bits k) v ->
  exists n, countl_zero k v = Some n /\ high_run (lvl_bits k) v false n.
Proof.
  induction k as [|k IH]; intros v Hv; cbn [countl_zero].
  - rewrite bitnum_byte_spec by exact Hv. cbn [option_map]. eexists. split; [reflexivity|].
    apply log2_high_run; auto. reflexivity.
  - rewrite lvl_bits_S in *. pose proof (@lvl_bits_pos k) as Hp.
    destruct (half_split (h := lvl_bits k) ltac:(lia) Hv) as (H1 & H2 & H3 & H4 & H5).
    set (h := lvl_bits k) in *. cbv zeta.
    destruct (Z.eqb_spec (Z.shiftr v h mod 2 ^ h) 0) as [E|E].
    + destruct (IH _ H2) as (n & -> & Hr). cbn [option_map]. eexists. split; [reflexivity|].
      eapply high_run_join; eauto; [lia|]. intros i Hi. rewrite E. apply Z.bits_0.
    + destruct (IH _ H1) as (n & -> & Hr). eexists. split; [reflexivity|].
      eapply high_run_top; eauto; [lia|].
      apply (high_run_lt (d := h) ltac:(lia) H1 Hr). exact E.
Qed.

Lemma land1_testbit v : (Z.land v 1 =? 0) = negb (Z.testbit v 0).
Proof.
  rewrite Z.bit0_odd. change 1 with (Z.ones 1). rewrite Z.land_ones by lia. change (2 ^ 1) with 2.
  rewrite Zmod_odd. destruct (Z.odd v); reflexivity.
Qed.

Lemma cro_byte_spec f : forall v, 0 <= v < 2 ^ Z.of_nat f ->
  exists n, cro_byte f v = Some n /\ low_run (Z.of_nat f) v true n.
Proof.
  induction f as [|f IH]; intros v Hv; cbn [cro_byte].
  - change (2 ^ Z.of_nat 0) with 1 in Hv. assert (v = 0) as -> by lia. cbn.
    exists 0. split; [reflexivity|]. split; [lia|]. split; intros; lia.
  - rewrite land1_testbit. destruct (Z.testbit v 0) eqn:E; cbn [negb].
    + rewrite Nat2Z.inj_succ, Z.pow_succ_r in Hv by lia.
      destruct (IH (v / 2)) as (n & -> & H1 & H2 & H3).
      { split; [apply Z.div_pos; lia|apply Z.div_lt_upper_bound; lia]. }
      cbn [option_map]. exists (n + 1). split; [reflexivity|].
      assert (Hd : forall i, 0 <= i -> Z.testbit (v / 2) i = Z.testbit v (i + 1)).
      { intros i Hi. change 2 with (2 ^ 1). rewrite <- Z.shiftr_div_pow2 by lia. apply Z.shiftr_spec. lia. }
      split; [lia|]. split.
      * intros i Hi. destruct (Z.eq_dec i 0) as [->|]; [exact E|].
        replace i with (i - 1 + 1) by ring. rewrite <- Hd by lia. apply H2. lia.
      * intros Hn. rewrite <- Hd by lia. apply H3. lia.
    + exists 0. split; [reflexivity|]. split; [lia|]. split; [intros; lia|]. intros _. exact E.
Qed.

Lemma countr_one_spec k : forall v, word (lvl_bits k) v ->
  exists n, countr_one k v = Some n /\ low_run (lvl_bits k) v true n.
Proof.
  induction k as [|k IH]; intros v Hv; cbn [countr_one].
  - apply cro_byte_spec. exact Hv.
  - rewrite lvl_bits_S in *. pose proof (@lvl_bits_pos k) as Hp.
    destruct (half_split (h := lvl_bits k) ltac:(lia) Hv) as (H1 & H2 & H3 & H4 & H5).
    set (h := lvl_bits k) in *. cbv zeta.
    destruct (Z.eqb_spec (v mod 2 ^ h) (2 ^ h - 1)) as [E|E].
    + destruct (IH _ H1) as (n & -> & Hr). cbn [option_map]. eexists. split; [reflexivity|].
      eapply low_run_join; eauto; [lia|]. intros i Hi. rewrite E. apply ones_testbit. lia.
    + destruct (IH _ H2) as (n & -> & Hr). eexists. split; [reflexivity|].
      eapply low_run_bottom; eauto; [lia|]. apply (low_run_lt (d := h) ltac:(lia) H2 Hr). exact E.
Qed.

Lemma compl_testbit d v i : word d v -> 0 <= i < d -> Z.testbit (2 ^ d - 1 - v) i = negb (Z.testbit v i).
Proof.
  intros Hv Hi. replace (2 ^ d - 1 - v) with (Z.lnot v + 1 * 2 ^ d) by (unfold Z.lnot; lia).
  rewrite <- (Z.mod_pow2_bits_low (Z.lnot v + 1 * 2 ^ d) d) by lia.
  rewrite Z.mod_add by (apply Z.pow_nonzero; lia).
  rewrite Z.mod_pow2_bits_low by lia. apply Z.lnot_spec. lia.
Qed.

Lemma countr_zero_spec k : forall v, word (lvl_bits k) v ->
  exists n, countr_zero k v = Some n /\ low_run (lvl_bits k) v false n.
Proof.
  induction k as [|k IH]; intros v Hv; cbn [countr_zero].
  - change (lvl_bits 0) with 8 in *. destruct (@cro_byte_spec 8 (255 - v)) as (n & -> & H1 & H2 & H3).
    { destruct Hv as [Ha Hb]. change (2 ^ 8) with 256 in Hb. change (2 ^ Z.of_nat 8) with 256. lia. }
    change (Z.of_nat 8) with 8 in *. exists n. split; [reflexivity|]. split; [exact H1|].
    change (255 - v) with (2 ^ 8 - 1 - v) in *. split.
    + intros i Hi. specialize (H2 i Hi). rewrite compl_testbit in H2 by (auto; lia).
      apply negb_true_iff in H2. exact H2.
    + intros Hn. specialize (H3 Hn). rewrite compl_testbit in H3 by (auto; lia).
      cbn in H3. apply negb_false_iff in H3. exact H3.
  - rewrite lvl_bits_S in *. pose proof (@lvl_bits_pos k) as Hp.
    destruct (half_split (h := lvl_bits k) ltac:(lia) Hv) as (H1 & H2 & H3 & H4 & H5).
    set (h := lvl_bits k) in *. cbv zeta.
    destruct (Z.eqb_spec (v mod 2 ^ h) 0) as [E|E].
    + destruct (IH _ H1) as (n & -> & Hr). cbn [option_map]. eexists. split; [reflexivity|].
      eapply low_run_join; eauto; [lia|]. intros i Hi. rewrite E. apply Z.bits_0.
    + destruct (IH _ H2) as (n & -> & Hr). eexists. split; [reflexivity|].
      eapply low_run_bottom; eauto; [lia|]. apply (low_run_lt (d := h) ltac:(lia) H2 Hr). exact E.
Qed.

Lemma land128_testbit v : (Z.land v 128 =? 0) = negb (Z.testbit v 7).
Proof.
  change 128 with (2 ^ 7). destruct (Z.testbit v 7) eqn:E; cbn [negb].
  - apply Z.eqb_neq. intros H0.
    assert (Z.testbit (Z.land v (2 ^ 7)) 7 = true) by (rewrite Z.land_spec, E; reflexivity).
    rewrite H0 in H. discriminate.
  - apply Z.eqb_eq. apply Z.bits_inj'. intros n Hn. rewrite Z.land_spec, Z.bits_0.
    destruct (Z.eq_dec n 7) as [->|Hne]; [rewrite E; reflexivity|].
    rewrite Z.pow2_bits_false by lia. apply andb_false_r.
Qed.

(** After [8-f] left shifts the low bits are zero. *)
Lemma clo_byte_spec f : forall v, word 8 v -> (f <= 8)%nat ->
  (forall i, 0 <= i < 8 - Z.of_nat f -> Z.testbit v i = false) ->
  exists n, clo_byte f v = Some n /\ high_run 8 v true n /\ n <= Z.of_nat f.
Proof.
  induction f as [|f IH]; intros v Hv Hf Hlow; cbn [clo_byte]; rewrite land128_testbit.
  - rewrite (Hlow 7) by lia. cbn [negb]. exists 0. split; [reflexivity|]. split; [|lia].
    split; [lia|]. split; [intros; lia|]. intros _. apply Hlow. lia.
  - destruct (Z.testbit v 7) eqn:E; cbn [negb].
    + set (v' := Z.shiftl v 1 mod 256).
      assert (Hb : forall i, 0 <= i < 8 -> Z.testbit v' i = if i =? 0 then false else Z.testbit v (i - 1)).
      { intros i Hi. unfold v'. change 256 with (2 ^ 8). rewrite Z.mod_pow2_bits_low, Z.shiftl_spec by lia.
        destruct (Z.eqb_spec i 0) as [->|]; [apply Z.testbit_neg_r; lia|reflexivity]. }
      destruct (IH v') as (n & -> & (H1 & H2 & H3) & Hn).
      * unfold v'. apply Z.mod_pos_bound. lia.
      * lia.
      * intros i Hi. rewrite Hb by lia. destruct (Z.eqb_spec i 0); [reflexivity|]. apply Hlow. lia.
      * cbn [option_map]. exists (n + 1). split; [reflexivity|]. split; [|lia].
        split; [lia|]. split.
        -- intros i Hi. destruct (Z.eq_dec i 7) as [->|]; [exact E|].
           specialize (H2 (i + 1) ltac:(lia)). rewrite Hb in H2 by lia.
           destruct (Z.eqb_spec (i + 1) 0); [lia|]. replace (i + 1 - 1) with i in H2 by ring. exact H2.
        -- intros Hn8. specialize (H3 ltac:(lia)). rewrite Hb in H3 by lia.
           destruct (Z.eqb_spec (8 - 1 - n) 0); [lia|].
           replace (8 - 1 - (n + 1)) with (8 - 1 - n - 1) by ring. exact H3.
    + exists 0. split; [reflexivity|]. split; [|lia]. split; [lia|]. split; [intros; lia|].
      intros _. exact E.
Qed.

Lemma countl_one_spec k : forall v, word (lvl_bits k) v ->
  exists n, countl_one k v = Some n /\ high_run (lvl_bits k) v true n.
Proof.
  induction k as [|k IH]; intros v Hv; cbn [countl_one].
  - change (lvl_bits 0) with 8 in *. destruct (@clo_byte_spec 8 v Hv) as (n & -> & H & _); [lia|intros; lia|].
    eauto.
  - rewrite lvl_bits_S in *. pose proof (@lvl_bits_pos k) as Hp.
    destruct (half_split (h := lvl_bits k) ltac:(lia) Hv) as (H1 & H2 & H3 & H4 & H5).
    set (h := lvl_bits k) in *. cbv zeta.
    destruct (Z.eqb_spec (Z.shiftr v h mod 2 ^ h) (2 ^ h - 1)) as [E|E].
    + destruct (IH _ H2) as (n & -> & Hr). cbn [option_map]. eexists. split; [reflexivity|].
      eapply high_run_join; eauto; [lia|]. intros i Hi. rewrite E. apply ones_testbit. lia.
    + destruct (IH _ H1) as (n & -> & Hr). eexists. split; [reflexivity|].
      eapply high_run_top; eauto; [lia|].
      apply (high_run_lt (d := h) ltac:(lia) H1 Hr). exact E.
Qed.

(** ** Sequence hash *)
Lemma lxor_word d x y : 0 <= d -> word d x -> word d y -> word d (Z.lxor x y).
Proof.
  intros Hd Hx Hy. apply word_of_bits; auto.
  - apply Z.lxor_nonneg. split; intros; [apply Hy|apply Hx].
  - intros i Hi. rewrite Z.lxor_spec, (word_testbit_high Hd Hx), (word_testbit_high Hd Hy) by auto. reflexivity.
Qed.

Lemma xor_bits_app d j : forall a b s,
  xor_bits d j s (a ++ b) = xorb (xor_bits d j s a) (xor_bits d j (s + Z.of_nat (length a)) b).
Proof.
  induction a as [|x a IH]; intros b s.
  - cbn [app xor_bits length]. rewrite Z.add_0_r. destruct (xor_bits d j s b); reflexivity.
  - cbn [app xor_bits length]. rewrite IH, xorb_assoc_reverse.
    replace (s + 1 + Z.of_nat (length a)) with (s + Z.of_nat (S (length a))) by lia. reflexivity.
Qed.

Lemma xor_bits_shift d j s t : forall a, 0 < d ->
  xor_bits d j (s + t) a = xor_bits d ((j - t) mod d) s a.
Proof.
  intros a Hd. revert s. induction a as [|x a IH]; intros s; cbn [xor_bits]; [reflexivity|].
  replace (s + t + 1) with (s + 1 + t) by ring. rewrite IH. f_equal. f_equal.
  rewrite Zminus_mod_idemp_l. f_equal. ring.
Qed.

(** The loop xors in exactly the first [n] elements at offsets [s+1..s+n]. *)
Lemma wcb_loop_spec d hs : 0 < d -> Forall (word d) hs -> forall n s off acc,
  (n <= length hs)%nat -> off = (s + Z.of_nat n) mod d -> word d acc ->
  word d (wcb_loop d hs n off acc) /\
  forall j, 0 <= j < d ->
    Z.testbit (wcb_loop d hs n off acc) j = xorb (Z.testbit acc j) (xor_bits d j s (firstn n hs)).
Proof.
  intros Hd Hh. induction n as [|n IH]; intros s off acc Hn Hoff Hacc; cbn [wcb_loop].
  - split; [exact Hacc|]. intros j Hj. cbn [firstn xor_bits]. rewrite xorb_false_r. reflexivity.
  - assert (Hoffr : 0 <= off < d) by (rewrite Hoff; apply Z.mod_pos_bound; lia).
    assert (Hx : word d (nth n hs 0)).
    { rewrite Forall_forall in Hh. apply Hh. apply nth_In. lia. }
    assert (Hor : - d < off < d) by lia.
    pose proof (rotl_nomod_spec Hd Hor Hx) as [R1 R2].
    destruct (IH s (rot_dec d off) (Z.lxor acc (rotl_nomod d (nth n hs 0) off))) as [W1 W2].
    + lia.
    + rewrite rot_dec_spec by auto. rewrite Hoff, Zminus_mod_idemp_l. f_equal. lia.
    + apply lxor_word; auto; lia.
    + split; [exact W1|]. intros j Hj. rewrite W2 by auto. rewrite Z.lxor_spec, R2 by auto.
      assert (Ef : firstn (S n) hs = firstn n hs ++ [nth n hs 0]).
      { clear - Hn. revert n Hn. induction hs as [|x hs IHh]; intros [|n] Hn; cbn [length] in Hn; try lia; [reflexivity|].
        cbn [nth]. change (firstn (S (S n)) (x :: hs)) with (x :: firstn (S n) hs).
        change (firstn (S n) (x :: hs)) with (x :: firstn n hs). cbn [app]. f_equal. apply IHh. lia. }
      rewrite Ef, xor_bits_app, firstn_length_le by lia. cbn [xor_bits].
      replace ((j - off) mod d) with ((j - (s + Z.of_nat n + 1)) mod d).
      2:{ rewrite Hoff. rewrite Zminus_mod_idemp_r. f_equal. lia. }
      destruct (Z.testbit acc j), (Z.testbit (nth n hs 0) ((j - (s + Z.of_nat n + 1)) mod d)),
        (xor_bits d j s (firstn n hs)); reflexivity.
Qed.

Lemma mod_mod_divide a d m : 0 < d -> 0 < m -> (d | m) -> (a mod m) mod d = a mod d.
Proof.
  intros Hd Hm [q Hq]. pose proof (Z.div_mod a m ltac:(lia)) as E.
  rewrite E at 2. rewrite Hq at 2. replace (q * d * (a / m) + a mod m) with (a mod m + q * (a / m) * d) by ring.
  rewrite Z.mod_add by lia. reflexivity.
Qed.

Lemma wcb_spec d before bs hs : 0 < d -> (d | 2 ^ d) -> Forall (word d) hs -> word d before ->
  word d (with_calculated_before d before bs hs) /\
  forall j, 0 <= j < d ->
    Z.testbit (with_calculated_before d before bs hs) j = xorb (Z.testbit before j) (xor_bits d j bs hs).
Proof.
  intros Hd Hdiv Hh Hb. unfold with_calculated_before, rot_it.
  destruct (@wcb_loop_spec d hs Hd Hh (length hs) bs
    (((bs + Z.of_nat (length hs)) mod 2 ^ d) mod d) before) as [H1 H2]; auto.
  - apply mod_mod_divide; auto. apply Z.pow_pos_nonneg; lia.
  - split; [exact H1|]. intros j Hj. rewrite H2, firstn_all by auto. reflexivity.
Qed.

Lemma word_0 d : 0 <= d -> word d 0.
Proof. intros Hd. split; [lia|apply Z.pow_pos_nonneg; lia]. Qed.

Lemma hash_seq_spec d hs : 0 < d -> (d | 2 ^ d) -> Forall (word d) hs -> is_seq_hash d hs (hash_seq d hs).
Proof.
  intros Hd Hdiv Hh. unfold hash_seq.
  destruct (@wcb_spec d 0 0 hs Hd Hdiv Hh (word_0 (Z.lt_le_incl _ _ Hd))) as [H1 H2].
  split; [exact H1|]. intros j Hj. rewrite H2, Z.bits_0 by auto.
  destruct (xor_bits d j 0 hs); reflexivity.
Qed.

Lemma is_seq_hash_unique d hs x y : 0 < d -> is_seq_hash d hs x -> is_seq_hash d hs y -> x = y.
Proof.
  intros Hd [H1 H2] [H3 H4]. apply (word_ext (d := d)); auto; [lia|].
  intros i Hi. rewrite H2, H4 by auto. reflexivity.
Qed.

Lemma wcb_app d a b : 0 < d -> (d | 2 ^ d) -> Forall (word d) a -> Forall (word d) b ->
  is_seq_hash d (a ++ b) (with_calculated_before d (hash_seq d a) (Z.of_nat (length a)) b).
Proof.
  intros Hd Hdiv Ha Hb. destruct (hash_seq_spec Hd Hdiv Ha) as [W1 B1].
  destruct (@wcb_spec d (hash_seq d a) (Z.of_nat (length a)) b) as [W2 B2]; auto.
  split; [exact W2|]. intros j Hj. rewrite B2, B1, xor_bits_app by auto. reflexivity.
Qed.

Lemma merge_app d a b : 0 < d -> (d | 2 ^ d) -> Forall (word d) a -> Forall (word d) b ->
  is_seq_hash d (a ++ b) (merge_hash d (hash_seq d a) (Z.of_nat (length a)) (hash_seq d b)).
Proof.
  intros Hd Hdiv Ha Hb. destruct (hash_seq_spec Hd Hdiv Ha) as [W1 B1].
  destruct (hash_seq_spec Hd Hdiv Hb) as [W2 B2]. unfold merge_hash.
  destruct (rotl_spec (Z.of_nat (length a)) Hd W2) as [W3 B3].
  split; [apply lxor_word; auto; lia|]. intros j Hj.
  rewrite Z.lxor_spec, B1, B3, B2, xor_bits_app by (auto; apply Z.mod_pos_bound; lia).
  f_equal. rewrite <- xor_bits_shift by auto. reflexivity.
Qed.

(** ** Repetition *)
Lemma nth_repeat_lt (A : Type) (x y : A) : forall m n, (n < m)%nat -> nth n (repeat x m) y = x.
Proof.
  induction m as [|m IH]; intros [|n] H; cbn [repeat nth]; try lia; [reflexivity|]. apply IH. lia.
Qed.

Lemma rep_loop_wcb d v : forall n off acc, rep_loop d v n off acc = wcb_loop d (repeat v n) n off acc.
Proof.
  assert (G : forall m n off acc, (n <= m)%nat -> rep_loop d v n off acc = wcb_loop d (repeat v m) n off acc).
  { intros m. induction n as [|n IH]; intros off acc Hn; cbn [rep_loop wcb_loop]; [reflexivity|].
    rewrite nth_repeat_lt by lia. apply IH. lia. }
  intros. apply G. lia.
Qed.

(** Bits of a word, xored from position [s] downwards cyclically over [d]
    consecutive offsets, give the parity. *)
Fixpoint xor_upto (v : Z) (n : nat) : bool :=
  match n with O => false | S m => xorb (xor_upto v m) (Z.testbit v (Z.of_nat m)) end.

Lemma popcount_parity : forall f v, 0 <= v ->
  (popcount f v mod 2 =? 0) = negb (xor_upto v f).
Proof.
  assert (G : forall f v, 0 <= v -> Z.odd (popcount f v) = xor_upto v f).
  { intros f v Hv.
    assert (Hs : forall n u, 0 <= u -> xor_upto u (S n) = xorb (Z.odd u) (xor_upto (u / 2) n)).
    { induction n as [|n IH]; intros u Hu.
      - cbn [xor_upto]. change (Z.of_nat 0) with 0. rewrite Z.bit0_odd. destruct (Z.odd u); reflexivity.
      - cbn [xor_upto] in *. rewrite IH by auto.
        assert (E : Z.testbit (u / 2) (Z.of_nat n) = Z.testbit u (Z.of_nat (S n))).
        { change 2 with (2 ^ 1). rewrite <- Z.shiftr_div_pow2, Z.shiftr_spec by lia. f_equal. lia. }
        rewrite <- E, xorb_assoc_reverse. reflexivity. }
    revert v Hv. induction f as [|f IH]; intros v Hv; [reflexivity|].
    cbn [popcount]. rewrite Hs by auto. rewrite Z.odd_add, IH by (apply Z.div_pos; lia).
    destruct (Z.odd v); reflexivity. }
  intros f v Hv. rewrite <- (G f v Hv). rewrite Zmod_odd. destruct (Z.odd (popcount f v)); reflexivity.
Qed.

(** A full turn of offsets visits every bit once. *)
Lemma xor_bits_cycle_step d j v n : 0 < d -> forall s,
  xor_bits d (j + 1) s (repeat v n) = xor_bits d j (s - 1) (repeat v n).
Proof.
  intros Hd. induction n as [|n IH]; intros s; cbn [repeat xor_bits]; [reflexivity|].
  rewrite IH. replace (s - 1 + 1) with (s + 1 - 1) by ring. f_equal. f_equal. f_equal. ring.
Qed.

(** Offsets s+1 .. s+n select bits j-s-1 down to j-s-n. *)
Lemma xor_bits_full d v : 0 < d -> forall s j,
  xor_bits d j s (repeat v (Z.to_nat d)) = xor_upto v (Z.to_nat d).
Proof.
  intros Hd s j.
  (* invariance under s |-> s+1, so reduce to s = j mod d - ... *)
  assert (Hinv : forall s j, xor_bits d j s (repeat v (Z.to_nat d)) = xor_bits d j (s + 1) (repeat v (Z.to_nat d))).
  { intros s0 j0. remember (Z.to_nat d) as n.
    destruct n as [|n]; [lia|].
    assert (E : repeat v (S n) = repeat v n ++ [v]) by (replace (S n) with (n + 1)%nat by lia; rewrite repeat_app; reflexivity).
    rewrite E at 2. rewrite xor_bits_app, repeat_length. cbn [repeat xor_bits].
    rewrite xorb_false_r.
    replace ((j0 - (s0 + 1 + Z.of_nat n + 1)) mod d) with ((j0 - (s0 + 1)) mod d).
    2:{ replace (j0 - (s0 + 1 + Z.of_nat n + 1)) with (j0 - (s0 + 1) + (-1) * d) by lia.
        rewrite Z.mod_add by lia. reflexivity. }
    apply xorb_comm. }
  assert (Hinvn : forall k s j, xor_bits d j s (repeat v (Z.to_nat d)) = xor_bits d j (s + Z.of_nat k) (repeat v (Z.to_nat d))).
  { induction k as [|k IH]; intros s0 j0; [rewrite Z.add_0_r; reflexivity|].
    rewrite (IH s0 j0), Hinv. f_equal. lia. }
  assert (Hany : forall t, xor_bits d j s (repeat v (Z.to_nat d)) = xor_bits d j t (repeat v (Z.to_nat d))).
  { intros t. destruct (Z_le_gt_dec s t) as [H|H].
    - rewrite (Hinvn (Z.to_nat (t - s)) s j). f_equal. lia.
    - rewrite (Hinvn (Z.to_nat (s - t)) t j). f_equal. lia. }
  rewrite (Hany (j - d)).
  (* offsets j-d+1 .. j select bits d-1 down to 0 *)
  assert (G : forall n, (Z.of_nat n <= d) -> xor_bits d j (j - Z.of_nat n) (repeat v n) = xor_upto v n).
  { induction n as [|n IH]; intros Hn; [reflexivity|].
    cbn [repeat xor_bits xor_upto]. replace (j - Z.of_nat (S n) + 1) with (j - Z.of_nat n) by lia.
    rewrite IH by lia. rewrite xorb_comm. f_equal. f_equal.
    replace (j - (j - Z.of_nat n)) with (Z.of_nat n) by ring. apply Z.mod_small. lia. }
  rewrite <- (G (Z.to_nat d)) by lia. f_equal. lia.
Qed.

Lemma xor_bits_period d j v n s : 0 < d -> xor_bits d j (s + d) (repeat v n) = xor_bits d j s (repeat v n).
Proof.
  intros Hd. revert s. induction n as [|n IH]; intros s; cbn [repeat xor_bits]; [reflexivity|].
  replace (s + d + 1) with (s + 1 + d) by ring. rewrite IH. f_equal. f_equal.
  replace (j - (s + 1 + d)) with (j - (s + 1) + (-1) * d) by ring. rewrite Z.mod_add by lia. reflexivity.
Qed.

Lemma xor_bits_rep_split d j v n m s : xor_bits d j s (repeat v (n + m)) =
  xorb (xor_bits d j s (repeat v n)) (xor_bits d j (s + Z.of_nat n) (repeat v m)).
Proof. rewrite repeat_app, xor_bits_app, repeat_length. reflexivity. Qed.

(** Removing two full turns. *)
Lemma xor_bits_two_turns d j v k m : 0 < d -> 0 <= m ->
  xor_bits d j 0 (repeat v (k * (Z.to_nat d + Z.to_nat d) + Z.to_nat m)) = xor_bits d j 0 (repeat v (Z.to_nat m)).
Proof.
  intros Hd Hm. induction k as [|k IH]; [reflexivity|].
  replace (S k * (Z.to_nat d + Z.to_nat d) + Z.to_nat m)%nat
    with (Z.to_nat d + (Z.to_nat d + (k * (Z.to_nat d + Z.to_nat d) + Z.to_nat m)))%nat by lia.
  rewrite xor_bits_rep_split, (xor_bits_rep_split _ _ _ (Z.to_nat d)).
  rewrite !xor_bits_full by auto. rewrite <- xorb_assoc_reverse, xorb_nilpotent, xorb_false_l.
  rewrite !Z2Nat.id by lia. replace (0 + d + d) with ((0 + d) + d) by ring.
  rewrite !xor_bits_period by auto. exact IH.
Qed.

Lemma repeat_times_spec d v size : 0 < d -> (d | 2 ^ d) -> word d v -> 0 <= size ->
  is_seq_hash d (repeat v (Z.to_nat size)) (repeat_times d v size).
Proof.
  intros Hd Hdiv Hv Hs. unfold repeat_times. cbv zeta.
  set (m := size mod (d * 2)).
  assert (Hm : 0 <= m < d * 2) by (apply Z.mod_pos_bound; lia).
  assert (Hd0 : 0 <= d) by lia.
  assert (Hred : forall j, xor_bits d j 0 (repeat v (Z.to_nat size)) = xor_bits d j 0 (repeat v (Z.to_nat m))).
  { intros j. pose proof (Z.div_mod size (d * 2) ltac:(lia)) as Hdm. fold m in Hdm.
    pose proof (Z.div_pos size (d * 2) Hs ltac:(lia)).
    rewrite <- (@xor_bits_two_turns d j v (Z.to_nat (size / (d * 2))) m) by lia. f_equal. f_equal. nia. }
  destruct ((v =? 0) || (m =? 0)) eqn:E0.
  - split; [apply word_0; lia|]. intros j Hj. rewrite Z.bits_0, Hred.
    apply orb_true_iff in E0. destruct E0 as [E|E]; apply Z.eqb_eq in E.
    + subst v. assert (G : forall n s, xor_bits d j s (repeat 0 n) = false).
      { induction n as [|n IH]; intros s; cbn [repeat xor_bits]; [reflexivity|].
        rewrite Z.bits_0, IH. reflexivity. }
      rewrite G. reflexivity.
    + rewrite E. reflexivity.
  - destruct (Z.leb_spec d m) as [Hge|Hlt].
    + set (c := if popcount (Z.to_nat d) v mod 2 =? 0 then 0 else 2 ^ d - 1).
      assert (HP : 0 < 2 ^ d) by (apply Z.pow_pos_nonneg; lia).
      assert (Hc : word d c) by (unfold c; clear - HP; destruct (_ =? 0); unfold word; lia).
      assert (Hcb : forall j, 0 <= j < d -> Z.testbit c j = xor_upto v (Z.to_nat d)).
      { intros j Hj. unfold c. rewrite popcount_parity by apply Hv.
        destruct (xor_upto v (Z.to_nat d)); cbn [negb]; [apply ones_testbit; auto|apply Z.bits_0]. }
      assert (Hsplit : forall j, xor_bits d j 0 (repeat v (Z.to_nat m)) =
                 xorb (xor_upto v (Z.to_nat d)) (xor_bits d j 0 (repeat v (Z.to_nat (m - d))))).
      { intros j. replace (Z.to_nat m) with (Z.to_nat d + Z.to_nat (m - d))%nat by lia.
        rewrite xor_bits_rep_split, xor_bits_full by auto. rewrite Z2Nat.id, xor_bits_period by lia. reflexivity. }
      destruct (Z.eqb_spec (m - d) 0) as [E|E].
      * split; [exact Hc|]. intros j Hj. rewrite Hred, Hsplit, Hcb, E by auto.
        cbn. rewrite xorb_false_r. reflexivity.
      * rewrite rep_loop_wcb.
        destruct (@wcb_loop_spec d (repeat v (Z.to_nat (m - d))) Hd) with (n := Z.to_nat (m - d))
          (s := 0) (off := rot_it d (m - d)) (acc := c) as [W1 W2].
        -- apply Forall_forall. intros x Hx. apply repeat_spec in Hx. subst. exact Hv.
        -- rewrite repeat_length. lia.
        -- unfold rot_it. rewrite Z2Nat.id, Z.add_0_l by lia. reflexivity.
        -- exact Hc.
        -- split; [exact W1|]. intros j Hj. rewrite W2, Hred, Hsplit, Hcb by auto.
           rewrite firstn_all2 by (rewrite repeat_length; lia). reflexivity.
    + destruct (Z.eqb_spec m 0) as [E|E].
      * rewrite orb_true_r in E0. discriminate.
      * rewrite rep_loop_wcb.
        destruct (@wcb_loop_spec d (repeat v (Z.to_nat m)) Hd) with (n := Z.to_nat m)
          (s := 0) (off := rot_it d m) (acc := 0) as [W1 W2].
        -- apply Forall_forall. intros x Hx. apply repeat_spec in Hx. subst. exact Hv.
        -- rewrite repeat_length. lia.
        -- unfold rot_it. rewrite Z2Nat.id, Z.add_0_l by lia. reflexivity.
        -- apply word_0; lia.
        -- split; [exact W1|]. intros j Hj. rewrite W2, Hred, Z.bits_0 by auto.
           rewrite firstn_all2 by (rewrite repeat_length; lia). rewrite xorb_false_l. reflexivity.
Qed.

Lemma repeat_times_hash d v size : 0 < d -> (d | 2 ^ d) -> word d v -> 0 <= size ->
  repeat_times d v size = hash_seq d (repeat v (Z.to_nat size)).
Proof.
  intros Hd Hdiv Hv Hs. apply (is_seq_hash_unique (d := d) (hs := repeat v (Z.to_nat size))); auto.
  - apply repeat_times_spec; auto.
  - apply hash_seq_spec; auto. apply Forall_forall. intros x Hx. apply repeat_spec in Hx. subst. exact Hv.
Qed.

Lemma rot_it_step d n : 0 < d ->
  rot_inc d (rot_it d n) = rot_it d (n + 1) /\ rot_dec d (rot_it d n) = rot_it d (n - 1).
Proof.
  intros Hd. unfold rot_it. pose proof (Z.mod_pos_bound n d Hd).
  rewrite rot_inc_spec, rot_dec_spec by auto. rewrite Zplus_mod_idemp_l, Zminus_mod_idemp_l. auto.
Qed.

Lemma hash_compositional d a b : 0 < d -> (d | 2 ^ d) -> Forall (word d) a -> Forall (word d) b ->
  merge_hash d (hash_seq d a) (Z.of_nat (length a)) (hash_seq d b) = hash_seq d (a ++ b) /\
  with_calculated_before d (hash_seq d a) (Z.of_nat (length a)) b = hash_seq d (a ++ b).
Proof.
  intros Hd Hdiv Ha Hb.
  assert (H : is_seq_hash d (a ++ b) (hash_seq d (a ++ b))).
  { apply hash_seq_spec; auto. apply Forall_app. auto. }
  split; (eapply is_seq_hash_unique; [exact Hd| |exact H]); [apply merge_app|apply wcb_app]; auto.
Qed.

Lemma repeat_times_nat d v n : 0 < d -> (d | 2 ^ d) -> word d v ->
  repeat_times d v (Z.of_nat n) = hash_seq d (repeat v n).
Proof. intros Hd Hdiv Hv. rewrite repeat_times_hash, Nat2Z.id by (auto; lia). reflexivity. Qed.

Lemma all_bit_is_one_spec d v : 0 <= d -> word d v ->
  (all_bit_is_one d v = true <-> forall i, 0 <= i < d -> Z.testbit v i = true).
Proof.
  intros Hd Hv. unfold all_bit_is_one. rewrite Z.eqb_eq. split.
  - intros -> i Hi. apply ones_testbit; auto.
  - intros H. apply all_true_ones; auto.
Qed.

Lemma all_bit_is_zero_inverted d v : 0 <= d -> word d v ->
  (all_bit_is_zero v = false <-> forall i, 0 <= i < d -> Z.testbit v i = false).
Proof.
  intros Hd Hv. unfold all_bit_is_zero. rewrite negb_false_iff, Z.eqb_eq. split.
  - intros -> i Hi. apply Z.bits_0.
  - intros H. apply all_false_zero with (d := d); auto.
Qed.
