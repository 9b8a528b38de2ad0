(** Bit sets: specification vocabulary and proofs.  A set of bytes denotes the number
    [val 256 s]; bit [i] of the set is bit [i] of that number. *)
From Verif Require Import Base UBig_Spec Bitset_Model.
Local Open Scope Z_scope.
Local Open Scope omonad_scope.

Definition bytes (s : list Z) : Prop := Forall (fun x => 0 <= x < 256) s.
(** Number of bit positions. *)
Definition nbits (s : list Z) : Z := 8 * Z.of_nat (length s).
(** Bit [i] of the set. *)
Definition bit (s : list Z) (i : Z) : bool := Z.testbit (val 256 s) i.

Lemma byte_bound x : 0 <= x < 256 -> 0 <= x < 2 ^ 8.
Proof. change (2 ^ 8) with 256. auto. Qed.
Lemma byte_high x i : 0 <= x < 256 -> 8 <= i -> Z.testbit x i = false.
Proof.
  intros Hx Hi. destruct (Z.eq_dec x 0) as [->|]; [apply Z.bits_0|].
  apply Z.bits_above_log2; [lia|]. apply Z.lt_le_trans with 8; auto. apply Z.log2_lt_pow2; [lia|].
  apply byte_bound; auto.
Qed.
Lemma testbit_byte x n i : 0 <= x < 256 -> 0 <= i ->
  Z.testbit (x + 256 * n) i = if i <? 8 then Z.testbit x i else Z.testbit n (i - 8).
Proof.
  intros Hx Hi.
  assert (E : x + 256 * n = Z.lxor x (Z.shiftl n 8)).
  { rewrite <- Z.add_nocarry_lxor.
    2:{ apply Z.bits_inj'. intros j Hj. rewrite Z.land_spec, Z.bits_0.
      destruct (Z_lt_ge_dec j 8).
      + rewrite Z.shiftl_spec_low by lia. apply andb_false_r.
      + rewrite byte_high by lia. reflexivity. }
    rewrite Z.shiftl_mul_pow2 by lia. change (2 ^ 8) with 256. lia. }
  rewrite E, Z.lxor_spec. destruct (Z.ltb_spec i 8).
  - rewrite Z.shiftl_spec_low by lia. apply xorb_false_r.
  - rewrite byte_high by lia. rewrite Z.shiftl_spec by lia. apply xorb_false_l.
Qed.
Lemma val_nonneg s : bytes s -> 0 <= val 256 s.
Proof. induction 1; cbn [val]; lia. Qed.
Lemma bit_cons x s i : bytes (x :: s) -> 0 <= i ->
  bit (x :: s) i = if i <? 8 then Z.testbit x i else bit s (i - 8).
Proof. intros H Hi. unfold bit. cbn [val]. apply testbit_byte; auto. now inversion H. Qed.
Lemma bit_nth s : bytes s -> forall i b, 0 <= i -> nth_error s (Z.to_nat (i / 8)) = Some b ->
  bit s i = Z.testbit b (i mod 8).
Proof.
  induction s as [|x s IH]; intros Hs i b Hi E.
  { destruct (Z.to_nat (i / 8)); discriminate. }
  rewrite bit_cons by auto. pose proof (Z.div_mod i 8 ltac:(lia)). pose proof (Z.mod_pos_bound i 8 ltac:(lia)).
  destruct (Z.ltb_spec i 8).
  - rewrite Z.div_small in E by lia. injection E as <-. rewrite Z.mod_small by lia. reflexivity.
  - assert (0 < i / 8) by (apply Z.div_str_pos; lia).
    replace (Z.to_nat (i / 8)) with (S (Z.to_nat ((i - 8) / 8))) in E.
    + cbn [nth_error] in E. apply IH in E; [|now inversion Hs|lia].
      rewrite E. f_equal. replace i with (i - 8 + 1 * 8) at 2 by lia. rewrite Z_mod_plus_full. reflexivity.
    + replace i with (i - 8 + 1 * 8) at 2 by lia. rewrite Z.div_add by lia.
      assert (0 <= (i - 8) / 8) by (apply Z.div_pos; lia). lia.
Qed.
Lemma index_ok s i : 0 <= i < nbits s -> (Z.to_nat (i / 8) < length s)%nat.
Proof.
  unfold nbits. intros H. assert (i / 8 < Z.of_nat (length s)) by (apply Z.div_lt_upper_bound; lia).
  assert (0 <= i / 8) by (apply Z.div_pos; lia). lia.
Qed.
Lemma land_pow2 b k : 0 <= k -> negb (Z.land b (2 ^ k) =? 0) = Z.testbit b k.
Proof.
  intros Hk. destruct (Z.testbit b k) eqn:E.
  - destruct (Z.eqb_spec (Z.land b (2 ^ k)) 0) as [Z0|]; auto.
    assert (Z.testbit (Z.land b (2 ^ k)) k = true) by (rewrite Z.land_spec, E, Z.pow2_bits_true by lia; reflexivity).
    rewrite Z0, Z.bits_0 in H. discriminate.
  - assert (Z.land b (2 ^ k) = 0) as ->; [|reflexivity].
    apply Z.bits_inj'. intros j Hj. rewrite Z.land_spec, Z.bits_0, Z.pow2_bits_eqb by lia.
    destruct (Z.eqb_spec k j) as [<-|]; [rewrite E|]; [reflexivity|apply andb_false_r].
Qed.
Lemma bs_get_spec s i : bytes s -> 0 <= i < nbits s -> bs_get s i = Some (bit s i).
Proof.
  intros Hs Hi. unfold bs_get. destruct (Z.ltb_spec i 0); [lia|].
  pose proof (index_ok Hi). destruct (nth_error s (Z.to_nat (i / 8))) as [b|] eqn:E.
  - cbn [obind]. rewrite land_pow2 by (apply Z.mod_pos_bound; lia).
    rewrite (bit_nth Hs (proj1 Hi) E). reflexivity.
  - apply nth_error_None in E. lia.
Qed.
Lemma set_nth_some {A} (l : list A) n v : (n < length l)%nat -> exists l', set_nth n v l = Some l' /\
  length l' = length l /\ forall m, nth_error l' m = if Nat.eqb m n then Some v else nth_error l m.
Proof.
  revert n. induction l as [|x l IH]; intros n H; cbn [length] in H; [lia|]. destruct n as [|n]; cbn [set_nth].
  - eexists. split; [reflexivity|]. split; [reflexivity|]. intros [|m]; reflexivity.
  - destruct (IH n ltac:(lia)) as (l' & -> & L & N). eexists. split; [reflexivity|]. cbn [length].
    split; [lia|]. intros [|m]; [reflexivity|]. cbn [nth_error Nat.eqb]. apply N.
Qed.
Lemma bytes_nth s n b : bytes s -> nth_error s n = Some b -> 0 <= b < 256.
Proof. intros H E. apply nth_error_In in E. unfold bytes in H. rewrite Forall_forall in H. auto. Qed.
Lemma bytes_of_nth s : (forall n b, nth_error s n = Some b -> 0 <= b < 256) -> bytes s.
Proof.
  intros H. apply Forall_forall. intros x Hx. apply In_nth_error in Hx. destruct Hx as [n Hn]. eauto.
Qed.
(** What an update of one byte does to the bits. *)
Lemma bs_upd_spec s i f : bytes s -> 0 <= i < nbits s ->
  (forall b m, 0 <= b < 256 -> 0 <= m < 8 -> 0 <= f b (2 ^ m) < 256) ->
  exists s', bs_upd s i f = Some s' /\ bytes s' /\ length s' = length s /\
    exists b, 0 <= b < 256 /\ nth_error s (Z.to_nat (i / 8)) = Some b /\
    forall j, 0 <= j < nbits s -> bit s' j =
      if j / 8 =? i / 8 then Z.testbit (f b (2 ^ (i mod 8))) (j mod 8) else bit s j.
Proof.
  intros Hs Hi Hf. unfold bs_upd. destruct (Z.ltb_spec i 0); [lia|].
  pose proof (index_ok Hi) as HL. destruct (nth_error s (Z.to_nat (i / 8))) as [b|] eqn:E.
  2:{ apply nth_error_None in E. lia. }
  cbn [obind]. destruct (@set_nth_some _ s _ (f b (2 ^ (i mod 8))) HL) as (s' & -> & L & N).
  assert (Hb : 0 <= b < 256) by (eapply bytes_nth; eauto).
  assert (Hs' : bytes s').
  { apply bytes_of_nth. intros n x. rewrite N. destruct (Nat.eqb_spec n (Z.to_nat (i / 8))).
    - intros [= <-]. apply Hf; auto. apply Z.mod_pos_bound. lia.
    - intros. eapply bytes_nth; eauto. }
  exists s'. split; [reflexivity|]. split; auto. split; auto. exists b. split; auto.
  split; [reflexivity|]. intros j Hj.
  pose proof (index_ok Hj) as HLj.
  assert (0 <= j / 8) by (apply Z.div_pos; lia). assert (0 <= i / 8) by (apply Z.div_pos; lia).
  destruct (nth_error s' (Z.to_nat (j / 8))) as [y|] eqn:Ey.
  2:{ apply nth_error_None in Ey. lia. }
  rewrite (bit_nth Hs' (proj1 Hj) Ey). rewrite N in Ey. destruct (Z.eqb_spec (j / 8) (i / 8)) as [Ej|Ej].
  - rewrite Ej, Nat.eqb_refl in Ey. injection Ey as <-. reflexivity.
  - destruct (Nat.eqb_spec (Z.to_nat (j / 8)) (Z.to_nat (i / 8))); [lia|].
    rewrite (bit_nth Hs (proj1 Hj) Ey). reflexivity.
Qed.
Lemma small_byte x : 0 <= x -> (forall j, 8 <= j -> Z.testbit x j = false) -> 0 <= x < 256.
Proof.
  intros Hx H. split; auto. destruct (Z_lt_ge_dec x 256); auto. exfalso.
  assert (T : Z.testbit x (Z.log2 x) = true) by (apply Z.bit_log2; lia).
  rewrite H in T; [discriminate|]. change 8 with (Z.log2 256). apply Z.log2_le_mono. lia.
Qed.
Lemma compl_byte_bit b j : 0 <= b < 256 -> 0 <= j < 8 -> Z.testbit (255 - b) j = negb (Z.testbit b j).
Proof.
  intros Hb Hj. replace (255 - b) with (Z.lnot b + 1 * 2 ^ 8) by (unfold Z.lnot; lia).
  rewrite <- (Z.mod_pow2_bits_low (Z.lnot b + 1 * 2 ^ 8) 8) by lia.
  rewrite Z_mod_plus_full, Z.mod_pow2_bits_low by lia. apply Z.lnot_spec. lia.
Qed.
Lemma pow_byte m : 0 <= m < 8 -> 0 <= 2 ^ m < 256.
Proof.
  intros. split; [apply Z.pow_nonneg; lia|]. change 256 with (2 ^ 8). apply Z.pow_lt_mono_r; lia.
Qed.
Lemma byte_or_ok b m : 0 <= b < 256 -> 0 <= m < 8 -> 0 <= byte_or b (2 ^ m) < 256.
Proof.
  intros Hb Hm. pose proof (pow_byte Hm). unfold byte_or. apply small_byte; [apply Z.lor_nonneg; lia|].
  intros j Hj. rewrite Z.lor_spec, !byte_high by lia. reflexivity.
Qed.
Lemma byte_xor_ok b m : 0 <= b < 256 -> 0 <= m < 8 -> 0 <= byte_xor b (2 ^ m) < 256.
Proof.
  intros Hb Hm. pose proof (pow_byte Hm). unfold byte_xor. apply small_byte; [apply Z.lxor_nonneg; lia|].
  intros j Hj. rewrite Z.lxor_spec, !byte_high by lia. reflexivity.
Qed.
Lemma byte_clear_ok b m : 0 <= b < 256 -> 0 <= m < 8 -> 0 <= byte_clear b (2 ^ m) < 256.
Proof.
  intros Hb Hm. pose proof (pow_byte Hm). unfold byte_clear. apply small_byte; [apply Z.land_nonneg; lia|].
  intros j Hj. rewrite Z.land_spec, byte_high by lia. reflexivity.
Qed.
(** [s'] is [s] with bit [i] replaced by [b]. *)
Definition updated (s : list Z) (i : Z) (b : bool) (r : option (list Z)) : Prop :=
  exists s', r = Some s' /\ bytes s' /\ length s' = length s /\
    forall j, 0 <= j < nbits s -> bit s' j = if j =? i then b else bit s j.
Lemma upd_bit s i f g : bytes s -> 0 <= i < nbits s ->
  (forall b m, 0 <= b < 256 -> 0 <= m < 8 -> 0 <= f b (2 ^ m) < 256) ->
  (forall b m j, 0 <= b < 256 -> 0 <= m < 8 -> 0 <= j < 8 ->
     Z.testbit (f b (2 ^ m)) j = if j =? m then g (Z.testbit b j) else Z.testbit b j) ->
  updated s i (g (bit s i)) (bs_upd s i f).
Proof.
  intros Hs Hi Hf Hg. destruct (bs_upd_spec Hs Hi Hf) as (s' & E & Hs' & L & b & Hb & Eb & H).
  exists s'. split; auto. split; auto. split; auto. intros j Hj. rewrite H by auto.
  pose proof (Z.div_mod j 8 ltac:(lia)). pose proof (Z.mod_pos_bound j 8 ltac:(lia)).
  pose proof (Z.div_mod i 8 ltac:(lia)). pose proof (Z.mod_pos_bound i 8 ltac:(lia)).
  destruct (Z.eqb_spec (j / 8) (i / 8)) as [Ed|Ed].
  - assert (Bj : bit s j = Z.testbit b (j mod 8)) by (apply bit_nth; auto; [lia|rewrite Ed; exact Eb]).
    assert (Bi : bit s i = Z.testbit b (i mod 8)) by (apply bit_nth; auto; lia).
    rewrite Hg by auto. destruct (Z.eqb_spec j i) as [->|].
    + rewrite Z.eqb_refl, Bi. reflexivity.
    + destruct (Z.eqb_spec (j mod 8) (i mod 8)); [exfalso; lia|]. auto.
  - destruct (Z.eqb_spec j i) as [->|]; [contradiction|]. reflexivity.
Qed.
Lemma bs_set_spec s i b : bytes s -> 0 <= i < nbits s -> updated s i b (bs_set s i b).
Proof.
  intros Hs Hi. unfold bs_set. destruct b.
  - apply (@upd_bit s i byte_or (fun _ => true)); auto using byte_or_ok.
    intros b m j Hb Hm Hj. unfold byte_or. rewrite Z.lor_spec, Z.pow2_bits_eqb by lia.
    rewrite (Z.eqb_sym m j). destruct (j =? m); [apply orb_true_r|apply orb_false_r].
  - apply (@upd_bit s i byte_clear (fun _ => false)); auto using byte_clear_ok.
    intros b m j Hb Hm Hj. unfold byte_clear. rewrite Z.land_spec, compl_byte_bit, Z.pow2_bits_eqb by (auto using pow_byte; lia).
    rewrite (Z.eqb_sym m j). destruct (j =? m); [apply andb_false_r|apply andb_true_r].
Qed.
Lemma updated_self s i : bytes s -> 0 <= i < nbits s -> updated s i (bit s i) (Some s).
Proof.
  intros. exists s. repeat split; auto. intros j Hj. destruct (Z.eqb_spec j i) as [->|]; reflexivity.
Qed.
Lemma bs_bit_ops_spec s i b : bytes s -> 0 <= i < nbits s ->
  updated s i (bit s i && b) (bs_and_bit s i b) /\ updated s i (bit s i || b) (bs_or_bit s i b) /\
  updated s i (xorb (bit s i) b) (bs_xor_bit s i b).
Proof.
  intros Hs Hi. pose proof (bs_set_spec b Hs Hi) as HS. unfold bs_set in HS.
  destruct b; cbn [bs_and_bit bs_or_bit bs_xor_bit].
  - rewrite andb_true_r, orb_true_r, xorb_true_r. split; [now apply updated_self|]. split; [exact HS|].
    apply (@upd_bit s i byte_xor negb); auto using byte_xor_ok.
    intros b m j Hb Hm Hj. unfold byte_xor. rewrite Z.lxor_spec, Z.pow2_bits_eqb by lia.
    rewrite (Z.eqb_sym m j). destruct (j =? m); [apply xorb_true_r|apply xorb_false_r].
  - rewrite andb_false_r, orb_false_r, xorb_false_r. split; [exact HS|].
    split; now apply updated_self.
Qed.

(** *** Bulk operations *)
Lemma map2_spec f g s : forall t, bytes s -> bytes t -> length s = length t ->
  (forall x y, 0 <= x < 256 -> 0 <= y < 256 -> 0 <= f x y < 256) ->
  (forall x y i, 0 <= i < 8 -> Z.testbit (f x y) i = g (Z.testbit x i) (Z.testbit y i)) ->
  bytes (bs_map2 f s t) /\ length (bs_map2 f s t) = length s /\
  forall i, 0 <= i < nbits s -> bit (bs_map2 f s t) i = g (bit s i) (bit t i).
Proof.
  induction s as [|x s IH]; intros [|y t] Hs Ht L Hf Hg; try discriminate; cbn [bs_map2].
  { split; [constructor|]. split; [reflexivity|]. intros i Hi. unfold nbits in Hi. cbn in Hi. lia. }
  inversion Hs; inversion Ht; subst. injection L as L.
  destruct (IH t) as (G1 & G2 & G3); auto.
  assert (B0 : bytes (f x y :: bs_map2 f s t)) by (constructor; auto).
  split; [exact B0|]. cbn [length]. split; [lia|]. intros i Hi.
  rewrite !bit_cons by (auto; lia). destruct (Z.ltb_spec i 8); [apply Hg; lia|].
  apply G3. unfold nbits in *. cbn [length] in Hi. lia.
Qed.
Lemma byte_land x y : 0 <= x < 256 -> 0 <= y < 256 -> 0 <= Z.land x y < 256.
Proof.
  intros. apply small_byte; [apply Z.land_nonneg; lia|]. intros. rewrite Z.land_spec, !byte_high by lia. reflexivity.
Qed.
Lemma byte_lor x y : 0 <= x < 256 -> 0 <= y < 256 -> 0 <= Z.lor x y < 256.
Proof.
  intros. apply small_byte; [apply Z.lor_nonneg; lia|]. intros. rewrite Z.lor_spec, !byte_high by lia. reflexivity.
Qed.
Lemma byte_lxor x y : 0 <= x < 256 -> 0 <= y < 256 -> 0 <= Z.lxor x y < 256.
Proof.
  intros. apply small_byte; [apply Z.lxor_nonneg; lia|]. intros. rewrite Z.lxor_spec, !byte_high by lia. reflexivity.
Qed.
(** [r] is a set of the size of [s] whose bits are given by [f]. *)
Definition bitwise (s r : list Z) (f : Z -> bool) : Prop :=
  bytes r /\ length r = length s /\ forall i, 0 <= i < nbits s -> bit r i = f i.
Lemma bs_bulk_spec s t : bytes s -> bytes t -> length s = length t ->
  bitwise s (bs_and s t) (fun i => bit s i && bit t i) /\
  bitwise s (bs_or s t) (fun i => bit s i || bit t i) /\
  bitwise s (bs_xor s t) (fun i => xorb (bit s i) (bit t i)) /\
  bitwise s (bs_not s) (fun i => negb (bit s i)).
Proof.
  intros Hs Ht L. split; [|split; [|split]].
  - apply (@map2_spec Z.land andb); auto using byte_land. intros. apply Z.land_spec.
  - apply (@map2_spec Z.lor orb); auto using byte_lor. intros. apply Z.lor_spec.
  - apply (@map2_spec Z.lxor xorb); auto using byte_lxor. intros. apply Z.lxor_spec.
  - clear t Ht L. induction s as [|x s IH]; cbn [bs_not map].
    + split; [constructor|]. split; [reflexivity|]. intros i Hi. unfold nbits in Hi. cbn in Hi. lia.
    + inversion Hs; subst. destruct (IH H2) as (B0 & L0 & E0).
      assert (B1 : bytes (255 - x :: bs_not s)) by (constructor; [lia|auto]).
      split; [exact B1|]. cbn [length]. split; [f_equal; exact L0|]. intros i Hi.
      change (map (fun b => 255 - b) s) with (bs_not s).
      rewrite !bit_cons by (auto; lia). destruct (Z.ltb_spec i 8); [apply compl_byte_bit; lia|].
      apply E0. unfold nbits in *. cbn [length] in Hi. lia.
Qed.

(** *** Conversions *)
Lemma pow256_S k : 256 ^ Z.of_nat (S k) = 256 * 256 ^ Z.of_nat k.
Proof. rewrite Nat2Z.inj_succ, Z.pow_succ_r by lia. reflexivity. Qed.
Lemma bs_assign_spec k : forall n, 0 <= n -> bytes (bs_assign k n) /\ length (bs_assign k n) = k /\
  val 256 (bs_assign k n) = n mod 256 ^ Z.of_nat k.
Proof.
  induction k as [|k IH]; intros n Hn; cbn [bs_assign val length].
  - split; [constructor|]. split; auto. rewrite Z.mod_1_r. reflexivity.
  - assert (0 <= n / 256) by (apply Z.div_pos; lia). destruct (IH (n / 256)) as (B0 & L & V); auto.
    split; [constructor; [apply Z.mod_pos_bound; lia|exact B0]|]. split; [lia|].
    rewrite V, pow256_S. rewrite Z.rem_mul_r; [ring|lia|apply Z.pow_pos_nonneg; lia].
Qed.
Lemma bs_to_spec t s : 0 <= t -> bs_to t s = val 256 s mod 2 ^ t.
Proof.
  intros Ht. assert (P : 0 < 2 ^ t) by (apply Z.pow_pos_nonneg; lia). unfold bs_to.
  induction s as [|x s IH]; cbn [rev val fold_left].
  - rewrite Z.mod_0_l; lia.
  - rewrite fold_left_app. cbn [fold_left]. rewrite IH.
    rewrite Z.mul_mod_idemp_l, Z.add_mod_idemp_l by lia. f_equal. ring.
Qed.
Lemma val_lt s : bytes s -> val 256 s < 256 ^ Z.of_nat (length s).
Proof.
  induction 1; cbn [val length]; [reflexivity|]. rewrite pow256_S. lia.
Qed.
Lemma bs_round_trip t n s : 0 <= t ->
  (0 <= n < 2 ^ t -> n < 256 ^ Z.of_nat (length s) -> bs_to t (bs_assign (length s) n) = n) /\
  (bytes s -> 256 ^ Z.of_nat (length s) <= 2 ^ t -> bs_assign (length s) (bs_to t s) = s).
Proof.
  intros Ht. split.
  - intros Hn Hk. destruct (@bs_assign_spec (length s) n) as (_ & _ & V); [lia|].
    rewrite bs_to_spec, V by lia. rewrite (Z.mod_small n (256 ^ _)) by lia. apply Z.mod_small. lia.
  - intros Hs Hk. pose proof (val_lt Hs). pose proof (val_nonneg Hs).
    rewrite bs_to_spec by lia. rewrite Z.mod_small by lia. clear H H0 Hk. induction Hs as [|x s Hx Hs IH]; [reflexivity|].
    cbn [length bs_assign val].
    rewrite (Z.mul_comm 256 (val 256 s)), Z_mod_plus_full, Z.mod_small by lia. f_equal.
    rewrite Z.div_add by lia. rewrite Z.div_small by lia. rewrite Z.add_0_l. exact IH.
Qed.

(** *** Equality *)
Lemma val_inj s : forall t, bytes s -> bytes t -> length s = length t -> val 256 s = val 256 t -> s = t.
Proof.
  induction s as [|x s IH]; intros [|y t] Hs Ht L E; try discriminate; auto.
  inversion Hs; inversion Ht; subst. cbn [val] in E.
  assert (x = y /\ val 256 s = val 256 t) as [-> Ev] by lia.
  f_equal. apply IH; auto.
Qed.
Lemma bits_eq s t : bytes s -> bytes t -> length s = length t ->
  (s = t <-> forall i, 0 <= i < nbits s -> bit s i = bit t i).
Proof.
  intros Hs Ht L. split; [intros ->; auto|]. intros H. apply val_inj; auto.
  assert (Hi : forall u, bytes u -> forall i, nbits u <= i -> Z.testbit (val 256 u) i = false).
  { clear. intros u Hu i Hi. pose proof (val_nonneg Hu). pose proof (val_lt Hu).
    destruct (Z.eq_dec (val 256 u) 0) as [->|]; [apply Z.bits_0|].
    apply Z.bits_above_log2; auto. apply Z.lt_le_trans with (nbits u); auto. apply Z.log2_lt_pow2; [lia|].
    unfold nbits. rewrite Z.pow_mul_r by lia. exact H0. }
  apply Z.bits_inj'. intros i H0. destruct (Z_lt_ge_dec i (nbits s)).
  - apply H. lia.
  - rewrite !Hi; auto; [unfold nbits in *; rewrite <- L; lia|lia].
Qed.
Lemma bs_eq_spec n s : forall t, n mod 8 = 0 -> s <> [] -> length s = length t ->
  exists r, bs_eq n s t = Some r /\ (r = true <-> s = t).
Proof.
  induction s as [|x s IH]; intros [|y t] Hn Hne L; try congruence; [discriminate|].
  cbn [bs_eq]. destruct s as [|x' s].
  - destruct t; [|discriminate]. rewrite Hn, !Z.shiftr_0_r. eexists. split; [reflexivity|].
    rewrite Z.eqb_eq. split; congruence.
  - destruct t as [|y' t]; [discriminate|]. destruct (Z.eqb_spec x y) as [->|].
    + destruct (IH (y' :: t)) as (r & E & Hr); [auto|congruence|cbn in *; lia|].
      exists r. split; auto. rewrite Hr. split; congruence.
    + exists false. split; auto. split; [discriminate|congruence].
Qed.

(** *** Shifts of one-byte sets *)
Lemma shift_one b n : 0 <= b < 256 -> 0 <= n < 16 ->
  bs_shl [b] n = Some [(b * 2 ^ n) mod 256] /\ bs_shr [b] n = Some [b / 2 ^ n].
Proof.
  intros Hb Hn. destruct (Z_lt_ge_dec n 8).
  - unfold bs_shl, bs_shr. rewrite Z.div_small, Z.mod_small by lia. cbn [length Z.of_nat Pos.of_succ_nat Z.ltb Z.compare].
    change (Z.to_nat 0) with O. change (Z.to_nat (1 - 0)) with 1%nat. cbn [firstn skipn rev app shl_loop shr_loop repeat].
    rewrite !Z.lor_0_r, Z.shiftl_mul_pow2, Z.shiftr_div_pow2 by lia. auto.
  - assert (n / 8 = 1). { symmetry. apply Z.div_unique with (n - 8); lia. }
    unfold bs_shl, bs_shr. rewrite H. change (Z.of_nat (length [b])) with 1. cbn [Z.ltb Z.compare Pos.compare Pos.compare_cont].
    change (Z.to_nat 1) with 1%nat. change (Z.to_nat (1 - 1)) with 0%nat.
    cbn [firstn skipn rev app shl_loop shr_loop repeat].
    split; do 2 f_equal; symmetry.
    + replace n with (n - 8 + 8) by lia. rewrite Z.pow_add_r by lia. change (2 ^ 8) with 256.
      rewrite Z.mul_assoc. apply Z_mod_mult.
    + apply Z.div_small. split; [lia|]. apply Z.lt_le_trans with (2 ^ 8); [lia|]. apply Z.pow_le_mono_r; lia.
Qed.
Lemma bs_walk_none f s i : 0 <= i -> bs_walk f s i = None.
Proof.
  revert i. induction f as [|f IH]; intros i Hi; [reflexivity|]. cbn [bs_walk].
  destruct (Z.eqb_spec i (-1)); [lia|]. destruct (bs_get s i); [|reflexivity]. cbn [obind].
  rewrite IH by lia. reflexivity.
Qed.

(** *** Shifts of any set: what they do *)
Lemma lor_disjoint x y n : 0 <= n -> 0 <= y < 2 ^ n -> Z.lor (x * 2 ^ n) y = x * 2 ^ n + y.
Proof.
  intros Hn Hy. assert (D : Z.land (x * 2 ^ n) y = 0).
  { apply Z.bits_inj'. intros i Hi. rewrite Z.land_spec, Z.bits_0.
    destruct (Z_lt_ge_dec i n).
    - now rewrite Z.mul_pow2_bits_low by lia.
    - destruct (Z.eq_dec y 0) as [->|]; [now rewrite Z.bits_0, andb_false_r|].
      rewrite Z.bits_above_log2 with (a := y); [now rewrite andb_false_r|lia|].
      apply Z.lt_le_trans with n; [|lia]. apply Z.log2_lt_pow2; lia. }
  rewrite Z.add_nocarry_lxor by exact D. symmetry. now apply Z.lxor_lor.
Qed.
Lemma mod_mul_pow2 b n : 0 <= n <= 8 -> (b * 2 ^ n) mod 256 = (b mod 2 ^ (8 - n)) * 2 ^ n.
Proof.
  intros Hn. change 256 with (2 ^ 8). replace (2 ^ 8) with (2 ^ (8 - n) * 2 ^ n).
  - rewrite Z.mul_mod_distr_r; [reflexivity| |]; apply Z.pow_nonzero; lia.
  - rewrite <- Z.pow_add_r by lia. f_equal. lia.
Qed.
Lemma shl_byte b c n : 0 <= n < 8 -> 0 <= c < 256 ->
  Z.lor (Z.shiftl b n mod 256) (Z.shiftr c (8 - n)) = (b * 2 ^ n) mod 256 + c / 2 ^ (8 - n).
Proof.
  intros Hn Hc. rewrite Z.shiftl_mul_pow2, Z.shiftr_div_pow2 by lia. rewrite mod_mul_pow2 by lia.
  apply lor_disjoint; [lia|]. split; [apply Z.div_pos; lia|]. apply Z.div_lt_upper_bound; [lia|].
  rewrite <- Z.pow_add_r by lia. replace (8 - n + n) with 8 by lia. lia.
Qed.
Lemma shr_byte b c n : 0 <= n < 8 -> 0 <= b < 256 ->
  Z.lor (Z.shiftr b n) (Z.shiftl c (8 - n) mod 256) = b / 2 ^ n + (c * 2 ^ (8 - n)) mod 256.
Proof.
  intros Hn Hb. rewrite Z.shiftl_mul_pow2, Z.shiftr_div_pow2 by lia. rewrite mod_mul_pow2 by lia.
  rewrite Z.lor_comm, Z.add_comm. apply lor_disjoint; [lia|]. split; [apply Z.div_pos; lia|].
  apply Z.div_lt_upper_bound; [lia|]. rewrite <- Z.pow_add_r by lia. replace (n + (8 - n)) with 8 by lia. lia.
Qed.
Lemma shl_loop_app l b off c : shl_loop (l ++ [b]) off c =
  shl_loop l off c ++ [Z.lor (Z.shiftl b off mod 256) (last (c :: map (fun x => Z.shiftr x (8 - off)) l) 0)].
Proof.
  revert c. induction l as [|x l IH]; intros c; [reflexivity|].
  cbn [app shl_loop map]. now rewrite IH.
Qed.
Lemma last_map_rev (f : Z -> Z) c s : last (c :: map f (rev s)) 0 = match s with [] => c | x :: _ => f x end.
Proof.
  destruct s as [|x s]; [reflexivity|]. cbn [rev]. rewrite map_app. cbn [map].
  change (c :: map f (rev s) ++ [f x]) with ((c :: map f (rev s)) ++ [f x]). apply last_last.
Qed.
Lemma shl_run off s : 0 <= off < 8 -> bytes s ->
  length (rev (shl_loop (rev s) off 0)) = length s /\
  forall i, (i < length s)%nat ->
  nth i (rev (shl_loop (rev s) off 0)) 0 = (nth i s 0 * 2 ^ off) mod 256 + nth (S i) s 0 / 2 ^ (8 - off).
Proof.
  intros Ho. induction s as [|b s IH]; intros Hs; [split; [reflexivity|cbn; lia]|].
  inversion Hs as [|b' s' Hb Hs']; subst. destruct (IH Hs') as [L N].
  cbn [rev]. rewrite shl_loop_app, rev_unit. cbn [length]. split; [now rewrite L|].
  intros [|i] Hi.
  - cbn [nth]. rewrite last_map_rev. destruct s as [|x s]; cbn [nth].
    + rewrite Z.lor_0_r, Z.shiftl_mul_pow2, Z.div_0_l, Z.add_0_r by (try apply Z.pow_nonzero; lia). reflexivity.
    + inversion Hs'; subst. now apply shl_byte.
  - cbn [nth]. rewrite N by lia. reflexivity.
Qed.
Lemma shr_run off s : 0 <= off < 8 -> forall p, bytes s ->
  length (shr_loop s off (Z.shiftl p (8 - off) mod 256)) = length s /\
  forall i, (i < length s)%nat ->
  nth i (shr_loop s off (Z.shiftl p (8 - off) mod 256)) 0 =
  nth i s 0 / 2 ^ off + (nth i (p :: s) 0 * 2 ^ (8 - off)) mod 256.
Proof.
  intros Ho. induction s as [|b s IH]; intros p Hs; [split; [reflexivity|cbn; lia]|].
  inversion Hs as [|b' s' Hb Hs']; subst. destruct (IH b Hs') as [L N].
  cbn [shr_loop length]. split; [now rewrite L|].
  intros [|i] Hi; cbn [nth].
  - now apply shr_byte.
  - apply N. lia.
Qed.
Theorem shift_bits s n : bytes s -> 0 <= n < 8 ->
  (exists r, bs_shl s n = Some r /\ length r = length s /\ forall i, (i < length s)%nat ->
     nth i r 0 = (nth i s 0 * 2 ^ n) mod 256 + nth (S i) s 0 / 2 ^ (8 - n)) /\
  (exists r, bs_shr s n = Some r /\ length r = length s /\ forall i, (i < length s)%nat ->
     nth i r 0 = nth i s 0 / 2 ^ n + (nth i (0 :: s) 0 * 2 ^ (8 - n)) mod 256).
Proof.
  intros Hs Hn. unfold bs_shl, bs_shr. rewrite Z.div_small, Z.mod_small by lia.
  destruct (Z.ltb_spec (Z.of_nat (length s)) 0); [lia|]. rewrite Z.sub_0_r, Nat2Z.id.
  change (Z.to_nat 0) with O. cbn [repeat firstn skipn app].
  rewrite firstn_all, skipn_all, !app_nil_r. split.
  - destruct (@shl_run n s Hn Hs) as [L N]. eexists. split; [reflexivity|]. split; auto.
  - destruct (@shr_run n s Hn 0 Hs) as [L N]. rewrite Z.shiftl_0_l in L, N.
    change (0 mod 256) with 0 in L, N. eexists. split; [reflexivity|].
    replace (firstn (length s) (shr_loop s n 0)) with (shr_loop s n 0); [split; [exact L|exact N]|].
    rewrite <- L. symmetry. apply firstn_all.
Qed.
Lemma shl_zero s : bytes s -> shl_loop s 0 0 = s.
Proof.
  induction 1 as [|b s Hb Hs IH]; [reflexivity|]. cbn [shl_loop].
  rewrite Z.shiftl_0_r, Z.mod_small, Z.lor_0_r, Z.sub_0_r by lia.
  rewrite Z.shiftr_div_pow2, Z.div_small by lia. now rewrite IH.
Qed.
Lemma shr_zero s : bytes s -> shr_loop s 0 0 = s.
Proof.
  induction 1 as [|b s Hb Hs IH]; [reflexivity|]. cbn [shr_loop].
  rewrite Z.shiftr_0_r, Z.lor_0_r, Z.sub_0_r. rewrite Z.shiftl_mul_pow2 by lia.
  change (2 ^ 8) with 256. rewrite Z_mod_mult. now rewrite IH.
Qed.
Theorem shift_bytes s k : bytes s -> (k <= length s)%nat ->
  bs_shl s (8 * Z.of_nat k) = Some (repeat 0 k ++ skipn k s) /\
  bs_shr s (8 * Z.of_nat k) = Some (firstn (length s - k) s ++ repeat 0 k).
Proof.
  intros Hs Hk. unfold bs_shl, bs_shr. rewrite Z.mul_comm, Z_div_mult, Z_mod_mult by lia.
  destruct (Z.ltb_spec (Z.of_nat (length s)) (Z.of_nat k)); [lia|].
  rewrite Nat2Z.id. rewrite <- Nat2Z.inj_sub, Nat2Z.id by lia. rewrite shl_zero.
  - rewrite rev_involutive, firstn_skipn. rewrite shr_zero.
    + now rewrite firstn_skipn.
    + apply Forall_forall. intros x Hx. unfold bytes in Hs. rewrite Forall_forall in Hs. apply Hs.
      rewrite <- (firstn_skipn k s). apply in_or_app. now right.
  - apply Forall_forall. intros x Hx. apply in_rev in Hx. unfold bytes in Hs. rewrite Forall_forall in Hs. apply Hs.
    rewrite <- (firstn_skipn (length s - k) s). apply in_or_app. now left.
Qed.
(** *** Storage *)
Theorem storage n i : 0 <= i < n -> i / 8 < bs_size n /\ 8 * bs_size n < n + 8.
Proof. unfold bs_size. intros H. split; [apply Z.div_lt_upper_bound|]; Z.to_euclidean_division_equations; lia. Qed.
