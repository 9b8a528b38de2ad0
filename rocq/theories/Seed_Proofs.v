(** Proofs about the random generator. *)
From Coq Require Import Znumtheory Zpow_facts.
From Verif Require Import Base Bits_Model Bits_Spec Bits_Proofs Rand_Model Seed_Model Seed_Spec.
Local Open Scope Z_scope.
Local Open Scope omonad_scope.

(** ** Bytes *)
Lemma to_bytes_spec n : forall x, to_bytes n x = word_bytes n x.
Proof. induction n as [|n IH]; intros x; cbn [to_bytes word_bytes]; [reflexivity|]. rewrite IH. reflexivity. Qed.
Lemma of_bytes_spec l : of_bytes l = bytes_value l.
Proof. induction l as [|b l IH]; cbn [of_bytes bytes_value]; [reflexivity|]. rewrite IH. reflexivity. Qed.
Lemma word_bytes_length n : forall x, length (word_bytes n x) = n.
Proof. induction n as [|n IH]; intros x; cbn [word_bytes length]; [reflexivity|]. rewrite IH. reflexivity. Qed.
Lemma word_bytes_ok n : forall x, Forall is_byte (word_bytes n x).
Proof.
  induction n as [|n IH]; intros x; cbn [word_bytes]; constructor; [|apply IH].
  apply Z.mod_pos_bound. reflexivity.
Qed.
Lemma pow256_S n : 256 ^ Z.of_nat (S n) = 256 * 256 ^ Z.of_nat n.
Proof. rewrite Nat2Z.inj_succ, Z.pow_succ_r by lia. reflexivity. Qed.
Lemma value_of_word n : forall x, 0 <= x < 256 ^ Z.of_nat n -> bytes_value (word_bytes n x) = x.
Proof.
  induction n as [|n IH]; intros x Hx; cbn [word_bytes bytes_value].
  - change (256 ^ Z.of_nat 0) with 1 in Hx. lia.
  - rewrite pow256_S in Hx. assert (D := Z.div_mod x 256 ltac:(lia)).
    rewrite IH; [lia|]. split; [apply Z.div_pos; lia|apply Z.div_lt_upper_bound; lia].
Qed.
Lemma bytes_value_range l : Forall is_byte l -> 0 <= bytes_value l < 256 ^ Z.of_nat (length l).
Proof.
  induction 1 as [|b l Hb Hl IH]; cbn [bytes_value length]; [change (256 ^ Z.of_nat 0) with 1; lia|].
  rewrite pow256_S. unfold is_byte in Hb. lia.
Qed.
Lemma word_of_value l : Forall is_byte l -> word_bytes (length l) (bytes_value l) = l.
Proof.
  induction 1 as [|b l Hb Hl IH]; cbn [bytes_value length word_bytes]; [reflexivity|].
  unfold is_byte in Hb.
  replace (b + 256 * bytes_value l) with (b + bytes_value l * 256) by ring.
  rewrite Z.mod_add, Z.div_add, Z.mod_small, (Z.div_small b) by lia.
  rewrite Z.add_0_l, IH. reflexivity.
Qed.

(** ** Reading and writing *)
Lemma load_some {A : Type} (l : list A) off n : (off + n <= length l)%nat ->
  load l off n = Some (firstn n (skipn off l)).
Proof. intros H. unfold load. apply Nat.leb_le in H. rewrite H. reflexivity. Qed.
Lemma store_some {A : Type} (l : list A) off bs : (off + length bs <= length l)%nat ->
  store l off bs = Some (firstn off l ++ bs ++ skipn (off + length bs) l).
Proof. intros H. unfold store. apply Nat.leb_le in H. rewrite H. reflexivity. Qed.
Lemma skip_skip {A : Type} n : forall m (l : list A), skipn n (skipn m l) = skipn (m + n) l.
Proof.
  induction m as [|m IH]; intros l; cbn [skipn Nat.add]; [reflexivity|].
  destruct l as [|x l]; [destruct n; reflexivity|]. apply IH.
Qed.
Lemma split3 {A : Type} (l : list A) off n : l = firstn off l ++ firstn n (skipn off l) ++ skipn (off + n) l.
Proof.
  rewrite <- (firstn_skipn off l) at 1. f_equal. rewrite <- (firstn_skipn n (skipn off l)) at 1.
  rewrite skip_skip. reflexivity.
Qed.
Lemma stored_length {A : Type} (l : list A) off bs : (off + length bs <= length l)%nat ->
  length (firstn off l ++ bs ++ skipn (off + length bs) l) = length l.
Proof. intros H. rewrite !app_length, firstn_length, skipn_length. lia. Qed.

(** ** Sowing *)
Fixpoint sown_bytes (i : nat) (seed : Z) : list Z :=
  match i with
  | O => []
  | S i' => sown_bytes i' (sow_step 64 seed) ++ to_bytes 8 (Z.lxor seed (Z.shiftr seed 32))
  end.
Lemma sown_bytes_length i : forall s, length (sown_bytes i s) = (i * 8)%nat.
Proof.
  induction i as [|i IH]; intros s; cbn [sown_bytes]; [reflexivity|].
  rewrite app_length, IH, to_bytes_spec, word_bytes_length. lia.
Qed.
Lemma sown_S n s : sown (S n) s = sown n (sow_step 64 s).
Proof.
  unfold sown. change (sow_step 64 s) with ((fun x => (13 * x + 7) mod 2 ^ 64) s).
  generalize (fun x => (13 * x + 7) mod 2 ^ 64) as f. intros f.
  induction n as [|n IH]; [reflexivity|]. exact (f_equal f IH).
Qed.
Lemma sow_spec i : forall s t, (i * 8 <= length t)%nat ->
  sow i s t = Some (sown i s, sown_bytes i s ++ skipn (i * 8) t).
Proof.
  induction i as [|i IH]; intros s t Hl; [reflexivity|].
  cbn [sow]. rewrite store_some by (rewrite to_bytes_spec, word_bytes_length; lia).
  cbn [obind]. rewrite IH by (rewrite stored_length; [lia|rewrite to_bytes_spec, word_bytes_length; lia]).
  rewrite sown_S. cbn [sown_bytes]. do 2 f_equal.
  rewrite <- app_assoc. f_equal.
  rewrite skipn_app, firstn_length, Nat.min_l by lia.
  rewrite skipn_all2 by (rewrite firstn_length; lia). rewrite Nat.sub_diag. cbn [skipn app].
  do 2 f_equal. rewrite to_bytes_spec, word_bytes_length. lia.
Qed.
Lemma sown_range n : forall s, 0 <= s < 2 ^ 64 -> 0 <= sown n s < 2 ^ 64.
Proof.
  induction n as [|n IH]; intros s Hs; [exact Hs|]. rewrite sown_S. apply IH.
  apply Z.mod_pos_bound. reflexivity.
Qed.
Lemma sown_bytes_ok i : forall s, Forall is_byte (sown_bytes i s).
Proof.
  induction i as [|i IH]; intros s; cbn [sown_bytes]; [constructor|].
  apply Forall_app. split; [apply IH|]. rewrite to_bytes_spec. apply word_bytes_ok.
Qed.
Lemma lxor_range h x y : 0 <= h -> 0 <= x < 2 ^ h -> 0 <= y < 2 ^ h -> 0 <= Z.lxor x y < 2 ^ h.
Proof.
  intros Hh Hx Hy. split; [apply Z.lxor_nonneg; lia|].
  destruct (Z.eq_dec (Z.lxor x y) 0) as [E|E]; [rewrite E; apply Z.pow_pos_nonneg; lia|].
  assert (0 <= Z.lxor x y) by (apply Z.lxor_nonneg; lia).
  apply Z.log2_lt_pow2; [lia|]. assert (L := Z.log2_lxor x y ltac:(lia) ltac:(lia)).
  assert (Hp : 0 < h).
  { destruct (Z.eq_dec h 0) as [->|]; [|lia]. exfalso. apply E.
    change (2 ^ 0) with 1 in *. replace x with 0 by lia. replace y with 0 by lia. reflexivity. }
  assert (M : forall z, 0 <= z < 2 ^ h -> Z.log2 z < h).
  { intros z Hz. destruct (Z.eq_dec z 0) as [->|]; [exact Hp|]. apply Z.log2_lt_pow2; lia. }
  assert (Mx := M x Hx). assert (My := M y Hy). lia.
Qed.
Lemma sown_cell i : forall s j, 0 <= s < 2 ^ 64 -> (j < i)%nat ->
  cell 8 j (sown_bytes i s) =
  Z.lxor (sown (i - 1 - j) s) (sown (i - 1 - j) s / 2 ^ 32).
Proof.
  induction i as [|i IH]; intros s j Hs Hj; [lia|]. cbn [sown_bytes]. unfold cell.
  rewrite skipn_app, sown_bytes_length.
  destruct (Nat.eq_dec j i) as [->|Hne].
  - rewrite Nat.sub_diag, skipn_all2 by (rewrite sown_bytes_length; lia). cbn [skipn app].
    rewrite to_bytes_spec, firstn_all2 by (rewrite word_bytes_length; lia).
    replace (S i - 1 - i)%nat with 0%nat by lia. change (sown 0 s) with s.
    rewrite Z.shiftr_div_pow2 by lia. apply value_of_word.
    change (256 ^ Z.of_nat 8) with (2 ^ 64). apply lxor_range; [lia|exact Hs|].
    split; [apply Z.div_pos; lia|]. apply Z.div_lt_upper_bound; lia.
  - rewrite firstn_app.
    replace (8 - length (skipn (j * 8) (sown_bytes i (sow_step 64 s))))%nat with 0%nat
      by (rewrite skipn_length, sown_bytes_length; lia).
    rewrite firstn_O, app_nil_r. fold (cell 8 j (sown_bytes i (sow_step 64 s))).
    rewrite IH by (try lia; apply Z.mod_pos_bound; reflexivity).
    replace (S i - 1 - j)%nat with (S (i - 1 - j)) by lia. rewrite sown_S. reflexivity.
Qed.

(** ** States *)
Lemma set_seed_spec g s : length (g_table g) = table_bytes -> 0 <= s < 2 ^ 64 ->
  set_seed g s = Some (Gen (sown 256 s) s (sown_bytes 256 s)).
Proof.
  intros Hl Hs. unfold set_seed. rewrite sow_spec by (rewrite Hl; apply Nat.le_refl).
  cbn [obind fst snd]. rewrite skipn_all2 by (rewrite Hl; apply Nat.le_refl). rewrite app_nil_r. reflexivity.
Qed.
Lemma set_seed_wf s : 0 <= s < 2 ^ 64 -> wf (Gen (sown 256 s) s (sown_bytes 256 s)).
Proof.
  intros Hs. split; [apply sown_range; exact Hs|]. cbn [g_table].
  split; [rewrite sown_bytes_length; reflexivity|apply sown_bytes_ok].
Qed.

Lemma copy_bytes_spec i : forall src dst, (i <= length src)%nat -> length dst = length src ->
  copy_bytes i src dst = Some (firstn i src ++ skipn i dst).
Proof.
  induction i as [|i IH]; intros src dst Hi Hd; [reflexivity|].
  cbn [copy_bytes]. rewrite load_some by lia. cbn [obind].
  assert (L1 : length (firstn 1 (skipn i src)) = 1%nat) by (rewrite firstn_length, skipn_length; lia).
  rewrite store_some by lia. cbn [obind].
  rewrite IH by (try lia; rewrite stored_length; lia).
  f_equal. rewrite skipn_app, firstn_length, Nat.min_l by lia.
  rewrite skipn_all2 by (rewrite firstn_length; lia). rewrite Nat.sub_diag. cbn [app].
  change (skipn 0) with (fun l : list Z => l). cbv beta. rewrite L1.
  replace (S i) with (i + 1)%nat by lia.
  rewrite app_assoc. f_equal.
  rewrite <- (firstn_skipn i (firstn (i + 1) src)) at 1.
  rewrite firstn_firstn, Nat.min_l by lia. f_equal.
  rewrite skipn_firstn_comm. f_equal. lia.
Qed.
Lemma copy_gen_spec fresh g : length (g_table g) = table_bytes -> length fresh = table_bytes ->
  copy_gen fresh g = Some g.
Proof.
  intros Hl Hf. unfold copy_gen.
  rewrite copy_bytes_spec by (rewrite ?Hl, ?Hf; auto).
  cbn [obind]. rewrite <- Hl at 1. rewrite firstn_all.
  rewrite skipn_all2 by (rewrite Hf; apply Nat.le_refl). rewrite app_nil_r. destruct g; reflexivity.
Qed.

(** ** One draw *)
Section Draw.
Variable mult : Z.
Notation draw_small := (draw_small mult).
Notation draw_word := (draw_word mult).

Lemma lvl_pow k : 2 ^ lvl_bits k = 256 ^ Z.of_nat (Nat.pow 2 k).
Proof.
  unfold lvl_bits. rewrite Nat2Z.inj_pow. change 256 with (2 ^ 8). change (Z.of_nat 2) with 2.
  rewrite <- Z.pow_mul_r; [reflexivity|lia|]. apply Z.pow_nonneg. lia.
Qed.
Lemma lvl_pos k : 0 < lvl_bits k.
Proof. unfold lvl_bits. assert (0 < 2 ^ Z.of_nat k) by (apply Z.pow_pos_nonneg; lia). lia. Qed.
Lemma lvl_small k : (k <= 2)%nat -> 0 < lvl_bits k <= 32.
Proof. intros H. destruct k as [|[|[|k]]]; [vm_compute; split; congruence| | |lia]; vm_compute; split; congruence. Qed.
Lemma table_cells k : (k <= 2)%nat -> (table_bytes / Nat.pow 2 k * Nat.pow 2 k = table_bytes)%nat /\
  (0 < table_bytes / Nat.pow 2 k)%nat.
Proof.
  intros H. destruct k as [|[|[|k]]]; [| | |lia]; (split; [vm_compute; reflexivity|apply Nat.ltb_lt; vm_compute; reflexivity]).
Qed.

(** The index of the table word used by a draw. *)
Definition slot (k : nat) (old : Z) : nat :=
  Z.to_nat (top_bits (lvl_bits k) old mod Z.of_nat (table_bytes / Nat.pow 2 k)).
Lemma slot_bound k old : (k <= 2)%nat -> (slot k old * Nat.pow 2 k + Nat.pow 2 k <= table_bytes)%nat.
Proof.
  intros Hk. destruct (table_cells Hk) as [E P]. unfold slot.
  set (c := (table_bytes / Nat.pow 2 k)%nat) in *. clearbody c.
  assert (M := Z.mod_pos_bound (top_bits (lvl_bits k) old) (Z.of_nat c) ltac:(lia)).
  rewrite <- E. set (z := top_bits (lvl_bits k) old mod Z.of_nat c) in *. clearbody z.
  assert (Z.to_nat z < c)%nat by lia. set (p := Nat.pow 2 k). clearbody p. nia.
Qed.
Definition next_seed (old : Z) : Z := (mult * old + 1) mod 2 ^ 64.
Definition the_result (k : nat) (g : gen) : Z :=
  Z.lxor (rotl (lvl_bits k) (top_bits (lvl_bits k) (next_seed (g_seed g))) (top_bits (lvl_bits k) (g_seed g)))
    (cell (Nat.pow 2 k) (slot k (g_seed g)) (g_table g)).

Lemma cut_top h x : 0 < h <= 32 -> 0 <= x < 2 ^ 64 ->
  Z.shiftr (Z.shiftr x (64 - 2 * h) mod 2 ^ (2 * h)) h mod 2 ^ h = top_bits h x.
Proof.
  intros Hh Hx. unfold top_bits. rewrite (Z.shiftr_div_pow2 x) by lia.
  assert (P1 : 0 < 2 ^ (64 - 2 * h)) by (apply Z.pow_pos_nonneg; lia).
  assert (P2 : 0 < 2 ^ h) by (apply Z.pow_pos_nonneg; lia).
  assert (E1 : 2 ^ 64 = 2 ^ (64 - 2 * h) * 2 ^ (2 * h)) by (rewrite <- Z.pow_add_r by lia; f_equal; lia).
  assert (E2 : 2 ^ (64 - h) = 2 ^ (64 - 2 * h) * 2 ^ h) by (rewrite <- Z.pow_add_r by lia; f_equal; lia).
  assert (E3 : 2 ^ 64 = 2 ^ (64 - h) * 2 ^ h) by (rewrite <- Z.pow_add_r by lia; f_equal; lia).
  rewrite (Z.mod_small (x / _)) by (split; [apply Z.div_pos; lia|apply Z.div_lt_upper_bound; lia]).
  rewrite Z.shiftr_div_pow2, Z.div_div by lia. rewrite <- E2.
  apply Z.mod_small. split; [apply Z.div_pos; lia|apply Z.div_lt_upper_bound; lia].
Qed.
Lemma top_range h x : 0 < h <= 32 -> 0 <= x < 2 ^ 64 -> 0 <= top_bits h x < 2 ^ h.
Proof.
  intros Hh Hx. unfold top_bits.
  assert (P1 : 0 < 2 ^ (64 - h)) by (apply Z.pow_pos_nonneg; lia).
  assert (E3 : 2 ^ 64 = 2 ^ (64 - h) * 2 ^ h) by (rewrite <- Z.pow_add_r by lia; f_equal; lia).
  split; [apply Z.div_pos; lia|apply Z.div_lt_upper_bound; lia].
Qed.
Lemma next_seed_range x : 0 <= next_seed x < 2 ^ 64.
Proof. apply Z.mod_pos_bound. reflexivity. Qed.

Lemma cell_range k i l : (i * Nat.pow 2 k + Nat.pow 2 k <= length l)%nat -> Forall is_byte l ->
  0 <= cell (Nat.pow 2 k) i l < 2 ^ lvl_bits k.
Proof.
  intros Hb Hl. unfold cell.
  assert (L : length (firstn (Nat.pow 2 k) (skipn (i * Nat.pow 2 k) l)) = Nat.pow 2 k)
    by (rewrite firstn_length, skipn_length; lia).
  rewrite lvl_pow. rewrite <- (f_equal (fun n => 256 ^ Z.of_nat n) L). apply bytes_value_range.
  apply Forall_forall. intros x Hx. rewrite Forall_forall in Hl. apply Hl.
  rewrite <- (firstn_skipn (i * Nat.pow 2 k) l). apply in_or_app. right.
  rewrite <- (firstn_skipn (Nat.pow 2 k) (skipn _ l)). apply in_or_app. left. exact Hx.
Qed.
Lemma the_result_range k g : (k <= 2)%nat -> wf g -> 0 <= the_result k g < 2 ^ lvl_bits k.
Proof.
  intros Hk (Hs & Hl & Hb). assert (Hh := lvl_small Hk).
  apply lxor_range; [lia| |].
  - apply rotl_word; [lia|]. apply top_range; [lia|apply next_seed_range].
  - apply cell_range; [rewrite Hl; apply slot_bound; exact Hk|exact Hb].
Qed.

Definition put (k i : nat) (x : Z) (l : list Z) : list Z :=
  firstn (i * Nat.pow 2 k) l ++ word_bytes (Nat.pow 2 k) x ++ skipn (i * Nat.pow 2 k + Nat.pow 2 k) l.
Lemma put_length k i x l : (i * Nat.pow 2 k + Nat.pow 2 k <= length l)%nat -> length (put k i x l) = length l.
Proof.
  intros H. unfold put. rewrite !app_length, firstn_length, skipn_length, word_bytes_length. lia.
Qed.
Lemma put_ok k i x l : Forall is_byte l -> Forall is_byte (put k i x l).
Proof.
  intros H. unfold put. apply Forall_app. split; [|apply Forall_app; split].
  - rewrite <- (firstn_skipn (i * Nat.pow 2 k) l) in H. apply Forall_app in H. tauto.
  - apply word_bytes_ok.
  - rewrite <- (firstn_skipn (i * Nat.pow 2 k + Nat.pow 2 k) l) in H. apply Forall_app in H. tauto.
Qed.

Lemma draw_small_spec k g : (k <= 2)%nat -> wf g ->
  draw_small k g = Some (the_result k g,
    Gen (next_seed (g_seed g)) (g_origin g) (put k (slot k (g_seed g)) (the_result k g) (g_table g))).
Proof.
  intros Hk (Hs & Hl & Hb). assert (Hh := lvl_small Hk). unfold Seed_Model.draw_small. cbv zeta.
  change (lcg_step 64 mult increment (g_seed g)) with (next_seed (g_seed g)).
  rewrite !(cut_top Hh) by (try exact Hs; apply next_seed_range).
  fold (slot k (g_seed g)).
  assert (Sb := slot_bound (g_seed g) Hk).
  rewrite load_some by (rewrite Hl; exact Sb). cbn [obind].
  rewrite of_bytes_spec. fold (cell (Nat.pow 2 k) (slot k (g_seed g)) (g_table g)).
  fold (the_result k g).
  rewrite to_bytes_spec.
  rewrite store_some by (rewrite word_bytes_length, Hl; exact Sb). cbn [obind].
  rewrite word_bytes_length. reflexivity.
Qed.
Lemma draw_small_wf k g : (k <= 2)%nat -> wf g ->
  wf (Gen (next_seed (g_seed g)) (g_origin g) (put k (slot k (g_seed g)) (the_result k g) (g_table g))).
Proof.
  intros Hk (Hs & Hl & Hb). split; [apply next_seed_range|]. cbn [g_table]. split.
  - rewrite put_length; [exact Hl|]. rewrite Hl. apply slot_bound. exact Hk.
  - apply put_ok. exact Hb.
Qed.
Lemma cell_put_same k i x l : (i * Nat.pow 2 k + Nat.pow 2 k <= length l)%nat -> 0 <= x < 2 ^ lvl_bits k ->
  cell (Nat.pow 2 k) i (put k i x l) = x.
Proof.
  intros Hb Hx. unfold cell, put.
  rewrite skipn_app, firstn_length, Nat.min_l by lia.
  rewrite skipn_all2 by (rewrite firstn_length; lia). rewrite Nat.sub_diag. cbn [app].
  change (skipn 0) with (fun l : list Z => l). cbv beta.
  rewrite firstn_app, word_bytes_length, Nat.sub_diag. cbn [firstn]. rewrite app_nil_r.
  rewrite firstn_all2 by (rewrite word_bytes_length; lia).
  apply value_of_word. rewrite <- lvl_pow. exact Hx.
Qed.
Lemma put_other k i x l n d : (i * Nat.pow 2 k + Nat.pow 2 k <= length l)%nat ->
  (n < i * Nat.pow 2 k \/ i * Nat.pow 2 k + Nat.pow 2 k <= n)%nat -> nth n (put k i x l) d = nth n l d.
Proof.
  intros Hb Hn. unfold put. set (p := Nat.pow 2 k) in *. clearbody p.
  destruct Hn as [Hn|Hn].
  - rewrite app_nth1 by (rewrite firstn_length; lia).
    rewrite <- (firstn_skipn (i * p) l) at 2. rewrite app_nth1 by (rewrite firstn_length; lia). reflexivity.
  - rewrite app_nth2 by (rewrite firstn_length; lia). rewrite firstn_length, Nat.min_l by lia.
    rewrite app_nth2 by (rewrite word_bytes_length; lia). rewrite word_bytes_length.
    rewrite <- (firstn_skipn (i * p + p) l) at 2.
    rewrite (app_nth2 (firstn _ _)) by (rewrite firstn_length; lia). rewrite firstn_length, Nat.min_l by lia.
    f_equal. lia.
Qed.

(** ** No two states become the same *)
Lemma next_seed_inj x y : Z.odd mult = true -> 0 <= x < 2 ^ 64 -> 0 <= y < 2 ^ 64 ->
  next_seed x = next_seed y -> x = y.
Proof.
  intros Ho Hx Hy E. unfold next_seed in E.
  assert (D : (2 ^ 64 | mult * (x - y))).
  { apply Z.mod_divide; [discriminate|].
    replace (mult * (x - y)) with (mult * x + 1 - (mult * y + 1)) by ring.
    rewrite Zminus_mod, E, Z.sub_diag. reflexivity. }
  apply Z.gauss in D.
  - destruct D as [q Hq]. assert (q = 0) by nia. subst q. lia.
  - apply Zgcd_1_rel_prime. apply rel_prime_sym. apply (rel_prime_Zpower_r 64 mult 2 ltac:(lia)).
    apply rel_prime_sym. apply prime_rel_prime; [apply prime_2|].
    intros [q Hq]. rewrite Hq, Z.odd_mul in Ho. change (Z.odd 2) with false in Ho.
    rewrite andb_false_r in Ho. discriminate.
Qed.
Lemma app_inj {A : Type} (a a' b b' : list A) : length a = length a' -> a ++ b = a' ++ b' -> a = a' /\ b = b'.
Proof.
  revert a'. induction a as [|x a IH]; intros [|x' a'] L E; cbn [length app] in *; try discriminate; [auto|].
  injection E as -> E. destruct (IH a' ltac:(lia) E) as [-> ->]. auto.
Qed.
Lemma draw_small_inj k g1 g2 r1 r2 g : (k <= 2)%nat -> Z.odd mult = true -> wf g1 -> wf g2 ->
  draw_small k g1 = Some (r1, g) -> draw_small k g2 = Some (r2, g) -> g1 = g2.
Proof.
  intros Hk Ho W1 W2 E1 E2.
  rewrite (draw_small_spec Hk W1) in E1. rewrite (draw_small_spec Hk W2) in E2.
  injection E1 as R1 G1. injection E2 as R2 G2. rewrite <- G2 in G1. injection G1 as S1 O1 T1.
  destruct W1 as (Hs1 & Hl1 & Hb1) eqn:Ew1. clear Ew1. destruct W2 as (Hs2 & Hl2 & Hb2) eqn:Ew2. clear Ew2.
  assert (Es := next_seed_inj Ho Hs1 Hs2 S1).
  assert (Sb := slot_bound (g_seed g1) Hk).
  assert (RR1 : 0 <= the_result k g1 < 2 ^ lvl_bits k) by (apply the_result_range; [exact Hk|split; auto]).
  assert (RR2 : 0 <= the_result k g2 < 2 ^ lvl_bits k) by (apply the_result_range; [exact Hk|split; auto]).
  unfold put in T1. rewrite <- Es in T1.
  apply app_inj in T1; [|rewrite !firstn_length, Hl1, Hl2; reflexivity].
  destruct T1 as [F T1]. apply app_inj in T1; [|rewrite !word_bytes_length; reflexivity].
  destruct T1 as [M L].
  assert (RE : the_result k g1 = the_result k g2).
  { rewrite lvl_pow in RR1, RR2. rewrite <- (value_of_word RR1), <- (value_of_word RR2), M. reflexivity. }
  unfold the_result in RE. rewrite <- Es in RE.
  set (rb := rotl _ _ _) in RE. clearbody rb.
  assert (CE : cell (Nat.pow 2 k) (slot k (g_seed g1)) (g_table g1) = cell (Nat.pow 2 k) (slot k (g_seed g1)) (g_table g2)).
  { rewrite <- (Z.lxor_0_l (cell _ _ (g_table g1))), <- (Z.lxor_0_l (cell _ _ (g_table g2))).
    rewrite <- (Z.lxor_nilpotent rb), !Z.lxor_assoc, RE. reflexivity. }
  assert (ME : firstn (Nat.pow 2 k) (skipn (slot k (g_seed g1) * Nat.pow 2 k) (g_table g1)) =
               firstn (Nat.pow 2 k) (skipn (slot k (g_seed g1) * Nat.pow 2 k) (g_table g2))).
  { assert (FB : forall t, Forall is_byte t -> Forall is_byte (firstn (Nat.pow 2 k) (skipn (slot k (g_seed g1) * Nat.pow 2 k) t))).
    { intros t Ht. rewrite (split3 t (slot k (g_seed g1) * Nat.pow 2 k) (Nat.pow 2 k)) in Ht.
      apply Forall_app in Ht. destruct Ht as [_ Ht]. apply Forall_app in Ht. tauto. }
    rewrite <- (word_of_value (FB _ Hb1)), <- (word_of_value (FB _ Hb2)).
    unfold cell in CE. rewrite CE. f_equal. rewrite !firstn_length, !skipn_length, Hl1, Hl2. reflexivity. }
  destruct g1 as [s1 o1 t1], g2 as [s2 o2 t2]. cbn [g_seed g_origin g_table] in *. subst s2 o2. f_equal.
  rewrite (split3 t1 (slot k s1 * Nat.pow 2 k) (Nat.pow 2 k)), (split3 t2 (slot k s1 * Nat.pow 2 k) (Nat.pow 2 k)).
  rewrite F, ME, L. reflexivity.
Qed.

(** Every result can come out, for a suitable table. *)
Lemma draw_small_attains k g r : (k <= 2)%nat -> wf g -> 0 <= r < 2 ^ lvl_bits k ->
  exists t g', wf (Gen (g_seed g) (g_origin g) t) /\ draw_small k (Gen (g_seed g) (g_origin g) t) = Some (r, g').
Proof.
  intros Hk W Hr. assert (Hh := lvl_small Hk). destruct W as (Hs & Hl & Hb).
  set (rb := rotl (lvl_bits k) (top_bits (lvl_bits k) (next_seed (g_seed g))) (top_bits (lvl_bits k) (g_seed g))).
  assert (Hrb : 0 <= rb < 2 ^ lvl_bits k).
  { apply rotl_word; [lia|]. apply top_range; [lia|apply next_seed_range]. }
  assert (Sb := slot_bound (g_seed g) Hk).
  exists (put k (slot k (g_seed g)) (Z.lxor rb r) (g_table g)).
  assert (W' : wf (Gen (g_seed g) (g_origin g) (put k (slot k (g_seed g)) (Z.lxor rb r) (g_table g)))).
  { split; [exact Hs|]. cbn [g_table]. split; [rewrite put_length; [exact Hl|rewrite Hl; exact Sb]|apply put_ok; exact Hb]. }
  eexists. split; [exact W'|]. rewrite (draw_small_spec Hk W'). do 2 f_equal.
  unfold the_result. cbn [g_seed g_table]. fold rb.
  rewrite cell_put_same by (try (rewrite Hl; exact Sb); apply lxor_range; lia).
  rewrite <- Z.lxor_assoc, Z.lxor_nilpotent, Z.lxor_0_l. reflexivity.
Qed.

(** ** Words of any size *)
Lemma lvl_S k : lvl_bits (S k) = lvl_bits k + lvl_bits k.
Proof. unfold lvl_bits. rewrite Nat2Z.inj_succ, Z.pow_succ_r by lia. ring. Qed.
Lemma lor_parts h x y : 0 <= h -> 0 <= y < 2 ^ h -> Z.lor (Z.shiftl x h) y = x * 2 ^ h + y.
Proof.
  intros Hh Hy. rewrite Z.shiftl_mul_pow2 by exact Hh.
  rewrite <- Z.lxor_lor, <- Z.add_nocarry_lxor; [reflexivity| |].
  - apply Z.bits_inj'. intros n Hn. rewrite Z.land_spec, Z.bits_0.
    destruct (Z_lt_le_dec n h) as [L|L].
    + rewrite Z.mul_pow2_bits_low by exact L. reflexivity.
    + replace (Z.testbit y n) with false; [apply andb_false_r|]. symmetry.
      destruct (Z.eq_dec y 0) as [->|]; [apply Z.bits_0|].
      apply Z.bits_above_log2; [lia|]. apply Z.log2_lt_pow2; [lia|].
      assert (2 ^ h <= 2 ^ n) by (apply Z.pow_le_mono_r; lia). lia.
  - apply Z.bits_inj'. intros n Hn. rewrite Z.land_spec, Z.bits_0.
    destruct (Z_lt_le_dec n h) as [L|L].
    + rewrite Z.mul_pow2_bits_low by exact L. reflexivity.
    + replace (Z.testbit y n) with false; [apply andb_false_r|]. symmetry.
      destruct (Z.eq_dec y 0) as [->|]; [apply Z.bits_0|].
      apply Z.bits_above_log2; [lia|]. apply Z.log2_lt_pow2; [lia|].
      assert (2 ^ h <= 2 ^ n) by (apply Z.pow_le_mono_r; lia). lia.
Qed.
Lemma draw_word_small k g : (k <= 2)%nat -> draw_word k g = draw_small k g.
Proof. intros H. destruct k as [|[|[|k]]]; [reflexivity..|lia]. Qed.
Lemma draw_word_ok k : forall g, wf g ->
  exists r g', draw_word k g = Some (r, g') /\ wf g' /\ 0 <= r < 2 ^ lvl_bits k /\ g_origin g' = g_origin g.
Proof.
  induction k as [|k IH]; intros g W.
  - rewrite draw_word_small, (draw_small_spec (k := 0) ltac:(lia) W) by lia. do 2 eexists.
    split; [reflexivity|]. split; [apply draw_small_wf; [lia|exact W]|]. split; [apply the_result_range; [lia|exact W]|reflexivity].
  - destruct (le_lt_dec (S k) 2) as [L|L].
    + rewrite (draw_word_small g L), (draw_small_spec L W). do 2 eexists.
      split; [reflexivity|]. split; [apply draw_small_wf; [lia|exact W]|]. split; [apply the_result_range; [lia|exact W]|reflexivity].
    + cbn [Seed_Model.draw_word]. replace (3 <=? S k)%nat with true by (symmetry; apply Nat.leb_le; lia).
      destruct (IH g W) as (h & g1 & E1 & W1 & H1 & O1). rewrite E1. cbn [obind fst snd].
      destruct (IH g1 W1) as (l & g2 & E2 & W2 & H2 & O2). rewrite E2. cbn [obind fst snd].
      do 2 eexists. split; [reflexivity|]. split; [exact W2|]. split; [|congruence].
      assert (P := lvl_pos k). rewrite lor_parts by lia. rewrite lvl_S, Z.pow_add_r by lia. nia.
Qed.
Lemma draw_word_halves k g : (2 <= k)%nat -> wf g ->
  exists h g1 l g2, draw_word k g = Some (h, g1) /\ draw_word k g1 = Some (l, g2) /\
    draw_word (S k) g = Some (h * 2 ^ lvl_bits k + l, g2).
Proof.
  intros Hk W. destruct (draw_word_ok k W) as (h & g1 & E1 & W1 & H1 & _).
  destruct (draw_word_ok k W1) as (l & g2 & E2 & W2 & H2 & _).
  exists h, g1, l, g2. split; [exact E1|]. split; [exact E2|].
  cbn [Seed_Model.draw_word]. replace (3 <=? S k)%nat with true by (symmetry; apply Nat.leb_le; lia).
  rewrite E1. cbn [obind fst snd]. rewrite E2. cbn [obind fst snd].
  assert (P := lvl_pos k). rewrite lor_parts by lia. reflexivity.
Qed.
Lemma draw_word_inj k : Z.odd mult = true -> forall g1 g2 r1 r2 g, wf g1 -> wf g2 ->
  draw_word k g1 = Some (r1, g) -> draw_word k g2 = Some (r2, g) -> g1 = g2.
Proof.
  intros Ho. induction k as [|k IH]; intros g1 g2 r1 r2 g W1 W2 E1 E2.
  - rewrite draw_word_small in E1, E2 by lia. eapply (@draw_small_inj 0); eauto.
  - destruct (le_lt_dec (S k) 2) as [L|L].
    + rewrite (draw_word_small _ L) in E1. rewrite (draw_word_small _ L) in E2. eapply draw_small_inj; eauto.
    + destruct (@draw_word_halves k g1 ltac:(lia) W1) as (h & a & l & b & A1 & A2 & A3).
      destruct (@draw_word_halves k g2 ltac:(lia) W2) as (h' & a' & l' & b' & B1 & B2 & B3).
      rewrite E1 in A3. rewrite E2 in B3. injection A3 as _ <-. injection B3 as _ <-.
      destruct (draw_word_ok k W1) as (x & y & Z1 & Z2 & _). rewrite A1 in Z1. injection Z1 as <- <-.
      destruct (draw_word_ok k W2) as (x' & y' & Z1' & Z2' & _). rewrite B1 in Z1'. injection Z1' as <- <-.
      assert (a = a') by (eapply IH; eauto). subst a'. eapply IH; eauto.
Qed.

(** ** Filling an object *)
Lemma draws_app g ws g1 ws' g2 : draws draw_word g ws g1 -> draws draw_word g1 ws' g2 ->
  draws draw_word g (ws ++ ws') g2.
Proof. induction 1 as [|g ga gb k x ws E _ IH]; intros H; cbn [app]; [exact H|]. econstructor; eauto. Qed.
Lemma laid_app a b : laid (a ++ b) = laid a ++ laid b.
Proof. unfold laid. rewrite map_app, concat_app. reflexivity. Qed.

Lemma fill_words_spec n k : forall pre g rest, wf g -> (length pre mod Nat.pow 2 k = 0)%nat ->
  exists ws g', draws draw_word g ws g' /\ wf g' /\ length (laid ws) = (n * Nat.pow 2 k)%nat /\
    Forall (fun kx => fst kx = k) ws /\
    fill_words mult n k (length pre) g (map Some pre ++ repeat None (n * Nat.pow 2 k + rest)) =
    Some ((length pre + n * Nat.pow 2 k)%nat, g', map Some (pre ++ laid ws) ++ repeat None rest).
Proof.
  assert (Hp : Nat.pow 2 k <> 0%nat) by (apply Nat.pow_nonzero; lia).
  induction n as [|n IH]; intros pre g rest W Ha.
  - exists [], g. split; [constructor|]. split; [exact W|]. split; [reflexivity|]. split; [constructor|].
    cbn [fill_words]. change (laid []) with (@nil Z). rewrite app_nil_r. cbn [Nat.mul Nat.add].
    rewrite Nat.add_0_r. reflexivity.
  - cbn [fill_words]. destruct (draw_word_ok k W) as (x & g1 & E & W1 & Hx & _). rewrite E. cbn [obind fst snd].
    rewrite Ha. cbn [Nat.eqb]. rewrite to_bytes_spec.
    rewrite store_some
      by (rewrite app_length, !map_length, repeat_length, word_bytes_length; lia).
    cbn [obind]. rewrite map_length, word_bytes_length.
    assert (EM : firstn (length pre) (map Some pre ++ repeat None (S n * Nat.pow 2 k + rest)) ++
       map Some (word_bytes (Nat.pow 2 k) x) ++
       skipn (length pre + Nat.pow 2 k) (map Some pre ++ repeat None (S n * Nat.pow 2 k + rest)) =
       map Some (pre ++ word_bytes (Nat.pow 2 k) x) ++ repeat None (n * Nat.pow 2 k + rest)).
    { rewrite firstn_app, map_length, Nat.sub_diag. cbn [firstn]. rewrite app_nil_r.
      rewrite firstn_all2 by (rewrite map_length; lia).
      rewrite skipn_app, map_length, skipn_all2 by (rewrite map_length; lia). cbn [app].
      rewrite map_app, <- app_assoc. do 2 f_equal.
      replace (length pre + Nat.pow 2 k - length pre)%nat with (Nat.pow 2 k) by lia.
      replace (S n * Nat.pow 2 k + rest)%nat with (Nat.pow 2 k + (n * Nat.pow 2 k + rest))%nat by lia.
      rewrite repeat_app, skipn_app, repeat_length, Nat.sub_diag.
      rewrite skipn_all2 by (rewrite repeat_length; lia). reflexivity. }
    rewrite EM.
    assert (LP : (length pre + Nat.pow 2 k)%nat = length (pre ++ word_bytes (Nat.pow 2 k) x))
      by (rewrite app_length, word_bytes_length; reflexivity).
    rewrite LP.
    destruct (IH (pre ++ word_bytes (Nat.pow 2 k) x) g1 rest W1) as (ws & g' & D & W' & L & F & E').
    { rewrite <- LP. rewrite Nat.add_mod, Ha, Nat.mod_same by exact Hp. apply Nat.mod_0_l. exact Hp. }
    exists ((k, x) :: ws), g'. split; [econstructor; eauto|]. split; [exact W'|].
    assert (LL : laid ((k, x) :: ws) = word_bytes (Nat.pow 2 k) x ++ laid ws) by reflexivity.
    split; [rewrite LL, app_length, word_bytes_length, L; lia|]. split; [constructor; auto|].
    rewrite E', LL, <- LP, app_assoc. do 2 f_equal. f_equal. lia.
Qed.

Lemma fill_spec k : forall size pre g, wf g -> (length pre mod Nat.pow 2 k = 0)%nat ->
  exists ws g', draws draw_word g ws g' /\ wf g' /\ length (laid ws) = size /\
    Forall (fun kx => (fst kx <= k)%nat) ws /\
    fill mult k size (length pre) g (map Some pre ++ repeat None size) = Some (g', map Some (pre ++ laid ws)).
Proof.
  induction k as [|k IH]; intros size pre g W Ha.
  - cbn [fill]. change (Nat.pow 2 0) with 1%nat in *. rewrite Nat.div_1_r, Nat.mod_1_r. cbn [Nat.eqb].
    destruct (@fill_words_spec size 0 pre g 0%nat W Ha) as (ws & g' & D & W' & L & F & E).
    change (Nat.pow 2 0) with 1%nat in *. rewrite Nat.mul_1_r, Nat.add_0_r in E. rewrite Nat.mul_1_r in L.
    rewrite E. cbn [obind repeat]. rewrite app_nil_r.
    exists ws, g'. split; [exact D|]. split; [exact W'|]. split; [exact L|]. split; [|reflexivity].
    eapply Forall_impl; [|exact F]. cbv beta. intros; lia.
  - cbn [fill]. assert (Hp : Nat.pow 2 (S k) <> 0%nat) by (apply Nat.pow_nonzero; lia).
    set (q := (size / Nat.pow 2 (S k))%nat). set (r := (size mod Nat.pow 2 (S k))%nat).
    assert (DM : size = (q * Nat.pow 2 (S k) + r)%nat).
    { unfold q, r. rewrite Nat.mul_comm. apply Nat.div_mod. exact Hp. }
    destruct (@fill_words_spec q (S k) pre g r W Ha) as (ws & g' & D & W' & L & F & E).
    rewrite <- DM in E. rewrite E. cbn [obind].
    assert (F' : Forall (fun kx : nat * Z => (fst kx <= S k)%nat) ws).
    { eapply Forall_impl; [|exact F]. cbv beta. intros; lia. }
    destruct (Nat.eqb_spec r 0) as [R|R].
    + exists ws, g'. rewrite R. cbn [repeat]. rewrite app_nil_r.
      split; [exact D|]. split; [exact W'|]. split; [lia|]. split; [exact F'|reflexivity].
    + assert (LP : (length pre + q * Nat.pow 2 (S k))%nat = length (pre ++ laid ws)) by (rewrite app_length; lia).
      rewrite LP.
      destruct (IH r (pre ++ laid ws) g' W') as (ws2 & g2 & D2 & W2 & L2 & F2 & E2).
      { rewrite <- LP. rewrite Nat.pow_succ_r' in *.
        assert (Hk : Nat.pow 2 k <> 0%nat) by lia.
        replace (q * (2 * Nat.pow 2 k))%nat with (q * 2 * Nat.pow 2 k)%nat by lia.
        rewrite Nat.mod_add by exact Hk.
        apply Nat.mod_divides in Ha; [|exact Hp]. destruct Ha as [c Hc]. rewrite Hc.
        replace (2 * Nat.pow 2 k * c)%nat with (2 * c * Nat.pow 2 k)%nat by lia.
        apply Nat.mod_mul. exact Hk. }
      exists (ws ++ ws2), g2. split; [eapply draws_app; eauto|]. split; [exact W2|].
      rewrite laid_app, app_length, app_assoc. split; [lia|]. split; [|exact E2].
      apply Forall_app. split; [exact F'|]. eapply Forall_impl; [|exact F2]. cbv beta. intros; lia.
Qed.
Lemma draw_object_spec size g : wf g ->
  exists ws g', draws draw_word g ws g' /\ wf g' /\ length (laid ws) = size /\
    draw_object mult size g = Some (g', map Some (laid ws)).
Proof.
  intros W. unfold draw_object.
  destruct (@fill_spec 3 size [] g W eq_refl) as (ws & g' & D & W' & L & _ & E).
  exists ws, g'. split; [exact D|]. split; [exact W'|]. split; [exact L|]. exact E.
Qed.
End Draw.

(** ** Statements assembled *)
Lemma set_all g s : length (g_table g) = table_bytes -> 0 <= s < 2 ^ 64 ->
  exists g', set_seed g s = Some g' /\ get_origin g' = s /\ wf g' /\ g_seed g' = sown 256 s /\
    (forall i, (i < 256)%nat -> cell 8 i (g_table g') = Z.lxor (sown (255 - i) s) (sown (255 - i) s / 2 ^ 32)) /\
    (forall g2, length (g_table g2) = table_bytes -> set_seed g2 s = Some g').
Proof.
  intros Hl Hs. exists (Gen (sown 256 s) s (sown_bytes 256 s)).
  split; [apply set_seed_spec; assumption|]. split; [reflexivity|]. split; [apply set_seed_wf; exact Hs|].
  split; [reflexivity|]. split; [|intros g2 H2; apply set_seed_spec; assumption].
  intros i Hi. cbn [g_table]. exact (sown_cell Hs Hi).
Qed.
Lemma draw_all mult k g : (k <= 2)%nat -> wf g ->
  exists i x r g', draw_word mult k g = Some (r, g') /\ wf g' /\ get_origin g' = get_origin g /\
    g_seed g' = (mult * g_seed g + 1) mod 2 ^ 64 /\
    Z.of_nat i = top_bits (lvl_bits k) (g_seed g) mod (2048 / 2 ^ Z.of_nat k) /\
    rotated_left (lvl_bits k) (top_bits (lvl_bits k) (g_seed g')) (top_bits (lvl_bits k) (g_seed g)) x /\
    r = Z.lxor x (cell (Nat.pow 2 k) i (g_table g)) /\ 0 <= r < 2 ^ lvl_bits k /\
    cell (Nat.pow 2 k) i (g_table g') = r /\
    (forall n, (n < i * Nat.pow 2 k \/ i * Nat.pow 2 k + Nat.pow 2 k <= n)%nat ->
       nth n (g_table g') 0 = nth n (g_table g) 0).
Proof.
  intros Hk W. assert (Hh := lvl_small Hk).
  exists (slot k (g_seed g)).
  exists (rotl (lvl_bits k) (top_bits (lvl_bits k) (next_seed mult (g_seed g))) (top_bits (lvl_bits k) (g_seed g))).
  exists (the_result mult k g).
  exists (Gen (next_seed mult (g_seed g)) (g_origin g) (put k (slot k (g_seed g)) (the_result mult k g) (g_table g))).
  split; [rewrite (draw_word_small mult g Hk); apply draw_small_spec; assumption|].
  split; [apply draw_small_wf; assumption|]. split; [reflexivity|]. split; [reflexivity|].
  assert (R := the_result_range mult Hk W).
  destruct W as (Hs & Hl & Hb). assert (Sb := slot_bound (g_seed g) Hk). rewrite <- Hl in Sb.
  cbn [g_seed g_table].
  split.
  { unfold slot. assert (TC : Z.of_nat (table_bytes / Nat.pow 2 k) = 2048 / 2 ^ Z.of_nat k).
    { destruct k as [|[|[|k]]]; [vm_compute; reflexivity..|lia]. }
    rewrite TC. apply Z2Nat.id. apply Z.mod_pos_bound. rewrite <- TC.
    destruct (table_cells Hk) as [_ P]. lia. }
  split; [apply rotl_spec; [lia|apply top_range; [lia|apply next_seed_range]]|].
  split; [reflexivity|]. split; [exact R|]. split; [apply cell_put_same; assumption|].
  intros n Hn. apply put_other; assumption.
Qed.
Lemma draws_wf mult g ws g' : wf g -> draws (draw_word mult) g ws g' -> wf g'.
Proof.
  intros W D. induction D as [|g g1 g2 k x ws E _ IH]; [exact W|]. apply IH.
  destruct (draw_word_ok mult k W) as (r & g' & E' & W' & _). congruence.
Qed.
Lemma some_inj {A : Type} (a b : A) : Some a = Some b -> a = b.
Proof. congruence. Qed.
Lemma reset_spec mult g0 s g ws g' : length (g_table g0) = table_bytes -> 0 <= s < 2 ^ 64 ->
  set_seed g0 s = Some g -> draws (draw_word mult) g ws g' -> set_seed g' s = Some g.
Proof.
  intros Hl Hs E D. rewrite (set_seed_spec Hl Hs) in E. apply some_inj in E.
  assert (Wg := set_seed_wf Hs). rewrite E in Wg. rewrite <- E.
  assert (W := draws_wf Wg D). apply set_seed_spec; [apply W|exact Hs].
Qed.
