(** Proofs about the allocator. *)
From Coq Require Import FinFun.
From Verif Require Import Base Alloc_Model Alloc_Spec.
Local Open Scope Z_scope.

(** Words in memory. *)
Lemma get_bytes_ext n m m' : forall a, (forall x, a <= x < a + Z.of_nat n -> m' x = m x) -> get_bytes n m' a = get_bytes n m a.
Proof.
  induction n as [|n IH]; intros a H; [reflexivity|]. cbn [get_bytes]. rewrite H by lia. rewrite IH; [reflexivity|].
  intros x X. apply H. lia.
Qed.
Lemma get_put_from m a v : forall n k, 0 <= k -> k + Z.of_nat n <= 8 ->
  get_bytes n (put_word m a v) (a + k) = (v / 2 ^ (8 * k)) mod 2 ^ (8 * Z.of_nat n).
Proof.
  induction n as [|n IH]; intros k Hk Hn.
  { cbn [get_bytes]. change (2 ^ (8 * Z.of_nat 0)) with 1. now rewrite Z.mod_1_r. }
  cbn [get_bytes]. replace (a + k + 1) with (a + (k + 1)) by lia. rewrite IH by lia.
  unfold put_word at 1. replace (a + k - a) with k by lia.
  replace ((a <=? a + k) && (a + k <? a + 8)) with true
    by (symmetry; apply andb_true_intro; split; [apply Z.leb_le; lia|apply Z.ltb_lt; lia]).
  replace (8 * (k + 1)) with (8 * k + 8) by lia. rewrite Z.pow_add_r by lia.
  rewrite <- Z.div_div by (try apply Z.pow_pos_nonneg; try apply Z.pow_nonzero; lia).
  replace (8 * Z.of_nat (S n)) with (8 + 8 * Z.of_nat n) by lia. rewrite Z.pow_add_r by lia.
  rewrite Z.rem_mul_r by (try apply Z.pow_pos_nonneg; try apply Z.pow_nonzero; lia). reflexivity.
Qed.
Lemma get_put m a v : 0 <= v < 2 ^ 64 -> get_bytes 8 (put_word m a v) a = v.
Proof.
  intros H. pose proof (@get_put_from m a v 8 0 ltac:(lia) ltac:(lia)) as E. rewrite Z.add_0_r in E. rewrite E.
  change (2 ^ (8 * 0)) with 1. rewrite Z.div_1_r. apply Z.mod_small. exact H.
Qed.
Lemma put_other m a v x : x < a \/ a + 8 <= x -> put_word m a v x = m x.
Proof. intros H. unfold put_word. destruct (Z.leb_spec a x), (Z.ltb_spec x (a + 8)); cbn [andb]; auto; lia. Qed.

(** Arithmetic of the offset. *)
Lemma offset_pow k align : 0 <= k -> align = 2 ^ k -> align < 2 ^ 64 -> overhead_get_offset_value align = Z.max align 8.
Proof.
  intros Hk E L. unfold overhead_get_offset_value, overhead_get_align. cbv zeta.
  assert (1 <= align) by (subst; apply (Z.pow_le_mono_r 2 0 k); lia).
  destruct (Z.le_gt_cases align 8) as [C|C].
  - rewrite Z.max_r by lia. reflexivity.
  - rewrite Z.max_l by lia. unfold ceil_div. rewrite Z.div_small by lia. rewrite Z.mod_small by lia.
    change (8 =? 0) with false. cbv iota. rewrite Z.add_0_l, Z.mul_1_l. unfold wrap. apply Z.mod_small. lia.
Qed.
Lemma pow_cases k align : 0 <= k -> align = 2 ^ k -> (align <= 8 /\ 8 mod align = 0) \/ (8 < align /\ align mod 8 = 0).
Proof.
  intros Hk E. destruct (Z.le_gt_cases k 3) as [C|C].
  - left. assert (K : k = 0 \/ k = 1 \/ k = 2 \/ k = 3) by lia. destruct K as [->|[->|[->| ->]]]; subst align; vm_compute; split; congruence.
  - right. subst align. replace k with (3 + (k - 3)) by lia. rewrite Z.pow_add_r by lia. change (2 ^ 3) with 8. split.
    + pose proof (Z.pow_le_mono_r 2 1 (k - 3) ltac:(lia) ltac:(lia)). lia.
    + rewrite Z.mul_comm. apply Z.mod_mul. lia.
Qed.
Lemma mod_trans a b c : 0 < b -> 0 < c -> b mod c = 0 -> a mod b = 0 -> a mod c = 0.
Proof.
  intros B C H1 H2. apply Z.mod_divide in H1; [|lia]. apply Z.mod_divide in H2; [|lia]. apply Z.mod_divide; [lia|].
  eapply Z.divide_trans; eassumption.
Qed.
Lemma mod_add0 a b c : 0 < c -> a mod c = 0 -> b mod c = 0 -> (a + b) mod c = 0.
Proof.
  intros C H1 H2. apply Z.mod_divide in H1; [|lia]. apply Z.mod_divide in H2; [|lia]. apply Z.mod_divide; [lia|].
  now apply Z.divide_add_r.
Qed.
Lemma max_align align k : 0 <= k -> align = 2 ^ k -> 0 < align /\ Z.max align 8 mod 8 = 0 /\ Z.max align 8 mod align = 0.
Proof.
  intros K E. assert (P : 0 < align) by (subst; apply Z.pow_pos_nonneg; lia).
  destruct (pow_cases K E) as [[L D]|[L D]].
  - rewrite Z.max_r by lia. auto.
  - rewrite Z.max_l by lia. rewrite Z.mod_same by lia. auto.
Qed.
Lemma pow16 align k : 0 <= k -> align = 2 ^ k -> align <= 16 -> 16 mod align = 0.
Proof.
  intros Hk E L. destruct (Z.le_gt_cases k 4) as [C|C].
  - assert (K : k = 0 \/ k = 1 \/ k = 2 \/ k = 3 \/ k = 4) by lia. destruct K as [->|[->|[->|[->| ->]]]]; subst align; reflexivity.
  - pose proof (Z.pow_le_mono_r 2 5 k ltac:(lia) ltac:(lia)). change (2 ^ 5) with 32 in *. lia.
Qed.
Lemma ask_off align size : askable align size -> overhead_get_offset_value align = Z.max align 8 /\
  correct_size size align = size + Z.max align 8 /\ 0 < align /\ Z.max align 8 mod 8 = 0 /\ Z.max align 8 mod align = 0.
Proof.
  intros ((k & K & E) & S & L). assert (O : overhead_get_offset_value align = Z.max align 8) by (apply (offset_pow K E); lia).
  split; [exact O|]. split; [|exact (max_align K E)].
  unfold correct_size. rewrite O. unfold wrap. apply Z.mod_small. lia.
Qed.

(** Lists of separate blocks. *)
Definition off (u : ublock) : Z := Z.max (ualign u) 8.
Definition sysb (u : ublock) : block := {| addr := uptr u - off u; len := usize u + off u |}.
Definition sapart (u v : ublock) : Prop := apart (addr (sysb u)) (len (sysb u)) (addr (sysb v)) (len (sysb v)).
Lemma fop_filter {A} (R : A -> A -> Prop) f l : ForallOrdPairs R l -> ForallOrdPairs R (filter f l).
Proof.
  induction 1 as [|a l Ha Hl IH]; cbn [filter]; [constructor|]. destruct (f a); auto. constructor; auto.
  rewrite Forall_forall in *. intros x X. apply filter_In in X. apply Ha, X.
Qed.
Lemma apart_sym a n b m : apart a n b m -> apart b m a n.
Proof. unfold apart. lia. Qed.
Lemma fop_cases us u v : ForallOrdPairs sapart us -> In u us -> In v us -> u = v \/ sapart u v.
Proof.
  intros F U V. destruct (ForallOrdPairs_In F u v U V) as [E|[A|A]]; auto. right. now apply apart_sym.
Qed.
Lemma sapart_ptr u v : 1 <= usize u -> 1 <= usize v -> sapart u v -> uptr u <> uptr v /\ addr (sysb u) <> addr (sysb v).
Proof. unfold sapart, apart, sysb, off. cbn [addr len]. lia. Qed.
Lemma drop_none u us : Forall (fun v => uptr v <> uptr u) us -> drop u us = us.
Proof.
  induction 1 as [|v l Hv Hl IH]; [reflexivity|]. unfold drop in *. cbn [filter]. destruct (Z.eqb_spec (uptr v) (uptr u)); [contradiction|].
  cbn [negb]. now rewrite IH.
Qed.
Lemma drop_sum u us : Forall (fun v => 1 <= usize v) us -> ForallOrdPairs sapart us -> In u us ->
  total (drop u us) = total us - usize u /\ Z.of_nat (length (drop u us)) = Z.of_nat (length us) - 1.
Proof.
  intros S F. revert S. induction F as [|v l Hv Hl IH]; intros S U; [destruct U|]. inversion S as [|? ? S1 S2]; subst. destruct U as [->|U].
  - assert (E : drop u l = l).
    { apply drop_none. rewrite Forall_forall in *. intros w W. destruct (sapart_ptr (S1 : 1 <= usize u) (S2 w W) (Hv w W)). congruence. }
    unfold drop in *. cbn [filter]. rewrite Z.eqb_refl. cbn [negb]. rewrite E. cbn [total fold_right length]. unfold total. lia.
  - assert (N : uptr v <> uptr u) by (rewrite Forall_forall in *; apply (sapart_ptr S1 (S2 u U) (Hv u U))).
    destruct (IH S2 U) as [E1 E2]. unfold drop in *. cbn [filter]. destruct (Z.eqb_spec (uptr v) (uptr u)); [contradiction|].
    cbn [negb total fold_right length]. unfold total in E1. lia.
Qed.
Lemma drop_sys u us : Forall (fun v => 1 <= usize v) us -> ForallOrdPairs sapart us -> In u us ->
  map sysb (drop u us) = without (map sysb us) (addr (sysb u)).
Proof.
  intros S F U. assert (H : forall v, In v us -> (uptr v =? uptr u) = (addr (sysb v) =? addr (sysb u))).
  { intros v V. destruct (fop_cases F U V) as [->|A]; [now rewrite !Z.eqb_refl|]. rewrite Forall_forall in S.
    destruct (sapart_ptr (S u U) (S v V) A). destruct (Z.eqb_spec (uptr v) (uptr u)), (Z.eqb_spec (addr (sysb v)) (addr (sysb u))); congruence. }
  clear S F U. unfold drop, without. induction us as [|v l IH]; [reflexivity|]. cbn [filter map]. rewrite (H v (or_introl eq_refl)).
  destruct (_ =? _); cbn [negb map]; rewrite IH; auto; intros; apply H; now right.
Qed.
(** Separate blocks in a space fit into it. *)
Lemma nodup_app {A} (l l' : list A) : NoDup l -> NoDup l' -> (forall x, In x l -> In x l' -> False) -> NoDup (l ++ l').
Proof.
  induction 1 as [|a l Ha Hl IH]; intros N D; cbn [app]; [exact N|]. constructor.
  - rewrite in_app_iff. intros [I|I]; [contradiction|]. apply (D a); [now left|exact I].
  - apply IH; auto. intros x X Y. apply (D x); [now right|exact Y].
Qed.
Definition cells (u : ublock) : list Z := map (fun i => uptr u + Z.of_nat i) (seq 0 (Z.to_nat (usize u))).
Lemma cells_in u x : In x (cells u) -> uptr u <= x < uptr u + usize u.
Proof. unfold cells. rewrite in_map_iff. intros (i & <- & I). apply in_seq in I. lia. Qed.
Lemma cells_nodup u : NoDup (cells u).
Proof. unfold cells. apply Injective_map_NoDup; [intros i j E; lia|apply seq_NoDup]. Qed.
Lemma sum_bound M us : (forall u, In u us -> 0 <= uptr u /\ 0 <= usize u /\ uptr u + usize u <= M) ->
  separate us -> total us <= Z.max 0 M.
Proof.
  intros H S.
  assert (N : NoDup (flat_map cells us)).
  { clear H. induction S as [|u l Hu Hl IH]; cbn [flat_map]; [constructor|]. apply nodup_app; [apply cells_nodup|exact IH|].
    intros x X Y. apply cells_in in X. apply in_flat_map in Y. destruct Y as (v & V & Y). apply cells_in in Y.
    rewrite Forall_forall in Hu. specialize (Hu v V). unfold apart in Hu. lia. }
  assert (L : Z.of_nat (length (flat_map cells us)) = total us).
  { clear N S. induction us as [|u l IH]; [reflexivity|]. cbn [flat_map total fold_right]. rewrite app_length, Nat2Z.inj_add.
    rewrite IH by (intros; apply H; now right). unfold cells at 1. rewrite map_length, seq_length.
    destruct (H u (or_introl eq_refl)) as (_ & ? & _). rewrite Z2Nat.id by lia. reflexivity. }
  assert (I : incl (flat_map cells us) (map Z.of_nat (seq 0 (Z.to_nat M)))).
  { intros x X. apply in_flat_map in X. destruct X as (u & U & X). apply cells_in in X. destruct (H u U) as (? & ? & ?).
    apply in_map_iff. exists (Z.to_nat x). split; [lia|]. apply in_seq. lia. }
  apply (NoDup_incl_length N) in I. rewrite map_length, seq_length in I. lia.
Qed.

(** The invariant. *)
Record good (windows : bool) (st : state) (u : ublock) : Prop := {
  g_ask : askable (ualign u) (usize u);
  g_addr : 0 < addr (sysb u);
  g_end : addr (sysb u) + len (sysb u) <= 2 ^ 63;
  g_word : addr (sysb u) mod 8 = 0;
  g_size : get_bytes 8 (mem st) (addr (sysb u)) = usize u;
  g_align : windows = true \/ ualign u <= 16 -> uptr u mod ualign u = 0 }.
Record inv (windows : bool) (st : state) (us : list ublock) (peak : Z) : Prop := {
  i_blocks : blocks st = map sysb us;
  i_good : Forall (good windows st) us;
  i_apart : ForallOrdPairs sapart us;
  i_peak : total us <= peak;
  i_using : memory_using (cnt st) = total us;
  i_max : memory_using_max (cnt st) = peak;
  i_size : wrap (alloc_size (cnt st) - free_size (cnt st)) = total us;
  i_count : wrap (alloc_count (cnt st) - free_count (cnt st)) = Z.of_nat (length us) }.
Lemma ask_size align size : askable align size -> 1 <= size.
Proof. intros (_ & H & _). exact H. Qed.
Lemma ask_align align size : askable align size -> 0 < align.
Proof. intros H. apply ask_off in H. tauto. Qed.
Lemma goods_size w st us : Forall (good w st) us -> Forall (fun v => 1 <= usize v) us.
Proof. intros H. eapply Forall_impl; [|exact H]. intros u G. exact (ask_size (g_ask G)). Qed.
Lemma good_off w st u : good w st u -> overhead_get_offset_value (ualign u) = off u /\ 8 <= off u.
Proof. intros G. destruct (ask_off (g_ask G)) as (O & _). split; [exact O|unfold off; lia]. Qed.
Lemma sapart_separate us : ForallOrdPairs sapart us -> separate us.
Proof.
  induction 1 as [|u l Hu Hl IH]; constructor; auto. eapply Forall_impl; [|exact Hu]. intros v. unfold sapart, apart, sysb, off. cbn [addr len]. lia.
Qed.
Lemma total_bound w st us : Forall (good w st) us -> ForallOrdPairs sapart us ->
  0 <= total us <= 2 ^ 63 /\ 0 <= Z.of_nat (length us) <= 2 ^ 63.
Proof.
  intros G A. assert (T : total us <= Z.max 0 (2 ^ 63)).
  { apply sum_bound; [|now apply sapart_separate]. intros u U. rewrite Forall_forall in G. pose proof (G u U) as Gu.
    pose proof (g_addr Gu) as Ga. pose proof (g_end Gu) as Ge. pose proof (ask_size (g_ask Gu)). unfold sysb, off in *. cbn [addr len] in *. lia. }
  assert (C : Z.of_nat (length us) <= total us).
  { apply goods_size in G. clear A T. induction G as [|u l Gu Gl IH]; [reflexivity|]. cbn [length total fold_right]. unfold total in IH. lia. }
  lia.
Qed.
Lemma word_ok st u us : blocks st = map sysb us -> In u us -> addr (sysb u) mod 8 = 0 -> 1 <= usize u -> word_at (blocks st) (addr (sysb u)) = true.
Proof.
  intros E U M S. unfold word_at. rewrite M, Z.eqb_refl. cbn [andb]. apply existsb_exists. exists (sysb u). split; [rewrite E; now apply in_map|].
  unfold sysb, off. cbn [addr len]. apply andb_true_intro. split; apply Z.leb_le; lia.
Qed.
Lemma inv_get w st us peak u : inv w st us peak -> In u us ->
  recorrect_pointer (uptr u) (ualign u) = addr (sysb u) /\ get_size_of_alloc st (uptr u) (ualign u) = Some (usize u).
Proof.
  intros I U. pose proof (i_good I) as G. rewrite Forall_forall in G. specialize (G u U).
  assert (R : recorrect_pointer (uptr u) (ualign u) = addr (sysb u)) by (unfold recorrect_pointer; destruct (good_off G) as [-> _]; reflexivity).
  split; [exact R|]. unfold get_size_of_alloc, get_overhead. rewrite R. rewrite (word_ok (i_blocks I) U (g_word G) (ask_size (g_ask G))).
  now rewrite (g_size G).
Qed.
(** Other blocks stay good when their bytes stay. *)
Lemma good_keep w st st' u : good w st u ->
  (forall x, addr (sysb u) <= x < addr (sysb u) + off u -> mem st' x = mem st x) -> good w st' u.
Proof.
  intros G K. destruct G as [G1 G2 G3 G4 G5 G6]. constructor; auto. rewrite <- G5. apply get_bytes_ext. intros x X. apply K. unfold off. lia.
Qed.
Lemma wrap_small z : 0 <= z < 2 ^ 64 -> wrap z = z.
Proof. apply Z.mod_small. Qed.
Lemma wrap_wrap_l a b : wrap (wrap a + b) = wrap (a + b).
Proof. unfold wrap. apply Z.add_mod_idemp_l. lia. Qed.
Lemma wrap_eq a b : (a - b) mod 2 ^ 64 = 0 -> wrap a = wrap b.
Proof.
  intros H. unfold wrap. apply Z.mod_divide in H; [|lia]. destruct H as [q H]. replace a with (b + q * 2 ^ 64) by lia. apply Z.mod_add. lia.
Qed.
Lemma wrap_shift a f t d d' : wrap (a - f) = t -> wrap d' = wrap d -> 0 <= t + d < 2 ^ 64 -> wrap (wrap (a + d') - f) = t + d.
Proof.
  intros E D R. unfold wrap in *. rewrite Zminus_mod_idemp_l. replace (a + d' - f) with ((a - f) + d') by lia.
  rewrite <- Z.add_mod_idemp_l, E by lia. rewrite <- Z.add_mod_idemp_r, D, Z.add_mod_idemp_r by lia. apply Z.mod_small. exact R.
Qed.
Lemma wrap_shift_r a f t d : wrap (a - f) = t -> 0 <= t - d < 2 ^ 64 -> wrap (a - wrap (f + d)) = t - d.
Proof.
  intros E R. unfold wrap in *. rewrite Zminus_mod_idemp_r. replace (a - (f + d)) with ((a - f) + - d) by lia.
  rewrite <- Z.add_mod_idemp_l, E by lia. apply Z.mod_small. lia.
Qed.
Lemma wrap_plus t d d' : wrap d' = wrap d -> 0 <= t + d < 2 ^ 64 -> wrap (t + d') = t + d.
Proof. intros D R. unfold wrap in *. rewrite <- Z.add_mod_idemp_r, D, Z.add_mod_idemp_r by lia. apply Z.mod_small. exact R. Qed.
Lemma wrap_idem d : wrap (wrap d) = wrap d.
Proof. unfold wrap. apply Z.mod_mod. lia. Qed.

(** Giving out a block: the common part of aligned_alloc and realloc.  [us] are the blocks that stay. *)
Lemma new_block w st us align size tmp m : Forall (good w st) us -> askable align size ->
  (w = true \/ align <= 16 -> tmp mod align = 0) -> tmp mod 8 = 0 ->
  fresh (fun b => In b (map sysb us)) tmp (size + Z.max align 8) -> keeps (fun b => In b (map sysb us)) (mem st) m ->
  let u := {| uptr := tmp + Z.max align 8; usize := size; ualign := align |} in
  let m' := put_word m tmp size in
  sysb u = {| addr := tmp; len := size + Z.max align 8 |} /\
  (forall v, In v us -> sapart u v /\ forall x, addr (sysb v) <= x < addr (sysb v) + len (sysb v) -> m' x = mem st x) /\
  (forall st', mem st' = m' -> Forall (good w st') (u :: us)).
Proof.
  intros G A Al A8 (P & E & D) K. cbv zeta. set (u := {| uptr := _; usize := _; ualign := _ |}).
  assert (Es : sysb u = {| addr := tmp; len := size + Z.max align 8 |}) by (unfold sysb, off, u; cbn [uptr usize ualign]; f_equal; lia).
  destruct (ask_off A) as (_ & _ & Ap & M8 & Ma). destruct A as (Ak & As & Al').
  assert (H : forall v, In v us -> sapart u v /\ forall x, addr (sysb v) <= x < addr (sysb v) + len (sysb v) -> put_word m tmp size x = mem st x).
  { intros v V. specialize (D (sysb v) (in_map sysb us v V)). split.
    - unfold sapart. rewrite Es. exact D.
    - intros x X. rewrite put_other by (unfold apart in D; lia). apply (K (sysb v)); [now apply in_map|exact X]. }
  split; [exact Es|]. split; [exact H|]. intros st' Em. constructor.
  - constructor; rewrite ?Es; cbn [addr len].
    + unfold u. cbn [ualign usize]. split; auto.
    + exact P.
    + exact E.
    + exact A8.
    + rewrite Em. unfold u. cbn [usize]. apply get_put. lia.
    + unfold u. cbn [uptr ualign]. intros W. apply mod_add0; auto.
  - rewrite Forall_forall in *. intros v V. apply good_keep with (st := st); [auto|]. intros x X. rewrite Em. apply (H v V).
    unfold sysb, off in *. cbn [addr len] in *. pose proof (ask_size (g_ask (G v V))). lia.
Qed.
Lemma fresh_word bs tmp n : 8 <= n -> tmp mod 8 = 0 -> word_at ({| addr := tmp; len := n |} :: bs) tmp = true.
Proof.
  intros L M. unfold word_at. rewrite M, Z.eqb_refl. cbn [andb existsb addr len].
  apply orb_true_intro. left. apply andb_true_intro. split; apply Z.leb_le; lia.
Qed.

Lemma alloc_step w st us peak align size ans : inv w st us peak -> askable align size -> legal_alloc st (alloc_request align size) ans ->
  exists st' p, aligned_alloc ans st align size = Some (st', p) /\
  (p = 0 <-> ans = None) /\
  (p = 0 -> st' = st) /\
  (p <> 0 -> inv w st' ({| uptr := p; usize := size; ualign := align |} :: us) (Z.max peak (total us + size)) /\
    0 < p /\ p mod align = 0 /\
    forall u, In u us -> same_bytes (mem st) (uptr u) (mem st') (uptr u) (usize u)).
Proof.
  intros I A L. unfold aligned_alloc, provider_alloc. destruct ans as [[tmp m]|]; cycle 1.
  { exists st, 0. cbn. repeat split; auto; congruence. }
  destruct (ask_off A) as (Eo & Es & Ap & M8 & Ma). pose proof (ask_size A) as S1.
  cbn [legal_alloc alloc_request fst snd] in *. rewrite Es in *. destruct L as (Al & F & K). unfold correct_align, overhead_get_align in Al.
  pose proof (i_blocks I) as Eb. unfold any in *. rewrite Eb in F, K.
  assert (A8 : tmp mod 8 = 0) by (apply mod_trans with (b := Z.max align 8); auto; lia).
  assert (Aa : tmp mod align = 0) by (apply mod_trans with (b := Z.max align 8); auto; lia).
  destruct (new_block (w := w) (i_good I) A (fun _ => Aa) A8 F K) as (N1 & N2 & N3).
  unfold set_overhead. cbn [blocks mem cnt].
  assert (Wd : word_at ({| addr := tmp; len := size + Z.max align 8 |} :: blocks st) tmp = true)
    by (apply fresh_word; [lia|exact A8]).
  rewrite Wd. unfold correct_pointer. rewrite Eo. cbn [blocks mem cnt].
  destruct F as (P & E & D). destruct (Z.eqb_spec (tmp + Z.max align 8) 0) as [Z0|Z0]; [lia|].
  eexists. eexists. split; [reflexivity|]. split; [split; [lia|discriminate]|]. split; [lia|]. intros _.
  set (st' := {| blocks := _ :: _; mem := _; cnt := _ |}).
  assert (Gs : Forall (good w st') ({| uptr := tmp + Z.max align 8; usize := size; ualign := align |} :: us)) by (apply N3; reflexivity).
  assert (Ap' : ForallOrdPairs sapart ({| uptr := tmp + Z.max align 8; usize := size; ualign := align |} :: us)).
  { constructor; [rewrite Forall_forall; intros v V; apply N2, V|exact (i_apart I)]. }
  destruct (total_bound Gs Ap') as [T1 T2]. destruct (total_bound (i_good I) (i_apart I)) as [T3 T4].
  change (total ({| uptr := tmp + Z.max align 8; usize := size; ualign := align |} :: us)) with (size + total us) in T1.
  cbn [length] in T2. rewrite Nat2Z.inj_succ in T2.
  assert (Eu : wrap (memory_using (cnt st) + size) = total us + size) by (rewrite (i_using I); apply wrap_plus; [reflexivity|lia]).
  split; [|split; [lia|split; [apply mod_add0; auto|]]].
  - constructor; auto.
    + cbn [blocks map st']. rewrite N1, Eb. reflexivity.
    + cbn [total fold_right usize]. fold (total us). lia.
    + cbn [cnt update_memory_using memory_using total fold_right usize st']. fold (total us). rewrite Eu. lia.
    + cbn [cnt update_memory_using memory_using memory_using_max st']. rewrite Eu, (i_max I). destruct (Z.ltb_spec peak (total us + size)); lia.
    + cbn [cnt update_memory_using alloc_size free_size st' total fold_right usize]. fold (total us).
      rewrite (wrap_shift (t := total us) (d := size)); [lia|exact (i_size I)|reflexivity|lia].
    + cbn [cnt update_memory_using alloc_count free_count st' length].
      rewrite (wrap_shift (t := Z.of_nat (length us)) (d := 1)); [lia|exact (i_count I)|reflexivity|lia].
  - intros u U i Hi. cbn [mem st']. apply (N2 u U). unfold sysb, off. cbn [addr len]. lia.
Qed.
Lemma without_in bs a b : In b (without bs a) <-> In b bs /\ addr b <> a.
Proof. unfold without. rewrite filter_In. destruct (Z.eqb_spec (addr b) a); cbn [negb]; intuition congruence. Qed.
Lemma is_block_ok st us u : blocks st = map sysb us -> In u us -> is_block (blocks st) (addr (sysb u)) = true.
Proof.
  intros E U. unfold is_block. apply existsb_exists. exists (sysb u). rewrite E. split; [now apply in_map|apply Z.eqb_refl].
Qed.
Lemma drop_in u us v : In v (drop u us) -> In v us /\ uptr v <> uptr u.
Proof. unfold drop. rewrite filter_In. destruct (Z.eqb_spec (uptr v) (uptr u)); cbn [negb]; intuition congruence. Qed.

Lemma realloc_step w st us peak u size ans : inv w st us peak -> In u us -> askable (ualign u) size ->
  legal_realloc w st (realloc_request (uptr u) size (ualign u)) ans ->
  exists st' p, realloc ans st (uptr u) size (ualign u) = Some (st', p) /\
  (p = 0 <-> ans = None) /\
  (p = 0 -> st' = st) /\
  (p <> 0 -> inv w st' ({| uptr := p; usize := size; ualign := ualign u |} :: drop u us) (Z.max peak (total us - usize u + size)) /\
    0 < p /\
    same_bytes (mem st) (uptr u) (mem st') p (Z.min (usize u) size) /\
    forall v, In v us -> v <> u -> same_bytes (mem st) (uptr v) (mem st') (uptr v) (usize v)).
Proof.
  intros I U A L. unfold realloc, provider_realloc, realloc_request in *. destruct (inv_get I U) as [R Gz]. rewrite R in *. rewrite Gz.
  pose proof (i_blocks I) as Eb. rewrite (is_block_ok Eb U).
  destruct ans as [[tmp m]|]; cycle 1.
  { exists st, 0. cbn. repeat split; auto; congruence. }
  destruct (ask_off A) as (Eo & Es & Ap & M8 & Ma). pose proof (ask_size A) as S1.
  cbn [legal_realloc fst snd] in *. rewrite Es in *. destruct L as (Al & F & K & C). unfold correct_align, overhead_get_align in Al.
  pose proof (i_good I) as G0. pose proof G0 as G. rewrite Forall_forall in G. pose proof (G u U) as Gu.
  pose proof (goods_size G0) as Sz. pose proof (drop_sys Sz (i_apart I) U) as Ed.
  assert (F' : fresh (fun b => In b (map sysb (drop u us))) tmp (size + Z.max (ualign u) 8)).
  { destruct F as (F1 & F2 & F3). split; [exact F1|]. split; [exact F2|]. intros b B. rewrite Ed, <- Eb in B. apply F3. apply without_in. exact B. }
  assert (K' : keeps (fun b => In b (map sysb (drop u us))) (mem st) m).
  { intros b x B. rewrite Ed, <- Eb in B. apply K. apply without_in. exact B. }
  assert (A8 : tmp mod 8 = 0) by (apply mod_trans with (b := if w then Z.max (ualign u) 8 else 16); auto; destruct w; auto; try reflexivity; lia).
  assert (Aa : w = true \/ ualign u <= 16 -> tmp mod ualign u = 0).
  { destruct A as ((k & Kk & Ek) & _). intros [->|W].
    - apply mod_trans with (b := Z.max (ualign u) 8); auto; lia.
    - destruct w; [apply mod_trans with (b := Z.max (ualign u) 8); auto; lia|]. apply mod_trans with (b := 16); auto; [lia|]. exact (pow16 Kk Ek W). }
  assert (Gd : Forall (good w st) (drop u us)) by (rewrite Forall_forall; intros v V; apply G; apply drop_in in V; tauto).
  destruct (new_block Gd A Aa A8 F' K') as (N1 & N2 & N3).
  unfold set_overhead. cbn [blocks mem cnt].
  assert (Wd : word_at ({| addr := tmp; len := size + Z.max (ualign u) 8 |} :: without (blocks st) (addr (sysb u))) tmp = true)
    by (apply fresh_word; [lia|exact A8]).
  rewrite Wd. unfold correct_pointer. rewrite Eo. cbn [blocks mem cnt].
  destruct F as (P & E & D). destruct (Z.eqb_spec (tmp + Z.max (ualign u) 8) 0) as [Z0|Z0]; [lia|].
  eexists. eexists. split; [reflexivity|]. split; [split; [lia|discriminate]|]. split; [lia|]. intros _.
  set (nu := {| uptr := _; usize := size; ualign := _ |}) in *.
  set (st' := {| blocks := _ :: _; mem := _; cnt := _ |}).
  assert (Gs : Forall (good w st') (nu :: drop u us)) by (apply N3; reflexivity).
  assert (Ap' : ForallOrdPairs sapart (nu :: drop u us)).
  { constructor; [rewrite Forall_forall; intros v V; apply N2, V|]. apply fop_filter. exact (i_apart I). }
  destruct (total_bound Gs Ap') as [T1 T2]. destruct (total_bound G0 (i_apart I)) as [T3 T4].
  destruct (drop_sum Sz (i_apart I) U) as [D1 D2].
  change (total (nu :: drop u us)) with (size + total (drop u us)) in T1. rewrite D1 in T1.
  cbn [length] in T2. rewrite Nat2Z.inj_succ in T2.
  assert (Eu : wrap (memory_using (cnt st) + wrap (size - usize u)) = total us + (size - usize u)) by (rewrite (i_using I); apply wrap_plus; [apply wrap_idem|lia]).
  split; [|split; [lia|split]].
  - constructor; auto.
    + cbn [blocks map st']. rewrite N1, Ed, Eb. reflexivity.
    + cbn [total fold_right usize nu]. fold (total (drop u us)). lia.
    + cbn [cnt update_memory_using memory_using total fold_right usize st' nu]. fold (total (drop u us)). rewrite Eu. lia.
    + cbn [cnt update_memory_using memory_using memory_using_max st']. rewrite Eu, (i_max I). pose proof (i_peak I).
      destruct (Z.ltb_spec peak (total us + (size - usize u))); lia.
    + cbn [cnt update_memory_using alloc_size free_size st' total fold_right usize nu]. fold (total (drop u us)).
      rewrite (wrap_shift (t := total us) (d := size - usize u)); [lia|exact (i_size I)|apply wrap_idem|lia].
    + cbn [cnt update_memory_using alloc_count free_count st' length]. rewrite (i_count I). lia.
  - intros i Hi. cbn [mem st']. rewrite put_other by lia.
    replace (tmp + Z.max (ualign u) 8 + i) with (tmp + (Z.max (ualign u) 8 + i)) by lia.
    replace (uptr u + i) with (addr (sysb u) + (Z.max (ualign u) 8 + i)) by (unfold sysb, off; cbn [addr]; lia).
    apply (C (sysb u)); [rewrite Eb; now apply in_map|reflexivity|unfold sysb, off; cbn [len]; lia|lia].
  - intros v V Ne i Hi. cbn [mem st'].
    assert (Vd : In v (drop u us)).
    { unfold drop. apply filter_In. split; [exact V|]. destruct (fop_cases (i_apart I) U V) as [->|Av]; [congruence|].
      rewrite Forall_forall in Sz. destruct (sapart_ptr (Sz u U) (Sz v V) Av) as [Np _]. destruct (Z.eqb_spec (uptr v) (uptr u)); [congruence|reflexivity]. }
    apply (N2 v Vd). unfold sysb, off. cbn [addr len]. lia.
Qed.
Lemma free_step w st us peak u m : inv w st us peak -> In u us -> legal_free st (recorrect_pointer (uptr u) (ualign u)) m ->
  exists st', free m st (uptr u) (ualign u) = Some st' /\ inv w st' (drop u us) peak /\
    forall v, In v us -> v <> u -> same_bytes (mem st) (uptr v) (mem st') (uptr v) (usize v).
Proof.
  intros I U L. destruct (inv_get I U) as [R Gz]. unfold free. rewrite Gz. unfold provider_free. cbn [blocks mem cnt]. rewrite R in *.
  pose proof (i_blocks I) as Eb. rewrite (is_block_ok Eb U).
  pose proof (i_good I) as G0. pose proof G0 as G. rewrite Forall_forall in G. pose proof (G u U) as Gu.
  pose proof (goods_size G0) as Sz. pose proof (drop_sys Sz (i_apart I) U) as Ed. destruct (drop_sum Sz (i_apart I) U) as [D1 D2].
  destruct (Z.eqb_spec (usize u) (2 ^ 63)) as [Bad|_].
  { pose proof (g_addr Gu). pose proof (g_end Gu). unfold sysb, off in *. cbn [addr len] in *. lia. }
  eexists. split; [reflexivity|].
  assert (K : forall v x, In v (drop u us) -> addr (sysb v) <= x < addr (sysb v) + len (sysb v) -> m x = mem st x).
  { intros v x V X. apply (L (sysb v)); [|exact X]. apply without_in. rewrite Eb, <- Ed. now apply in_map. }
  destruct (total_bound G0 (i_apart I)) as [T3 T4].
  assert (Gd : Forall (good w st) (drop u us)) by (rewrite Forall_forall; intros v V; apply G; apply drop_in in V; tauto).
  destruct (total_bound Gd (fop_filter _ (i_apart I))) as [T1 T2]. fold (drop u us) in T1, T2. rewrite D1 in T1. rewrite D2 in T2.
  assert (Eu : wrap (memory_using (cnt st) + - usize u) = total us - usize u) by (rewrite (i_using I); apply wrap_small; lia).
  pose proof (ask_size (g_ask Gu)) as Su. pose proof (i_peak I) as Pk. split.
  - constructor.
    + cbn [blocks]. rewrite Ed, Eb. reflexivity.
    + rewrite Forall_forall in *. intros v V. apply good_keep with (st := st); [auto|]. intros x X. cbn [mem]. apply (K v x V).
      pose proof (ask_size (g_ask (Gd v V))). unfold sysb, off in *. cbn [addr len] in *. lia.
    + apply fop_filter. exact (i_apart I).
    + lia.
    + cbn [cnt update_memory_using memory_using]. rewrite Eu, D1. reflexivity.
    + cbn [cnt update_memory_using memory_using memory_using_max]. rewrite Eu, (i_max I). destruct (Z.ltb_spec peak (total us - usize u)); lia.
    + cbn [cnt update_memory_using alloc_size free_size]. rewrite D1. apply wrap_shift_r; [exact (i_size I)|lia].
    + cbn [cnt update_memory_using alloc_count free_count]. rewrite D2. apply wrap_shift_r; [exact (i_count I)|lia].
  - intros v V Ne i Hi. cbn [mem].
    assert (Vd : In v (drop u us)).
    { unfold drop. apply filter_In. split; [exact V|]. destruct (fop_cases (i_apart I) U V) as [->|Av]; [congruence|].
      rewrite Forall_forall in Sz. destruct (sapart_ptr (Sz u U) (Sz v V) Av) as [Np _]. destruct (Z.eqb_spec (uptr v) (uptr u)); [congruence|reflexivity]. }
    apply (K v _ Vd). unfold sysb, off. cbn [addr len]. lia.
Qed.
Lemma inv_init w m : inv w {| blocks := []; mem := m; cnt := zero_counters |} [] 0.
Proof. constructor; try reflexivity; constructor. Qed.
Lemma write_step w st us peak u i v : inv w st us peak -> In u us -> 0 <= i < usize u ->
  inv w {| blocks := blocks st; mem := fun x => if x =? uptr u + i then v else mem st x; cnt := cnt st |} us peak.
Proof.
  intros I U Hi. destruct I as [I1 I2 I3 I4 I5 I6 I7 I8]. constructor; auto. rewrite Forall_forall in *. intros x X.
  apply good_keep with (st := st); [auto|]. intros y Y. cbn [mem]. destruct (Z.eqb_spec y (uptr u + i)) as [->|_]; [exfalso|reflexivity].
  pose proof (ask_size (g_ask (I2 x X))). destruct (fop_cases I3 U X) as [->|A]; unfold sapart, apart, sysb, off in *; cbn [addr len] in *; lia.
Qed.
Lemma clear_step w st peak : inv w st [] peak -> inv w (clear st) [] 0.
Proof. intros I. constructor; try reflexivity; try constructor. cbn [clear blocks]. exact (i_blocks I). Qed.
Lemma total_cons u us : total (u :: us) = usize u + total us.
Proof. reflexivity. Qed.
Lemma reach_inv w st us peak : reach w st us peak -> inv w st us peak.
Proof.
  induction 1 as [m|st us peak align size ans st' p R IH A L E us'|st us peak u size ans st' p R IH U A L E us'|st us peak u m st' R IH U L E|st us peak u i v R IH U Hi Hv|st peak R IH].
  - apply inv_init.
  - destruct (alloc_step IH A L) as (s & q & E' & _ & N0 & N1). rewrite E in E'. injection E' as <- <-.
    subst us'. destruct (Z.eqb_spec p 0) as [Ez|Ez].
    + rewrite (N0 Ez), Z.max_l by exact (i_peak IH). exact IH.
    + destruct (N1 Ez) as [I _]. rewrite total_cons. cbn [usize]. replace (size + total us) with (total us + size) by lia. exact I.
  - destruct (realloc_step IH U A L) as (s & q & E' & _ & N0 & N1). rewrite E in E'. injection E' as <- <-.
    subst us'. destruct (Z.eqb_spec p 0) as [Ez|Ez].
    + rewrite (N0 Ez), Z.max_l by exact (i_peak IH). exact IH.
    + destruct (N1 Ez) as [I _]. rewrite total_cons. cbn [usize].
      destruct (drop_sum (goods_size (i_good IH)) (i_apart IH) U) as [D1 _]. rewrite D1.
      replace (size + (total us - usize u)) with (total us - usize u + size) by lia. exact I.
  - destruct (free_step IH U L) as (s & E' & I & _). rewrite E in E'. injection E' as <-. exact I.
  - now apply write_step.
  - now apply (clear_step IH).
Qed.
Lemma reach_held w st us peak : reach w st us peak ->
  (forall u, In u us -> held st u /\ (w = true \/ ualign u <= 16 -> uptr u mod ualign u = 0)) /\ separate us /\ length (blocks st) = length us.
Proof.
  intros R. apply reach_inv in R. split; [|split].
  - intros u U. pose proof (i_good R) as G. rewrite Forall_forall in G. specialize (G u U). split; [|exact (g_align G)].
    destruct (inv_get R U) as [_ Gz]. pose proof (g_addr G). pose proof (g_end G). unfold held, sysb, off in *. cbn [addr len] in *.
    split; [lia|]. split; [lia|exact Gz].
  - apply sapart_separate. exact (i_apart R).
  - rewrite (i_blocks R), map_length. reflexivity.
Qed.
