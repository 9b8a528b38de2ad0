(** Proofs about the sorting functions. *)
From Verif Require Import Base Sort_Model Sort_Spec.
Local Open Scope omonad_scope.

Lemma set_nth_some {A} (a : list A) i v : i < length a ->
  exists a', set_nth i v a = Some a' /\ length a' = length a /\
    forall k, nth_error a' k = if Nat.eqb k i then Some v else nth_error a k.
Proof.
  revert i. induction a as [|x r IH]; intros i Hi; cbn in Hi; [lia|].
  destruct i as [|i].
  - exists (v :: r). repeat split. intros [|k]; reflexivity.
  - destruct (IH i) as (r' & E & L & N); [lia|]. cbn. rewrite E. cbn.
    exists (x :: r'). repeat split; [cbn; lia|]. intros [|k]; cbn; [reflexivity|]. apply N.
Qed.
Lemma nth_error_some {A} (a : list A) i : i < length a -> exists x, nth_error a i = Some x.
Proof. intros H. destruct (nth_error a i) eqn:E; [eauto|]. apply nth_error_None in E. lia. Qed.
Lemma nth_error_lt {A} (a : list A) i x : nth_error a i = Some x -> i < length a.
Proof. intros H. apply nth_error_Some. congruence. Qed.
Lemma list_ext {A} (a b : list A) : (forall k, nth_error a k = nth_error b k) -> a = b.
Proof.
  revert b. induction a as [|x r IH]; intros [|y s] H; try reflexivity;
    try (specialize (H 0); discriminate).
  f_equal; [specialize (H 0); cbn in H; congruence|].
  apply IH. intros k. exact (H (S k)).
Qed.

Section Sort.
  Variable A : Type.
  Variable cmp : A -> A -> comparison.
  Notation swap := (@swap A).

  Lemma swap_spec (a : list A) i j : i < length a -> j < length a ->
    exists a' x y, swap a i j = Some a' /\ nth_error a i = Some x /\ nth_error a j = Some y /\
      length a' = length a /\
      forall k, nth_error a' k = if Nat.eqb k j then Some x else if Nat.eqb k i then Some y else nth_error a k.
  Proof.
    intros Hi Hj. destruct (nth_error_some Hi) as [x Ex], (nth_error_some Hj) as [y Ey].
    destruct (@set_nth_some _ a i y Hi) as (a1 & E1 & L1 & N1).
    destruct (@set_nth_some _ a1 j x) as (a2 & E2 & L2 & N2); [lia|].
    exists a2, x, y. unfold Sort_Model.swap. rewrite Ex, Ey. cbn. rewrite E1. cbn.
    repeat split; auto; [lia|]. intros k. rewrite N2, N1. reflexivity.
  Qed.

  (** Reachable by swaps inside [b, e). *)
  Inductive perm_in (b e : nat) : list A -> list A -> Prop :=
  | pi_refl a : perm_in b e a a
  | pi_swap a a' a'' i j : b <= i < e -> b <= j < e -> i < length a -> j < length a ->
      swap a i j = Some a' -> perm_in b e a' a'' -> perm_in b e a a''.

  Lemma perm_in_trans b e a a' a'' : perm_in b e a a' -> perm_in b e a' a'' -> perm_in b e a a''.
  Proof. induction 1; intros; auto. eapply pi_swap with (i := i) (j := j); eauto. Qed.
  Lemma perm_in_swap b e a a' i j : b <= i < e -> b <= j < e -> i < length a -> j < length a ->
    swap a i j = Some a' -> perm_in b e a a'.
  Proof. intros. eapply pi_swap with (i := i) (j := j); eauto. constructor. Qed.
  Lemma perm_in_mono b e b' e' a a' : b' <= b -> e <= e' -> perm_in b e a a' -> perm_in b' e' a a'.
  Proof. intros Hb He. induction 1; [constructor|]. eapply pi_swap with (i := i) (j := j); eauto; lia. Qed.
  Lemma perm_in_len b e a a' : perm_in b e a a' -> length a' = length a.
  Proof.
    induction 1; auto. destruct (swap_spec H1 H2) as (c & x & y & E & _ & _ & L & _).
    rewrite H3 in E. injection E as ->. lia.
  Qed.
  Lemma perm_in_out b e a a' k : perm_in b e a a' -> (k < b \/ e <= k) -> nth_error a' k = nth_error a k.
  Proof.
    induction 1; intros Hk; auto. destruct (swap_spec H1 H2) as (c & x & y & E & _ & _ & L & N).
    rewrite H3 in E. injection E as ->. rewrite IHperm_in by auto. rewrite N.
    destruct (Nat.eqb_spec k j), (Nat.eqb_spec k i); try lia; auto.
  Qed.
  Lemma perm_in_all b e a a' (P : A -> Prop) : perm_in b e a a' ->
    (forall k x, b <= k < e -> nth_error a k = Some x -> P x) ->
    (forall k x, b <= k < e -> nth_error a' k = Some x -> P x).
  Proof.
    induction 1; intros Hk; auto. apply IHperm_in.
    destruct (swap_spec H1 H2) as (c & x & y & E & Ex & Ey & L & N).
    rewrite H3 in E. injection E as ->. intros k z Hr. rewrite N.
    destruct (Nat.eqb_spec k j); [intros [= ->]; eapply Hk with (k := i); eauto|].
    destruct (Nat.eqb_spec k i); [intros [= ->]; eapply Hk with (k := j); eauto|].
    apply Hk; auto.
  Qed.
  Lemma swap_perm a a' i j : i < length a -> j < length a -> swap a i j = Some a' -> Permutation a a'.
  Proof.
    intros Hi Hj E. destruct (swap_spec Hi Hj) as (c & x & y & E' & Ex & Ey & L & N).
    rewrite E in E'. injection E' as ->.
    apply Permutation_nth_error. split; [auto|].
    exists (fun k => if Nat.eqb k j then i else if Nat.eqb k i then j else k). split.
    - intros u v. destruct (Nat.eqb_spec u j), (Nat.eqb_spec v j), (Nat.eqb_spec u i), (Nat.eqb_spec v i); lia.
    - intros k. rewrite N. destruct (Nat.eqb_spec k j); [congruence|].
      destruct (Nat.eqb_spec k i); [congruence|reflexivity].
  Qed.
  Lemma perm_in_perm b e a a' : perm_in b e a a' -> Permutation a a'.
  Proof.
    induction 1; [apply Permutation_refl|]. apply Permutation_trans with a'; [|assumption].
    exact (swap_perm H1 H2 H3).
  Qed.

  Lemma firstn_out b e a a' : perm_in b e a a' -> firstn b a' = firstn b a.
  Proof.
    intros H. apply list_ext. intros k. destruct (Nat.ltb_spec k b).
    - assert (F : forall l : list A, nth_error (firstn b l) k = nth_error l k).
      { clear - H0. revert b k H0. induction b as [|b IH]; intros k Hk l; [lia|].
        destruct l as [|x l]; [now destruct k|]. destruct k; [reflexivity|]. cbn. apply IH. lia. }
      rewrite !F. eapply perm_in_out; eauto.
    - rewrite (proj2 (nth_error_None _ _)), (proj2 (nth_error_None _ _)); [reflexivity| |];
        rewrite firstn_length; lia.
  Qed.
  Lemma nth_error_skipn (l : list A) n k : nth_error (skipn n l) k = nth_error l (n + k).
  Proof. revert l. induction n as [|n IH]; intros [|x l]; cbn; auto. now destruct k. Qed.
  Lemma skipn_out b e a a' : perm_in b e a a' -> skipn e a' = skipn e a.
  Proof.
    intros H. apply list_ext. intros k. rewrite !nth_error_skipn. eapply perm_in_out; eauto. lia.
  Qed.
  (** The slice [b, e). *)
  Definition slice (b e : nat) (l : list A) := firstn (e - b) (skipn b l).
  Lemma split3 b e (l : list A) : b <= e -> l = firstn b l ++ slice b e l ++ skipn e l.
  Proof.
    intros H. unfold slice. rewrite <- (firstn_skipn b l) at 1. f_equal.
    rewrite <- (firstn_skipn (e - b) (skipn b l)) at 1. f_equal.
    replace e with (b + (e - b)) at 2 by lia.
    apply list_ext. intros k. rewrite !nth_error_skipn. f_equal. lia.
  Qed.
  Lemma perm_in_rearranged b e a a' : b <= e -> e <= length a -> perm_in b e a a' ->
    rearranged b e a a' (slice b e a').
  Proof.
    intros Hbe He H. exists (firstn b a), (slice b e a), (skipn e a).
    split; [now apply split3|]. split.
    { rewrite <- (firstn_out H), <- (skipn_out H). now apply split3. }
    split; [apply firstn_length_le; lia|]. split.
    { unfold slice. rewrite firstn_length, skipn_length. lia. }
    pose proof (perm_in_perm H) as P. rewrite (@split3 b e a Hbe), (@split3 b e a' Hbe) in P.
    rewrite (firstn_out H), (skipn_out H) in P.
    apply Permutation_app_inv_l in P. apply Permutation_app_inv_r in P. exact P.
  Qed.
  Lemma nth_error_slice b e l k : nth_error (slice b e l) k =
    if Nat.ltb k (e - b) then nth_error l (b + k) else None.
  Proof.
    unfold slice. destruct (Nat.ltb_spec k (e - b)).
    - rewrite <- nth_error_skipn. generalize (skipn b l). clear - H. revert k H.
      generalize (e - b). induction n as [|n IH]; intros k Hk l; [lia|].
      destruct l as [|x l]; [now destruct k|]. destruct k; [reflexivity|]. cbn. apply IH. lia.
    - apply nth_error_None. rewrite firstn_length. lia.
  Qed.

  (** *** Safety: every function succeeds on in-range bounds and only swaps. *)
  Lemma pick_spec a e c cur : e <= length a -> cur < length a ->
    exists r, pick cmp a e c cur = Some r /\ (r = cur \/ (r = c /\ c < e)).
  Proof.
    intros He Hc. unfold pick. destruct (Nat.ltb_spec c e); [|eauto].
    destruct (@nth_error_some _ a c) as [x Ex]; [lia|]. destruct (nth_error_some Hc) as [y Ey].
    rewrite Ex, Ey. cbn. destruct (gtb cmp x y); eauto.
  Qed.

  Lemma heapify_safe f : forall a b e i, b <= i -> i < length a -> e <= length a -> e - i < f ->
    exists a', heapify cmp f a b e i = Some a' /\ perm_in b e a a'.
  Proof.
    induction f as [|f IH]; intros a b e i Hb Hi He Hf; [lia|]. cbn [heapify].
    set (l := b + 2 * (i - b) + 1).
    destruct (@pick_spec a e l i He Hi) as (l1 & E1 & H1). rewrite E1. cbn [obind].
    assert (l1 < length a) by (subst l; lia).
    destruct (@pick_spec a e (l + 1) l1 He H) as (l2 & E2 & H2). rewrite E2. cbn [obind].
    destruct (Nat.eqb_spec l2 i); [exists a; split; [reflexivity|constructor]|].
    assert (l2 < e /\ i < l2) by (subst l; lia).
    destruct (@swap_spec a i l2) as (a1 & x & y & E & _ & _ & L & _); [lia..|].
    rewrite E. cbn [obind].
    destruct (IH a1 b e l2) as (a' & E' & P); [lia..|].
    exists a'. split; [exact E'|]. eapply pi_swap with (i := i) (j := l2); eauto; lia.
  Qed.
  Lemma build_loop_safe k : forall a b e, b + k <= e -> e <= length a ->
    exists a', build_loop cmp k a b e = Some a' /\ perm_in b e a a'.
  Proof.
    induction k as [|i IH]; intros a b e Hk He; cbn [build_loop]; [exists a; split; [auto|constructor]|].
    destruct (@heapify_safe (S (e - b)) a b e (b + i)) as (a1 & E1 & P1); [lia..|].
    rewrite E1. cbn [obind]. pose proof (perm_in_len P1).
    destruct (IH a1 b e) as (a' & E' & P'); [lia..|]. exists a'. split; auto.
    eapply perm_in_trans; eauto.
  Qed.
  Lemma half_le n : n / 2 <= n.
  Proof. apply Nat.div_le_upper_bound; lia. Qed.
  Lemma build_max_heap_safe a b e : b <= e -> e <= length a ->
    exists a', build_max_heap cmp a b e = Some a' /\ perm_in b e a a'.
  Proof. intros. apply build_loop_safe; auto. pose proof (half_le (e - b)). lia. Qed.
  Lemma heapsort_loop_safe k : forall a b e, b + k <= e -> e <= length a ->
    exists a', heapsort_loop cmp k a b e = Some a' /\ perm_in b e a a'.
  Proof.
    induction k as [|i IH]; intros a b e Hk He; cbn [heapsort_loop]; [exists a; split; [auto|constructor]|].
    destruct (@swap_spec a b (b + i)) as (a1 & x & y & E & _ & _ & L & _); [lia..|].
    rewrite E. cbn [obind].
    destruct (@heapify_safe (S (e - b)) a1 b (b + i) b) as (a2 & E2 & P2); [lia..|].
    rewrite E2. cbn [obind]. pose proof (perm_in_len P2).
    destruct (IH a2 b e) as (a' & E' & P'); [lia..|]. exists a'. split; auto.
    eapply pi_swap with (i := b) (j := b + i); eauto; [lia..|].
    eapply perm_in_trans; [eapply perm_in_mono; [| |exact P2]; lia|exact P'].
  Qed.
  Lemma heapsort_safe a b e : b <= e -> e <= length a ->
    exists a', heapsort cmp a b e = Some a' /\ perm_in b e a a'.
  Proof.
    intros Hb He. unfold heapsort. destruct (build_max_heap_safe Hb He) as (a1 & E1 & P1).
    rewrite E1. cbn [obind]. pose proof (perm_in_len P1).
    destruct (@heapsort_loop_safe (e - b) a1 b e) as (a' & E' & P'); [lia..|].
    exists a'. split; auto. eapply perm_in_trans; eauto.
  Qed.

  (** One insertion: [a0] is the array with the key written at the hole. *)
  Lemma ins_shift_spec h : forall a b key a0, b <= h -> h < length a -> set_nth h key a = Some a0 ->
    exists a' p, ins_shift cmp h a b key = Some a' /\ perm_in b (S h) a0 a' /\ b <= p <= h /\
      nth_error a' p = Some key /\
      (forall k, k < p -> nth_error a' k = nth_error a k) /\
      (forall k, p < k <= h -> nth_error a' k = nth_error a (k - 1)) /\
      (forall k, h < k -> nth_error a' k = nth_error a k) /\
      (forall k x, p <= k < h -> nth_error a k = Some x -> gtb cmp x key = true) /\
      (b < p -> exists x, nth_error a (p - 1) = Some x /\ gtb cmp x key = false).
  Proof.
    induction h as [|j IH]; intros a b key a0 Hb Hh E0.
    - exists a0, 0. cbn [ins_shift]. destruct (@set_nth_some _ a 0 key Hh) as (a1 & E1 & L1 & N1).
      rewrite E0 in E1. injection E1 as ->. repeat split; auto; try lia; [constructor| |].
      + rewrite N1. reflexivity.
      + intros k Hk. rewrite N1. destruct (Nat.eqb_spec k 0); [lia|auto].
    - cbn [ins_shift]. destruct (@set_nth_some _ a (S j) key Hh) as (a1 & E1 & L1 & N1).
      rewrite E0 in E1. injection E1 as ->.
      assert (Stop : forall P, (b < S j -> exists x, nth_error a j = Some x /\ gtb cmp x key = false) ->
        P = set_nth (S j) key a -> exists a' p, P = Some a' /\ perm_in b (S (S j)) a1 a' /\ b <= p <= S j /\
        nth_error a' p = Some key /\
        (forall k, k < p -> nth_error a' k = nth_error a k) /\
        (forall k, p < k <= S j -> nth_error a' k = nth_error a (k - 1)) /\
        (forall k, S j < k -> nth_error a' k = nth_error a k) /\
        (forall k x, p <= k < S j -> nth_error a k = Some x -> gtb cmp x key = true) /\
        (b < p -> exists x, nth_error a (p - 1) = Some x /\ gtb cmp x key = false)).
      { intros P HP ->. exists a1, (S j). repeat split; auto; try lia; [constructor| | | |].
        - rewrite N1, Nat.eqb_refl. reflexivity.
        - intros k Hk. rewrite N1. destruct (Nat.eqb_spec k (S j)); [lia|auto].
        - intros k Hk. rewrite N1. destruct (Nat.eqb_spec k (S j)); [lia|auto].
        - intros H. replace (S j - 1) with j by lia. auto. }
      destruct (Nat.leb_spec b j); [|apply Stop; auto; lia].
      destruct (@nth_error_some _ a j) as [x Ex]; [lia|]. rewrite Ex. cbn [obind].
      destruct (gtb cmp x key) eqn:G; [|apply Stop; eauto].
      destruct (@set_nth_some _ a (S j) x Hh) as (a2 & E2 & L2 & N2). rewrite E2. cbn [obind].
      destruct (@set_nth_some _ a2 j key) as (a3 & E3 & L3 & N3); [lia|].
      destruct (IH a2 b key a3) as (a' & p & E & P & Hp & Np & Nlo & Nmid & Nhi & Hgt & Hle); [lia..|exact E3|].
      exists a', p. split; [exact E|]. split.
      { destruct (@swap_spec a1 j (S j)) as (a4 & u & v & E4 & Eu & Ev & L4 & N4); [lia..|].
        assert (a4 = a3).
        { apply list_ext. intros k. rewrite N4, N3, N2.
          rewrite N1 in Eu, Ev. destruct (Nat.eqb_spec j (S j)); [lia|]. rewrite Nat.eqb_refl in Ev.
          destruct (Nat.eqb_spec k (S j)), (Nat.eqb_spec k j); try lia; try congruence.
          rewrite N1. destruct (Nat.eqb_spec k (S j)); [lia|reflexivity]. }
        subst a4. eapply pi_swap with (i := j) (j := S j); eauto; [lia..|].
        eapply perm_in_mono; [| |exact P]; lia. }
      split; [lia|]. split; [auto|]. split.
      { intros k Hk. rewrite Nlo by auto. rewrite N2. destruct (Nat.eqb_spec k (S j)); [lia|auto]. }
      split.
      { intros k Hk. destruct (Nat.eq_dec k (S j)) as [->|Hne].
        - rewrite Nhi by lia. rewrite N2, Nat.eqb_refl. replace (S j - 1) with j by lia. auto.
        - rewrite Nmid by lia. rewrite N2. destruct (Nat.eqb_spec (k - 1) (S j)); [lia|auto]. }
      split.
      { intros k Hk. rewrite Nhi by lia. rewrite N2. destruct (Nat.eqb_spec k (S j)); [lia|auto]. }
      split.
      { intros k z Hk Hz. destruct (Nat.eq_dec k j) as [->|Hne]; [congruence|].
        eapply Hgt with (k := k); [lia|]. rewrite N2. destruct (Nat.eqb_spec k (S j)); [lia|auto]. }
      intros Hbp. destruct (Hle Hbp) as (z & Ez & Gz). exists z. split; auto.
      rewrite N2 in Ez. destruct (Nat.eqb_spec (p - 1) (S j)); [lia|auto].
  Qed.
  Lemma set_nth_same (a : list A) i x : nth_error a i = Some x -> set_nth i x a = Some a.
  Proof.
    intros H. destruct (@set_nth_some _ a i x (nth_error_lt H)) as (a' & E & L & N).
    rewrite E. f_equal. apply list_ext. intros k. rewrite N.
    destruct (Nat.eqb_spec k i); congruence.
  Qed.
  Lemma ins_loop_safe k : forall i a b, b <= i -> i + k <= length a ->
    exists a', ins_loop cmp k i a b = Some a' /\ perm_in b (i + k) a a'.
  Proof.
    induction k as [|k IH]; intros i a b Hb Hk; cbn [ins_loop]; [exists a; split; [auto|constructor]|].
    destruct (@nth_error_some _ a i) as [key Ek]; [lia|]. rewrite Ek. cbn [obind].
    destruct (@ins_shift_spec i a b key a) as (a1 & p & E1 & P1 & _); [lia|lia|now apply set_nth_same|].
    rewrite E1. cbn [obind]. pose proof (perm_in_len P1).
    destruct (IH (S i) a1 b) as (a' & E' & P'); [lia..|]. exists a'. split; auto.
    eapply perm_in_trans; [eapply perm_in_mono; [| |exact P1]|eapply perm_in_mono; [| |exact P']]; lia.
  Qed.
  Lemma insertion_sort_safe a b e : b <= e -> e <= length a ->
    exists a', insertion_sort cmp a b e = Some a' /\ perm_in b e a a'.
  Proof.
    intros Hb He. unfold insertion_sort. destruct (Nat.eq_dec b e) as [->|Hne].
    - replace (e - (e + 1)) with 0 by lia. exists a. split; [reflexivity|constructor].
    - destruct (@ins_loop_safe (e - (b + 1)) (b + 1) a b) as (a' & E & P); [lia..|].
      exists a'. split; auto. replace (b + 1 + (e - (b + 1))) with e in P by lia. exact P.
  Qed.

  Lemma part_loop_spec k : forall a b pv i j, b <= i -> i <= j -> j + k = pv -> pv < length a ->
    exists a' q, part_loop cmp k a pv i j = Some (a', q) /\ perm_in b pv a a' /\ i <= q <= pv /\
      forall pvx, nth_error a pv = Some pvx ->
      (forall m x, b <= m < i -> nth_error a m = Some x -> ltb cmp x pvx = true) ->
      (forall m x, i <= m < j -> nth_error a m = Some x -> ltb cmp x pvx = false) ->
      (forall m x, b <= m < q -> nth_error a' m = Some x -> ltb cmp x pvx = true) /\
      (forall m x, q <= m < pv -> nth_error a' m = Some x -> ltb cmp x pvx = false).
  Proof.
    induction k as [|k IH]; intros a b pv i j Hb Hi Hj Hp; cbn [part_loop].
    { exists a, i. split; [auto|]. split; [constructor|]. split; [lia|]. intros pvx Ep Hlo Hhi.
      replace pv with j by lia. auto. }
    destruct (@nth_error_some _ a j) as [x Ex]; [lia|]. destruct (nth_error_some Hp) as [p Ep].
    rewrite Ex, Ep. cbn [obind]. destruct (ltb cmp x p) eqn:G.
    - destruct (@swap_spec a i j) as (a1 & u & v & E & Eu & Ev & L & N); [lia..|]. rewrite E. cbn [obind].
      destruct (IH a1 b pv (S i) (S j)) as (a' & q & E' & P & Hq & Inv); [lia..|].
      exists a', q. split; [auto|]. split.
      { eapply pi_swap with (i := i) (j := j); eauto; lia. }
      split; [lia|]. intros pvx Ep' Hlo Hhi. assert (pvx = p) as -> by congruence.
      assert (v = x) as -> by congruence.
      apply Inv.
      + rewrite N. destruct (Nat.eqb_spec pv j), (Nat.eqb_spec pv i); try lia. auto.
      + intros m z Hm. rewrite N. destruct (Nat.eqb_spec m j), (Nat.eqb_spec m i); intros Hz; try lia.
        * subst. congruence.
        * congruence.
        * eapply Hlo; [|exact Hz]. lia.
      + intros m z Hm. rewrite N. destruct (Nat.eqb_spec m j), (Nat.eqb_spec m i); intros Hz; try lia.
        * eapply Hhi with (m := i); [lia|congruence].
        * eapply Hhi; [|exact Hz]; lia.
    - destruct (IH a b pv i (S j)) as (a' & q & E' & P & Hq & Inv); [lia..|].
      exists a', q. split; [auto|]. split; [auto|]. split; [lia|]. intros pvx Ep' Hlo Hhi.
      assert (pvx = p) as -> by congruence. apply Inv; auto.
      intros m z Hm Hz. destruct (Nat.eq_dec m j) as [->|]; [congruence|]. eapply Hhi; [|exact Hz]; lia.
  Qed.
  Lemma partition_spec a b e : b < e -> e <= length a ->
    exists a' q pvx, partition cmp a b e = Some (a', q) /\ perm_in b e a a' /\ b <= q < e /\
      nth_error a' q = Some pvx /\
      (forall m x, b <= m < q -> nth_error a' m = Some x -> ltb cmp x pvx = true) /\
      (forall m x, q < m < e -> nth_error a' m = Some x -> ltb cmp x pvx = false).
  Proof.
    intros Hb He. unfold partition.
    destruct (@part_loop_spec (e - 1 - b) a b (e - 1) b b) as (a1 & q & E1 & P1 & Hq & Inv); [lia..|].
    rewrite E1. cbn [obind]. pose proof (perm_in_len P1).
    destruct (@swap_spec a1 q (e - 1)) as (a2 & u & v & E2 & Eu & Ev & L & N); [lia..|].
    rewrite E2. cbn [obind]. exists a2, q, v. split; [auto|]. split.
    { eapply perm_in_trans; [eapply perm_in_mono; [| |exact P1]; lia|].
      eapply perm_in_swap with (i := q) (j := e - 1); eauto; lia. }
    split; [lia|].
    rewrite (perm_in_out P1) in Ev by lia. destruct (Inv v Ev) as [Hlo Hhi]; [intros; lia..|].
    split.
    { rewrite N, Nat.eqb_refl. destruct (Nat.eqb_spec q (e - 1)); [|reflexivity].
      subst q. rewrite (perm_in_out P1) in Eu by lia. congruence. }
    split.
    - intros m x Hm. rewrite N. destruct (Nat.eqb_spec m (e - 1)), (Nat.eqb_spec m q); try lia.
      intros Hx. eapply Hlo; eauto.
    - intros m x Hm. rewrite N. destruct (Nat.eqb_spec m (e - 1)), (Nat.eqb_spec m q); try lia.
      + intros [= <-]. eapply Hhi with (m := q); eauto. lia.
      + intros Hx. eapply Hhi with (m := m); eauto. lia.
  Qed.
  Lemma quicksort_safe f : forall a b e, b <= e -> e <= length a -> e - b < f ->
    exists a', quicksort cmp f a b e = Some a' /\ perm_in b e a a'.
  Proof.
    induction f as [|f IH]; intros a b e Hb He Hf; [lia|]. cbn [quicksort].
    destruct (Nat.ltb_spec 1 (e - b)); [|exists a; split; [auto|constructor]].
    destruct (@partition_spec a b e) as (a1 & q & pvx & E1 & P1 & Hq & _); [lia..|].
    rewrite E1. cbn [obind]. pose proof (perm_in_len P1).
    destruct (IH a1 b q) as (a2 & E2 & P2); [lia..|]. rewrite E2. cbn [obind].
    pose proof (perm_in_len P2). destruct (IH a2 (q + 1) e) as (a' & E' & P'); [lia..|].
    exists a'. split; auto. eapply perm_in_trans; [exact P1|].
    eapply perm_in_trans; [eapply perm_in_mono; [| |exact P2]|eapply perm_in_mono; [| |exact P']]; lia.
  Qed.
  Lemma introsort_loop_safe f : forall d a b e, b <= e -> e <= length a -> e - b < f ->
    exists a', introsort_loop cmp f d a b e = Some a' /\ perm_in b e a a'.
  Proof.
    induction f as [|f IH]; intros d a b e Hb He Hf; [lia|]. cbn [introsort_loop].
    destruct (Nat.ltb_spec size_threshold (e - b)); [|now apply insertion_sort_safe].
    destruct d as [|d]; [now apply heapsort_safe|].
    unfold size_threshold in *.
    destruct (@partition_spec a b e) as (a1 & q & pvx & E1 & P1 & Hq & _); [lia..|].
    rewrite E1. cbn [obind]. pose proof (perm_in_len P1).
    destruct (IH d a1 (q + 1) e) as (a2 & E2 & P2); [lia..|]. rewrite E2. cbn [obind].
    pose proof (perm_in_len P2). destruct (IH d a2 b q) as (a' & E' & P'); [lia..|].
    exists a'. split; auto. eapply perm_in_trans; [exact P1|].
    eapply perm_in_trans; [eapply perm_in_mono; [| |exact P2]|eapply perm_in_mono; [| |exact P']]; lia.
  Qed.
  Lemma sort_safe d a b e : b <= e -> e <= length a ->
    exists a', sort cmp d a b e = Some a' /\ perm_in b e a a'.
  Proof.
    intros. unfold sort, introsort. destruct (Nat.leb (e - b) size_threshold).
    - now apply insertion_sort_safe.
    - apply introsort_loop_safe; lia.
  Qed.

  (** *** Order *)
  Hypothesis TP : total_preorder cmp.
  Notation le x y := (cmp x y <> Gt).
  Lemma le_trans x y z : le x y -> le y z -> le x z.
  Proof. exact (@tp_trans _ _ TP x y z). Qed.
  Lemma le_refl x : le x x.
  Proof. intros H. pose proof (@tp_sym _ _ TP x x) as E. rewrite H in E. discriminate. Qed.
  Lemma gtb_true x y : gtb cmp x y = true -> le y x.
  Proof.
    unfold gtb. destruct (cmp x y) eqn:E; try discriminate. intros _.
    rewrite (tp_sym TP x y), E. discriminate.
  Qed.
  Lemma gtb_false x y : gtb cmp x y = false -> le x y.
  Proof. unfold gtb. destruct (cmp x y); congruence. Qed.
  Lemma ltb_true x y : ltb cmp x y = true -> le x y.
  Proof. unfold ltb. destruct (cmp x y); congruence. Qed.
  Lemma ltb_false x y : ltb cmp x y = false -> le y x.
  Proof.
    unfold ltb. destruct (cmp x y) eqn:E; try discriminate; intros _;
      rewrite (tp_sym TP x y), E; discriminate.
  Qed.

  Definition sorted_in b e (a : list A) := forall i j x y, b <= i -> i < j -> j < e ->
    nth_error a i = Some x -> nth_error a j = Some y -> le x y.

  Lemma sorted_in_app b q e a : sorted_in b q a -> sorted_in (q + 1) e a ->
    (exists v, nth_error a q = Some v /\ (forall m x, b <= m < q -> nth_error a m = Some x -> le x v) /\
      (forall m x, q < m < e -> nth_error a m = Some x -> le v x)) -> sorted_in b e a.
  Proof.
    intros H1 H2 (v & Ev & Lo & Hi) i j x y Hb Hij Hj Ex Ey.
    destruct (Nat.lt_total j q) as [?|[->|?]].
    - eapply H1 with (i := i) (j := j); eauto.
    - assert (y = v) by congruence. subst. eapply Lo; [|exact Ex]; lia.
    - destruct (Nat.lt_total i q) as [?|[->|?]].
      + apply le_trans with v; [eapply Lo; [|exact Ex]; lia|eapply Hi; [|exact Ey]; lia].
      + assert (x = v) by congruence. subst. eapply Hi; [|exact Ey]; lia.
      + eapply H2 with (i := i) (j := j); eauto. lia.
  Qed.
  Lemma sorted_in_ext b e a a' : (forall k, b <= k < e -> nth_error a' k = nth_error a k) ->
    sorted_in b e a -> sorted_in b e a'.
  Proof. intros N H i j x y Hb Hij Hj. rewrite !N by lia. apply H; auto. Qed.

  (** Heap order of [b, e) for parents at or after [k], except parent [i]. *)
  Definition child b p c := c = b + 2 * (p - b) + 1 \/ c = b + 2 * (p - b) + 2.
  Definition heap_ex k b e (ex : nat -> Prop) a := forall p c x y, b <= p -> k <= p -> child b p c -> c < e ->
    ~ ex p -> nth_error a p = Some x -> nth_error a c = Some y -> le y x.
  Definition bridge k b e i a := forall p c x y, b <= p -> k <= p -> child b p i -> child b i c -> c < e ->
    nth_error a p = Some x -> nth_error a c = Some y -> le y x.
  Definition heap k b e a := heap_ex k b e (fun _ => False) a.

  Lemma pick_max a e c cur r x y : e <= length a -> pick cmp a e c cur = Some r ->
    nth_error a cur = Some x -> nth_error a r = Some y ->
    le x y /\ (c < e -> forall z, nth_error a c = Some z -> le z y).
  Proof.
    intros He. unfold pick. destruct (Nat.ltb_spec c e).
    - destruct (@nth_error_some _ a c) as [u Eu]; [lia|]. rewrite Eu. intros H' Ex Ey. rewrite Ex in H'. cbn in H'.
      destruct (gtb cmp u x) eqn:G; injection H' as <-.
      + assert (y = u) by congruence. subst. split; [now apply gtb_true|].
        intros _ z Ez. assert (z = u) by congruence. subst. apply le_refl.
      + assert (y = x) by congruence. subst. split; [apply le_refl|]. intros _ z Ez.
        assert (z = u) by congruence. subst. now apply gtb_false.
    - intros [= <-] Ex Ey. assert (y = x) by congruence. subst. split; [apply le_refl|lia].
  Qed.

  Lemma heapify_heap f : forall a b e i k a', b <= k -> k <= i -> i < length a -> e <= length a ->
    heap_ex k b e (eq i) a -> bridge k b e i a ->
    heapify cmp f a b e i = Some a' -> heap k b e a'.
  Proof.
    induction f as [|f IH]; intros a b e i k a' Hb Hk Hi He HE HB; [discriminate|]. cbn [heapify].
    set (l := b + 2 * (i - b) + 1).
    destruct (@pick_spec a e l i He Hi) as (l1 & E1 & H1). rewrite E1. cbn [obind].
    assert (Hl1 : l1 < length a) by (subst l; lia).
    destruct (@pick_spec a e (l + 1) l1 He Hl1) as (l2 & E2 & H2). rewrite E2. cbn [obind].
    assert (Hl2 : l2 < length a) by (subst l; lia).
    destruct (nth_error_some Hi) as [xi Exi], (nth_error_some Hl1) as [x1 Ex1], (nth_error_some Hl2) as [x2 Ex2].
    destruct (pick_max He E1 Exi Ex1) as [M1 M1']. destruct (pick_max He E2 Ex1 Ex2) as [M2 M2'].
    assert (Mi : le xi x2) by (eapply le_trans; eauto).
    assert (Mc : forall c z, child b i c -> c < e -> nth_error a c = Some z -> le z x2).
    { intros c z [->| ->] Hc Ez; [|apply M2'; [subst l; lia|rewrite <- Ez; f_equal; subst l; lia]].
      eapply le_trans; [apply M1'; [exact Hc|exact Ez]|exact M2]. }
    destruct (Nat.eqb_spec l2 i) as [->|Hne].
    { intros [= <-]. intros p c x y Hbp Hkp Hc Hce _ Ex Ey.
      destruct (Nat.eq_dec p i) as [->|Hp]; [|eapply HE; eauto].
      assert (x = x2) by congruence. subst. eapply Mc; eauto. }
    assert (Hl2' : l2 < e /\ i < l2 /\ child b i l2) by (subst l; unfold child; lia).
    destruct Hl2' as (Hl2e & Hil2 & Hch).
    destruct (@swap_spec a i l2) as (a1 & u & v & E & Eu & Ev & L & N); [lia..|].
    rewrite E. cbn [obind]. assert (u = xi) by congruence. assert (v = x2) by congruence. subst u v.
    apply IH; try lia.
    - intros p c x y Hbp Hkp Hc Hce Hp Ex Ey. rewrite N in Ex, Ey.
      destruct (Nat.eqb_spec p l2); [subst; congruence|].
      destruct (Nat.eqb_spec p i) as [->|Hpi].
      + injection Ex as <-. destruct (Nat.eqb_spec c l2) as [->|].
        { injection Ey as <-. exact Mi. }
        destruct (Nat.eqb_spec c i); [unfold child in *; lia|]. eapply Mc; eauto.
      + destruct (Nat.eqb_spec c l2) as [->|]; [unfold child in *; lia|].
        destruct (Nat.eqb_spec c i) as [->|].
        * injection Ey as <-. eapply HB with (p := p) (c := l2); eauto.
        * eapply HE with (p := p) (c := c); eauto.
    - intros p c x y Hbp Hkp Hc1 Hc2 Hce Ex Ey. assert (p = i) as -> by (unfold child in *; lia).
      rewrite N in Ex, Ey. destruct (Nat.eqb_spec i l2); [lia|]. rewrite Nat.eqb_refl in Ex. injection Ex as <-.
      destruct (Nat.eqb_spec c l2); [unfold child in *; lia|].
      destruct (Nat.eqb_spec c i); [unfold child in *; lia|].
      eapply HE with (p := l2) (c := c); eauto; lia.
  Qed.

  Lemma build_loop_heap k : forall a b e a', b + k <= e -> e <= length a -> heap (b + k) b e a ->
    build_loop cmp k a b e = Some a' -> heap b b e a'.
  Proof.
    induction k as [|i IH]; intros a b e a' Hk He HH; cbn [build_loop].
    { intros [= <-]. replace (b + 0) with b in HH by lia. exact HH. }
    destruct (@heapify_safe (S (e - b)) a b e (b + i)) as (a1 & E1 & P1); [lia..|].
    rewrite E1. cbn [obind]. pose proof (perm_in_len P1). apply IH; try lia.
    eapply heapify_heap; [| | | | | |exact E1]; try lia.
    - intros p c x y Hbp Hkp Hc Hce Hp Ex Ey. eapply HH with (p := p) (c := c); eauto. lia.
    - intros p c x y Hbp Hkp Hc1 Hc2 Hce Ex Ey. unfold child in *. lia.
  Qed.
  Lemma build_max_heap_heap a b e a' : b <= e -> e <= length a ->
    build_max_heap cmp a b e = Some a' -> heap b b e a'.
  Proof.
    intros Hb He. unfold build_max_heap. pose proof (half_le (e - b)).
    apply build_loop_heap; [lia|lia|]. intros p c x y Hbp Hkp Hc Hce. exfalso.
    pose proof (Nat.div_mod (e - b) 2 ltac:(lia)). pose proof (Nat.mod_upper_bound (e - b) 2 ltac:(lia)).
    unfold child in Hc. lia.
  Qed.
  Lemma heap_root b e a : heap b b e a -> e <= length a -> forall n k x y, k - b <= n -> b <= k < e ->
    nth_error a b = Some x -> nth_error a k = Some y -> le y x.
  Proof.
    intros HH He. induction n as [|n IH]; intros k x y Hn Hk Ex Ey.
    { assert (k = b) by lia. subst. assert (x = y) by congruence. subst. apply le_refl. }
    destruct (Nat.eq_dec k b) as [->|Hkb]; [assert (x = y) by congruence; subst; apply le_refl|].
    set (p := b + (k - b - 1) / 2).
    assert (child b p k /\ b <= p < k) as [Hc Hp].
    { subst p. unfold child. pose proof (Nat.div_mod (k - b - 1) 2 ltac:(lia)).
      pose proof (Nat.mod_upper_bound (k - b - 1) 2 ltac:(lia)). lia. }
    destruct (@nth_error_some _ a p) as [z Ez]; [lia|].
    apply le_trans with z; [eapply HH with (p := p) (c := k); eauto; lia|].
    eapply IH with (k := p); eauto; lia.
  Qed.

  Lemma heapsort_loop_sorted k : forall a b e a', b + k <= e -> e <= length a -> heap b b (b + k) a ->
    sorted_in (b + k) e a ->
    (forall i j x y, b <= i < b + k -> b + k <= j < e -> nth_error a i = Some x -> nth_error a j = Some y -> le x y) ->
    heapsort_loop cmp k a b e = Some a' -> sorted_in b e a'.
  Proof.
    induction k as [|i IH]; intros a b e a' Hk He HH HS HX; cbn [heapsort_loop].
    { intros [= <-]. replace (b + 0) with b in HS by lia. exact HS. }
    destruct (@swap_spec a b (b + i)) as (a1 & x & y & E & Ex & Ey & L & N); [lia..|].
    rewrite E. cbn [obind].
    destruct (@heapify_safe (S (e - b)) a1 b (b + i) b) as (a2 & E2 & P2); [lia..|].
    rewrite E2. cbn [obind]. pose proof (perm_in_len P2).
    assert (Nout : forall m, b + i < m -> nth_error a2 m = nth_error a m).
    { intros m Hm. rewrite (perm_in_out P2) by lia. rewrite N.
      destruct (Nat.eqb_spec m (b + i)), (Nat.eqb_spec m b); try lia. auto. }
    assert (Nmid : nth_error a2 (b + i) = Some x).
    { rewrite (perm_in_out P2) by lia. rewrite N, Nat.eqb_refl. auto. }
    assert (Root : forall k z, b <= k < b + S i -> nth_error a k = Some z -> le z x).
    { intros k z Hkk Ez. eapply heap_root with (n := k - b); eauto; lia. }
    assert (In2 : forall (P : A -> Prop), (forall k z, b <= k < b + S i -> nth_error a k = Some z -> P z) ->
      forall k z, b <= k < b + i -> nth_error a2 k = Some z -> P z).
    { intros P HP. apply (perm_in_all P2). intros k z Hkk. rewrite N.
      destruct (Nat.eqb_spec k (b + i)); [lia|]. destruct (Nat.eqb_spec k b).
      - intros [= <-]. eapply HP with (k := b + i); eauto. lia.
      - apply HP. lia. }
    apply IH; try lia.
    - eapply heapify_heap; [| | | | | |exact E2]; try lia.
      + intros p c u v Hbp Hkp Hc Hce Hp Eu Ev. rewrite N in Eu, Ev.
        destruct (Nat.eqb_spec p (b + i)); [unfold child in Hc; lia|]. destruct (Nat.eqb_spec p b); [lia|].
        destruct (Nat.eqb_spec c (b + i)); [lia|]. destruct (Nat.eqb_spec c b); [unfold child in Hc; lia|].
        eapply HH with (p := p) (c := c); eauto. lia.
      + intros p c u v Hbp Hkp Hc1 _ _ _ _. unfold child in Hc1. lia.
    - intros p q u v Hp Hpq Hq Eu Ev. rewrite Nout in Ev by lia.
      destruct (Nat.eq_dec p (b + i)) as [->|].
      + assert (u = x) by congruence. subst. eapply HX with (i := b) (j := q); eauto; lia.
      + rewrite Nout in Eu by lia. eapply HS with (i := p) (j := q); eauto; lia.
    - intros p q u v Hp Hq Eu Ev. destruct (Nat.eq_dec q (b + i)) as [->|].
      + assert (v = x) by congruence. subst.
        eapply In2 with (P := fun z => le z x) (k := p); eauto.
      + rewrite Nout in Ev by lia.
        eapply In2 with (P := fun z => le z v) (k := p); eauto.
        intros k z Hkk Ez. eapply HX with (i := k) (j := q); eauto; lia.
  Qed.
  Lemma heapsort_sorted a b e a' : b <= e -> e <= length a -> heapsort cmp a b e = Some a' -> sorted_in b e a'.
  Proof.
    intros Hb He. unfold heapsort. destruct (build_max_heap_safe Hb He) as (a1 & E1 & P1).
    rewrite E1. cbn [obind]. pose proof (perm_in_len P1).
    apply heapsort_loop_sorted; try lia.
    1: replace (b + (e - b)) with e by lia; eapply build_max_heap_heap; [| |exact E1]; auto.
    all: intros i j; lia.
  Qed.

  Lemma ins_loop_sorted k : forall i a b a', b <= i -> i + k <= length a -> sorted_in b i a ->
    ins_loop cmp k i a b = Some a' -> sorted_in b (i + k) a'.
  Proof.
    induction k as [|k IH]; intros i a b a' Hb Hk HS; cbn [ins_loop].
    { intros [= <-]. replace (i + 0) with i by lia. auto. }
    destruct (@nth_error_some _ a i) as [key Ek]; [lia|]. rewrite Ek. cbn [obind].
    destruct (@ins_shift_spec i a b key a) as (a1 & p & E1 & P1 & Hp & Np & Nlo & Nmid & Nhi & Hgt & Hle);
      [lia|lia|now apply set_nth_same|].
    rewrite E1. cbn [obind]. pose proof (perm_in_len P1). intros E'.
    replace (i + S k) with (S i + k) by lia. revert E'. apply IH; [lia..|].
    replace (S i) with (i + 1) by lia.
    apply sorted_in_app with p.
    - eapply sorted_in_ext; [|intros u v x y Hu Huv Hv; apply HS; eauto; lia]. intros m Hm. apply Nlo; lia.
    - intros u v x y Hu Huv Hv Ex Ey. rewrite Nmid in Ex, Ey by lia.
      eapply HS with (i := u - 1) (j := v - 1); eauto; lia.
    - exists key. split; [auto|]. split.
      + intros m x Hm Ex. rewrite Nlo in Ex by lia. destruct (Hle ltac:(lia)) as (z & Ez & Gz).
        apply le_trans with z; [|now apply gtb_false].
        destruct (Nat.eq_dec m (p - 1)) as [->|]; [assert (x = z) by congruence; subst; apply le_refl|].
        eapply HS with (i := m) (j := p - 1); eauto; lia.
      + intros m x Hm Ex. rewrite Nmid in Ex by lia. apply gtb_true. eapply Hgt with (k := m - 1); eauto. lia.
  Qed.
  Lemma insertion_sort_sorted a b e a' : b <= e -> e <= length a ->
    insertion_sort cmp a b e = Some a' -> sorted_in b e a'.
  Proof.
    intros Hb He. unfold insertion_sort. destruct (Nat.eq_dec b e) as [->|Hne].
    - intros _ i j; lia.
    - intros E. replace e with (b + 1 + (e - (b + 1))) by lia. revert E. apply ins_loop_sorted; [lia..|].
      intros i j; lia.
  Qed.

  (** Sorting both sides of a partition sorts the whole. *)
  Lemma two_sides a b q e pvx a1 a2 : b <= q < e -> e <= length a -> nth_error a q = Some pvx ->
    (forall m x, b <= m < q -> nth_error a m = Some x -> ltb cmp x pvx = true) ->
    (forall m x, q < m < e -> nth_error a m = Some x -> ltb cmp x pvx = false) ->
    (perm_in b q a a1 /\ sorted_in b q a1 /\ perm_in (q + 1) e a1 a2 /\ sorted_in (q + 1) e a2 \/
     perm_in (q + 1) e a a1 /\ sorted_in (q + 1) e a1 /\ perm_in b q a1 a2 /\ sorted_in b q a2) ->
    sorted_in b e a2.
  Proof.
    intros Hq He Eq Lo Hi H. apply sorted_in_app with q.
    - destruct H as [(P1 & S1 & P2 & S2)|(P1 & S1 & P2 & S2)]; auto.
      eapply sorted_in_ext; [|exact S1]. intros k Hk. apply (perm_in_out P2). lia.
    - destruct H as [(P1 & S1 & P2 & S2)|(P1 & S1 & P2 & S2)]; auto.
      eapply sorted_in_ext; [|exact S1]. intros k Hk. apply (perm_in_out P2). lia.
    - exists pvx.
      destruct H as [(P1 & S1 & P2 & S2)|(P1 & S1 & P2 & S2)];
        (split; [rewrite (perm_in_out P2), (perm_in_out P1) by lia; exact Eq|split]).
      + intros m x Hm. rewrite (perm_in_out P2) by lia.
        apply (perm_in_all (P := fun x => le x pvx) P1); auto. intros k z Hk Ez. apply ltb_true. eauto.
      + intros m x Hm. apply (perm_in_all (P := fun x => le pvx x) P2); [|lia].
        intros k z Hk. rewrite (perm_in_out P1) by lia. intros Ez. apply ltb_false. eapply Hi; [|exact Ez]; lia.
      + intros m x Hm. apply (perm_in_all (P := fun x => le x pvx) P2); [|lia].
        intros k z Hk. rewrite (perm_in_out P1) by lia. intros Ez. apply ltb_true. eapply Lo; [|exact Ez]; lia.
      + intros m x Hm. rewrite (perm_in_out P2) by lia.
        apply (perm_in_all (P := fun x => le pvx x) P1); [|lia]. intros k z Hk Ez. apply ltb_false.
        eapply Hi; [|exact Ez]; lia.
  Qed.
  Lemma quicksort_sorted f : forall a b e a', b <= e -> e <= length a -> e - b < f ->
    quicksort cmp f a b e = Some a' -> sorted_in b e a'.
  Proof.
    induction f as [|f IH]; intros a b e a' Hb He Hf; [lia|]. cbn [quicksort].
    destruct (Nat.ltb_spec 1 (e - b)); [|intros _ i j; lia].
    destruct (@partition_spec a b e) as (a1 & q & pvx & E1 & P1 & Hq & Eq & Lo & Hi); [lia..|].
    rewrite E1. cbn [obind]. pose proof (perm_in_len P1).
    destruct (@quicksort_safe f a1 b q) as (a2 & E2 & P2); [lia..|]. rewrite E2. cbn [obind].
    pose proof (perm_in_len P2). destruct (@quicksort_safe f a2 (q + 1) e) as (a3 & E' & P'); [lia..|].
    rewrite E'. intros [= <-]. eapply (@two_sides a1 b q e); eauto; [lia|]. left.
    repeat split; eauto; [eapply IH; [| | |exact E2]|eapply IH; [| | |exact E']]; lia.
  Qed.
  Lemma introsort_loop_sorted f : forall d a b e a', b <= e -> e <= length a -> e - b < f ->
    introsort_loop cmp f d a b e = Some a' -> sorted_in b e a'.
  Proof.
    induction f as [|f IH]; intros d a b e a' Hb He Hf; [lia|]. cbn [introsort_loop].
    destruct (Nat.ltb_spec size_threshold (e - b)); [|now apply insertion_sort_sorted].
    destruct d as [|d]; [now apply heapsort_sorted|]. unfold size_threshold in *.
    destruct (@partition_spec a b e) as (a1 & q & pvx & E1 & P1 & Hq & Eq & Lo & Hi); [lia..|].
    rewrite E1. cbn [obind]. pose proof (perm_in_len P1).
    destruct (@introsort_loop_safe f d a1 (q + 1) e) as (a2 & E2 & P2); [lia..|]. rewrite E2. cbn [obind].
    pose proof (perm_in_len P2). destruct (@introsort_loop_safe f d a2 b q) as (a3 & E' & P'); [lia..|].
    rewrite E'. intros [= <-]. eapply (@two_sides a1 b q e); eauto; [lia|]. right.
    repeat split; eauto; [eapply IH; [| | |exact E2]|eapply IH; [| | |exact E']]; lia.
  Qed.
  Lemma sort_sorted d a b e a' : b <= e -> e <= length a -> sort cmp d a b e = Some a' -> sorted_in b e a'.
  Proof.
    intros Hb He. unfold sort, introsort. destruct (Nat.leb (e - b) size_threshold).
    - now apply insertion_sort_sorted.
    - apply introsort_loop_sorted; lia.
  Qed.
  Lemma sorted_in_slice b e a : sorted_in b e a -> ordered cmp (slice b e a).
  Proof.
    intros H i j x y Hij. rewrite !nth_error_slice.
    destruct (Nat.ltb_spec i (e - b)), (Nat.ltb_spec j (e - b)); try discriminate.
    apply H; lia.
  Qed.
End Sort.

(** Combined statements. *)
Section Final.
  Variable A : Type.
  Variable cmp : A -> A -> comparison.
  Lemma final_safe (r : option (list A)) a b e : b <= e -> e <= length a ->
    (exists a', r = Some a' /\ perm_in b e a a') ->
    exists a' m, r = Some a' /\ rearranged b e a a' m.
  Proof. intros Hb He (a' & E & P). exists a', (slice b e a'). split; auto. now apply perm_in_rearranged. Qed.
  Lemma final_sorted (r : option (list A)) a b e : b <= e -> e <= length a ->
    (exists a', r = Some a' /\ perm_in b e a a') -> (forall a', r = Some a' -> sorted_in cmp b e a') ->
    exists a' m, r = Some a' /\ rearranged b e a a' m /\ ordered cmp m.
  Proof.
    intros Hb He (a' & E & P) HS. exists a', (slice b e a'). split; auto.
    split; [now apply perm_in_rearranged|]. apply sorted_in_slice. auto.
  Qed.
  Lemma final_all (r : option (list A)) a :
    (exists a' m, r = Some a' /\ rearranged 0 (length a) a a' m /\ ordered cmp m) ->
    exists a', r = Some a' /\ Permutation a a' /\ ordered cmp a'.
  Proof.
    intros (a' & m & E & (p & m0 & s & -> & -> & Lp & Lm & P) & O).
    destruct p; [|discriminate]. cbn in *. rewrite app_length, Nat.sub_0_r in Lm.
    destruct s; [|cbn in Lm; lia]. rewrite !app_nil_r in *. eauto.
  Qed.
End Final.
