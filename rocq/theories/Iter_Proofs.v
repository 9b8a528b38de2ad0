(** Proofs for the iterators. *)
From Verif Require Import Base Iter_Model.
Local Open Scope omonad_scope.
Local Open Scope Z_scope.

Lemma pd_some x : pmin <= x <= pmax -> pd x = Some x.
Proof.
  intros H. unfold pd. destruct (Z.leb_spec pmin x), (Z.leb_spec x pmax); try lia. reflexivity.
Qed.
Lemma pd_none x : x < pmin \/ pmax < x -> pd x = None.
Proof.
  intros H. unfold pd. destruct (Z.leb_spec pmin x), (Z.leb_spec x pmax); try lia; reflexivity.
Qed.
Lemma us_small x : 0 <= x <= pmax -> us x = x.
Proof. intros H. unfold us, pmax in *. apply Z.mod_small. lia. Qed.
Lemma us_neg x : - 2 ^ 63 <= x < 0 -> us x = x + 2 ^ 64.
Proof.
  intros H. unfold us. rewrite <- (Z.mod_add x 1 (2 ^ 64)) by lia. apply Z.mod_small. lia.
Qed.
Lemma to_pd_us x : pmin <= x <= pmax -> to_pd (us x) = x.
Proof.
  intros H. unfold to_pd. destruct (Z.lt_ge_cases x 0).
  - rewrite us_neg by (unfold pmin, pmax in *; lia).
    destruct (Z.leb_spec (x + 2 ^ 64) pmax); unfold pmin, pmax in *; lia.
  - rewrite us_small by lia. destruct (Z.leb_spec x pmax); lia.
Qed.

Lemma at_z_nth {T} (s : list T) (k : nat) : at_z s (Z.of_nat k) = nth_error s k.
Proof.
  unfold at_z. destruct (Z.leb_spec 0 (Z.of_nat k)); [|lia].
  destruct (Z.ltb_spec (Z.of_nat k) (Z.of_nat (length s))); cbn [andb].
  - now rewrite Nat2Z.id.
  - symmetry. apply nth_error_None. lia.
Qed.

(** ** Jumps *)
Lemma steps_index n : forall i, pmin <= s_index i -> s_index i + Z.of_nat n <= pmax ->
  steps s_next n i = Some (Sit (s_to i) (s_index i + Z.of_nat n)).
Proof.
  induction n as [|n IH]; intros i L H.
  - cbn [steps]. rewrite Z.add_0_r. now destruct i.
  - cbn [steps]. unfold s_next at 1. rewrite pd_some by lia. cbn [obind].
    rewrite IH; cbn [s_index s_to]; [|lia..]. do 2 f_equal. lia.
Qed.
Lemma steps_index_back n : forall i, s_index i <= pmax -> pmin <= s_index i - Z.of_nat n ->
  steps s_before n i = Some (Sit (s_to i) (s_index i - Z.of_nat n)).
Proof.
  induction n as [|n IH]; intros i L H.
  - cbn [steps]. rewrite Z.sub_0_r. now destruct i.
  - cbn [steps]. unfold s_before at 1. rewrite pd_some by lia. cbn [obind].
    rewrite IH; cbn [s_index s_to]; [|lia..]. do 2 f_equal. lia.
Qed.

Theorem string_plus to x n : pmin <= x <= pmax -> pmin <= x + n <= pmax ->
  plus s_next s_before (Sit to x) n = Some (Sit to (x + n)).
Proof.
  intros Hx H. unfold plus. destruct (Z.ltb_spec 0 n).
  - rewrite steps_index; cbn [s_index s_to]; [|lia..]. do 2 f_equal. lia.
  - rewrite steps_index_back; cbn [s_index s_to]; [|lia..]. do 2 f_equal. lia.
Qed.

Theorem string_minus to x n : pmin <= x <= pmax -> pmin <= x - n <= pmax -> pmin < n <= pmax ->
  minus s_next s_before (Sit to x) n = Some (Sit to (x - n)).
Proof.
  intros Hx H Hn. unfold minus. rewrite pd_some by (unfold pmin, pmax in *; lia). cbn [obind].
  rewrite string_plus by lia. do 2 f_equal.
Qed.

Theorem minus_least (i : sit) : minus s_next s_before i pmin = None.
Proof. reflexivity. Qed.

Lemma steps_pointer (f : Z -> option Z) (d n : Z) :
  (forall p, 0 <= p <= n -> 0 <= p + d <= n -> f p = Some (p + d)) ->
  forall k p, 0 <= p <= n -> 0 <= p + d * Z.of_nat k <= n ->
  steps f k p = Some (p + d * Z.of_nat k).
Proof.
  intros F. induction k as [|k IH]; intros p Hp H.
  - cbn [steps]. f_equal. lia.
  - cbn [steps]. rewrite F by nia. cbn [obind]. rewrite IH by nia. f_equal. lia.
Qed.

Theorem array_rplus n p k : 0 <= p <= n -> 0 <= p - k <= n ->
  plus (r_next true n) (r_before true n) p k = Some (p - k).
Proof.
  intros Hp H. unfold plus.
  assert (A : forall q, 0 <= q <= n -> 0 <= q + -1 <= n -> r_next true n q = Some (q + -1)).
  { intros q Hq Hq'. unfold r_next, padd.
    destruct (Z.leb_spec 0 (q + -1)), (Z.leb_spec (q + -1) n); try lia; reflexivity. }
  assert (B : forall q, 0 <= q <= n -> 0 <= q + 1 <= n -> r_before true n q = Some (q + 1)).
  { intros q Hq Hq'. unfold r_before, padd.
    destruct (Z.leb_spec 0 (q + 1)), (Z.leb_spec (q + 1) n); try lia; reflexivity. }
  destruct (Z.ltb_spec 0 k).
  - rewrite (@steps_pointer _ (-1) n A) by lia. f_equal. lia.
  - rewrite (@steps_pointer _ 1 n B) by lia. f_equal. lia.
Qed.

(** ** Loops *)
Lemma walk_fore {I T} (eqb : I -> I -> bool) (get : I -> option T) next (f : nat -> I) (s : list T) :
  (forall i j, (i <= length s)%nat -> (j <= length s)%nat -> eqb (f i) (f j) = Nat.eqb i j) ->
  (forall i, (i < length s)%nat -> get (f i) = nth_error s i) ->
  (forall i, (i < length s)%nat -> next (f i) = Some (f (S i))) ->
  forall k fuel, (k <= length s)%nat -> (k < fuel)%nat ->
  walk eqb get next fuel (f (length s - k)%nat) (f (length s)) = Seen (skipn (length s - k) s).
Proof.
  intros E G N. induction k as [|k IH]; intros fuel Hk Hf; (destruct fuel as [|fuel]; [lia|]); cbn [walk].
  - rewrite E by lia. rewrite Nat.sub_0_r, Nat.eqb_refl, skipn_all. reflexivity.
  - rewrite E by lia. destruct (Nat.eqb_spec (length s - S k) (length s)); [lia|].
    rewrite G, N by lia. destruct (nth_error s (length s - S k)) as [x|] eqn:X.
    2: { apply nth_error_None in X. lia. }
    replace (S (length s - S k)) with (length s - k)%nat by lia.
    rewrite IH by lia. f_equal.
    apply nth_error_split in X as (a & c & Es & La). rewrite <- La.
    replace (length s - k)%nat with (S (length a)) by lia. rewrite Es.
    rewrite !skipn_app. rewrite Nat.sub_diag.
    rewrite (@skipn_all2 T (length a) a), (@skipn_all2 T (S (length a)) a) by lia.
    replace (S (length a) - length a)%nat with 1%nat by lia. reflexivity.
Qed.

Lemma walk_start {I T} (eqb : I -> I -> bool) (get : I -> option T) next (f : nat -> I) (s : list T) :
  (forall i j, (i <= length s)%nat -> (j <= length s)%nat -> eqb (f i) (f j) = Nat.eqb i j) ->
  (forall i, (i < length s)%nat -> get (f i) = nth_error s i) ->
  (forall i, (i < length s)%nat -> next (f i) = Some (f (S i))) ->
  forall fuel, (length s < fuel)%nat ->
  walk eqb get next fuel (f 0%nat) (f (length s)) = Seen s.
Proof.
  intros E G N fuel Hf. pose proof (@walk_fore I T eqb get next f s E G N (length s) fuel) as H.
  rewrite Nat.sub_diag in H. apply H; lia.
Qed.

Lemma eqb_of_nat d i j (x : Z) : d = 1 \/ d = -1 ->
  (x + d * Z.of_nat i =? x + d * Z.of_nat j) = Nat.eqb i j.
Proof.
  intros H. destruct (Nat.eqb_spec i j) as [->|]; [apply Z.eqb_refl|].
  apply Z.eqb_neq. lia.
Qed.

Theorem walk_string_all {T} to (s : list T) fuel :
  Z.of_nat (length s) <= pmax -> (length s < fuel)%nat -> walk_string fuel to s = Seen s.
Proof.
  intros B F. unfold walk_string.
  replace (s_end to s) with ((fun i => Sit to (Z.of_nat i)) (length s)).
  2: { unfold s_end, to_pd. destruct (Z.leb_spec (Z.of_nat (length s)) pmax); [reflexivity|lia]. }
  apply walk_start with (f := fun i => Sit to (Z.of_nat i)); auto.
  - intros i j Hi Hj. unfold s_eq. cbn [s_to s_index]. rewrite Nat.eqb_refl. cbn [andb].
    destruct (Nat.eqb_spec i j) as [->|]; [apply Z.eqb_refl|]. apply Z.eqb_neq. lia.
  - intros i Hi. unfold s_get. cbn [s_index]. rewrite us_small by lia. apply at_z_nth.
  - intros i Hi. unfold s_next. cbn [s_index s_to]. rewrite pd_some by (unfold pmin, pmax in *; lia).
    cbn [obind]. do 2 f_equal. lia.
Qed.

Lemma nth_error_rev {T} (s : list T) i : (i < length s)%nat ->
  nth_error (rev s) i = nth_error s (length s - 1 - i).
Proof.
  intros H. destruct s as [|d s']; [cbn in H; lia|].
  rewrite (nth_error_nth' (rev (d :: s')) d) by (rewrite rev_length; lia).
  rewrite (nth_error_nth' (d :: s') d) by lia. rewrite rev_nth by lia. do 2 f_equal. lia.
Qed.

Theorem walk_string_back_all {T} to (s : list T) fuel :
  Z.of_nat (length s) <= pmax -> (length s < fuel)%nat ->
  walk_string_back fuel to s = Seen (rev s).
Proof.
  intros B F. unfold walk_string_back.
  set (f := fun i => Sit to (Z.of_nat (length s) - 1 - Z.of_nat i)).
  assert (R : s_rbegin to s = f 0%nat).
  { unfold s_rbegin, f. rewrite to_pd_us by (unfold pmin, pmax in *; lia). f_equal. lia. }
  assert (E : s_rend to = f (length (rev s))).
  { unfold s_rend, f. rewrite rev_length. f_equal. lia. }
  rewrite R, E. apply walk_start with (f := f); rewrite ?rev_length; auto.
  - intros i j Hi Hj. unfold s_eq, f. cbn [s_to s_index]. rewrite Nat.eqb_refl. cbn [andb].
    destruct (Nat.eqb_spec i j) as [->|]; [apply Z.eqb_refl|]. apply Z.eqb_neq. lia.
  - intros i Hi. unfold s_get, f. cbn [s_index]. rewrite us_small by lia.
    replace (Z.of_nat (length s) - 1 - Z.of_nat i) with (Z.of_nat (length s - 1 - i)) by lia.
    rewrite at_z_nth. symmetry. now apply nth_error_rev.
  - intros i Hi. unfold s_before, f. cbn [s_index s_to].
    rewrite pd_some by (unfold pmin, pmax in *; lia). cbn [obind]. do 2 f_equal. lia.
Qed.

Theorem walk_array_all {T} strict (s : list T) fuel :
  (length s < fuel)%nat -> walk_array strict fuel s = Seen s.
Proof.
  intros F. unfold walk_array.
  assert (E : p_end strict (Z.of_nat (length s)) = Some (Z.of_nat (length s))).
  { unfold p_end, padd. rewrite Z.add_0_l. destruct strict; [|reflexivity].
    destruct (Z.leb_spec 0 (Z.of_nat (length s))); [|lia]. now rewrite Z.leb_refl. }
  rewrite E. change p_begin with (Z.of_nat 0).
  apply walk_start with (f := Z.of_nat); auto.
  - intros i j _ _. destruct (Nat.eqb_spec i j) as [->|]; [apply Z.eqb_refl|]. apply Z.eqb_neq. lia.
  - intros i _. apply at_z_nth.
  - intros i Hi. unfold p_next, padd. replace (Z.of_nat i + 1) with (Z.of_nat (S i)) by lia.
    destruct strict; [|reflexivity].
    destruct (Z.leb_spec 0 (Z.of_nat (S i))), (Z.leb_spec (Z.of_nat (S i)) (Z.of_nat (length s)));
      try lia; reflexivity.
Qed.

Theorem walk_array_back_flat {T} (s : list T) fuel :
  (length s < fuel)%nat -> walk_array_back false fuel s = Seen (rev s).
Proof.
  intros F. unfold walk_array_back, p_rbegin, p_rend, padd. cbn [obind].
  set (f := fun i => 0 + Z.of_nat (length s) + -1 - Z.of_nat i).
  replace (0 + Z.of_nat (length s) + -1) with (f 0%nat) by (unfold f; lia).
  replace (0 + -1) with (f (length (rev s))) by (unfold f; rewrite rev_length; lia).
  apply walk_start with (f := f); rewrite ?rev_length; auto.
  - intros i j _ _. unfold f.
    destruct (Nat.eqb_spec i j) as [->|]; [apply Z.eqb_refl|]. apply Z.eqb_neq. lia.
  - intros i Hi. unfold f.
    replace (0 + Z.of_nat (length s) + -1 - Z.of_nat i) with (Z.of_nat (length s - 1 - i)) by lia.
    rewrite at_z_nth. symmetry. now apply nth_error_rev.
  - intros i Hi. unfold r_next, padd, f. f_equal. lia.
Qed.

Theorem array_rend_outside n : 0 <= n -> p_rend true n = None.
Proof. reflexivity. Qed.

Theorem walk_array_back_strict {T} (s : list T) fuel : walk_array_back true fuel s = Undefined.
Proof. unfold walk_array_back. cbn [p_rend]. now destruct (p_rbegin _ _). Qed.

(** ** Strings from iterators *)
Theorem from_between {T} (s : list T) to i j :
  (i < j)%nat -> (j <= length s)%nat -> Z.of_nat (length s) <= pmax ->
  from_iterators s (Sit to (Z.of_nat i)) (Sit to (Z.of_nat j))
  = Some (Made (firstn (j - i) (skipn i s))).
Proof.
  intros Hi Hj B. unfold from_iterators. cbn [s_to s_index]. rewrite Nat.eqb_refl. cbn [negb].
  rewrite pd_some by (unfold pmin, pmax in *; lia). cbn [obind]. rewrite !us_small by lia.
  unfold sub_string. rewrite us_small by lia. rewrite Z.min_l by lia.
  destruct (Z.eqb_spec (Z.of_nat j - Z.of_nat i) 0); [lia|].
  destruct (Z.leb_spec (Z.of_nat i + (Z.of_nat j - Z.of_nat i)) (Z.of_nat (length s))); [|lia].
  cbn [obind]. do 4 f_equal; lia.
Qed.

Theorem from_nothing {T} (s : list T) to i :
  (i <= length s)%nat -> Z.of_nat (length s) <= pmax ->
  from_iterators s (Sit to (Z.of_nat i)) (Sit to (Z.of_nat i)) = None.
Proof.
  intros Hi B. unfold from_iterators. cbn [s_to s_index]. rewrite Nat.eqb_refl. cbn [negb].
  rewrite pd_some by (unfold pmin, pmax in *; lia). cbn [obind].
  rewrite Z.sub_diag. rewrite (@us_small (Z.of_nat i)) by lia.
  change (us 0) with 0. unfold sub_string. rewrite us_small by lia.
  rewrite Z.min_l by lia. reflexivity.
Qed.

Theorem from_backward {T} (s : list T) to i j :
  (j < i)%nat -> (i < length s)%nat -> Z.of_nat (length s) <= pmax ->
  from_iterators s (Sit to (Z.of_nat i)) (Sit to (Z.of_nat j)) = Some (Made (skipn i s)).
Proof.
  intros Hi Hj B. unfold from_iterators. cbn [s_to s_index]. rewrite Nat.eqb_refl. cbn [negb].
  rewrite pd_some by (unfold pmin, pmax in *; lia). cbn [obind].
  rewrite (@us_small (Z.of_nat i)) by lia.
  rewrite us_neg by (unfold pmin, pmax in *; lia).
  unfold sub_string. rewrite us_small by lia. rewrite Z.min_r by (unfold pmax in *; lia).
  destruct (Z.eqb_spec (Z.of_nat (length s) - Z.of_nat i) 0); [lia|].
  destruct (Z.leb_spec (Z.of_nat i + (Z.of_nat (length s) - Z.of_nat i)) (Z.of_nat (length s))); [|lia].
  cbn [obind]. rewrite Nat2Z.id. rewrite firstn_all2; [reflexivity|]. rewrite skipn_length. lia.
Qed.

Theorem from_two {T} (s : list T) i j : s_to i <> s_to j ->
  from_iterators s i j = Some Uninitialised.
Proof. intros H. unfold from_iterators. now rewrite (proj2 (Nat.eqb_neq _ _) H). Qed.

Theorem string_order to i j :
  s_cmp (Sit to i) (Sit to j) = Some (i ?= j) /\
  (s_eq (Sit to i) (Sit to j) = true <-> i = j).
Proof.
  unfold s_cmp, s_eq. cbn [s_to s_index]. rewrite Nat.eqb_refl. split; [reflexivity|].
  cbn [andb]. apply Z.eqb_eq.
Qed.
