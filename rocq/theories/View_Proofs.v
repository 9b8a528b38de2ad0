From Verif Require Import Base View_Model.
Local Open Scope Z_scope.

Section View.
Context {A : Type}.
Implicit Types (block l : list A) (v : view).
Definition sane (block : list A) : Prop := Z.of_nat (length block) < W.
Lemma read_some block p n : 0 <= p -> 0 <= n -> p + n <= Z.of_nat (length block) ->
  read block p n = Some (firstn (Z.to_nat n) (skipn (Z.to_nat p) block)).
Proof.
  intros. unfold read. destruct (Z.leb_spec 0 p); [|lia]. destruct (Z.leb_spec 0 n); [|lia].
  destruct (Z.leb_spec (p + n) (Z.of_nat (length block))); [reflexivity|lia].
Qed.
Lemma read_inv block p n l : read block p n = Some l ->
  0 <= p /\ 0 <= n /\ p + n <= Z.of_nat (length block) /\ l = firstn (Z.to_nat n) (skipn (Z.to_nat p) block) /\ length l = Z.to_nat n.
Proof.
  unfold read. destruct (Z.leb_spec 0 p); [|discriminate]. destruct (Z.leb_spec 0 n); [|discriminate].
  destruct (Z.leb_spec (p + n) (Z.of_nat (length block))); [|discriminate]. intros [= <-].
  repeat split; auto. rewrite firstn_length, skipn_length. lia.
Qed.
Lemma read_none block p n : 0 <= p -> 0 <= n -> Z.of_nat (length block) < p + n -> read block p n = None.
Proof.
  intros. unfold read. destruct (Z.leb_spec (p + n) (Z.of_nat (length block))); [lia|]. now rewrite andb_false_r.
Qed.
Lemma skipn_twice (n m : nat) l : skipn n (skipn m l) = skipn (m + n) l.
Proof.
  revert l. induction m as [|m IH]; intros l; [reflexivity|]. destruct l; [now rewrite !skipn_nil|]. apply IH.
Qed.
(** A part of a view. *)
Lemma items_sub block v l p n : items block v = Some l -> 0 <= p -> 0 <= n -> p + n <= vsize v ->
  items block {| vbegin := vbegin v + p; vsize := n |} = Some (firstn (Z.to_nat n) (skipn (Z.to_nat p) l)).
Proof.
  intros H P N L. apply read_inv in H. destruct H as (B & S & I & -> & _). unfold items. cbn [vbegin vsize].
  rewrite read_some by lia. f_equal. rewrite skipn_firstn_comm, firstn_firstn, skipn_twice.
  rewrite Nat.min_l by lia. do 2 f_equal. lia.
Qed.
Lemma items_length block v l : items block v = Some l -> 0 <= vbegin v /\ 0 <= vsize v /\ vsize v = Z.of_nat (length l) /\ vbegin v + vsize v <= Z.of_nat (length block).
Proof. intros H. apply read_inv in H. destruct H as (B & S & I & _ & ->). lia. Qed.
Lemma firstn_over n l : (length l <= n)%nat -> firstn n l = l.
Proof. apply firstn_all2. Qed.
Lemma skipn_over n l : (length l <= n)%nat -> skipn n l = [].
Proof. apply skipn_all2. Qed.

Lemma subview_spec block v l pos e : items block v = Some l -> 0 <= pos -> 0 <= e ->
  items block (subview v pos e) = Some (skipn (Z.to_nat pos) (firstn (Z.to_nat e) l)).
Proof.
  intros H P E. destruct (items_length H) as (_ & S & SL & _). unfold subview. cbv zeta.
  set (e' := if e >? vsize v then vsize v else e). assert (He : e' = Z.min e (vsize v)) by (unfold e'; destruct (Z.gtb_spec e (vsize v)); lia).
  set (p' := if pos >? e' then e' else pos). assert (Hp : p' = Z.min pos e') by (unfold p'; destruct (Z.gtb_spec pos e'); lia).
  rewrite (items_sub H) by lia. f_equal. rewrite skipn_firstn_comm.
  assert (L : length (skipn (Z.to_nat pos) l) = (length l - Z.to_nat pos)%nat) by apply skipn_length.
  destruct (Z_le_gt_dec pos e') as [C|C].
  - replace p' with pos by lia. destruct (Z_le_gt_dec e (vsize v)); [do 1 f_equal; lia|].
    rewrite !firstn_over; [reflexivity| |]; rewrite L; lia.
  - replace (e' - p') with 0 by lia. cbn [Z.to_nat firstn]. destruct (Z_le_gt_dec e (vsize v)).
    + replace (Z.to_nat e - Z.to_nat pos)%nat with O by lia. reflexivity.
    + rewrite (skipn_over (n := Z.to_nat pos)) by lia. now rewrite firstn_nil.
Qed.
Lemma subview_from_spec block v l pos : items block v = Some l -> 0 <= pos ->
  items block (subview_from v pos) = Some (skipn (Z.to_nat pos) l).
Proof.
  intros H P. destruct (items_length H) as (_ & S & SL & _). unfold subview_from. cbv zeta.
  destruct (Z.gtb_spec pos (vsize v)).
  - rewrite (items_sub H) by lia. rewrite Z.sub_diag. cbn [Z.to_nat firstn]. rewrite (skipn_over (n := Z.to_nat pos)) by lia. reflexivity.
  - rewrite (items_sub H) by lia. f_equal. apply firstn_over. rewrite skipn_length. lia.
Qed.
Lemma substr_spec block v l pos len : items block v = Some l -> 0 <= pos -> 0 <= len -> pos + len <= vsize v ->
  items block (substr v pos len) = Some (firstn (Z.to_nat len) (skipn (Z.to_nat pos) l)).
Proof. intros. apply items_sub; assumption. Qed.
Lemma substr_from_spec block v l pos : items block v = Some l -> sane block -> 0 <= pos <= vsize v ->
  items block (substr_from v pos) = Some (skipn (Z.to_nat pos) l).
Proof.
  intros H F P. destruct (items_length H) as (B & S & SL & I). unfold sane in F. unfold substr_from, size_t.
  rewrite Z.mod_small by lia. rewrite (items_sub H) by lia. f_equal. apply firstn_over. rewrite skipn_length. lia.
Qed.
Lemma substr_from_beyond block v l pos : items block v = Some l -> sane block -> vsize v < pos < W ->
  items block (substr_from v pos) = None.
Proof.
  intros H F P. destruct (items_length H) as (B & S & SL & I). unfold sane in F. unfold substr_from, size_t.
  replace ((vsize v - pos) mod W) with (vsize v - pos + W) by (apply Z.mod_unique with (-1); lia).
  apply read_none; cbn [vbegin vsize]; lia.
Qed.
Lemma substr_pos_ptr_spec block v l pos e : items block v = Some l -> sane block -> 0 < pos <= e - vbegin v ->
  e <= vbegin v + vsize v -> vsize (substr_pos_ptr v pos e) = e - vbegin v /\
  items block (substr_pos_ptr v pos e) <> Some (skipn (Z.to_nat pos) (firstn (Z.to_nat (e - vbegin v)) l)) /\
  (Z.of_nat (length block) < e + pos -> items block (substr_pos_ptr v pos e) = None).
Proof.
  intros H F P E. destruct (items_length H) as (B & S & SL & I). unfold sane in F. unfold substr_pos_ptr, size_t.
  rewrite Z.mod_small by lia. cbn [vsize]. split; [reflexivity|]. split.
  - intros H2. destruct (items_length H2) as (_ & _ & L & _). cbn [vsize] in L. rewrite skipn_length, firstn_length in L. lia.
  - intros. apply read_none; cbn [vbegin vsize]; lia.
Qed.
Lemma substr_ptr_spec block v l b e : items block v = Some l -> sane block -> vbegin v <= b <= e -> e <= vbegin v + vsize v ->
  items block (substr_pos_ptr v 0 e) = Some (firstn (Z.to_nat (e - vbegin v)) l) /\
  items block (substr_ptr_len v b (e - b)) = Some (firstn (Z.to_nat (e - b)) (skipn (Z.to_nat (b - vbegin v)) l)) /\
  items block (substr_ptr_ptr v b e) = Some (firstn (Z.to_nat (e - b)) (skipn (Z.to_nat (b - vbegin v)) l)) /\
  items block (substr_ptr v b) = Some (skipn (Z.to_nat (b - vbegin v)) l).
Proof.
  intros H F Hb He. destruct (items_length H) as (B & S & SL & I). unfold sane in F.
  assert (G : forall n, 0 <= n -> b + n <= vbegin v + vsize v -> items block {| vbegin := b; vsize := n |} = Some (firstn (Z.to_nat n) (skipn (Z.to_nat (b - vbegin v)) l))).
  { intros n N L. replace b with (vbegin v + (b - vbegin v)) at 1 by lia. apply (items_sub H); lia. }
  unfold substr_pos_ptr, substr_ptr_len, substr_ptr_ptr, substr_ptr, size_t. rewrite !Z.mod_small by lia.
  split; [rewrite (items_sub H) by lia; reflexivity|]. split; [apply G; lia|]. split; [apply G; lia|].
  rewrite G by lia. f_equal. apply firstn_over. rewrite skipn_length. lia.
Qed.
(** Single elements. *)
Lemma read_one block p : 0 <= p -> read block p 1 = match nth_error block (Z.to_nat p) with Some x => Some [x] | None => None end.
Proof.
  intros P. destruct (nth_error block (Z.to_nat p)) as [x|] eqn:E.
  - pose proof (proj1 (nth_error_Some block (Z.to_nat p)) ltac:(congruence)). rewrite read_some by lia. f_equal.
    apply nth_error_split in E. destruct E as (a & b & -> & L). rewrite <- L, skipn_app, skipn_all, Nat.sub_diag. reflexivity.
  - apply nth_error_None in E. apply read_none; lia.
Qed.
Lemma nth_sub (i n p : nat) l : (i < n)%nat -> nth_error (firstn n (skipn p l)) i = nth_error l (p + i).
Proof.
  revert l. induction p as [|p IH]; intros l H.
  - cbn [skipn plus]. revert l i H. induction n as [|n IHn]; intros l i H; [lia|]. destruct l; [now destruct i|]. destruct i; [reflexivity|]. cbn. apply IHn. lia.
  - destruct l; [rewrite skipn_nil, firstn_nil; now destruct i|]. apply IH. exact H.
Qed.
Lemma at_spec block v l pos : items block v = Some l -> 0 <= pos < vsize v ->
  at_ block v pos = nth_error l (Z.to_nat pos).
Proof.
  intros H P. pose proof H as H'. apply read_inv in H. destruct H as (B & S & I & -> & L). unfold at_. rewrite read_one by lia.
  rewrite nth_sub by lia. replace (Z.to_nat (vbegin v) + Z.to_nat pos)%nat with (Z.to_nat (vbegin v + pos)) by lia.
  destruct (nth_error block _); reflexivity.
Qed.
Lemma last_nth l : forall x d, nth_error (x :: l) (length l) = Some (last (x :: l) d).
Proof. induction l as [|y l IH]; intros x d; [reflexivity|]. cbn [length]. exact (IH y d). Qed.
Lemma ends_spec block v l : items block v = Some l -> sane block ->
  match l with [] => back block v = None | x :: _ => front block v = Some x /\ back block v = Some (last l x) end.
Proof.
  intros H F. destruct (items_length H) as (B & S & SL & I). unfold sane in F. unfold back, front, size_t.
  destruct l as [|x l].
  - cbn in SL. rewrite SL. change ((0 - 1) mod W) with (W - 1). unfold at_. rewrite read_one by (unfold W; lia).
    assert (E : nth_error block (Z.to_nat (vbegin v + (W - 1))) = None) by (apply nth_error_None; lia). now rewrite E.
  - cbn [length] in SL. rewrite Z.mod_small by lia. rewrite !(at_spec H) by lia. split; [reflexivity|].
    replace (Z.to_nat (vsize v - 1)) with (length l) by lia. apply last_nth.
Qed.
Lemma firstn_snoc (k : nat) : forall l x, nth_error l k = Some x -> firstn (S k) l = firstn k l ++ [x].
Proof.
  induction k as [|k IH]; intros l x H; destruct l as [|y l]; try discriminate; [injection H as ->; reflexivity|].
  cbn [firstn app]. f_equal. apply IH, H.
Qed.
Lemma walk_spec block b (k : nat) : forall n, 0 <= b -> b + Z.of_nat k <= Z.of_nat (length block) -> (k <= n)%nat ->
  walk_back n block (b + Z.of_nat k - 1) (b - 1) = Some (rev (firstn k (skipn (Z.to_nat b) block))).
Proof.
  induction k as [|k IH]; intros n B L N.
  - replace (b + Z.of_nat 0 - 1) with (b - 1) by lia. destruct n; cbn [walk_back]; rewrite Z.eqb_refl; reflexivity.
  - destruct n as [|n]; [lia|]. cbn [walk_back]. destruct (Z.eqb_spec (b + Z.of_nat (S k) - 1) (b - 1)); [lia|].
    replace (b + Z.of_nat (S k) - 1) with (b + Z.of_nat k) by lia. rewrite read_one by lia.
    destruct (nth_error block (Z.to_nat (b + Z.of_nat k))) as [x|] eqn:E; [|apply nth_error_None in E; lia].
    rewrite IH by lia. rewrite (firstn_snoc (x := x)), rev_app_distr; [reflexivity|].
    rewrite <- E. replace (Z.to_nat (b + Z.of_nat k)) with (Z.to_nat b + k)%nat by lia.
    rewrite <- (nth_sub (n := S k)) by lia. generalize (skipn (Z.to_nat b) block). clear. induction k as [|k IH]; intros [|y l]; try reflexivity. exact (IH l).
Qed.
Lemma reversed_spec block v l n : items block v = Some l -> (length l <= n)%nat -> reversed n block v = Some (rev l).
Proof.
  intros H N. apply read_inv in H. destruct H as (B & S & I & -> & L). unfold reversed.
  rewrite <- (Z2Nat.id (vsize v)) at 1 by lia. apply walk_spec; lia.
Qed.
(** Strings that end with zero. *)
Variable is_zero : A -> bool.
Lemma length_of_inv l : forall n, get_length_of is_zero l = Some n -> Z.of_nat (length l) < W -> exists a z b,
  l = a ++ z :: b /\ is_zero z = true /\ Forall (fun x => is_zero x = false) a /\ n = Z.of_nat (length a).
Proof.
  induction l as [|x l IH]; intros n H F; [discriminate|]. cbn [get_length_of] in H. destruct (is_zero x) eqn:Z.
  - injection H as <-. exists [], x, l. auto.
  - destruct (get_length_of is_zero l) as [m|]; [|discriminate]. cbn [length] in F.
    destruct (IH m eq_refl ltac:(lia)) as (a & z & b & -> & Hz & Ha & ->). rewrite app_length in F. cbn [length] in F.
    exists (x :: a), z, b. split; [reflexivity|]. split; [exact Hz|]. split; [now constructor|].
    injection H as <-. unfold size_t. cbn [length]. rewrite Z.mod_small by lia. lia.
Qed.
Lemma length_of_none l : get_length_of is_zero l = None <-> Forall (fun x => is_zero x = false) l.
Proof.
  induction l as [|x l IH]; [cbn; split; auto|]. cbn [get_length_of]. destruct (is_zero x) eqn:Z.
  - split; [discriminate|]. intros H. inversion H. congruence.
  - destruct (get_length_of is_zero l); split; intros H; try discriminate.
    + inversion H; subst. apply IH in H3. discriminate.
    + constructor; [exact Z|]. now apply IH.
    + reflexivity.
Qed.
Lemma of_zero_spec block p : sane block -> 0 <= p <= Z.of_nat (length block) ->
  match of_zero_ended is_zero block p with
  | Some v => exists l z rest, skipn (Z.to_nat p) block = l ++ z :: rest /\ is_zero z = true /\
      Forall (fun x => is_zero x = false) l /\ items block v = Some l
  | None => Forall (fun x => is_zero x = false) (skipn (Z.to_nat p) block)
  end.
Proof.
  intros F P. unfold of_zero_ended. unfold sane in F. destruct (Z.leb_spec 0 p); [|lia]. destruct (Z.leb_spec p (Z.of_nat (length block))); [|lia].
  cbn [andb]. destruct (get_length_of is_zero (skipn (Z.to_nat p) block)) as [n|] eqn:E; [|now apply length_of_none].
  destruct (length_of_inv E) as (a & z & b & L & Hz & Ha & ->); [rewrite skipn_length; lia|].
  exists a, z, b. repeat split; auto. unfold items. cbn [vbegin vsize].
  pose proof (f_equal (@length A) L) as LL. rewrite skipn_length, app_length in LL. cbn [length] in LL.
  rewrite read_some by lia. f_equal. rewrite L, Nat2Z.id, firstn_app, Nat.sub_diag, firstn_all. apply app_nil_r.
Qed.
Lemma of_zero_outside block p : p < 0 \/ Z.of_nat (length block) < p -> of_zero_ended is_zero block p = None.
Proof.
  intros P. unfold of_zero_ended. destruct (Z.leb_spec 0 p); [|reflexivity]. destruct (Z.leb_spec p (Z.of_nat (length block))); [lia|reflexivity].
Qed.
End View.
