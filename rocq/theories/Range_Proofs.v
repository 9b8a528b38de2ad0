(** Proofs about searching in ranges. *)
From Verif Require Import Base Range_Model Range_Spec.
Local Open Scope nat_scope.
Local Open Scope omonad_scope.

Lemma nth_error_eq {T} (a b : list T) : (forall i, nth_error a i = nth_error b i) -> a = b.
Proof.
  revert b. induction a as [|x a IH]; intros [|y b] H; auto.
  - specialize (H 0); discriminate.
  - specialize (H 0); discriminate.
  - pose proof (H 0) as H0. cbn in H0. inversion H0. f_equal. apply IH.
    intros i. exact (H (S i)).
Qed.

Lemma nth_error_skip {T} (mem : list T) base i :
  nth_error (skipn base mem) i = nth_error mem (base + i).
Proof.
  revert mem. induction base; intros mem; cbn; auto.
  destruct mem; cbn; [destruct i; reflexivity|apply IHbase].
Qed.

Lemma nth_error_first {T} n (l : list T) i :
  nth_error (firstn n l) i = if Nat.ltb i n then nth_error l i else None.
Proof.
  revert l i. induction n; intros l i; [destruct i; reflexivity|].
  destruct l; destruct i; cbn [firstn nth_error]; auto.
  - destruct (Nat.ltb (S i) (S n)); reflexivity.
  - rewrite IHn. reflexivity.
Qed.

Lemma nth_error_part {T} (mem : list T) base size i :
  i < size -> nth_error (part_of mem base size) i = nth_error mem (base + i).
Proof.
  unfold part_of. intros Hi. rewrite nth_error_first, nth_error_skip.
  destruct (Nat.ltb_spec i size); [reflexivity|lia].
Qed.

Lemma part_length {T} (mem : list T) base size :
  base + size <= length mem -> length (part_of mem base size) = size.
Proof. unfold part_of. intros. rewrite firstn_length, skipn_length. lia. Qed.

Lemma occurs_nth {T} (p t : list T) k :
  occurs p t k <->
  (k + length p <= length t /\ forall i, i < length p -> nth_error t (k + i) = nth_error p i).
Proof.
  split.
  - intros (a & c & E & L). subst. rewrite !app_length. split; [lia|].
    intros i Hi. rewrite nth_error_app2 by lia. replace (length a + i - length a) with i by lia.
    now rewrite nth_error_app1.
  - intros [L H]. exists (firstn k t), (skipn (length p) (skipn k t)). split.
    + assert (E : firstn (length p) (skipn k t) = p).
      { apply nth_error_eq. intros i. rewrite nth_error_first, nth_error_skip.
        destruct (Nat.ltb_spec i (length p)) as [Hi|Hi]; [auto|].
        symmetry. now apply nth_error_None. }
      rewrite <- E at 1. rewrite (firstn_skipn (length p) (skipn k t)).
      symmetry. apply firstn_skipn.
    + rewrite firstn_length. lia.
Qed.

Section Search.
Variable T : Type.
Variable eqb : T -> T -> bool.
Variable idx : T -> nat.
Hypothesis eqb_spec : forall x y, eqb x y = true <-> x = y.

(** ** The skip table *)

Lemma fill_fwd_other m i pat t j :
  (forall c, In c pat -> idx c <> j) -> fill_fwd idx m i pat t j = t j.
Proof.
  revert i t. induction pat as [|c pat IH]; intros i t H; cbn; auto.
  rewrite IH by (intros; apply H; now right).
  unfold upd. destruct (Nat.eqb_spec j (idx c)) as [->|]; auto.
  destruct (H c (or_introl eq_refl) eq_refl).
Qed.

(** Every element of the pattern bounds the entry of its index. *)
Lemma fill_fwd_le m i pat t q c :
  i + length pat <= m ->
  nth_error pat q = Some c -> fill_fwd idx m i pat t (idx c) <= m - (i + q).
Proof.
  revert i t q c. induction pat as [|d pat IH]; intros i t q c L H; [destruct q; discriminate|].
  cbn [fill_fwd length] in *.
  destruct q as [|q]; cbn in H.
  - inversion H; subst d. rewrite Nat.add_0_r.
    assert (D : (exists q' c', nth_error pat q' = Some c' /\ idx c' = idx c) \/
                (forall c', In c' pat -> idx c' <> idx c)).
    { clear. induction pat as [|e pat IH]; [right; intros ? []|].
      destruct (Nat.eq_dec (idx e) (idx c)) as [E|E]; [left; exists 0, e; auto|].
      destruct IH as [(q & c' & A & B)|IH]; [left; exists (S q), c'; auto|].
      right. intros c' [->|]; auto. }
    destruct D as [(q' & c' & A & B)|D].
    + rewrite <- B. etransitivity; [apply (IH (S i) _ q' c'); auto; lia|lia].
    + rewrite fill_fwd_other by auto. unfold upd. rewrite Nat.eqb_refl. lia.
  - etransitivity; [apply (IH (S i) _ q); auto; lia|lia].
Qed.

Lemma fill_fwd_pos m i pat t j :
  i + length pat <= m -> 0 < t j -> 0 < fill_fwd idx m i pat t j.
Proof.
  revert i t. induction pat as [|d pat IH]; intros i t L H; cbn [fill_fwd length] in *; auto.
  apply IH; [lia|]. unfold upd. destruct (Nat.eqb j (idx d)); lia.
Qed.

Lemma fill_fwd_max m i pat t j :
  t j <= S m -> fill_fwd idx m i pat t j <= S m.
Proof.
  revert i t. induction pat as [|d pat IH]; intros i t H; cbn [fill_fwd] in *; auto.
  apply IH. unfold upd. destruct (Nat.eqb j (idx d)); lia.
Qed.

Lemma build_fwd_le pat q c :
  nth_error pat q = Some c -> build_fwd idx pat (idx c) <= length pat - q.
Proof.
  intros H. unfold build_fwd. destruct pat as [|d pat]; [destruct q; discriminate|].
  apply (@fill_fwd_le _ 0); auto.
Qed.

Lemma build_fwd_pos pat j : pat <> [] -> 0 < build_fwd idx pat j.
Proof.
  intros H. unfold build_fwd. destruct pat as [|d pat]; [congruence|].
  apply fill_fwd_pos; [auto|lia].
Qed.

Lemma build_fwd_max pat j : build_fwd idx pat j <= S (length pat).
Proof.
  unfold build_fwd. destruct pat as [|d pat]; [lia|]. apply fill_fwd_max. lia.
Qed.

(** ** Comparing one window *)

Definition window (mem pat : list T) (p : nat) : Prop :=
  forall i, i < length pat -> nth_error mem (p + i) = nth_error pat i.

Lemma inner_fwd_sound mem pat base off :
  forall fuel mo r, 1 <= mo ->
  (forall i, length pat - mo < i < length pat -> nth_error mem (base + off + i) = nth_error pat i) ->
  inner_fwd eqb fuel mem pat base off mo = Some r ->
  if r then window mem pat (base + off)
  else exists i, i < length pat /\ nth_error mem (base + off + i) <> nth_error pat i.
Proof.
  induction fuel as [|f IH]; intros mo r Hmo Hi H; cbn [inner_fwd] in H; [discriminate|].
  destruct (Nat.leb_spec mo (length pat)) as [L|L]; cbn [obind] in H; [|discriminate].
  destruct (nth_error pat (length pat - mo)) as [p|] eqn:Ep; cbn [obind] in H; [|discriminate].
  destruct (nth_error mem (base + off + (length pat - mo))) as [x|] eqn:Ex;
    cbn [obind] in H; [|discriminate].
  destruct (eqb p x) eqn:E.
  - apply eqb_spec in E. subst x.
    assert (Hi' : forall i, length pat - S mo < i < length pat ->
        nth_error mem (base + off + i) = nth_error pat i).
    { intros i Hr. destruct (Nat.eq_dec i (length pat - mo)) as [->|]; [congruence|].
      apply Hi. lia. }
    destruct (Nat.eqb_spec mo (length pat)) as [Em|Em].
    + inversion H; subst r. intros i Hl. destruct (Nat.eq_dec i (length pat - mo)) as [->|].
      * congruence.
      * apply Hi; lia.
    + apply (IH (S mo)); auto.
  - inversion H; subst r. exists (length pat - mo). split; [lia|].
    rewrite Ex, Ep. intros C. inversion C; subst.
    assert (eqb p p = true) by now apply eqb_spec. congruence.
Qed.

Lemma inner_fwd_defined mem pat base off :
  pat <> [] -> base + off + length pat <= length mem ->
  forall fuel mo, 1 <= mo <= length pat -> length pat < fuel + mo ->
  exists r, inner_fwd eqb fuel mem pat base off mo = Some r.
Proof.
  intros Hne Hl. induction fuel as [|f IH]; intros mo Hmo Hf; [lia|]. cbn [inner_fwd].
  destruct (Nat.leb_spec mo (length pat)) as [L|L]; [|lia]. cbn [obind].
  destruct (nth_error pat (length pat - mo)) as [p|] eqn:Ep; cbn [obind].
  2:{ apply nth_error_None in Ep. lia. }
  destruct (nth_error mem (base + off + (length pat - mo))) as [x|] eqn:Ex; cbn [obind].
  2:{ apply nth_error_None in Ex. lia. }
  destruct (eqb p x); [|eauto].
  destruct (Nat.eqb_spec mo (length pat)); [eauto|]. apply IH; lia.
Qed.

Lemma window_occurs mem pat p :
  pat <> [] -> window mem pat p <-> occurs pat mem p.
Proof.
  intros Hne. rewrite occurs_nth. split; [|intros []; auto].
  intros W. split; [|auto].
  assert (0 < length pat) by (destruct pat; [congruence|cbn; lia]).
  specialize (W (length pat - 1)). assert (L : length pat - 1 < length pat) by lia.
  specialize (W L). apply nth_error_Some in L. rewrite <- W in L.
  apply nth_error_Some in L. lia.
Qed.

Lemma occurs_part mem base size pat k :
  pat <> [] ->
  base + size <= length mem ->
  occurs pat (part_of mem base size) k <-> (k + length pat <= size /\ window mem pat (base + k)).
Proof.
  intros Hne Hl. rewrite occurs_nth, part_length by auto. split.
  - intros [A B]. split; auto. intros i Hi. rewrite <- B by auto.
    rewrite nth_error_part by lia. f_equal. lia.
  - intros [A B]. split; auto. intros i Hi. rewrite <- B by auto.
    rewrite nth_error_part by lia. f_equal. lia.
Qed.

(** ** The outer loop *)

(** A first occurrence inside of the range is always found. *)
Lemma outer_fwd_finds mem pat base size k :
  pat <> [] -> base + size <= length mem ->
  least (occurs pat (part_of mem base size)) k ->
  forall fuel off, off <= k -> size < fuel + off ->
  outer_fwd eqb idx fuel mem pat (build_fwd idx pat) base size off = Some (Some (base + k)).
Proof.
  intros Hne Hl [Hk Hmin].
  apply occurs_part in Hk; auto. destruct Hk as [Hkl Hkw].
  assert (Hm : 0 < length pat) by (destruct pat; [congruence|cbn; lia]).
  induction fuel as [|f IH]; intros off Ho Hf; [lia|]. cbn [outer_fwd].
  destruct (@inner_fwd_defined mem pat base off Hne) with (fuel := S (length pat)) (mo := 1)
    as [r Hr]; try lia.
  rewrite Hr. cbn [obind]. apply inner_fwd_sound in Hr; [|lia|intros; lia].
  destruct r.
  - assert (O : occurs pat (part_of mem base size) off).
    { apply occurs_part; auto. split; [lia|auto]. }
    specialize (Hmin off O). do 2 f_equal. lia.
  - destruct (Nat.eq_dec off k) as [->|Hn].
    + destruct Hr as (i & Hi & C). destruct C. auto.
    + destruct (Nat.leb_spec size (off + length pat)); [lia|].
      destruct (nth_error mem (base + off + length pat)) as [c|] eqn:Ec; cbn [obind].
      2:{ apply nth_error_None in Ec. lia. }
      pose proof (build_fwd_pos (idx c) Hne).
      destruct (le_lt_dec (off + length pat) (k + length pat - 1)) as [Hin|Hout].
      * destruct (le_lt_dec k (off + length pat)) as [Hge|Hlt].
        -- assert (Eq : nth_error pat (off + length pat - k) = Some c).
           { rewrite <- Hkw by lia. rewrite <- Ec. f_equal. lia. }
           apply build_fwd_le in Eq. apply IH; lia.
        -- pose proof (build_fwd_max pat (idx c)).
           apply IH; lia.
      * lia.
Qed.

(** What a result means. *)
Lemma outer_fwd_sound mem pat base size :
  pat <> [] -> base + size <= length mem ->
  forall fuel off r,
  (forall k, occurs pat (part_of mem base size) k -> off <= k) ->
  size < fuel + off ->
  outer_fwd eqb idx fuel mem pat (build_fwd idx pat) base size off = Some r ->
  match r with
  | None => forall k, ~ occurs pat (part_of mem base size) k
  | Some p => occurs pat mem p /\ base <= p /\
      (least (occurs pat (part_of mem base size)) (p - base) \/
       (base + size < p + length pat /\ forall k, ~ occurs pat (part_of mem base size) k))
  end.
Proof.
  intros Hne Hl.
  assert (Hm : 0 < length pat) by (destruct pat; [congruence|cbn; lia]).
  induction fuel as [|f IH]; intros off r Hinv Hf H; cbn [outer_fwd] in H; [discriminate|].
  destruct (inner_fwd eqb (S (length pat)) mem pat base off 1) as [b|] eqn:Eb;
    cbn [obind] in H; [|discriminate].
  apply inner_fwd_sound in Eb; [|lia|intros; lia].
  destruct b.
  - inversion H; subst r. split; [now apply window_occurs|]. split; [lia|].
    replace (base + off - base) with off by lia.
    destruct (le_lt_dec (off + length pat) size) as [Hs|Hs].
    + left. split; [apply occurs_part; auto|auto].
    + right. split; [lia|]. intros k Hk. pose proof (Hinv _ Hk).
      apply occurs_part in Hk; auto. lia.
  - destruct (Nat.leb_spec size (off + length pat)) as [Hs|Hs].
    + inversion H; subst r. intros k Hk. pose proof (Hinv _ Hk).
      apply occurs_part in Hk; auto. destruct Hk as [A B].
      assert (k = off) by lia. subst k.
      destruct Eb as (i & Hi & C). destruct C. auto.
    + destruct (nth_error mem (base + off + length pat)) as [c|] eqn:Ec;
        cbn [obind] in H; [|discriminate].
      pose proof (build_fwd_pos (idx c) Hne).
      refine (IH _ _ _ _ H); [|lia]. clear H IH.
      intros k Hk. pose proof (Hinv _ Hk).
      apply occurs_part in Hk; auto. destruct Hk as [A B].
      assert (k <> off). { intros ->. destruct Eb as (i & Hi & C). destruct C. auto. }
      destruct (le_lt_dec k (off + length pat)) as [Hge|Hlt].
      * assert (Eq : nth_error pat (off + length pat - k) = Some c).
        { rewrite <- B by lia. rewrite <- Ec. f_equal. lia. }
        apply build_fwd_le in Eq. lia.
      * pose proof (build_fwd_max pat (idx c)). lia.
Qed.

(** With enough readable memory behind the range the search terminates. *)
Lemma outer_fwd_defined mem pat base size :
  pat <> [] -> base + size + length pat <= length mem ->
  forall fuel off, off <= size -> size < fuel + off ->
  exists r, outer_fwd eqb idx fuel mem pat (build_fwd idx pat) base size off = Some r.
Proof.
  intros Hne Hl.
  assert (Hm : 0 < length pat) by (destruct pat; [congruence|cbn; lia]).
  induction fuel as [|f IH]; intros off Ho Hf; [lia|]. cbn [outer_fwd].
  destruct (@inner_fwd_defined mem pat base off Hne) with (fuel := S (length pat)) (mo := 1)
    as [r Hr]; try lia.
  rewrite Hr. cbn [obind]. destruct r; [eauto|].
  destruct (Nat.leb_spec size (off + length pat)); [eauto|].
  destruct (nth_error mem (base + off + length pat)) as [c|] eqn:Ec; cbn [obind].
  2:{ apply nth_error_None in Ec. lia. }
  pose proof (build_fwd_pos (idx c) Hne). pose proof (build_fwd_max pat (idx c)).
  apply IH; lia.
Qed.

Theorem search_fwd_finds mem base size pat k :
  pat <> [] -> base + size <= length mem ->
  least (occurs pat (part_of mem base size)) k ->
  search_fwd eqb idx mem base size pat = Some (Some (base + k)).
Proof. intros. unfold search_fwd. eapply outer_fwd_finds; eauto; lia. Qed.

Theorem search_fwd_sound mem base size pat r :
  pat <> [] -> base + size <= length mem ->
  search_fwd eqb idx mem base size pat = Some r ->
  match r with
  | None => forall k, ~ occurs pat (part_of mem base size) k
  | Some p => occurs pat mem p /\ base <= p /\
      (least (occurs pat (part_of mem base size)) (p - base) \/
       (base + size < p + length pat /\ forall k, ~ occurs pat (part_of mem base size) k))
  end.
Proof. intros. eapply outer_fwd_sound; eauto; lia. Qed.

Theorem search_fwd_defined mem base size pat :
  pat <> [] -> base + size + length pat <= length mem ->
  search_fwd eqb idx mem base size pat <> None.
Proof.
  intros H1 H2. destruct (outer_fwd_defined H1 H2) with (fuel := S size) (off := 0) as [r E];
    try lia. unfold search_fwd. congruence.
Qed.

(** A text shorter than the pattern is read outside, whatever the elements. *)
Theorem search_fwd_short mem pat :
  length mem < length pat ->
  search_fwd eqb idx mem 0 (length mem) pat = None.
Proof.
  intros H. unfold search_fwd. cbn [outer_fwd]. cbn [inner_fwd].
  destruct (Nat.leb_spec 1 (length pat)); [|lia]. cbn [obind].
  destruct (nth_error pat (length pat - 1)) as [p|]; cbn [obind]; auto.
  assert (E : nth_error mem (0 + 0 + (length pat - 1)) = None) by (apply nth_error_None; lia).
  rewrite E. reflexivity.
Qed.

(** ** Backward search *)

Lemma inner_rev_sound mem pat base size off :
  forall fuel mo r,
  length pat + off <= base + size -> mo < length pat ->
  (forall i, i < mo -> nth_error mem (base + size - (off + length pat) + i) = nth_error pat i) ->
  inner_rev eqb fuel mem pat base size off mo = Some r ->
  if r then window mem pat (base + size - (off + length pat))
  else exists i, i < length pat /\
        nth_error mem (base + size - (off + length pat) + i) <> nth_error pat i.
Proof.
  induction fuel as [|f IH]; intros mo r Hl Hmo Hi H; cbn [inner_rev] in H; [discriminate|].
  destruct (nth_error pat mo) as [p|] eqn:Ep; cbn [obind] in H; [|discriminate].
  unfold before_end in H at 1.
  destruct (Nat.leb_spec (off + length pat - mo) (base + size)); cbn [obind] in H; [|discriminate].
  replace (base + size - (off + length pat - mo)) with
    (base + size - (off + length pat) + mo) in H by lia.
  destruct (nth_error mem (base + size - (off + length pat) + mo)) as [x|] eqn:Ex;
    cbn [obind] in H; [|discriminate].
  destruct (eqb p x) eqn:E.
  - apply eqb_spec in E. subst x.
    assert (Hi' : forall i, i < S mo ->
        nth_error mem (base + size - (off + length pat) + i) = nth_error pat i).
    { intros i Hr. destruct (Nat.eq_dec i mo) as [->|]; [congruence|]. apply Hi. lia. }
    destruct (Nat.eqb_spec mo (length pat - 1)) as [Em|Em].
    + inversion H; subst r. intros i Hlt. apply Hi'. lia.
    + apply (IH (S mo)); auto. lia.
  - inversion H; subst r. exists mo. split; [lia|].
    rewrite Ex, Ep. intros C. inversion C; subst.
    assert (eqb p p = true) by now apply eqb_spec. congruence.
Qed.

(** If the window lies before the start of the memory the first read is
    undefined. *)
Lemma inner_rev_outside mem pat base size off fuel :
  base + size < off + length pat -> inner_rev eqb fuel mem pat base size off 0 = None.
Proof.
  intros H. destruct fuel as [|f]; [reflexivity|]. cbn [inner_rev].
  destruct (nth_error pat 0) as [p|]; cbn [obind]; auto.
  unfold before_end. destruct (Nat.leb_spec (off + length pat - 0) (base + size)); [lia|].
  reflexivity.
Qed.

Lemma outer_rev_sound mem pat t base size :
  pat <> [] ->
  forall fuel off p,
  outer_rev eqb idx fuel mem pat t base size off = Some (Some p) ->
  occurs pat mem p /\ p + length pat <= base + size.
Proof.
  intros Hne.
  assert (Hm : 0 < length pat) by (destruct pat; [congruence|cbn; lia]).
  induction fuel as [|f IH]; intros off p H; cbn [outer_rev] in H; [discriminate|].
  destruct (le_lt_dec (length pat + off) (base + size)) as [Hl|Hl].
  2:{ rewrite inner_rev_outside in H by lia. discriminate. }
  destruct (inner_rev eqb (S (length pat)) mem pat base size off 0) as [b|] eqn:Eb;
    cbn [obind] in H; [|discriminate].
  apply inner_rev_sound in Eb; auto; [|intros; lia].
  destruct b.
  - inversion H; subst p. split; [now apply window_occurs|lia].
  - destruct (Nat.leb size (off + length pat)); [discriminate|].
    destruct (before_end mem base size (off + length pat + 1)) as [c|]; cbn [obind] in H;
      [|discriminate].
    eapply IH; eauto.
Qed.

Theorem search_rev_sound mem base size pat p :
  pat <> [] ->
  search_rev eqb idx mem base size pat = Some (Some p) ->
  occurs pat mem p /\ p + length pat <= base + size.
Proof. intros H. now apply outer_rev_sound. Qed.

Lemma inner_rev_complete mem pat base size off :
  pat <> [] -> length pat + off <= base + size ->
  window mem pat (base + size - (off + length pat)) ->
  forall fuel mo, mo < length pat -> length pat <= fuel + mo ->
  inner_rev eqb fuel mem pat base size off mo = Some true.
Proof.
  intros Hne Hl W. induction fuel as [|f IH]; intros mo Hmo Hf; [lia|]. cbn [inner_rev].
  destruct (nth_error pat mo) as [p|] eqn:Ep; cbn [obind].
  2:{ apply nth_error_None in Ep. lia. }
  unfold before_end at 1.
  destruct (Nat.leb_spec (off + length pat - mo) (base + size)); [|lia].
  replace (base + size - (off + length pat - mo)) with
    (base + size - (off + length pat) + mo) by lia.
  rewrite W, Ep by auto. cbn [obind].
  assert (E : eqb p p = true) by now apply eqb_spec. rewrite E.
  destruct (Nat.eqb_spec mo (length pat - 1)); [auto|]. apply IH; lia.
Qed.

(** A pattern that ends the range is found. *)
Theorem search_rev_suffix pre pat :
  pat <> [] ->
  search_rev eqb idx (pre ++ pat) 0 (length (pre ++ pat)) pat = Some (Some (length pre)).
Proof.
  intros Hne. unfold search_rev. cbn [outer_rev].
  assert (Hm : 0 < length pat) by (destruct pat; [congruence|cbn; lia]).
  rewrite inner_rev_complete; cbn [obind]; auto; rewrite ?app_length; try lia.
  - do 2 f_equal. lia.
  - intros i Hi. rewrite nth_error_app2 by lia. f_equal. lia.
Qed.

(** A range of the length of the pattern is decided. *)
Theorem search_rev_same_length mem pat :
  pat <> [] -> length mem = length pat ->
  search_rev eqb idx mem 0 (length mem) pat = Some (Some 0) <-> mem = pat.
Proof.
  intros Hne L. split.
  - intros H. apply search_rev_sound in H as [O _]; auto.
    apply occurs_nth in O as [_ O]. apply nth_error_eq. intros i.
    destruct (le_lt_dec (length pat) i) as [Hi|Hi].
    + assert (E1 : nth_error mem i = None) by (apply nth_error_None; lia).
      assert (E2 : nth_error pat i = None) by (apply nth_error_None; lia). congruence.
    + apply (O i Hi).
  - intros ->. apply (search_rev_suffix [] Hne).
Qed.

(** ** What the table of the search from the end holds *)
Lemma fill_rev_other m : forall l i t k, (forall d, In d (firstn (m - 1 - i) l) -> idx d <> k) ->
  fill_rev idx m i l t k = t k.
Proof.
  induction l as [|c l IH]; intros i t k H; [reflexivity|]. cbn [fill_rev].
  destruct (Nat.ltb_spec i (m - 1)) as [L|L]; [|reflexivity].
  destruct (m - 1 - i) as [|q] eqn:Q; [lia|]. cbn [firstn] in H.
  rewrite IH.
  - unfold upd. destruct (Nat.eqb_spec k (idx c)) as [X|X]; [|reflexivity]. exfalso. apply (H c); auto. now left.
  - intros d D. apply H. right. replace (m - 1 - S i) with q in D by lia. exact D.
Qed.
Lemma fill_rev_last m : forall a c b i t, i + length a < m - 1 ->
  (forall d, In d (firstn (m - 2 - (i + length a)) b) -> idx d <> idx c) ->
  fill_rev idx m i (a ++ c :: b) t (idx c) = i + length a.
Proof.
  induction a as [|x a IH]; intros c b i t L H; cbn [app fill_rev length] in *.
  - destruct (Nat.ltb_spec i (m - 1)); [|lia]. rewrite fill_rev_other.
    + unfold upd. rewrite Nat.eqb_refl. lia.
    + intros d D. apply H. replace (m - 2 - (i + 0)) with (m - 1 - S i) by lia. exact D.
  - destruct (Nat.ltb_spec i (m - 1)); [|lia]. rewrite IH; [lia|lia|].
    intros d D. apply H. replace (m - 2 - (i + S (length a))) with (m - 2 - (S i + length a)) by lia. exact D.
Qed.
Lemma removelast_first (l : list T) : removelast l = firstn (length l - 1) l.
Proof.
  induction l as [|x [|y l] IH]; [reflexivity|reflexivity|].
  change (removelast (x :: y :: l)) with (x :: removelast (y :: l)). rewrite IH. cbn [length].
  replace (S (S (length l)) - 1) with (S (length l)) by lia. replace (S (length l) - 1) with (length l) by lia. reflexivity.
Qed.

Lemma inner_rev_differs mem pat : pat <> [] -> length pat <= length mem ->
  (forall q, mem <> q ++ pat) -> inner_rev eqb (S (length pat)) mem pat 0 (length mem) 0 0 = Some false.
Proof.
  intros Hne L D.
  assert (Hm : 0 < length pat) by (destruct pat; [congruence|cbn; lia]).
  destruct (inner_rev eqb (S (length pat)) mem pat 0 (length mem) 0 0) as [[|]|] eqn:E; [exfalso| reflexivity|exfalso].
  - apply inner_rev_sound in E; auto; [|cbn; lia|intros; lia]. apply (D (firstn (length mem - length pat) mem)).
    rewrite <- (firstn_skipn (length mem - length pat) mem) at 1. f_equal.
    apply nth_error_eq. intros i. rewrite nth_error_skip.
    destruct (le_lt_dec (length pat) i) as [Hi|Hi].
    + assert (E1 : nth_error mem (length mem - length pat + i) = None) by (apply nth_error_None; lia).
      assert (E2 : nth_error pat i = None) by (apply nth_error_None; lia). congruence.
    + rewrite <- (E i Hi). f_equal. 
  - assert (K : forall fuel mo, mo < length pat -> length pat <= fuel + mo ->
      inner_rev eqb fuel mem pat 0 (length mem) 0 mo <> None).
    { induction fuel as [|f IH]; intros mo Hmo Hf; [lia|]. cbn [inner_rev].
      destruct (nth_error pat mo) as [p|] eqn:Ep; cbn [obind]; [|apply nth_error_None in Ep; lia].
      unfold before_end. destruct (Nat.leb_spec (0 + length pat - mo) (0 + length mem)); [|lia].
      destruct (nth_error mem (0 + length mem - (0 + length pat - mo))) as [x|] eqn:Ex; cbn [obind]; [|apply nth_error_None in Ex; lia].
      destruct (eqb p x); [|discriminate]. destruct (Nat.eqb_spec mo (length pat - 1)); [discriminate|]. apply IH; lia. }
    apply (K (S (length pat)) 0); auto. lia.
Qed.

(** An occurrence that is one skip away is found. *)
Theorem search_rev_skip pre a c b z :
  b <> [] -> length z = S (length a) -> (forall d, In d (removelast b) -> idx d <> idx c) ->
  (forall q, pre ++ (a ++ c :: b) ++ z <> q ++ a ++ c :: b) ->
  search_rev eqb idx (pre ++ (a ++ c :: b) ++ z) 0 (length (pre ++ (a ++ c :: b) ++ z)) (a ++ c :: b) = Some (Some (length pre)).
Proof.
  intros Hb Hz Hc D. unfold search_rev.
  set (mem := pre ++ (a ++ c :: b) ++ z) in *. set (pat := a ++ c :: b) in *.
  assert (Lb : 0 < length b) by (destruct b; [congruence|cbn; lia]).
  assert (Lp : length pat = S (length a + length b)) by (unfold pat; rewrite app_length; cbn; lia).
  assert (Lm : length mem = length pre + length pat + S (length a)) by (unfold mem; rewrite !app_length; lia).
  assert (Np : pat <> []) by (intros X; rewrite X in Lp; discriminate).
  assert (Tc : build_rev idx pat (idx c) = length a).
  { unfold build_rev. destruct pat as [|p0 pat0] eqn:Q; [congruence|]. rewrite <- Q in *. unfold pat. rewrite fill_rev_last; [lia|fold pat; lia|].
    fold pat. intros d X. apply Hc. rewrite removelast_first. replace (length b - 1) with (length pat - 2 - (0 + length a)) by lia. exact X. }
  remember (length mem) as N eqn:EN. cbn [outer_rev].
  rewrite EN, inner_rev_differs; auto; [|lia]. rewrite <- EN. cbn [obind].
  destruct (Nat.leb_spec N (0 + length pat)); [lia|].
  unfold before_end. destruct (Nat.leb_spec (0 + length pat + 1) (0 + N)); [|lia].
  replace (0 + N - (0 + length pat + 1)) with (length pre + length a) by lia.
  assert (Ec : nth_error mem (length pre + length a) = Some c).
  { unfold mem, pat. rewrite nth_error_app2 by lia. rewrite nth_error_app1 by (rewrite app_length; cbn; lia).
    rewrite nth_error_app2 by lia. replace (length pre + length a - length pre - length a) with 0 by lia. reflexivity. }
  rewrite Ec. cbn [obind]. rewrite Tc.
  destruct N as [|N']; [lia|]. cbn [outer_rev].
  rewrite inner_rev_complete; cbn [obind]; auto; try lia.
  - do 2 f_equal. lia.
  - intros i Hi. replace (0 + S N' - (S (0 + length a) + length pat) + i) with (length pre + i) by lia.
    unfold mem. rewrite nth_error_app2 by lia. rewrite nth_error_app1 by lia. f_equal. lia.
Qed.

(** An occurrence at the start, and behind it an element that is not in the pattern. *)
Theorem search_rev_before pat c z :
  pat <> [] -> length z = length pat -> z <> pat -> (forall d, In d (removelast pat) -> idx d <> idx c) ->
  search_rev eqb idx (pat ++ c :: z) 0 (length (pat ++ c :: z)) pat = None.
Proof.
  intros Np Hz D Hc. unfold search_rev. set (mem := pat ++ c :: z) in *.
  assert (Hm : 0 < length pat) by (destruct pat; [congruence|cbn; lia]).
  assert (Lm : length mem = S (2 * length pat)) by (unfold mem; rewrite app_length; cbn; lia).
  assert (Tc : build_rev idx pat (idx c) = S (length pat)).
  { unfold build_rev. destruct pat as [|p0 pat0] eqn:Q; [congruence|]. rewrite <- Q in *. rewrite fill_rev_other; [reflexivity|].
    intros d X. apply Hc. rewrite removelast_first. replace (length pat - 1) with (length pat - 1 - 0) by lia. exact X. }
  remember (length mem) as N eqn:EN. cbn [outer_rev].
  rewrite EN, inner_rev_differs; auto; [|lia|].
  2:{ intros q X. apply D. unfold mem in X. change (pat ++ c :: z) with (pat ++ [c] ++ z) in X. rewrite app_assoc in X.
      assert (L : length (pat ++ [c]) = length q).
      { pose proof (f_equal (@length T) X) as Y. rewrite !app_length in Y. rewrite app_length. cbn in *. lia. }
      pose proof (f_equal (skipn (length q)) X) as Y. rewrite (skipn_app (length q) q), skipn_all, Nat.sub_diag in Y.
      rewrite <- L, (skipn_app _ (pat ++ [c])), skipn_all, Nat.sub_diag in Y. exact Y. }
  rewrite <- EN. cbn [obind]. destruct (Nat.leb_spec N (0 + length pat)); [lia|].
  unfold before_end. destruct (Nat.leb_spec (0 + length pat + 1) (0 + N)); [|lia].
  replace (0 + N - (0 + length pat + 1)) with (length pat) by lia.
  assert (Ec : nth_error mem (length pat) = Some c).
  { unfold mem. rewrite nth_error_app2 by lia. rewrite Nat.sub_diag. reflexivity. }
  rewrite Ec. cbn [obind]. rewrite Tc. destruct N as [|N']; [lia|]. cbn [outer_rev].
  rewrite inner_rev_outside by lia. reflexivity.
Qed.

End Search.

(** ** Single elements *)
Section Single.
Variable T : Type.


Lemma find_fore_spec (f : T -> bool) l :
  first_with (at_pos l (fun x => f x = true)) (find_fore f 0 l).
Proof.
  assert (G : forall l i, match find_fore f i l with
     | Some k => i <= k /\ least (at_pos l (fun x => f x = true)) (k - i)
     | None => forall k, ~ at_pos l (fun x => f x = true) k end).
  { clear l. induction l as [|x l IH]; intros i; cbn [find_fore].
    - intros k (y & H & _). destruct k; discriminate.
    - destruct (f x) eqn:E.
      + split; [lia|]. rewrite Nat.sub_diag. split; [exists x; auto|intros; lia].
      + specialize (IH (S i)). destruct (find_fore f (S i) l) as [k|].
        * destruct IH as [Hk [(y & Hy & Hf) Hmin]]. split; [lia|].
          replace (k - i) with (S (k - S i)) by lia. split; [exists y; auto|].
          intros j (z & Hz & Hfz). destruct j as [|j]; cbn in Hz; [congruence|].
          apply le_n_S. apply Hmin. exists z; auto.
        * intros k (y & Hy & Hf). destruct k as [|k]; cbn in Hy; [congruence|].
          apply (IH k). exists y; auto. }
  specialize (G l 0). unfold first_with. destruct (find_fore f 0 l) as [k|]; auto.
  rewrite Nat.sub_0_r in G. exact (proj2 G).
Qed.

Lemma find_back_spec (f : T -> bool) l :
  last_with (at_pos l (fun x => f x = true)) (find_back f 0 l).
Proof.
  assert (G : forall l i, match find_back f i l with
     | Some k => i <= k /\ greatest (at_pos l (fun x => f x = true)) (k - i)
     | None => forall k, ~ at_pos l (fun x => f x = true) k end).
  { clear l. induction l as [|x l IH]; intros i; cbn [find_back].
    - intros k (y & H & _). destruct k; discriminate.
    - specialize (IH (S i)). destruct (find_back f (S i) l) as [k|].
      + destruct IH as [Hk [(y & Hy & Hf) Hmax]]. split; [lia|].
        replace (k - i) with (S (k - S i)) by lia. split; [exists y; auto|].
        intros j (z & Hz & Hfz). destruct j as [|j]; [lia|].
        apply le_n_S. apply Hmax. exists z; auto.
      + destruct (f x) eqn:E.
        * split; [lia|]. rewrite Nat.sub_diag. split; [exists x; auto|].
          intros j (z & Hz & Hfz). destruct j as [|j]; [lia|].
          destruct (IH j). exists z; auto.
        * intros k (y & Hy & Hf). destruct k as [|k]; cbn in Hy; [congruence|].
          apply (IH k). exists y; auto. }
  specialize (G l 0). unfold last_with. destruct (find_back f 0 l) as [k|]; auto.
  rewrite Nat.sub_0_r in G. exact (proj2 G).
Qed.

Lemma find_val_fore (eqb : T -> T -> bool) v l i : find_val eqb i v l = find_fore (fun x => eqb x v) i l.
Proof. revert i; induction l as [|x l IH]; intros i; cbn; auto. destruct (eqb x v); auto. Qed.

Lemma at_pos_ext (P Q : T -> Prop) l k :
  (forall x, P x <-> Q x) -> at_pos l P k <-> at_pos l Q k.
Proof. intros H. split; intros (x & A & B); exists x; split; auto; now apply H. Qed.

Lemma first_with_ext (P Q : nat -> Prop) r :
  (forall k, P k <-> Q k) -> first_with P r <-> first_with Q r.
Proof.
  intros H. unfold first_with, least. destruct r; split.
  - intros [A B]; split; [now apply H|intros; apply B; now apply H].
  - intros [A B]; split; [now apply H|intros; apply B; now apply H].
  - intros A k C. apply (A k). now apply H.
  - intros A k C. apply (A k). now apply H.
Qed.
Lemma last_with_ext (P Q : nat -> Prop) r :
  (forall k, P k <-> Q k) -> last_with P r <-> last_with Q r.
Proof.
  intros H. unfold last_with, greatest. destruct r; split.
  - intros [A B]; split; [now apply H|intros; apply B; now apply H].
  - intros [A B]; split; [now apply H|intros; apply B; now apply H].
  - intros A k C. apply (A k). now apply H.
  - intros A k C. apply (A k). now apply H.
Qed.

Theorem find_val_exact (eqb : T -> T -> bool) (eqb_spec : forall x y, eqb x y = true <-> x = y) v l :
  first_with (fun k => nth_error l k = Some v) (find_val eqb 0 v l) /\
  last_with (fun k => nth_error l k = Some v) (find_val_back eqb v l).
Proof.
  assert (E : forall k, at_pos l (fun x => eqb x v = true) k <-> nth_error l k = Some v).
  { intros k. split.
    - intros (x & A & B). apply eqb_spec in B. congruence.
    - intros H. exists v. split; auto. now apply eqb_spec. }
  split.
  - rewrite find_val_fore. eapply first_with_ext; [|apply find_fore_spec].
    intros; symmetry; apply E.
  - eapply last_with_ext; [|apply find_back_spec]. intros; symmetry; apply E.
Qed.

End Single.

(** ** Sets of integers *)
Local Open Scope Z_scope.

Section Sets.
Variable w : Z.
(** The values of T: an interval of [2^w] integers, signed or not. *)
Variable lo : Z.
Hypothesis Hw : 8 <= w.
Definition valT (x : Z) : Prop := lo <= x < lo + 2 ^ w.

Lemma pow_w : exists q, 2 ^ w = 256 * q /\ 0 < q.
Proof.
  exists (2 ^ (w - 8)). split; [|apply Z.pow_pos_nonneg; lia].
  change 256 with (2 ^ 8). rewrite <- Z.pow_add_r by lia. f_equal. lia.
Qed.

Lemma mod_w_inj x y : valT x -> valT y -> x mod 2 ^ w = y mod 2 ^ w -> x = y.
Proof.
  unfold valT. intros Hx Hy E.
  pose proof (Z.div_mod x (2 ^ w)) as Dx. pose proof (Z.div_mod y (2 ^ w)) as Dy.
  destruct pow_w as (q & Eq & Hq).
  assert (P : 0 < 2 ^ w) by lia. rewrite E in Dx.
  assert (-1 < x / 2 ^ w - y / 2 ^ w < 1) by nia. nia.
Qed.

Lemma byte_of x : x mod 2 ^ w < 256 -> x mod 256 = x mod 2 ^ w.
Proof.
  intros H. destruct pow_w as (q & Eq & Hq).
  pose proof (Z.mod_pos_bound x (2 ^ w) ltac:(lia)) as B.
  rewrite <- (Z.mod_small (x mod 2 ^ w) 256) by lia.
  rewrite Eq. rewrite Z.rem_mul_r by lia.
  rewrite Z.mul_comm, Z.mod_add, Z.mod_mod by lia. reflexivity.
Qed.

(** Whether the table can represent [x]. *)
Definition fits (x : Z) : bool := negb (wide w && (256 <=? x mod 2 ^ w)).

Lemma fits_lt x : fits x = true <-> x mod 2 ^ w < 256.
Proof.
  unfold fits, wide. destruct pow_w as (q & Eq & Hq).
  pose proof (Z.mod_pos_bound x (2 ^ w) ltac:(lia)). change (2 ^ 8) with 256.
  destruct (Z.ltb_spec 256 (2 ^ w)); destruct (Z.leb_spec 256 (x mod 2 ^ w)); cbn; split;
    intros; try discriminate; try reflexivity; lia.
Qed.

Lemma byte_inj x y :
  valT x -> valT y -> fits x = true -> fits y = true -> x mod 256 = y mod 256 -> x = y.
Proof.
  intros Hx Hy Fx Fy E. apply fits_lt in Fx. apply fits_lt in Fy.
  apply mod_w_inj; auto. rewrite <- !byte_of by auto. exact E.
Qed.

Lemma mark_loop_spec pat : forall b b',
  mark_loop w pat b = Some b' ->
  Forall (fun i => fits i = true) pat /\
  forall j, b' j = true <-> (b j = true \/ exists i, In i pat /\ i mod 256 = j).
Proof.
  induction pat as [|i pat IH]; intros b b' H; cbn [mark_loop] in H.
  - inversion H; subst. split; [constructor|]. intros j. split; [auto|].
    intros [A|(i & [] & _)]; auto.
  - destruct (wide w && (256 <=? i mod 2 ^ w))%bool eqn:E; [discriminate|].
    apply IH in H as [F H]. split.
    + constructor; auto. unfold fits. now rewrite E.
    + intros j. rewrite H. unfold bset. destruct (Z.eqb_spec j (i mod 256)) as [->|N].
      * split; [|tauto]. intros _. right. exists i. split; [now left|auto].
      * split.
        -- intros [A|(k & A & B)]; [tauto|]. right. exists k. split; [now right|auto].
        -- intros [A|(k & [->|A] & B)]; [tauto|congruence|]. right. exists k. auto.
Qed.

Lemma mark_get pat b x :
  Forall valT pat -> valT x -> mark w pat = Some b ->
  bget w b x = true <-> In x pat.
Proof.
  intros Hp Hx H. apply mark_loop_spec in H as [F H]. unfold bget.
  destruct (wide w && (256 <=? x mod 2 ^ w))%bool eqn:E.
  - split; [discriminate|]. intros I. rewrite Forall_forall in F. apply F in I.
    unfold fits in I. rewrite E in I. discriminate.
  - assert (Fx : fits x = true) by (unfold fits; now rewrite E).
    rewrite H. rewrite Forall_forall in F, Hp. split.
    + intros [A|(i & A & B)]; [discriminate|].
      rewrite <- (@byte_inj i x); auto.
    + intros I. right. exists x. auto.
Qed.

Lemma mem_of_spec pat x : mem_of pat x = true <-> In x pat.
Proof.
  unfold mem_of. pose proof (@find_val_exact Z Z.eqb (Z.eqb_eq) x pat) as [H _].
  destruct (find_val Z.eqb 0 x pat) as [k|]; cbn in H.
  - split; auto. intros _. destruct H as [H _]. now apply nth_error_In in H.
  - split; [discriminate|]. intros I. apply In_nth_error in I as [k I].
    destruct (H k I).
Qed.

Lemma at_pos_mem (f g : Z -> Prop) l k :
  Forall valT l -> (forall x, valT x -> f x <-> g x) -> at_pos l f k <-> at_pos l g k.
Proof.
  intros Hl H. split; intros (x & A & B); exists x; split; auto;
  apply H; auto; rewrite Forall_forall in Hl; apply Hl; now apply nth_error_In in A.
Qed.

Theorem find_first_of_exact pat l :
  Forall valT pat -> Forall valT l ->
  exists r, find_first_of w pat l = Some r /\ first_with (at_pos l (fun x => In x pat)) r.
Proof.
  intros Hp Hl. unfold find_first_of. destruct (mark w pat) as [b|] eqn:E; eexists; split; eauto;
  (eapply first_with_ext; [|apply find_fore_spec]); intros k; apply at_pos_mem; auto; intros x Hx.
  - now rewrite mark_get.
  - now rewrite mem_of_spec.
Qed.

Theorem find_first_not_of_exact pat l :
  Forall valT pat -> Forall valT l ->
  exists r, find_first_not_of w pat l = Some r /\ first_with (at_pos l (fun x => ~ In x pat)) r.
Proof.
  intros Hp Hl. unfold find_first_not_of.
  destruct (mark w pat) as [b|] eqn:E; eexists; split; eauto;
  (eapply first_with_ext; [|apply find_fore_spec]); intros k; apply at_pos_mem; auto; intros x Hx;
  rewrite negb_true_iff, <- not_true_iff_false.
  - now rewrite mark_get.
  - now rewrite mem_of_spec.
Qed.

Theorem find_last_not_of_exact pat l :
  Forall valT pat -> Forall valT l ->
  exists r, find_last_not_of w pat l = Some r /\ last_with (at_pos l (fun x => ~ In x pat)) r.
Proof.
  intros Hp Hl. unfold find_last_not_of.
  destruct (mark w pat) as [b|] eqn:E; eexists; split; eauto;
  (eapply last_with_ext; [|apply find_back_spec]); intros k; apply at_pos_mem; auto; intros x Hx;
  rewrite negb_true_iff, <- not_true_iff_false.
  - now rewrite mark_get.
  - now rewrite mem_of_spec.
Qed.

(** find_last_of: right whenever there is something to find, or the table
    shortcut does not apply; undefined otherwise. *)
Theorem find_last_of_cases pat l :
  Forall valT pat -> Forall valT l ->
  match find_last_of w pat l with
  | Some r => last_with (at_pos l (fun x => In x pat)) r
  | None => Forall (fun c => c mod 2 ^ w < 256) pat /\ forall k, ~ at_pos l (fun x => In x pat) k
  end.
Proof.
  intros Hp Hl. unfold find_last_of.
  destruct (mark w pat) as [b|] eqn:E.
  - assert (S : last_with (at_pos l (fun x => In x pat)) (find_back (bget w b) 0 l)).
    { eapply last_with_ext; [|apply find_back_spec]. intros k; apply at_pos_mem; auto.
      intros x Hx. now rewrite mark_get. }
    destruct (find_back (bget w b) 0 l) as [k|]; auto. split; [|exact S].
    apply mark_loop_spec in E as [F _]. revert F. apply Forall_impl. intros c. apply fits_lt.
  - eapply last_with_ext; [|apply find_back_spec]. intros k; apply at_pos_mem; auto.
    intros x Hx. now rewrite mem_of_spec.
Qed.

Lemma mark_fails pat : forall b,
  mark_loop w pat b = None <-> ~ Forall (fun c => c mod 2 ^ w < 256) pat.
Proof.
  induction pat as [|i pat IH]; intros b; cbn [mark_loop].
  - split; [discriminate|]. intros H; destruct H; constructor.
  - destruct (wide w && (256 <=? i mod 2 ^ w))%bool eqn:E.
    + split; auto. intros _ H. apply Forall_inv in H. apply fits_lt in H. unfold fits in H.
      rewrite E in H. discriminate.
    + rewrite IH. assert (F : i mod 2 ^ w < 256) by (apply fits_lt; unfold fits; now rewrite E).
      split; intros H C; apply H.
      * now apply Forall_inv_tail in C.
      * constructor; auto.
Qed.

(** The undefined case exactly. *)
Theorem find_last_of_undefined pat l :
  Forall valT pat -> Forall valT l ->
  find_last_of w pat l = None <->
  (Forall (fun c => c mod 2 ^ w < 256) pat /\ forall k, ~ at_pos l (fun x => In x pat) k).
Proof.
  intros Hp Hl. pose proof (find_last_of_cases Hp Hl) as H.
  split; [intros E; now rewrite E in H|]. intros [F N].
  unfold find_last_of in *. destruct (mark w pat) as [b|] eqn:E.
  - destruct (find_back (bget w b) 0 l) as [k|]; auto. destruct H as [A _]. destruct (N _ A).
  - apply mark_fails in E. contradiction.
Qed.

(** ** Reverse index *)

Lemma umark_loop_spec pat : forall i b,
  (forall c, b c <> None -> exists x, valT x /\ fits x = true /\ x mod 256 = c) ->
  Forall valT pat ->
  match umark_loop w i pat b with
  | Some b' =>
      Forall (fun c => fits c = true) pat /\ NoDup pat /\
      (forall c, In c pat -> b (c mod 256) = None) /\
      (forall x, valT x -> fits x = true -> forall k,
         b' (x mod 256) = Some k <->
         (b (x mod 256) = Some k \/ (i <= k)%nat /\ nth_error pat (k - i) = Some x))
  | None =>
      ~ (Forall (fun c => fits c = true) pat /\ NoDup pat /\
         (forall c, In c pat -> b (c mod 256) = None))
  end.
Proof.
  induction pat as [|c pat IH]; intros i b Hb Hp; cbn [umark_loop].
  - split; [constructor|]. split; [constructor|]. split; [intros ? []|].
    intros x Hx Fx k. split; [auto|]. intros [A|[_ A]]; auto. destruct (k - i)%nat; discriminate.
  - apply Forall_cons_iff in Hp as [Hc Hp].
    destruct (wide w && (256 <=? c mod 2 ^ w))%bool eqn:E.
    { intros (F & _). apply Forall_inv in F. unfold fits in F. rewrite E in F. discriminate. }
    assert (Fc : fits c = true) by (unfold fits; now rewrite E).
    destruct (b (c mod 256)) as [v|] eqn:Eb.
    { intros (_ & _ & N). rewrite (N c (or_introl eq_refl)) in Eb. discriminate. }
    assert (Hb' : forall d, uset b (c mod 256) i d <> None ->
        exists x, valT x /\ fits x = true /\ x mod 256 = d).
    { intros d. unfold uset. destruct (Z.eqb_spec d (c mod 256)) as [->|]; eauto. }
    specialize (IH (S i) _ Hb' Hp).
    assert (Q : forall x, valT x -> fits x = true -> x <> c ->
        uset b (c mod 256) i (x mod 256) = b (x mod 256)).
    { intros x Hx Fx N. unfold uset. destruct (Z.eqb_spec (x mod 256) (c mod 256)) as [A|]; auto.
      destruct N. now apply byte_inj. }
    assert (Qc : uset b (c mod 256) i (c mod 256) = Some i)
      by (unfold uset; now rewrite Z.eqb_refl).
    destruct (umark_loop w (S i) pat (uset b (c mod 256) i)) as [b'|].
    + destruct IH as (F & N & A & G).
      assert (Nc : ~ In c pat). { intros I. apply A in I. congruence. }
      assert (A' : forall d, In d pat -> b (d mod 256) = None).
      { intros d I. rewrite <- Q; auto.
        - rewrite Forall_forall in Hp; auto.
        - rewrite Forall_forall in F; auto.
        - intros ->; auto. }
      split; [now constructor|]. split; [now constructor|]. split.
      { intros d [->|I]; auto. }
      intros x Hx Fx k. rewrite G by auto. destruct (Z.eq_dec x c) as [->|N1].
      * rewrite Qc. split.
        -- intros [K|[K1 K2]]; [inversion K; subst; right; split; [lia|]|].
           ++ now rewrite Nat.sub_diag.
           ++ apply nth_error_In in K2. contradiction.
        -- intros [K|[K1 K2]]; [congruence|]. left.
           destruct (k - i)%nat as [|m] eqn:Em; [f_equal; lia|].
           cbn in K2. apply nth_error_In in K2. contradiction.
      * rewrite Q by auto. split.
        -- intros [K|[K1 K2]]; [auto|]. right. split; [lia|].
           replace (k - i)%nat with (S (k - S i)) by lia. exact K2.
        -- intros [K|[K1 K2]]; [auto|]. right.
           destruct (k - i)%nat as [|m] eqn:Em; [cbn in K2; congruence|].
           split; [lia|]. replace (k - S i)%nat with m by lia. exact K2.
    + intros (F & N & A). apply IH. apply Forall_inv_tail in F. inversion N; subst.
      split; auto. split; auto. intros d I. rewrite Q; auto.
      * apply A. now right.
      * rewrite Forall_forall in Hp; auto.
      * rewrite Forall_forall in F; auto.
      * intros ->; auto.
Qed.

Theorem unindex_exact pat :
  Forall valT pat ->
  match unindex_mark w pat with
  | Some b =>
      forall x, valT x ->
      match unindex_get w b x with
      | Some k => nth_error pat k = Some x
      | None => ~ In x pat
      end
  | None => ~ (Forall (fun c => c mod 2 ^ w < 256) pat /\ NoDup pat)
  end.
Proof.
  intros Hp. pose proof (@umark_loop_spec pat 0%nat (fun _ => None)) as H.
  assert (H0 : forall c : Z, @None nat <> None -> exists x, valT x /\ fits x = true /\ x mod 256 = c)
    by congruence.
  specialize (H H0 Hp). unfold unindex_mark.
  destruct (umark_loop w 0 pat (fun _ => None)) as [b|].
  - destruct H as (F & N & _ & G). intros x Hx. unfold unindex_get.
    destruct (wide w && (256 <=? x mod 2 ^ w))%bool eqn:E.
    + intros I. rewrite Forall_forall in F. apply F in I. unfold fits in I. rewrite E in I.
      discriminate.
    + assert (Fx : fits x = true) by (unfold fits; now rewrite E).
      destruct (b (x mod 256)) as [k|] eqn:Eb.
      * apply G in Eb as [A|[_ A]]; auto; [discriminate|]. now rewrite Nat.sub_0_r in A.
      * intros I. apply In_nth_error in I as [k I].
        assert (b (x mod 256) = Some k).
        { apply G; auto. right. split; [lia|]. now rewrite Nat.sub_0_r. }
        congruence.
  - intros [F N]. apply H. split; [|split; auto].
    revert F. apply Forall_impl. intros c. apply fits_lt.
Qed.

Theorem unindex_succeeds pat :
  Forall valT pat -> Forall (fun c => c mod 2 ^ w < 256) pat -> NoDup pat ->
  exists b, unindex_mark w pat = Some b.
Proof.
  intros Hp F N. pose proof (unindex_exact Hp) as H.
  destruct (unindex_mark w pat) as [b|]; [eauto|]. destruct H. auto.
Qed.

End Sets.
