(** Proofs about arrays: every operation refines the one on sequences. *)
From Verif Require Import Base Arr_Model Arr_Spec.
Local Open Scope nat_scope.

Section P.
Variable T : Type.
Variables tm tc : bool.
Variable def : T.
Variable mv : mem T -> nat -> nat -> bool.
Variable eqb : T -> T -> bool.

Notation cells := (list (option T)).
Notation N := (@None T).
Local Notation droppable := (@droppable T tm tc).
Local Notation init := (@init T tm tc).
Local Notation destroy := (@destroy T tm tc).
Local Notation construct := (@construct T tm tc def).
Local Notation values := (@values T tm).

(** * Cells *)
Lemma rdn_app (x cs y : cells) : rdn (x ++ cs ++ y) (length x) (length cs) = Some cs.
Proof.
  unfold rdn. destruct cs as [|c cs]; [reflexivity|]. cbn [length].
  replace (Nat.leb _ _) with true.
  - f_equal. rewrite skipn_app, skipn_all, Nat.sub_diag. cbn [skipn].
    change (S (length cs)) with (length (c :: cs)). rewrite (app_nil_l ((c :: cs) ++ y)), firstn_app, firstn_all, Nat.sub_diag.
    cbn. now rewrite app_nil_r.
  - symmetry. apply Nat.leb_le. rewrite !app_length. cbn. lia.
Qed.

Lemma wrn_app (x old y cs : cells) : length old = length cs ->
  wrn (x ++ old ++ y) (length x) cs = Some (x ++ cs ++ y).
Proof.
  intros L. unfold wrn. destruct cs as [|c cs].
  - destruct old; [reflexivity|discriminate].
  - replace (Nat.leb _ _) with true.
    + assert (E : skipn (length x + length (c :: cs)) (x ++ old ++ y) = y).
      { rewrite <- L, app_assoc, <- app_length, skipn_app, skipn_all, Nat.sub_diag. reflexivity. }
      rewrite E, firstn_app, firstn_all, Nat.sub_diag. cbn [firstn]. now rewrite app_nil_r.
    + symmetry. apply Nat.leb_le. rewrite !app_length. lia.
Qed.

Lemma rdn_at (b x cs y : cells) off n : b = x ++ cs ++ y -> off = length x -> n = length cs -> rdn b off n = Some cs.
Proof. intros -> -> ->. apply rdn_app. Qed.

Lemma wrn_at (b x old y cs : cells) off : b = x ++ old ++ y -> off = length x -> length old = length cs ->
  wrn b off cs = Some (x ++ cs ++ y).
Proof. intros -> -> L. now apply wrn_app. Qed.

Lemma droppable_none n : droppable (repeat N n) = true.
Proof. unfold Arr_Model.droppable. apply orb_true_iff. right. apply forallb_forall. intros c I. apply repeat_spec in I. now subst. Qed.

Lemma droppable_t (b : cells) : tm = true -> droppable b = true.
Proof. intros E. unfold Arr_Model.droppable, tdest. now rewrite E. Qed.

Lemma droppable_app (a b : cells) : droppable a = true -> droppable b = true -> droppable (a ++ b) = true.
Proof. unfold Arr_Model.droppable. destruct (tdest tm tc); [reflexivity|]. cbn [orb]. rewrite forallb_app. intros -> ->. reflexivity. Qed.

Lemma init_at (b x old y vs : cells) off : b = x ++ old ++ y -> off = length x -> length old = length vs ->
  droppable old = true -> init b off vs = Some (x ++ vs ++ y).
Proof.
  intros -> -> L D. unfold Arr_Model.init. rewrite <- L, rdn_app. cbn [obind]. rewrite D. now apply wrn_app.
Qed.

(** Constructing defaults. *)
Definition dflts (old : cells) : cells := if tc then old else repeat (Some def) (length old).
Lemma construct_at (b x old y : cells) off n : b = x ++ old ++ y -> off = length x -> n = length old ->
  droppable old = true -> construct b off (Some n) = Some (x ++ dflts old ++ y).
Proof.
  intros -> -> -> D.
  assert (I : init (x ++ old ++ y) (length x) (repeat (Some def) (length old)) = Some (x ++ repeat (Some def) (length old) ++ y)).
  { eapply init_at; eauto. now rewrite repeat_length. }
  unfold Arr_Model.construct, dflts. cbn [obind]. rewrite I. now destruct tc.
Qed.

Lemma dflts_length old : length (dflts old) = length old.
Proof. unfold dflts. destruct tc; [reflexivity|apply repeat_length]. Qed.

(** Contents that are all objects, unless bytes may be moved freely. *)
Definition full (b : cells) : Prop := tm = true \/ ~ In N b.

Lemma full_app a b : full (a ++ b) <-> full a /\ full b.
Proof.
  unfold full. split.
  - intros [E|H]; [auto|]. split; right; intros I; apply H, in_or_app; auto.
  - intros [[E|H] [E'|H']]; auto. right. intros I. apply in_app_or in I. tauto.
Qed.

Lemma objs_full (b : cells) : ~ In N b -> exists l, objs b = Some l /\ b = map (@Some T) l.
Proof.
  induction b as [|c b IH]; intros H; [exists []; auto|].
  destruct c as [x|]; [|exfalso; apply H; now left].
  destruct IH as (l & E & ->); [intros I; apply H; now right|]. exists (x :: l). cbn. now rewrite E.
Qed.

Lemma values_full (b : cells) : full b -> values b = Some b.
Proof.
  unfold Arr_Model.values. intros [->|H]; [reflexivity|]. destruct tm; [reflexivity|].
  destruct (objs_full H) as (l & -> & ->). reflexivity.
Qed.

(** What destruction leaves. *)
Definition dead (cs : cells) : cells := if tdest tm tc then cs else repeat N (length cs).
Lemma dead_length cs : length (dead cs) = length cs.
Proof. unfold dead. destruct (tdest tm tc); [reflexivity|apply repeat_length]. Qed.
Lemma dead_droppable cs : droppable (dead cs) = true.
Proof. unfold dead. destruct (tdest tm tc) eqn:E; [unfold Arr_Model.droppable; now rewrite E|apply droppable_none]. Qed.

Lemma destroy_at (b x cs y : cells) off n : b = x ++ cs ++ y -> off = length x -> n = length cs -> full cs ->
  destroy b off n = Some (x ++ dead cs ++ y).
Proof.
  intros -> -> -> F. unfold Arr_Model.destroy, dead, tdest. destruct F as [E|F].
  - now rewrite E.
  - destruct (tm || tc); [reflexivity|]. rewrite rdn_app. cbn [obind].
    destruct (objs_full F) as (l & -> & _). cbn [obind]. apply wrn_app. now rewrite repeat_length.
Qed.

Lemma memmove_at (b x cs y x2 old y2 : cells) to from n : b = x ++ cs ++ y -> from = length x -> n = length cs ->
  b = x2 ++ old ++ y2 -> to = length x2 -> length old = length cs -> memmove b to from n = Some (x2 ++ cs ++ y2).
Proof.
  intros E1 E2 E3 E4 E5 L. unfold memmove. rewrite (rdn_at E1 E2 E3). cbn [obind]. exact (wrn_at E4 E5 L).
Qed.

Lemma skipn_skipn (b : cells) i n : skipn n (skipn i b) = skipn (i + n) b.
Proof. revert b. induction i as [|i IH]; intros [|c b]; cbn; auto; now destruct n. Qed.

(** [b] cut into three parts. *)
Lemma cut3 (b : cells) i n : i + n <= length b ->
  exists x o y, b = x ++ o ++ y /\ length x = i /\ length o = n /\ x = firstn i b /\ y = skipn (i + n) b.
Proof.
  intros L. exists (firstn i b), (firstn n (skipn i b)), (skipn (i + n) b). repeat split.
  - rewrite <- (firstn_skipn i b) at 1. f_equal. rewrite <- (firstn_skipn n (skipn i b)) at 1. f_equal.
    apply skipn_skipn.
  - rewrite firstn_length. lia.
  - rewrite firstn_length, skipn_length. lia.
Qed.

(** * Blocks *)
Definition wf (h : mem T) : Prop := forall a, nxt h <= a -> blk h a = None.
(** The array with pointer [p] holds the cells [b]. *)
Definition vec (h : mem T) (p : ptr) (b : cells) : Prop := getb h p = Some b /\ (b = [] -> p = None).

(** From [h] to [h'] only the array's own block changed; a new block replaces
    the old one. *)
Definition astep (h : mem T) (p : ptr) (h' : mem T) (q : ptr) : Prop :=
  (forall a, Some a <> p -> Some a <> q -> blk h' a = blk h a) /\
  (q <> p -> (forall a, p = Some a -> blk h' a = None) /\ (forall a, q = Some a -> nxt h <= a < nxt h')) /\
  nxt h <= nxt h' /\ (wf h -> wf h').

Lemma astep_refl h p : astep h p h p.
Proof. repeat split; auto; congruence. Qed.

Lemma vec_lt h p b a : wf h -> vec h p b -> p = Some a -> a < nxt h.
Proof.
  intros W (G & _) ->. cbn in G. destruct (Nat.lt_ge_cases a (nxt h)) as [|L]; [assumption|]. rewrite (W a L) in G. discriminate.
Qed.

Lemma astep_trans h p h1 q h2 r (b c : cells) : wf h -> vec h p b -> vec h1 q c -> 
  astep h p h1 q -> astep h1 q h2 r -> astep h p h2 r.
Proof.
  intros W V V1 (A1 & A2 & A3 & A4) (B1 & B2 & B3 & B4).
  assert (PL : forall a, p = Some a -> a < nxt h) by (intros a; now apply vec_lt with b).
  assert (PD : {q = p} + {q <> p}) by (repeat decide equality).
  assert (QD : {r = q} + {r <> q}) by (repeat decide equality).
  split; [|split; [|split; [lia|auto]]].
  - intros a NP NR. destruct QD as [->|NQ].
    + rewrite B1 by assumption. now apply A1.
    + destruct PD as [->|NPQ]; [rewrite B1, A1; auto|].
      destruct q as [aq|].
      * destruct (Nat.eq_dec a aq) as [->|Na].
        -- destruct (B2 NQ) as (B2a & _). rewrite (B2a aq eq_refl).
           destruct (A2 NPQ) as (_ & A2b). symmetry. apply W. apply (A2b aq eq_refl).
        -- rewrite B1, A1; congruence.
      * rewrite B1, A1; congruence.
  - intros NRP. destruct QD as [->|NQ].
    + destruct (A2 NRP) as (X & Y). split.
      * intros a ->. rewrite B1; [now apply X| |congruence].
        intros E. apply NRP. auto.
      * intros a ->. specialize (Y a eq_refl). lia.
    + destruct (B2 NQ) as (X & Y). split.
      * intros a ->. destruct PD as [->|NPQ]; [now apply X|].
        destruct (A2 NPQ) as (Z & _). rewrite B1; [now apply Z|congruence|congruence].
      * intros a ->. specialize (Y a eq_refl). lia.
Qed.

Lemma alloc_spec h n : wf h -> exists h' q, alloc h n = (h', q) /\ vec h' q (repeat N n) /\ astep h None h' q /\
  (forall a, q = Some a -> a = nxt h) /\ (forall a, a <> nxt h -> blk h' a = blk h a).
Proof.
  intros W. unfold alloc. destruct (Nat.eqb_spec n 0) as [->|Hn].
  - exists h, None. split; [reflexivity|]. split; [split; reflexivity|]. split; [apply astep_refl|]. split; congruence.
  - eexists _, _. split; [reflexivity|]. split; [|split; [|split]].
    + split; cbn [getb blk]; [now rewrite Nat.eqb_refl|]. destruct n; [easy|discriminate].
    + split; [|split; [|split]].
      * intros a _ NE. cbn [blk]. destruct (Nat.eqb_spec a (nxt h)); [subst; congruence|reflexivity].
      * intros _. split; [discriminate|]. intros a [= <-]. cbn [nxt]. lia.
      * cbn [nxt]. lia.
      * intros _ a. cbn [nxt blk]. intros L. destruct (Nat.eqb_spec a (nxt h)); [lia|]. apply W. lia.
    + intros a [= <-]. reflexivity.
    + intros a NE. cbn [blk]. now rewrite (proj2 (Nat.eqb_neq _ _) NE).
Qed.

Lemma on_spec h p b b' f : vec h p b -> f b = Some b' -> length b' = length b ->
  exists h', on h p f = Some h' /\ vec h' p b' /\ astep h p h' p /\ nxt h' = nxt h.
Proof.
  intros (G & Z) F L. destruct p as [a|]; cbn [on getb] in *.
  - rewrite G. cbn [obind]. rewrite F. cbn [obind]. eexists. split; [reflexivity|]. split; [|split].
    + split; [cbn; now rewrite Nat.eqb_refl|]. intros ->. destruct b; [auto|discriminate].
    + split; [|split; [|split]].
      * intros x NE _. cbn. destruct (Nat.eqb_spec x a); [subst; congruence|reflexivity].
      * congruence.
      * cbn. lia.
      * intros W x. cbn. intros Lx. destruct (Nat.eqb_spec x a) as [->|]; [|now apply W].
        exfalso. rewrite W in G by assumption. discriminate.
    + reflexivity.
  - injection G as <-. rewrite F. cbn [obind]. exists h. split; [reflexivity|]. destruct b'; [|discriminate].
    split; [split; reflexivity|]. split; [apply astep_refl|reflexivity].
Qed.

(** Freeing the old block after everything was moved to the new one. *)
Lemma free_spec h p b : getb h p = Some b -> droppable b = true ->
  exists h', free tm tc h p = Some h' /\ (forall a, p = Some a -> blk h' a = None) /\
    (forall a, Some a <> p -> blk h' a = blk h a) /\ nxt h' = nxt h.
Proof.
  intros G D. destruct p as [a|]; cbn [free getb] in *.
  - rewrite G. cbn [obind]. rewrite D. eexists. split; [reflexivity|]. split; [|split; [|reflexivity]].
    + intros x [= <-]. cbn. now rewrite Nat.eqb_refl.
    + intros x NE. cbn. destruct (Nat.eqb_spec x a); [subst; congruence|reflexivity].
  - exists h. repeat split; auto. discriminate.
Qed.

Lemma realloc_spec h p b n : wf h -> vec h p b -> droppable (skipn n b) = true ->
  exists h' q, realloc tm tc mv h p n = Some (h', q) /\ vec h' q (firstn n b ++ repeat N (n - length b)) /\ astep h p h' q.
Proof.
  intros W V D. unfold realloc. destruct (Nat.eqb_spec n 0) as [->|Hn].
  - cbn [firstn app Nat.sub repeat skipn] in *. destruct (free_spec (proj1 V) D) as (h' & -> & F1 & F2 & F3). cbn [obind].
    exists h', None. split; [reflexivity|]. split; [split; reflexivity|]. split; [|split; [|split]].
    + intros a NP _. now apply F2.
    + intros _. split; [exact F1|discriminate].
    + lia.
    + intros _ a L. rewrite F3 in L. destruct p as [x|]; [|rewrite F2 by congruence; now apply W].
      destruct (Nat.eq_dec a x) as [->|]; [now apply F1|rewrite F2 by congruence; now apply W].
  - destruct p as [a|].
    + destruct V as (G & Z). cbn [getb] in G. rewrite G. cbn [obind]. rewrite D.
      assert (NE : firstn n b ++ repeat N (n - length b) <> []).
      { intros E. apply (f_equal (@length _)) in E. rewrite app_length, firstn_length, repeat_length in E. cbn in E. lia. }
      assert (La : a < nxt h) by (apply (vec_lt (p := Some a) (b := b) W); [split; assumption|reflexivity]).
      destruct (Nat.ltb (length b) n && mv h a n).
      * eexists _, _. split; [reflexivity|]. split; [|split; [|split; [|split]]].
        -- split; [cbn; now rewrite Nat.eqb_refl|]. intros E. now apply NE in E.
        -- intros x N1 N2. cbn. destruct (Nat.eqb_spec x (nxt h)); [subst; congruence|].
           destruct (Nat.eqb_spec x a); [subst; congruence|reflexivity].
        -- intros _. split.
           ++ intros x [= <-]. cbn. destruct (Nat.eqb_spec a (nxt h)); [lia|]. now rewrite Nat.eqb_refl.
           ++ intros x [= <-]. cbn. lia.
        -- cbn. lia.
        -- intros _ x. cbn. intros L. destruct (Nat.eqb_spec x (nxt h)); [lia|].
           destruct (Nat.eqb_spec x a); [reflexivity|]. apply W. lia.
      * eexists _, _. split; [reflexivity|]. split; [|split; [|split; [|split]]].
        -- split; [cbn; now rewrite Nat.eqb_refl|]. intros E. now apply NE in E.
        -- intros x N1 N2. cbn. destruct (Nat.eqb_spec x a); [subst; congruence|reflexivity].
        -- congruence.
        -- cbn. lia.
        -- intros _ x. cbn. intros L. destruct (Nat.eqb_spec x a); [lia|]. apply W. lia.
    + destruct (alloc_spec n W) as (h' & q & E & V' & A & _). rewrite E. exists h', q. split; [reflexivity|].
      destruct V as (G & _). injection G as <-. rewrite firstn_nil. cbn [app length]. rewrite Nat.sub_0_r. auto.
Qed.

(** * Moving between blocks *)
(** [p] holds [b] and a different [q] holds [c]. *)
Definition two (h : mem T) (p : ptr) (b : cells) (q : ptr) (c : cells) : Prop :=
  vec h p b /\ vec h q c /\ (forall a, p = Some a -> q <> Some a).

Lemma move_to_spec h p q (b x cs y c x2 old y2 : cells) off n off2 :
  two h p b q c -> full cs ->
  b = x ++ cs ++ y -> off = length x -> n = length cs ->
  c = x2 ++ old ++ y2 -> off2 = length x2 -> length old = length cs -> droppable old = true ->
  exists h', move_to tm tc h p off n q off2 = Some h' /\ two h' p (x ++ dead cs ++ y) q (x2 ++ cs ++ y2) /\
    nxt h' = nxt h /\ (forall a, Some a <> p -> Some a <> q -> blk h' a = blk h a).
Proof.
  intros (Vp & Vq & NE) F E1 E2 E3 E4 E5 L D. unfold move_to. rewrite (proj1 Vp). cbn [obind].
  rewrite (rdn_at E1 E2 E3). cbn [obind]. rewrite (values_full F). cbn [obind].
  destruct (@on_spec h q c (x2 ++ cs ++ y2) (fun c0 => init c0 off2 cs) Vq) as (h1 & -> & Vq1 & (A1 & _ & _ & _) & N1).
  { apply (init_at E4 E5 L D). } { subst c. rewrite !app_length. lia. }
  cbn [obind].
  assert (Vp1 : vec h1 p b).
  { destruct p as [a|]; [|exact Vp]. split; [|apply Vp]. cbn. rewrite A1; [apply Vp| |]; intros EE; symmetry in EE; now apply (NE a). }
  destruct (@on_spec h1 p b (x ++ dead cs ++ y) (fun c0 => destroy c0 off n) Vp1) as (h2 & -> & Vp2 & (A2 & _ & _ & _) & N2).
  { apply (destroy_at E1 E2 E3 F). } { subst b. rewrite !app_length, dead_length. lia. }
  exists h2. split; [reflexivity|]. split; [|split].
  - split; [exact Vp2|]. split; [|exact NE]. destruct q as [a|]; [|exact Vq1]. split; [|apply Vq1]. cbn.
    rewrite A2; [apply Vq1| |]; intros EE; symmetry in EE; now apply (NE a EE).
  - congruence.
  - intros a NP NQ. rewrite A2, A1; auto.
Qed.

(** Allocating the new block. *)
Lemma two_new h p b n : wf h -> vec h p b ->
  exists h1 q, alloc h n = (h1, q) /\ two h1 p b q (repeat N n) /\ getb h1 p = Some b /\
    nxt h <= nxt h1 /\ wf h1 /\ (forall a, q = Some a -> nxt h <= a < nxt h1) /\ (forall a, Some a <> q -> blk h1 a = blk h a).
Proof.
  intros W V. destruct (alloc_spec n W) as (h1 & q & E & Vq & (A1 & A2 & A3 & A4) & Q & O).
  assert (PL : forall a, p = Some a -> a < nxt h) by (intros a; now apply vec_lt with b).
  assert (Vp : vec h1 p b).
  { destruct p as [a|]; [|exact V]. split; [|apply V]. cbn. rewrite O; [apply V|]. specialize (PL a eq_refl). lia. }
  exists h1, q. split; [exact E|]. split; [|split; [apply Vp|split; [exact A3|split; [auto|split]]]].
  - split; [exact Vp|]. split; [exact Vq|]. intros a -> Eq. specialize (PL a eq_refl). rewrite (Q a Eq) in PL. lia.
  - intros a ->. apply (A2 ltac:(discriminate)). reflexivity.
  - intros a NQ. apply A1; [discriminate|exact NQ].
Qed.

(** Finishing: free the old block. *)
Lemma finish h h1 h2 p q (b b2 c : cells) : wf h -> vec h p b ->
  nxt h <= nxt h1 -> wf h1 -> (forall a, q = Some a -> nxt h <= a < nxt h1) -> (forall a, Some a <> q -> blk h1 a = blk h a) ->
  two h2 p b2 q c -> nxt h2 = nxt h1 -> (forall a, Some a <> p -> Some a <> q -> blk h2 a = blk h1 a) ->
  droppable b2 = true ->
  exists h3, free tm tc h2 p = Some h3 /\ vec h3 q c /\ astep h p h3 q.
Proof.
  intros W V L1 W1 Q O (Vp & Vq & NE) N2 O2 D.
  destruct (free_spec (proj1 Vp) D) as (h3 & E & F1 & F2 & F3). exists h3. split; [exact E|].
  assert (PL : forall a, p = Some a -> a < nxt h) by (intros a; now apply vec_lt with b).
  assert (W2 : wf h2).
  { intros a L. rewrite N2 in L. destruct (Nat.lt_ge_cases a (nxt h1)); [lia|].
    rewrite O2; [now apply W1| |]; intros EE; symmetry in EE; [apply PL in EE|apply Q in EE]; lia. }
  split; [|split; [|split; [|split]]].
  - destruct q as [a|]; [|exact Vq]. split; [|apply Vq]. cbn. rewrite F2; [apply Vq|]. intros EE. symmetry in EE. now apply (NE a EE).
  - intros a NP NQ. rewrite F2, O2, O by assumption. reflexivity.
  - intros _. split; [exact F1|]. intros a Eq. rewrite F3, N2. auto.
  - lia.
  - intros _ a L. rewrite F3, N2 in L. destruct p as [x|].
    + specialize (PL x eq_refl). rewrite F2; [|intros [= ->]; lia]. rewrite <- N2 in L. now apply W2.
    + rewrite F2 by discriminate. rewrite <- N2 in L. now apply W2.
Qed.

(** A type whose default construction does nothing can be moved as bytes. *)
Hypothesis Htm : tc = true -> tm = true.

Lemma tm_or b : full b -> {tm = true} + {tm = false /\ tc = false /\ ~ In N b /\ tdest tm tc = false}.
Proof.
  intros F. destruct tm eqn:E; [now left|]. right. destruct tc eqn:E2; [specialize (Htm eq_refl); congruence|].
  split; [reflexivity|]. split; [reflexivity|]. split; [destruct F; congruence|reflexivity].
Qed.

Lemma dead_none cs : tdest tm tc = false -> dead cs = repeat N (length cs).
Proof. intros E. unfold dead. now rewrite E. Qed.

Lemma repeat_split n k (v : option T) : k <= n -> repeat v n = repeat v k ++ repeat v (n - k).
Proof. intros L. rewrite <- repeat_app. f_equal. lia. Qed.

Lemma if_t (A : Type) (b : bool) (x y : A) : b = true -> (if b then x else y) = x.
Proof. now intros ->. Qed.
Lemma if_f (A : Type) (b : bool) (x y : A) : b = false -> (if b then x else y) = y.
Proof. now intros ->. Qed.

(** * The block operations *)
Lemma grow_spec h p b n : wf h -> vec h p b -> full b -> length b <= n ->
  exists h' q e, grow tm tc mv h p n = Some (h', q) /\ vec h' q (b ++ e) /\ astep h p h' q /\
    length e = n - length b /\ droppable e = true.
Proof.
  intros W V F L. unfold grow. destruct (tm_or F) as [E|(E & Ec & NI & TD)].
  - rewrite (if_t _ _ E). destruct (@realloc_spec h p b n W V) as (h' & q & ER & Vq & A); [now apply droppable_t|].
    rewrite firstn_all2 in Vq by lia. exists h', q, (repeat N (n - length b)).
    split; [exact ER|]. split; [exact Vq|]. split; [exact A|]. split; [apply repeat_length|apply droppable_none].
  - rewrite (if_f _ _ E). destruct (two_new n W V) as (h1 & q & -> & T2 & G & L1 & W1 & Q & O). rewrite G. cbn [obind].
    destruct (@move_to_spec h1 p q b [] b [] (repeat N n) [] (repeat N (length b)) (repeat N (n - length b)) 0 (length b) 0 T2 F)
      as (h2 & -> & T3 & N2 & O2); try reflexivity.
    { now rewrite app_nil_r. } { cbn. now apply repeat_split. } { apply repeat_length. } { apply droppable_none. }
    cbn [obind app] in *.
    destruct (finish W V L1 W1 Q O T3 N2 O2) as (h3 & -> & Vq & A).
    { rewrite app_nil_r. apply dead_droppable. }
    cbn [obind]. exists h3, q, (repeat N (n - length b)). split; [reflexivity|]. split; [exact Vq|]. split; [exact A|].
    split; [apply repeat_length|apply droppable_none].
Qed.

Lemma firstn_firstn_le (b : cells) i j : i <= j -> firstn i (firstn j b) = firstn i b.
Proof. intros L. rewrite firstn_firstn. f_equal. lia. Qed.

(** Moving the part behind [pos] up. *)
Lemma mm_up (b e : cells) pos ins used : pos <= used -> used <= length b -> used + ins <= length b + length e -> tm = true ->
  exists g e2, memmove (b ++ e) (pos + ins) pos (used - pos) = Some (firstn pos b ++ g ++ firstn (used - pos) (skipn pos b) ++ e2) /\
    length g = ins /\ length e2 = length b + length e - used - ins /\ droppable g = true /\ droppable e2 = true.
Proof.
  intros L1 L2 L3 E.
  destruct (@cut3 (b ++ e) (pos + ins) (used - pos)) as (x2 & old & y2 & Ec & Lx & Lo & X2 & Y2); [rewrite app_length; lia|].
  exists (skipn pos x2), y2.
  rewrite (@memmove_at (b ++ e) (firstn pos b) (firstn (used - pos) (skipn pos b)) (skipn used b ++ e) x2 old y2).
  - split; [|split; [rewrite skipn_length; lia|split; [|split; now apply droppable_t]]].
    + f_equal. rewrite (app_assoc (firstn pos b)). f_equal. rewrite <- (firstn_skipn pos x2) at 1. f_equal.
      rewrite X2, firstn_firstn_le by lia. rewrite firstn_app. replace (pos - length b) with 0 by lia. cbn. now rewrite app_nil_r.
    + rewrite Y2, skipn_length, app_length. lia.
  - rewrite app_assoc, app_assoc. f_equal. rewrite <- (firstn_skipn pos b) at 1. rewrite <- app_assoc. f_equal.
    rewrite <- (firstn_skipn (used - pos) (skipn pos b)) at 1. f_equal. rewrite skipn_skipn. f_equal. lia.
  - rewrite firstn_length. lia.
  - rewrite firstn_length, skipn_length. lia.
  - exact Ec.
  - lia.
  - rewrite Lo, firstn_length, skipn_length. lia.
Qed.

(** Two parts of the array moved to the new block [q]. *)
Lemma two_moves h h1 p q (b : cells) to pos o1 o2 : wf h -> vec h p b -> full b -> tm = false -> 
  nxt h <= nxt h1 -> wf h1 -> (forall a, q = Some a -> nxt h <= a < nxt h1) -> (forall a, Some a <> q -> blk h1 a = blk h a) ->
  two h1 p b q (repeat N to) -> pos <= length b -> o1 + pos <= o2 -> o2 + (length b - pos) <= to ->
  exists h2 h3 h4, move_to tm tc h1 p 0 pos q o1 = Some h2 /\ move_to tm tc h2 p pos (length b - pos) q o2 = Some h3 /\
    free tm tc h3 p = Some h4 /\
    vec h4 q (repeat N o1 ++ firstn pos b ++ repeat N (o2 - o1 - pos) ++ skipn pos b ++ repeat N (to - o2 - (length b - pos))) /\
    astep h p h4 q.
Proof.
  intros W V F E L1 W1 Q O T2 Hp Ho Ht.
  assert (Fa : full (firstn pos b) /\ full (skipn pos b)) by (apply full_app; now rewrite firstn_skipn).
  destruct Fa as (Fa & Fb).
  assert (La : length (firstn pos b) = pos) by (rewrite firstn_length; lia).
  assert (Lb : length (skipn pos b) = length b - pos) by apply skipn_length.
  destruct (@move_to_spec h1 p q b [] (firstn pos b) (skipn pos b) (repeat N to) (repeat N o1) (repeat N pos) (repeat N (to - o1 - pos)) 0 pos o1 T2 Fa)
    as (h2 & E2 & T3 & N2 & O2).
  { cbn. now rewrite firstn_skipn. } { reflexivity. } { now rewrite La. }
  { rewrite <- !repeat_app. f_equal. lia. } { now rewrite repeat_length. } { now rewrite repeat_length. } { apply droppable_none. }
  cbn [app] in T3.
  destruct (@move_to_spec h2 p q (dead (firstn pos b) ++ skipn pos b) (dead (firstn pos b)) (skipn pos b) []
     (repeat N o1 ++ firstn pos b ++ repeat N (to - o1 - pos)) (repeat N o1 ++ firstn pos b ++ repeat N (o2 - o1 - pos))
     (repeat N (length b - pos)) (repeat N (to - o2 - (length b - pos))) pos (length b - pos) o2 T3 Fb)
    as (h3 & E3 & T4 & N3 & O3).
  { now rewrite app_nil_r. } { rewrite dead_length. lia. } { lia. }
  { rewrite <- !app_assoc. f_equal. f_equal. rewrite <- !repeat_app. f_equal. lia. }
  { rewrite !app_length, !repeat_length. lia. } { rewrite repeat_length. lia. } { apply droppable_none. }
  destruct (@finish h h1 h3 p q b (dead (firstn pos b) ++ dead (skipn pos b) ++ []) 
    ((repeat N o1 ++ firstn pos b ++ repeat N (o2 - o1 - pos)) ++ skipn pos b ++ repeat N (to - o2 - (length b - pos))) W V L1 W1 Q O T4)
    as (h4 & E4 & Vq & A).
  { congruence. } { intros a X Y. now rewrite O3, O2. }
  { rewrite app_nil_r. apply droppable_app; apply dead_droppable. }
  exists h2, h3, h4. split; [exact E2|]. split; [exact E3|]. split; [exact E4|]. split; [|exact A].
  now rewrite <- !app_assoc in Vq.
Qed.

Lemma insert_grow_spec h p b to pos ins : wf h -> vec h p b -> full b -> pos <= length b -> length b + ins <= to ->
  exists h' q g e, insert_grow tm tc mv h p to pos ins = Some (h', q) /\
    vec h' q (firstn pos b ++ g ++ skipn pos b ++ e) /\ astep h p h' q /\
    length g = ins /\ length e = to - (length b + ins) /\ droppable g = true /\ droppable e = true.
Proof.
  intros W V F Hp Ht. unfold insert_grow. rewrite (proj1 V). cbn [obind].
  destruct (Nat.ltb_spec (length b) pos); [lia|]. destruct (tm_or F) as [E|(E & Ec & NI & TD)].
  - rewrite (if_t _ _ E).
    destruct (@realloc_spec h p b to W V) as (h1 & q & -> & Vq & A); [now apply droppable_t|]. cbn [obind].
    rewrite firstn_all2 in Vq by lia.
    destruct (@mm_up b (repeat N (to - length b)) pos ins (length b)) as (g & e & M & Lg & Le & Dg & De); [lia|lia|rewrite repeat_length; lia|exact E|].
    rewrite repeat_length in Le. rewrite (@firstn_all2 _ (length b - pos) (skipn pos b)) in M by (rewrite skipn_length; lia).
    destruct (on_spec (f := fun c => memmove c (pos + ins) pos (length b - pos)) Vq M) as (h2 & -> & V2 & A2 & _).
    { rewrite !app_length, firstn_length, skipn_length, repeat_length. lia. }
    cbn [obind]. exists h2, q, g, e. split; [reflexivity|]. split; [exact V2|]. split; [exact (astep_trans W V Vq A A2)|].
    split; [exact Lg|]. split; [lia|auto].
  - rewrite (if_f _ _ E). destruct (two_new to W V) as (h1 & q & -> & T2 & G & L1 & W1 & Q & O).
    destruct (@two_moves h h1 p q b to pos 0 (pos + ins) W V F E L1 W1 Q O T2) as (h2 & h3 & h4 & -> & EE & EF & Vq & A); try lia.
    cbn [obind]. rewrite EE. cbn [obind]. rewrite EF. cbn [obind]. exists h4, q, (repeat N ins), (repeat N (to - (length b + ins))). split; [reflexivity|].
    replace (pos + ins - 0 - pos) with ins in Vq by lia. replace (to - (pos + ins) - (length b - pos)) with (to - (length b + ins)) in Vq by lia.
    split; [exact Vq|]. split; [exact A|]. rewrite !repeat_length. split; [reflexivity|]. split; [reflexivity|]. split; apply droppable_none.
Qed.

Lemma fwd_insert_grow_spec h p b to pos ins : wf h -> vec h p b -> full b -> pos <= length b -> length b + ins <= to ->
  exists h' q e g, fwd_insert_grow tm tc mv h p to pos ins = Some (h', q) /\
    vec h' q (e ++ firstn pos b ++ g ++ skipn pos b) /\ astep h p h' q /\
    length g = ins /\ length e = to - (length b + ins) /\ droppable g = true /\ droppable e = true.
Proof.
  intros W V F Hp Ht. unfold fwd_insert_grow. rewrite (proj1 V). cbn [obind].
  destruct (Nat.ltb_spec to (length b + ins)); [lia|]. destruct (Nat.ltb_spec (length b) pos); [lia|]. cbn [orb].
  destruct (tm_or F) as [E|(E & Ec & NI & TD)].
  - rewrite (if_t _ _ E).
    destruct (@realloc_spec h p b to W V) as (h1 & q & -> & Vq & A); [now apply droppable_t|]. cbn [obind].
    rewrite firstn_all2 in Vq by lia.
    destruct (@mm_up b (repeat N (to - length b)) pos (to - length b - ins + ins) (length b)) as (g & e & M & Lg & Le & Dg & De); [lia|lia|rewrite repeat_length; lia|exact E|].
    rewrite repeat_length in Le. rewrite (@firstn_all2 _ (length b - pos) (skipn pos b)) in M by (rewrite skipn_length; lia).
    replace (pos + (to - length b - ins + ins)) with (to - length b - ins + pos + ins) in M by lia.
    destruct (on_spec (f := fun c => memmove c (to - length b - ins + pos + ins) pos (length b - pos)) Vq M) as (h2 & -> & V2 & A2 & _).
    { rewrite !app_length, firstn_length, skipn_length, repeat_length. lia. }
    cbn [obind]. destruct e; [|cbn in Le; lia]. rewrite app_nil_r in V2.
    destruct (@cut3 (firstn pos b ++ g) (to - length b - ins) pos) as (x2 & old & y2 & Ec & Lx & Lo & X2 & Y2); [rewrite app_length, firstn_length; lia|].
    destruct (@on_spec h2 q (firstn pos b ++ g ++ skipn pos b) (x2 ++ firstn pos b ++ y2 ++ skipn pos b)
                 (fun c => memmove c (to - length b - ins) 0 pos) V2) as (h3 & -> & V3 & A3 & _).
    { apply (@memmove_at _ [] (firstn pos b) (g ++ skipn pos b) x2 old (y2 ++ skipn pos b)); try reflexivity.
      - rewrite firstn_length. lia.
      - rewrite app_assoc, Ec, <- !app_assoc. reflexivity.
      - lia.
      - rewrite firstn_length. lia. }
    { apply (f_equal (@length _)) in Ec. rewrite !app_length in *. rewrite firstn_length in *. lia. }
    cbn [obind]. exists h3, q, x2, y2. split; [reflexivity|]. split; [exact V3|]. split; [exact (astep_trans W V V2 (astep_trans W V Vq A A2) A3)|].
    split; [|split; [lia|split; now apply droppable_t]].
    rewrite Y2, skipn_length, app_length, firstn_length. lia.
  - rewrite (if_f _ _ E). destruct (two_new to W V) as (h1 & q & -> & T2 & G & L1 & W1 & Q & O).
    destruct (@two_moves h h1 p q b to pos (to - length b - ins) (to - length b - ins + pos + ins) W V F E L1 W1 Q O T2)
      as (h2 & h3 & h4 & -> & EE & EF & Vq & A); try lia.
    cbn [obind]. rewrite EE. cbn [obind]. rewrite EF. cbn [obind]. exists h4, q, (repeat N (to - (length b + ins))), (repeat N ins). split; [reflexivity|].
    replace (to - length b - ins + pos + ins - (to - length b - ins) - pos) with ins in Vq by lia.
    replace (to - (to - length b - ins + pos + ins) - (length b - pos)) with 0 in Vq by lia.
    replace (to - length b - ins) with (to - (length b + ins)) in Vq by lia. cbn [repeat] in Vq. rewrite app_nil_r in Vq.
    split; [exact Vq|]. split; [exact A|]. rewrite !repeat_length. split; [reflexivity|]. split; [reflexivity|]. split; apply droppable_none.
Qed.

Lemma fwd_grow_spec h p b to : wf h -> vec h p b -> full b -> length b <= to ->
  exists h' q e, fwd_grow tm tc mv h p to = Some (h', q) /\ vec h' q (e ++ b) /\ astep h p h' q /\
    length e = to - length b /\ droppable e = true.
Proof.
  intros W V F Ht. unfold fwd_grow. rewrite (proj1 V). cbn [obind]. destruct (Nat.ltb_spec to (length b)); [lia|].
  destruct (tm_or F) as [E|(E & Ec & NI & TD)].
  - rewrite (if_t _ _ E).
    destruct (@realloc_spec h p b to W V) as (h1 & q & -> & Vq & A); [now apply droppable_t|]. cbn [obind].
    rewrite firstn_all2 in Vq by lia.
    destruct (@mm_up b (repeat N (to - length b)) 0 (to - length b) (length b)) as (g & e & M & Lg & Le & Dg & De); [lia|lia|rewrite repeat_length; lia|exact E|].
    rewrite repeat_length in Le. cbn [skipn firstn app Nat.add] in M. rewrite firstn_all2, Nat.sub_0_r in M by lia.
    destruct e; [|cbn in Le; lia]. rewrite app_nil_r in M.
    destruct (on_spec (f := fun c => memmove c (to - length b) 0 (length b)) Vq M) as (h2 & -> & V2 & A2 & _).
    { rewrite !app_length, repeat_length. lia. }
    cbn [obind]. exists h2, q, g. split; [reflexivity|]. split; [exact V2|]. split; [exact (astep_trans W V Vq A A2)|]. auto.
  - rewrite (if_f _ _ E). destruct (two_new to W V) as (h1 & q & -> & T2 & G & L1 & W1 & Q & O).
    destruct (@move_to_spec h1 p q b [] b [] (repeat N to) (repeat N (to - length b)) (repeat N (length b)) [] 0 (length b) (to - length b) T2 F)
      as (h2 & -> & T3 & N2 & O2); try reflexivity.
    { now rewrite app_nil_r. } { rewrite app_nil_r, <- repeat_app. f_equal. lia. } { now rewrite repeat_length. } { apply repeat_length. } { apply droppable_none. }
    cbn [obind app] in *. rewrite app_nil_r in T3.
    destruct (finish W V L1 W1 Q O T3 N2 O2) as (h3 & -> & Vq & A); [apply dead_droppable|].
    cbn [obind]. rewrite app_nil_r in Vq. exists h3, q, (repeat N (to - length b)). split; [reflexivity|]. split; [exact Vq|]. split; [exact A|].
    split; [apply repeat_length|apply droppable_none].
Qed.

Lemma fwd_cut_spec h p (x b : cells) : wf h -> vec h p (x ++ b) -> droppable x = true -> full b ->
  exists h' q, fwd_cut tm tc mv h p (length b) = Some (h', q) /\ vec h' q b /\ astep h p h' q.
Proof.
  intros W V D F. unfold fwd_cut. rewrite (proj1 V). cbn [obind]. destruct (Nat.ltb_spec (length (x ++ b)) (length b)); [rewrite app_length in *; lia|].
  assert (Lx : length (x ++ b) - length b = length x) by (rewrite app_length; lia). rewrite Lx.
  destruct (tm_or F) as [E|(E & Ec & NI & TD)].
  - rewrite (if_t _ _ E).
    destruct (@cut3 (x ++ b) 0 (length b)) as (x2 & old & y2 & Ec & L2 & Lo & X2 & Y2); [rewrite app_length; lia|].
    destruct x2; [|discriminate]. cbn [app] in Ec.
    destruct (@on_spec h p (x ++ b) (b ++ y2) (fun c => memmove c 0 (length x) (length b)) V) as (h1 & -> & V1 & A1 & _).
    { apply (@memmove_at (x ++ b) x b [] [] old y2); try reflexivity; [now rewrite app_nil_r|exact Ec|exact Lo]. }
    { rewrite Ec, !app_length. lia. }
    cbn [obind]. 
    assert (W1 : wf h1) by (apply A1; exact W).
    destruct (@realloc_spec h1 p (b ++ y2) (length b) W1 V1) as (h2 & q & -> & Vq & A2); [now apply droppable_t|].
    exists h2, q. split; [reflexivity|].
    rewrite firstn_app, firstn_all, Nat.sub_diag in Vq. cbn [firstn] in Vq.
    replace (length b - length (b ++ y2)) with 0 in Vq by (rewrite app_length; lia). cbn [repeat] in Vq. rewrite !app_nil_r in Vq.
    split; [exact Vq|]. exact (astep_trans W V V1 A1 A2).
  - rewrite (if_f _ _ E). destruct (two_new (length b) W V) as (h1 & q & -> & T2 & G & L1 & W1 & Q & O).
    destruct (@move_to_spec h1 p q (x ++ b) x b [] (repeat N (length b)) [] (repeat N (length b)) [] (length x) (length b) 0 T2 F)
      as (h2 & -> & T3 & N2 & O2); try reflexivity.
    { now rewrite app_nil_r. } { cbn. now rewrite app_nil_r. } { apply repeat_length. } { apply droppable_none. }
    cbn [obind app] in *. rewrite !app_nil_r in T3.
    destruct (finish W V L1 W1 Q O T3 N2 O2) as (h3 & -> & Vq & A); [apply droppable_app; [exact D|apply dead_droppable]|].
    cbn [obind]. exists h3, q. auto.
Qed.

(** * The operations *)
Local Notation dv := (@dv T tc def).
Local Notation known := (@known T).

(** The cells of an array against its specification. *)
Definition okc (b : cells) (s : list (option T)) : Prop := Forall2 (fun c t => t = N \/ c = t) b s.

Lemma okc_length b s : okc b s -> length b = length s.
Proof. induction 1; cbn; auto. Qed.
Lemma okc_refl b : okc b b.
Proof. induction b; constructor; auto. Qed.
Lemma okc_none b n : length b = n -> okc b (repeat N n).
Proof. intros <-. induction b; cbn; constructor; auto. Qed.
Lemma okc_app a b s t : okc a s -> okc b t -> okc (a ++ b) (s ++ t).
Proof. intros H K. induction H; cbn; [exact K|constructor; auto]. Qed.
Lemma okc_firstn n b s : okc b s -> okc (firstn n b) (firstn n s).
Proof. intros H. revert n. induction H; intros [|n]; cbn; constructor; auto. apply IHForall2. Qed.
Lemma okc_skipn n b s : okc b s -> okc (skipn n b) (skipn n s).
Proof. intros H. revert n. induction H; intros [|n]; cbn; try constructor; auto. Qed.
Lemma okc_nth b s k x : okc b s -> nth_error s k = Some (Some x) -> nth_error b k = Some (Some x).
Proof.
  intros H. revert k. induction H as [|c t b s R H IH]; intros [|k]; cbn; try discriminate.
  - intros [= ->]. destruct R; congruence.
  - apply IH.
Qed.
Lemma okc_known b s : okc b s -> ~ In N s -> b = s.
Proof.
  induction 1 as [|c t b s R H IH]; intros NI; [reflexivity|]. f_equal.
  - destruct R as [->|R]; [exfalso; apply NI; now left|exact R].
  - apply IH. intros I. apply NI. now right.
Qed.

Lemma full_firstn n b : full b -> full (firstn n b).
Proof. intros F. rewrite <- (firstn_skipn n b) in F. now apply full_app in F. Qed.
Lemma full_skipn n b : full b -> full (skipn n b).
Proof. intros F. rewrite <- (firstn_skipn n b) in F. now apply full_app in F. Qed.
Lemma full_known vs : full (known vs).
Proof. right. unfold Arr_Spec.known. intros I. apply in_map_iff in I. destruct I as (x & E & _). discriminate. Qed.
Lemma full_dflts old : full (dflts old).
Proof.
  unfold full, dflts. destruct tc eqn:E; [left; now apply Htm|right]. intros I. apply repeat_spec in I. discriminate.
Qed.
Lemma okc_dflts old n : length old = n -> okc (dflts old) (repeat dv n).
Proof. intros <-. unfold dflts, Arr_Spec.dv. destruct tc; [now apply okc_none|apply okc_refl]. Qed.

(** The outcome of an operation on one array. *)
Definition res (h : mem T) (p : ptr) (r : option (mem T * ptr)) (s : list (option T)) : Prop :=
  exists h' q b, r = Some (h', q) /\ vec h' q b /\ astep h p h' q /\ okc b s /\ full b.

Ltac lens := repeat (rewrite ?app_length, ?firstn_length, ?skipn_length, ?repeat_length, ?map_length in *; cbn [length] in * ); try lia.

Lemma a_new_spec h n : wf h -> res h None (a_new tm tc def h n) (repeat dv n).
Proof.
  intros W. unfold a_new. destruct (alloc_spec n W) as (h1 & q & -> & V & A & _).
  destruct (@on_spec h1 q (repeat N n) (dflts (repeat N n)) (fun c => construct c 0 (Some n)) V) as (h2 & -> & V2 & A2 & _).
  { rewrite (@construct_at (repeat N n) [] (repeat N n) [] 0 n); try reflexivity.
    - cbn. now rewrite app_nil_r. - now rewrite app_nil_r. - now rewrite repeat_length. - apply droppable_none. }
  { apply dflts_length. }
  cbn [obind]. eexists _, _, _. split; [reflexivity|]. split; [exact V2|].
  split; [apply (astep_trans (p := None) (b := []) W ltac:(split; reflexivity) V A A2)|].
  split; [apply okc_dflts, repeat_length|apply full_dflts].
Qed.

Lemma a_of_spec h vs : wf h -> res h None (a_of tm tc h vs) (known vs).
Proof.
  intros W. unfold a_of. destruct (alloc_spec (length vs) W) as (h1 & q & -> & V & A & _).
  destruct (@on_spec h1 q (repeat N (length vs)) (known vs) (fun c => init c 0 (map (@Some T) vs)) V) as (h2 & -> & V2 & A2 & _).
  { rewrite (@init_at (repeat N (length vs)) [] (repeat N (length vs)) [] (map (@Some T) vs) 0); try reflexivity.
    - cbn. now rewrite app_nil_r. - now rewrite app_nil_r. - lens. - apply droppable_none. }
  { unfold Arr_Spec.known. lens. }
  cbn [obind]. eexists _, _, _. split; [reflexivity|]. split; [exact V2|].
  split; [apply (astep_trans (p := None) (b := []) W ltac:(split; reflexivity) V A A2)|].
  split; [apply okc_refl|apply full_known].
Qed.

Lemma a_copy_spec h p b s : wf h -> vec h p b -> full b -> okc b s -> res h None (a_copy tm tc h p) s.
Proof.
  intros W Vp F OK. unfold a_copy. rewrite (proj1 Vp). cbn [obind]. rewrite (values_full F). cbn [obind].
  destruct (alloc_spec (length b) W) as (h1 & q & -> & V & A & _).
  destruct (@on_spec h1 q (repeat N (length b)) b (fun c => init c 0 b) V) as (h2 & -> & V2 & A2 & _).
  { rewrite (@init_at (repeat N (length b)) [] (repeat N (length b)) [] b 0); try reflexivity.
    - cbn. now rewrite app_nil_r. - now rewrite app_nil_r. - lens. - apply droppable_none. }
  { lens. }
  cbn [obind]. eexists _, _, _. split; [reflexivity|]. split; [exact V2|].
  split; [apply (astep_trans (p := None) (b := []) W ltac:(split; reflexivity) V A A2)|]. auto.
Qed.

Lemma a_unget_spec h p b : vec h p b -> full b ->
  exists h', a_unget tm tc h p = Some h' /\ (forall a, p = Some a -> blk h' a = None) /\
    (forall a, Some a <> p -> blk h' a = blk h a) /\ nxt h' = nxt h.
Proof.
  intros V F. unfold a_unget. destruct p as [a|]; [|exists h; repeat split; auto; discriminate].
  rewrite (proj1 V). cbn [obind].
  destruct (@on_spec h (Some a) b (dead b) (fun c => destroy c 0 (length b)) V) as (h1 & -> & V1 & (A1 & _ & _ & _) & N1).
  { rewrite (@destroy_at b [] b [] 0 (length b)); try reflexivity; try assumption; cbn; now rewrite app_nil_r. }
  { apply dead_length. }
  cbn [obind]. destruct (free_spec (proj1 V1) (dead_droppable b)) as (h2 & E & F1 & F2 & F3). exists h2. split; [exact E|].
  split; [exact F1|]. split; [|congruence]. intros x NE. rewrite F2, A1; auto.
Qed.

(** A new block is made for the array, then the old one is destroyed. *)
Lemma assign_spec h p b h1 q c : wf h -> vec h p b -> full b -> vec h1 q c -> astep h None h1 q ->
  exists h2, a_unget tm tc h1 p = Some h2 /\ vec h2 q c /\ astep h p h2 q.
Proof.
  intros W V F Vq (A1 & A2 & A3 & A4).
  assert (PL : forall a, p = Some a -> a < nxt h) by (intros a; now apply vec_lt with b).
  assert (QL : forall a, q = Some a -> nxt h <= a < nxt h1) by (intros a E; apply A2; [congruence|exact E]).
  assert (Vp : vec h1 p b).
  { destruct p as [a|]; [|exact V]. split; [|apply V]. cbn. rewrite A1; [apply V|discriminate|].
    intros E. symmetry in E. apply QL in E. specialize (PL a eq_refl). lia. }
  destruct (a_unget_spec Vp F) as (h2 & E & U1 & U2 & U3). exists h2. split; [exact E|]. split.
  - destruct q as [a|]; [|exact Vq]. split; [|apply Vq]. cbn. rewrite U2; [apply Vq|].
    intros EE. symmetry in EE. apply PL in EE. specialize (QL a eq_refl). lia.
  - split; [|split; [|split]].
    + intros a NP NQ. rewrite U2, A1; auto. discriminate.
    + intros _. split; [exact U1|]. intros a Eq. rewrite U3. auto.
    + lia.
    + intros _ a L. rewrite U3 in L. destruct p as [x|].
      * destruct (Nat.eq_dec a x) as [->|NE]; [now apply U1|]. rewrite U2 by congruence. now apply A4.
      * rewrite U2 by discriminate. now apply A4.
Qed.

Lemma vec_nil_none h p : vec h p [] -> p = None.
Proof. intros (_ & Z). auto. Qed.

Lemma a_resize_spec h p b s to : wf h -> vec h p b -> full b -> okc b s ->
  res h p (a_resize tm tc def mv h p to) (firstn to s ++ repeat dv (to - length s)).
Proof.
  intros W V F OK. pose proof (okc_length OK) as LS. unfold a_resize. rewrite (proj1 V). cbn [obind].
  destruct (Nat.eqb_spec (length b) to) as [<-|NE].
  { exists h, p, b. split; [reflexivity|]. split; [exact V|]. split; [apply astep_refl|]. split; [|exact F].
    rewrite LS, firstn_all, Nat.sub_diag. cbn. now rewrite app_nil_r. }
  destruct (Nat.ltb_spec to (length b)) as [LT|GE].
  - assert (Lf : length (firstn to b) = to) by lens.
    destruct (@on_spec h p b (firstn to b ++ dead (skipn to b)) (fun c => destroy c to (length b - to)) V) as (h1 & -> & V1 & A1 & _).
    { rewrite (@destroy_at b (firstn to b) (skipn to b) [] to (length b - to)).
      - now rewrite app_nil_r. - now rewrite app_nil_r, firstn_skipn. - lens. - lens. - now apply full_skipn. }
    { rewrite app_length, dead_length. lens. }
    cbn [obind]. assert (W1 : wf h1) by (apply A1; exact W).
    destruct (@realloc_spec h1 p _ to W1 V1) as (h2 & q & -> & V2 & A2).
    { rewrite skipn_app, skipn_all2, Lf, Nat.sub_diag by lia. apply dead_droppable. }
    rewrite firstn_app, Lf, Nat.sub_diag in V2. rewrite (@firstn_all2 _ to (firstn to b)) in V2 by lia. cbn [firstn] in V2.
    replace (to - length (firstn to b ++ dead (skipn to b))) with 0 in V2 by (rewrite app_length, dead_length; lens).
    cbn [repeat] in V2. rewrite !app_nil_r in V2.
    exists h2, q, (firstn to b). split; [reflexivity|]. split; [exact V2|]. split; [exact (astep_trans W V V1 A1 A2)|].
    split; [|now apply full_firstn]. replace (to - length s) with 0 by lia. cbn. rewrite app_nil_r. now apply okc_firstn.
  - destruct (Nat.ltb_spec 0 (length b)) as [P|Z].
    + destruct (@grow_spec h p b to W V F GE) as (h1 & q & e & -> & V1 & A1 & Le & De). cbn [obind].
      destruct (@on_spec h1 q (b ++ e) (b ++ dflts e) (fun c => construct c (length b) (Some (to - length b))) V1) as (h2 & -> & V2 & A2 & _).
      { rewrite (@construct_at (b ++ e) b e [] (length b) (to - length b)); try reflexivity; try congruence; now rewrite app_nil_r. }
      { rewrite !app_length, dflts_length. reflexivity. }
      cbn [obind]. exists h2, q, (b ++ dflts e). split; [reflexivity|]. split; [exact V2|]. split; [exact (astep_trans W V V1 A1 A2)|].
      split; [|apply full_app; split; [exact F|apply full_dflts]].
      rewrite firstn_all2 by lia. apply okc_app; [exact OK|]. apply okc_dflts. lia.
    + destruct b; [|cbn in Z; lia]. rewrite (vec_nil_none V). destruct s; [|discriminate]. rewrite firstn_nil. cbn [app length].
      rewrite Nat.sub_0_r. now apply a_new_spec.
Qed.

Lemma a_fresize_spec h p b s to : wf h -> vec h p b -> full b -> okc b s ->
  res h p (a_fresize tm tc def mv h p to) (repeat dv (to - length s) ++ skipn (length s - to) s).
Proof.
  intros W V F OK. pose proof (okc_length OK) as LS. unfold a_fresize. rewrite (proj1 V). cbn [obind].
  destruct (Nat.eqb_spec (length b) to) as [<-|NE].
  { exists h, p, b. split; [reflexivity|]. split; [exact V|]. split; [apply astep_refl|]. split; [|exact F].
    rewrite LS, Nat.sub_diag. cbn. exact OK. }
  destruct (Nat.ltb_spec to (length b)) as [LT|GE].
  - set (k := length b - to).
    destruct (@on_spec h p b (dead (firstn k b) ++ skipn k b) (fun c => destroy c 0 k) V) as (h1 & -> & V1 & A1 & _).
    { rewrite (@destroy_at b [] (firstn k b) (skipn k b) 0 k); try reflexivity.
      - cbn. now rewrite firstn_skipn. - unfold k. lens. - now apply full_firstn. }
    { rewrite app_length, dead_length. unfold k. lens. }
    cbn [obind]. assert (W1 : wf h1) by (apply A1; exact W).
    destruct (@fwd_cut_spec h1 p (dead (firstn k b)) (skipn k b) W1 V1) as (h2 & q & E2 & V2 & A2); [apply dead_droppable|now apply full_skipn|].
    replace (length (skipn k b)) with to in E2 by (unfold k; lens). rewrite E2.
    exists h2, q, (skipn k b). split; [reflexivity|]. split; [exact V2|]. split; [exact (astep_trans W V V1 A1 A2)|].
    split; [|now apply full_skipn]. replace (to - length s) with 0 by lia. cbn [repeat app]. rewrite <- LS. now apply okc_skipn.
  - destruct (Nat.ltb_spec 0 (length b)) as [P|Z].
    + destruct (@fwd_grow_spec h p b to W V F GE) as (h1 & q & e & -> & V1 & A1 & Le & De). cbn [obind].
      destruct (@on_spec h1 q (e ++ b) (dflts e ++ b) (fun c => construct c 0 (Some (to - length b))) V1) as (h2 & -> & V2 & A2 & _).
      { rewrite (@construct_at (e ++ b) [] e b 0 (to - length b)); try reflexivity; congruence. }
      { rewrite !app_length, dflts_length. reflexivity. }
      cbn [obind]. exists h2, q, (dflts e ++ b). split; [reflexivity|]. split; [exact V2|]. split; [exact (astep_trans W V V1 A1 A2)|].
      split; [|apply full_app; split; [apply full_dflts|exact F]].
      apply okc_app; [apply okc_dflts; lia|]. replace (length s - to) with 0 by lia. exact OK.
    + destruct b; [|cbn in Z; lia]. rewrite (vec_nil_none V). destruct s; [|discriminate]. rewrite skipn_nil, app_nil_r. cbn [length].
      rewrite Nat.sub_0_r. now apply a_new_spec.
Qed.

Lemma a_insert_def_spec h p b s pos n : wf h -> vec h p b -> full b -> okc b s -> pos <= length s ->
  res h p (a_insert_def tm tc def mv h p pos n) (firstn pos s ++ repeat dv n ++ skipn pos s).
Proof.
  intros W V F OK Hp. pose proof (okc_length OK) as LS. unfold a_insert_def.
  destruct (Nat.eqb_spec n 0) as [->|Hn].
  { exists h, p, b. split; [reflexivity|]. split; [exact V|]. split; [apply astep_refl|]. split; [|exact F].
    cbn. now rewrite firstn_skipn. }
  rewrite (proj1 V). cbn [obind].
  destruct (@insert_grow_spec h p b (length b + n) pos n W V F) as (h1 & q & g & e & -> & V1 & A1 & Lg & Le & Dg & De); try lia.
  cbn [obind]. destruct e; [|cbn in Le; lia]. rewrite app_nil_r in V1.
  destruct (@on_spec h1 q _ (firstn pos b ++ dflts g ++ skipn pos b) (fun c => construct c pos (Some n)) V1) as (h2 & -> & V2 & A2 & _).
  { rewrite (@construct_at (firstn pos b ++ g ++ skipn pos b) (firstn pos b) g (skipn pos b) pos n); try reflexivity; try congruence. lens. }
  { rewrite !app_length, dflts_length. reflexivity. }
  cbn [obind]. eexists _, _, _. split; [reflexivity|]. split; [exact V2|]. split; [exact (astep_trans W V V1 A1 A2)|]. split.
  - apply okc_app; [now apply okc_firstn|]. apply okc_app; [now apply okc_dflts|now apply okc_skipn].
  - apply full_app. split; [now apply full_firstn|]. apply full_app. split; [apply full_dflts|now apply full_skipn].
Qed.

Lemma a_insert_spec h p b s pos vs : wf h -> vec h p b -> full b -> okc b s -> pos <= length s ->
  res h p (a_insert tm tc mv h p pos vs) (firstn pos s ++ known vs ++ skipn pos s).
Proof.
  intros W V F OK Hp. pose proof (okc_length OK) as LS. unfold a_insert.
  destruct (Nat.eqb_spec (length vs) 0) as [E|Hn].
  { destruct vs; [|discriminate]. exists h, p, b. split; [reflexivity|]. split; [exact V|]. split; [apply astep_refl|]. split; [|exact F].
    cbn. now rewrite firstn_skipn. }
  rewrite (proj1 V). cbn [obind].
  destruct (@insert_grow_spec h p b (length b + length vs) pos (length vs) W V F) as (h1 & q & g & e & -> & V1 & A1 & Lg & Le & Dg & De); try lia.
  cbn [obind]. destruct e; [|cbn in Le; lia]. rewrite app_nil_r in V1.
  destruct (@on_spec h1 q _ (firstn pos b ++ known vs ++ skipn pos b) (fun c => init c pos (map (@Some T) vs)) V1) as (h2 & -> & V2 & A2 & _).
  { rewrite (@init_at (firstn pos b ++ g ++ skipn pos b) (firstn pos b) g (skipn pos b) (map (@Some T) vs) pos); try reflexivity; lens. }
  { unfold Arr_Spec.known. rewrite !app_length, map_length. lia. }
  cbn [obind]. eexists _, _, _. split; [reflexivity|]. split; [exact V2|]. split; [exact (astep_trans W V V1 A1 A2)|]. split.
  - apply okc_app; [now apply okc_firstn|]. apply okc_app; [apply okc_refl|now apply okc_skipn].
  - apply full_app. split; [now apply full_firstn|]. apply full_app. split; [apply full_known|now apply full_skipn].
Qed.

Lemma nsub_ok a b : b <= a -> nsub a b = Some (a - b).
Proof. intros L. unfold nsub. destruct (Nat.ltb_spec a b); [lia|reflexivity]. Qed.

Lemma a_insert_resize_spec h p b s pos vs to : wf h -> vec h p b -> full b -> okc b s -> pos <= length s -> length s + length vs <= to ->
  res h p (a_insert_resize tm tc def mv h p pos vs to)
    (firstn pos s ++ known vs ++ skipn pos s ++ repeat dv (to - (length s + length vs))).
Proof.
  intros W V F OK Hp Ht. pose proof (okc_length OK) as LS. unfold a_insert_resize. rewrite (proj1 V). cbn [obind].
  destruct (@insert_grow_spec h p b to pos (length vs) W V F) as (h1 & q & g & e & -> & V1 & A1 & Lg & Le & Dg & De); try lia.
  cbn [obind].
  destruct (@on_spec h1 q _ (firstn pos b ++ known vs ++ skipn pos b ++ e) (fun c => init c pos (map (@Some T) vs)) V1) as (h2 & -> & V2 & A2 & _).
  { rewrite (@init_at (firstn pos b ++ g ++ skipn pos b ++ e) (firstn pos b) g (skipn pos b ++ e) (map (@Some T) vs) pos); try reflexivity; lens. }
  { unfold Arr_Spec.known. rewrite !app_length, map_length. lia. }
  cbn [obind]. rewrite nsub_ok by lia.
  destruct (@on_spec h2 q _ (firstn pos b ++ known vs ++ skipn pos b ++ dflts e)
     (fun c => construct c (to - (to - (length b + length vs))) (Some (to - (length b + length vs)))) V2) as (h3 & -> & V3 & A3 & _).
  { rewrite (@construct_at _ (firstn pos b ++ known vs ++ skipn pos b) e []).
    - rewrite app_nil_r, <- !app_assoc. reflexivity. - rewrite app_nil_r, <- !app_assoc. reflexivity.
    - unfold Arr_Spec.known. lens. - congruence. - assumption. }
  { rewrite !app_length, dflts_length. reflexivity. }
  cbn [obind]. eexists _, _, _. split; [reflexivity|]. split; [exact V3|].
  split; [exact (astep_trans W V V2 (astep_trans W V V1 A1 A2) A3)|]. split.
  - repeat apply okc_app; [now apply okc_firstn|apply okc_refl|now apply okc_skipn|apply okc_dflts; lia].
  - repeat (apply full_app; split); [now apply full_firstn|apply full_known|now apply full_skipn|apply full_dflts].
Qed.

Lemma a_finsert_resize_spec h p b s pos vs to : wf h -> vec h p b -> full b -> okc b s -> vs <> [] -> pos <= length s -> length s + length vs <= to ->
  res h p (a_finsert_resize tm tc def mv h p pos vs to)
    (repeat dv (to - (length s + length vs)) ++ firstn pos s ++ known vs ++ skipn pos s).
Proof.
  intros W V F OK Hv Hp Ht. pose proof (okc_length OK) as LS. unfold a_finsert_resize.
  destruct (Nat.eqb_spec (length vs) 0) as [E|_]; [destruct vs; [easy|discriminate]|].
  rewrite (proj1 V). cbn [obind].
  destruct (@fwd_insert_grow_spec h p b to pos (length vs) W V F) as (h1 & q & e & g & -> & V1 & A1 & Lg & Le & Dg & De); try lia.
  cbn [obind]. replace (to - length b - length vs) with (to - (length b + length vs)) by lia.
  destruct (@on_spec h1 q _ (e ++ firstn pos b ++ known vs ++ skipn pos b) (fun c => init c (to - (length b + length vs) + pos) (map (@Some T) vs)) V1) as (h2 & -> & V2 & A2 & _).
  { rewrite (@init_at _ (e ++ firstn pos b) g (skipn pos b) (map (@Some T) vs) (to - (length b + length vs) + pos)).
    - now rewrite <- !app_assoc. - now rewrite <- !app_assoc. - lens. - lens. - assumption. }
  { unfold Arr_Spec.known. rewrite !app_length, map_length. lia. }
  cbn [obind].
  destruct (@on_spec h2 q _ (dflts e ++ firstn pos b ++ known vs ++ skipn pos b)
     (fun c => construct c 0 (Some (to - (length b + length vs)))) V2) as (h3 & -> & V3 & A3 & _).
  { rewrite (@construct_at _ [] e (firstn pos b ++ known vs ++ skipn pos b)); try reflexivity; congruence. }
  { rewrite !app_length, dflts_length. reflexivity. }
  cbn [obind]. eexists _, _, _. split; [reflexivity|]. split; [exact V3|].
  split; [exact (astep_trans W V V2 (astep_trans W V V1 A1 A2) A3)|]. split.
  - repeat apply okc_app; [apply okc_dflts; lia|now apply okc_firstn|apply okc_refl|now apply okc_skipn].
  - repeat (apply full_app; split); [apply full_dflts|now apply full_firstn|apply full_known|now apply full_skipn].
Qed.

Lemma a_insert_used_spec h p b s pos vs to used : wf h -> vec h p b -> full b -> okc b s -> tc = true ->
  pos <= used <= length s -> used + length vs <= to ->
  res h p (a_insert_used tm tc def mv h p pos vs to used)
    (firstn pos s ++ known vs ++ firstn (used - pos) (skipn pos s) ++ repeat N (to - (used + length vs))).
Proof.
  intros W V F OK Etc Hp Ht. pose proof (okc_length OK) as LS. pose proof (Htm Etc) as E.
  unfold a_insert_used, insert_grow_used. rewrite (proj1 V). cbn [obind]. destruct (Nat.ltb_spec used pos); [lia|]. rewrite (if_t _ _ E).
  destruct (@realloc_spec h p b to W V) as (h1 & q & -> & V1 & A1); [now apply droppable_t|]. cbn [obind].
  set (b1 := firstn to b ++ repeat N (to - length b)) in *.
  assert (L1 : length b1 = to) by (unfold b1; lens).
  destruct (@mm_up b1 [] pos (length vs) used) as (g & e & M & Lg & Le & Dg & De); [lia|lia|cbn [length]; lia|exact E|].
  rewrite app_nil_r in M. cbn [length] in Le.
  destruct (on_spec (f := fun c => memmove c (pos + length vs) pos (used - pos)) V1 M) as (h2 & -> & V2 & A2 & _); [lens|].
  cbn [obind].
  destruct (@on_spec h2 q _ (firstn pos b1 ++ known vs ++ firstn (used - pos) (skipn pos b1) ++ e) (fun c => init c pos (map (@Some T) vs)) V2) as (h3 & -> & V3 & A3 & _).
  { rewrite (@init_at _ (firstn pos b1) g (firstn (used - pos) (skipn pos b1) ++ e) (map (@Some T) vs) pos); try reflexivity; lens. }
  { unfold Arr_Spec.known. rewrite !app_length, map_length. lia. }
  cbn [obind]. unfold Arr_Model.construct.
  destruct (@on_spec h3 q _ (firstn pos b1 ++ known vs ++ firstn (used - pos) (skipn pos b1) ++ e)
    (fun c => if tc then Some c else obind (nsub to (length b + length vs)) (fun k => init c (to - used) (repeat (Some def) k))) V3) as (h4 & -> & V4 & A4 & _);
    [now rewrite (if_t _ _ Etc)|reflexivity|].
  cbn [obind]. exists h4, q, (firstn pos b ++ known vs ++ firstn (used - pos) (skipn pos b) ++ e).
  assert (Eb : firstn pos b1 = firstn pos b /\ firstn (used - pos) (skipn pos b1) = firstn (used - pos) (skipn pos b)).
  { unfold b1. split.
    - rewrite firstn_app, firstn_firstn_le by lia. replace (pos - length (firstn to b)) with 0 by lens. cbn. now rewrite app_nil_r.
    - rewrite !firstn_skipn_comm. f_equal. rewrite firstn_app, firstn_firstn_le by lia.
      replace (pos + (used - pos) - length (firstn to b)) with 0 by lens. cbn. now rewrite app_nil_r. }
  destruct Eb as (Ea & Eb). rewrite Ea, Eb in V4. split; [reflexivity|]. split; [exact V4|].
  split; [exact (astep_trans W V V3 (astep_trans W V V2 (astep_trans W V V1 A1 A2) A3) A4)|]. split; [|now left].
  repeat apply okc_app; [now apply okc_firstn|apply okc_refl|now apply okc_firstn, okc_skipn|apply okc_none; lia].
Qed.

Lemma a_finsert_used_spec h p b s pos vs to used : wf h -> vec h p b -> full b -> okc b s -> tc = true -> vs <> [] ->
  used <= length s <= to -> used + length vs <= to -> length s - used <= pos <= length s ->
  res h p (a_finsert_used tm tc def mv h p pos vs to used)
    (repeat N (to - (used + length vs)) ++ firstn (pos - (length s - used)) (skipn (length s - used) s) ++ known vs ++ skipn pos s).
Proof.
  intros W V F OK Etc Hv Hu Ht Hp. pose proof (okc_length OK) as LS. pose proof (Htm Etc) as E.
  unfold a_finsert_used, fwd_insert_grow_used.
  destruct (Nat.eqb_spec (length vs) 0) as [Ev|_]; [destruct vs; [easy|discriminate]|].
  rewrite (proj1 V). cbn [obind]. rewrite LS.
  destruct (Nat.ltb_spec to (used + length vs)); [lia|]. destruct (Nat.ltb_spec (length s) used); [lia|].
  destruct (Nat.ltb_spec (length s) pos); [lia|]. destruct (Nat.ltb_spec pos (length s - used)); [lia|]. cbn [orb].
  rewrite (if_t _ _ E).
  destruct (@realloc_spec h p b to W V) as (h1 & q & -> & V1 & A1); [now apply droppable_t|]. cbn [obind].
  rewrite firstn_all2 in V1 by lia. replace (length s - used + (pos - (length s - used))) with pos by lia.
  set (org := length s - used) in *. set (k := pos - org) in *. set (new := to - (used + length vs)) in *.
  set (b1 := b ++ repeat N (to - length b)) in *.
  assert (L1 : length b1 = to) by (unfold b1; lens).
  assert (Sb : skipn pos b = firstn (length s - pos) (skipn pos b1)).
  { unfold b1. rewrite skipn_app. replace (pos - length b) with 0 by lia. cbn [skipn]. rewrite firstn_app.
    rewrite firstn_all2 by lens. replace (length s - pos - length (skipn pos b)) with 0 by lens. cbn. now rewrite app_nil_r. }
  destruct (@cut3 b1 (new + k + length vs) (length s - pos)) as (x1 & o1 & y1 & C1 & Lx1 & Lo1 & X1 & Y1); [lia|].
  assert (Hy1 : y1 = []). { apply length_zero_iff_nil. rewrite Y1. lens. }
  destruct (@on_spec h1 q b1 (x1 ++ skipn pos b) (fun c => memmove c (new + k + length vs) pos (length s - pos)) V1) as (h2 & -> & V2 & A2 & _).
  { rewrite (@memmove_at b1 (firstn pos b1) (skipn pos b) (skipn (length s) b1) x1 o1 y1); try assumption.
    - now rewrite Hy1, app_nil_r. 
    - rewrite Sb. rewrite <- (firstn_skipn pos b1) at 1. f_equal. rewrite <- (firstn_skipn (length s - pos) (skipn pos b1)) at 1. f_equal.
      rewrite skipn_skipn. f_equal. lia.
    - lens. - lens. - lia. - rewrite Lo1. lens. }
  { rewrite C1, Hy1. lens. }
  cbn [obind].
  assert (Mid : firstn k (skipn org x1) = firstn k (skipn org b)).
  { rewrite X1. rewrite !firstn_skipn_comm. rewrite firstn_firstn_le by lia. f_equal. unfold b1. rewrite firstn_app.
    replace (org + k - length b) with 0 by lia. cbn. now rewrite app_nil_r. }
  destruct (@cut3 x1 org k) as (xa & oa & ya & Ca & Lxa & Loa & Xa & Ya); [lia|].
  assert (Oa : oa = firstn k (skipn org b)).
  { rewrite <- Mid, Ca. rewrite skipn_app, skipn_all2 by lia. replace (org - length xa) with 0 by lia. cbn [app skipn].
    rewrite firstn_app. replace (k - length oa) with 0 by lia. rewrite firstn_all2 by lia. cbn. now rewrite app_nil_r. }
  destruct (@cut3 x1 new k) as (xb & ob & yb & Cb & Lxb & Lob & Xb & Yb); [lia|].
  destruct (@on_spec h2 q (x1 ++ skipn pos b) (xb ++ firstn k (skipn org b) ++ yb ++ skipn pos b) (fun c => memmove c new org k) V2)
    as (h3 & -> & V3 & A3 & _).
  { apply (@memmove_at _ xa (firstn k (skipn org b)) (ya ++ skipn pos b) xb ob (yb ++ skipn pos b)).
    - rewrite <- Oa, Ca, <- !app_assoc. reflexivity.
    - now rewrite Lxa.
    - lens.
    - rewrite Cb, <- !app_assoc. reflexivity.
    - now rewrite Lxb.
    - rewrite Lob. lens. }
  { rewrite Cb. lens. }
  cbn [obind].
  assert (Lyb : length yb = length vs) by (rewrite Yb; lens).
  destruct (@on_spec h3 q _ (xb ++ firstn k (skipn org b) ++ known vs ++ skipn pos b) (fun c => init c (new + k) (map (@Some T) vs)) V3)
    as (h4 & -> & V4 & A4 & _).
  { rewrite (@init_at _ (xb ++ firstn k (skipn org b)) yb (skipn pos b) (map (@Some T) vs) (new + k)).
    - now rewrite <- !app_assoc. - now rewrite <- !app_assoc. - lens. - lens. - now apply droppable_t. }
  { unfold Arr_Spec.known. rewrite !app_length, map_length. lia. }
  cbn [obind].
  destruct (@on_spec h4 q _ (xb ++ firstn k (skipn org b) ++ known vs ++ skipn pos b)
    (fun c => construct c 0 (obind (nsub to (length s)) (fun g => nsub (g + used) (length vs)))) V4) as (h5 & -> & V5 & A5 & _);
    [unfold Arr_Model.construct; now rewrite (if_t _ _ Etc)|reflexivity|].
  cbn [obind]. eexists _, _, _. split; [reflexivity|]. split; [exact V5|].
  split; [exact (astep_trans W V V4 (astep_trans W V V3 (astep_trans W V V2 (astep_trans W V V1 A1 A2) A3) A4) A5)|].
  split; [|now left].
  repeat apply okc_app; [apply okc_none; lia|now apply okc_firstn, okc_skipn|apply okc_refl|now apply okc_skipn].
Qed.

Lemma a_push_spec h p b s x : wf h -> vec h p b -> full b -> okc b s ->
  res h p (a_push tm tc mv h p x) (s ++ [Some x]).
Proof.
  intros W V F OK. unfold a_push. rewrite (proj1 V). cbn [obind].
  destruct (@grow_spec h p b (length b + 1) W V F ltac:(lia)) as (h1 & q & e & -> & V1 & A1 & Le & De). cbn [obind].
  destruct (@on_spec h1 q (b ++ e) (b ++ [Some x]) (fun c => init c (length b) [Some x]) V1) as (h2 & -> & V2 & A2 & _).
  { rewrite (@init_at (b ++ e) b e [] [Some x] (length b)); try reflexivity; try assumption; [now rewrite app_nil_r|]. cbn [length]. lia. }
  { lens. }
  cbn [obind]. eexists _, _, _. split; [reflexivity|]. split; [exact V2|]. split; [exact (astep_trans W V V1 A1 A2)|]. split.
  - apply okc_app; [exact OK|apply okc_refl].
  - apply full_app. split; [exact F|]. right. intros [I|[]]. discriminate.
Qed.

(** * Programs *)
Definition winv (w : world T) (m : store_t T) : Prop :=
  wf (wm w) /\
  (forall i, exists b, vec (wm w) (wp w i) b /\ okc b (m i) /\ full b) /\
  (forall i j a, wp w i = Some a -> wp w j = Some a -> i = j) /\
  (forall a, blk (wm w) a <> None -> exists i, wp w i = Some a).

Lemma winv0 : winv (world0 T) (@store0 T).
Proof.
  split; [|split; [|split]].
  - intros a _. reflexivity.
  - intros i. exists []. split; [split; reflexivity|]. split; [constructor|right; intros []].
  - discriminate.
  - intros a H. now destruct H.
Qed.

Lemma winv_ext h f g m n : (forall i, f i = g i) -> (forall i, m i = n i) -> winv (mkWorld h f) m -> winv (mkWorld h g) n.
Proof.
  intros E1 E2 (W & A & I & L). split; [exact W|]. cbn [wm wp] in *. split; [|split].
  - intros i. rewrite <- E1, <- E2. apply A.
  - intros i j a. rewrite <- !E1. apply I.
  - intros a B. destruct (L a B) as (i & Hi). exists i. now rewrite <- E1.
Qed.

Lemma setp_eq f i p : setp f i p i = p.
Proof. unfold setp. now rewrite Nat.eqb_refl. Qed.
Lemma setp_ne f i p j : j <> i -> setp f i p j = f j.
Proof. unfold setp. intros NE. now rewrite (proj2 (Nat.eqb_neq _ _) NE). Qed.
Lemma put_eq (m : store_t T) i s : put m i s i = s.
Proof. unfold put. now rewrite Nat.eqb_refl. Qed.
Lemma put_ne (m : store_t T) i s j : j <> i -> put m i s j = m j.
Proof. unfold put. intros NE. now rewrite (proj2 (Nat.eqb_neq _ _) NE). Qed.

Lemma winv_step w m i h' q b s : winv w m -> vec h' q b -> astep (wm w) (wp w i) h' q -> okc b s -> full b ->
  winv (mkWorld h' (setp (wp w) i q)) (put m i s).
Proof.
  intros (W & A & I & L) V (S1 & S2 & S3 & S4) OK F.
  assert (D : {q = wp w i} + {q <> wp w i}) by (repeat decide equality).
  assert (NQ : forall j a, j <> i -> wp w j = Some a -> q <> Some a).
  { intros j a NE E EQ. destruct D as [D|D].
    - apply NE. apply (I j i a); congruence.
    - destruct (S2 D) as (_ & X). specialize (X a EQ). destruct (A j) as (bj & Vj & _). pose proof (vec_lt W Vj E). lia. }
  split; [apply (S4 W)|]. cbn [wm wp]. split; [|split].
  - intros j. destruct (Nat.eq_dec j i) as [->|NE].
    + exists b. rewrite setp_eq, put_eq. auto.
    + rewrite setp_ne, put_ne by assumption. destruct (A j) as (bj & (Gj & Zj) & Oj & Fj). exists bj. split; [|auto].
      split; [|exact Zj]. destruct (wp w j) as [a|] eqn:E; [|exact Gj]. cbn in *. rewrite S1; [exact Gj| |].
      * intros EE. apply NE. apply (I j i a); congruence.
      * intros EE. symmetry in EE. now apply (NQ j a NE E).
  - intros j k a. destruct (Nat.eq_dec j i) as [->|Nj], (Nat.eq_dec k i) as [->|Nk];
      rewrite ?setp_eq, ?setp_ne by assumption; auto.
    + intros E1 E2. exfalso. now apply (NQ k a Nk E2).
    + intros E1 E2. exfalso. now apply (NQ j a Nj E1).
    + apply I.
  - intros a B. assert (DQ : {q = Some a} + {q <> Some a}) by (repeat decide equality).
    destruct DQ as [EQ|NEQ]; [exists i; now rewrite setp_eq|].
    assert (DP : {wp w i = Some a} + {wp w i <> Some a}) by (repeat decide equality).
    destruct DP as [EP|NEP].
    + exfalso. destruct S2 as (X & _); [congruence|]. apply B. now apply X.
    + rewrite S1 in B by congruence. destruct (L a B) as (j & Ej). exists j. rewrite setp_ne; [exact Ej|]. intros ->. now apply NEP.
Qed.

Lemma winv_swap w m i j : winv w m ->
  winv (mkWorld (wm w) (setp (setp (wp w) i (wp w j)) j (wp w i))) (put (put m i (m j)) j (m i)).
Proof.
  intros (W & A & I & L). set (sw := fun k => if Nat.eqb k j then i else if Nat.eqb k i then j else k).
  assert (SW : forall k, sw (sw k) = k).
  { intros k. unfold sw. destruct (Nat.eqb_spec k j) as [->|]; [|destruct (Nat.eqb_spec k i) as [->|]].
    - destruct (Nat.eqb_spec i j); [congruence|]. now rewrite Nat.eqb_refl.
    - now rewrite Nat.eqb_refl.
    - now rewrite (proj2 (Nat.eqb_neq _ _) n), (proj2 (Nat.eqb_neq _ _) n0). }
  apply (@winv_ext (wm w) (fun k => wp w (sw k)) _ (fun k => m (sw k)) _).
  - intros k. unfold setp, sw. destruct (Nat.eqb k j), (Nat.eqb k i); reflexivity.
  - intros k. unfold put, sw. destruct (Nat.eqb k j), (Nat.eqb k i); reflexivity.
  - split; [exact W|]. cbn [wm wp]. split; [|split].
    + intros k. apply A.
    + intros x y a E1 E2. rewrite <- (SW x), <- (SW y). f_equal. eapply I; eassumption.
    + intros a B. destruct (L a B) as (k & E). exists (sw k). now rewrite SW.
Qed.

Lemma store_spec w m i r s : winv w m -> res (wm w) (wp w i) r s ->
  exists w', store w i r = Some (w', RNone T) /\ winv w' (put m i s).
Proof.
  intros WI (h' & q & b & -> & V & A & OK & F). cbn [store obind]. eexists. split; [reflexivity|]. now apply winv_step with b.
Qed.

Lemma assign_op w m i r s : winv w m -> res (wm w) None r s ->
  exists w', assign tm tc w i r = Some w' /\ winv w' (put m i s).
Proof.
  intros WI (h' & q & b & -> & V & A & OK & F). cbn [assign obind].
  destruct WI as (W & AA & I & L). destruct (AA i) as (bi & Vi & _ & Fi).
  destruct (assign_spec W Vi Fi V A) as (h2 & -> & V2 & A2). cbn [obind]. eexists. split; [reflexivity|].
  apply winv_step with b; auto. repeat split; auto.
Qed.

Lemma find_from_spec x l i :
  (exists k, find_from eqb x (known l) i = Some (Some (i + k)) /\ first_at eqb (known l) x k) \/
  (find_from eqb x (known l) i = Some None /\ forall k y, nth_error (known l) k = Some (Some y) -> eqb y x = false).
Proof.
  revert i. induction l as [|y l IH]; intros i; cbn [map Arr_Spec.known find_from obind].
  - right. split; [reflexivity|]. intros [|k] y; discriminate.
  - destruct (eqb y x) eqn:E.
    + left. exists 0. rewrite Nat.add_0_r. split; [reflexivity|]. split; [exists y; auto|]. intros j z L. lia.
    + destruct (IH (S i)) as [(k & F & (z & Z1 & Z2) & P)|(F & P)].
      * left. exists (S k). unfold Arr_Spec.known in F. rewrite F. split; [f_equal; f_equal; lia|]. split; [exists z; auto|].
        intros [|j] u Lj; cbn; [intros [= <-]; exact E|]. apply P. lia.
      * right. split; [exact F|]. intros [|k] u; cbn; [intros [= <-]; exact E|]. apply P.
Qed.

Lemma all_known (s : list (option T)) : ~ In N s -> exists l, s = known l.
Proof. intros H. destruct (objs_full H) as (l & _ & E). now exists l. Qed.

Lemma rdn_one (b : cells) k c : nth_error b k = Some c -> rdn b k 1 = Some [c].
Proof.
  intros E. destruct (nth_error_split _ _ E) as (x & y & -> & L). apply (@rdn_at (x ++ c :: y) x [c] y); auto.
Qed.

Lemma op_spec w m o : winv w m -> legal tc m o ->
  exists w' a, a_op tm tc def mv eqb w o = Some (w', a) /\ answer_ok eqb m o a /\ winv w' (effect tc def m o).
Proof.
  intros WI LG. pose proof WI as (W & A & I & L).
  assert (ST : forall i r s, res (wm w) (wp w i) r s -> exists w' a, store w i r = Some (w', a) /\ a = RNone T /\ winv w' (put m i s)).
  { intros i r s R. destruct (store_spec WI R) as (w' & E & WI'). eauto 6. }
  assert (AS : forall i r s, res (wm w) None r s ->
     exists w' a, obind (assign tm tc w i r) (fun w' => Some (w', RNone T)) = Some (w', a) /\ a = RNone T /\ winv w' (put m i s)).
  { intros i r s R. destruct (assign_op i WI R) as (w' & -> & WI'). cbn [obind]. eauto 6. }
  destruct o as [i n|i vs|i j|i j|i|i n|i n|i pos n|i pos vs|i pos vs to|i pos vs to|i pos vs to used|i pos vs to used|i x|i|i k|i k x|i x];
    cbn [a_op answer_ok effect legal] in *;
    match goal with |- context [wp w i] => destruct (A i) as (b & V & OK & F) | _ => idtac end.
  - apply AS. now apply a_new_spec.
  - apply AS. now apply a_of_spec.
  - destruct (A j) as (bj & Vj & OKj & Fj). apply AS. now apply a_copy_spec with bj.
  - eexists _, _. split; [reflexivity|]. split; [reflexivity|]. now apply winv_swap.
  - destruct (@assign_spec (wm w) (wp w i) b (wm w) None [] W V F) as (h2 & -> & V2 & A2); [split; reflexivity|apply astep_refl|].
    cbn [obind]. eexists _, _. split; [reflexivity|]. split; [reflexivity|]. apply winv_step with []; auto; [constructor|right; intros []].
  - apply ST. now apply a_resize_spec with b.
  - apply ST. now apply a_fresize_spec with b.
  - apply ST. now apply a_insert_def_spec with b.
  - apply ST. now apply a_insert_spec with b.
  - apply ST. now apply a_insert_resize_spec with b.
  - apply ST. now apply a_finsert_resize_spec with b.
  - apply ST. now apply a_insert_used_spec with b.
  - apply ST. destruct LG as (? & ? & ? & ? & ?). now apply a_finsert_used_spec with b.
  - apply ST. now apply a_push_spec with b.
  - rewrite (proj1 V). cbn [obind]. eexists _, _. split; [reflexivity|]. split; [f_equal; apply (okc_length OK)|exact WI].
  - destruct LG as (x & E). rewrite (proj1 V). cbn [obind]. rewrite (@rdn_one _ _ _ (okc_nth OK E)). cbn [obind objs].
    eexists _, _. split; [reflexivity|]. split; [eauto|exact WI].
  - pose proof (okc_length OK) as LS. destruct (@cut3 b k 1) as (x1 & o1 & y1 & C & L1 & Lo & X & Y); [lia|].
    destruct (@on_spec (wm w) (wp w i) b (x1 ++ [Some x] ++ y1)
       (fun c => obind (rdn c k 1) (fun cs => obind (values cs) (fun _ => wrn c k [Some x]))) V) as (h1 & -> & V1 & A1 & _).
    { rewrite (rdn_at C (eq_sym L1) (eq_sym Lo)). cbn [obind].
      rewrite (values_full (b := o1)) by (rewrite C in F; apply full_app in F; destruct F as (_ & F); now apply full_app in F).
      cbn [obind]. eapply wrn_at; [exact C|now symmetry|exact Lo]. }
    { rewrite C, !app_length, Lo. reflexivity. }
    cbn [obind]. eexists _, _. split; [reflexivity|]. split; [reflexivity|].
    apply (@winv_ext h1 (setp (wp w) i (wp w i)) _ (put m i (firstn k (m i) ++ Some x :: skipn (S k) (m i))) _); [|reflexivity|].
    + intros j. unfold setp. now destruct (Nat.eqb_spec j i) as [->|].
    + apply winv_step with (x1 ++ [Some x] ++ y1); auto.
      * apply okc_app; [rewrite X; now apply okc_firstn|]. constructor; [auto|]. rewrite Y, Nat.add_1_r. now apply okc_skipn.
      * rewrite C in F. apply full_app in F. destruct F as (F1 & F2). apply full_app in F2. destruct F2 as (_ & F2).
        apply full_app. split; [exact F1|]. apply full_app. split; [right; intros [H|[]]; discriminate|exact F2].
  - rewrite (proj1 V). cbn [obind]. rewrite (okc_known OK LG). destruct (all_known LG) as (l & E). rewrite E.
    destruct (find_from_spec x l 0) as [(k & -> & P)|(-> & P)]; cbn [obind]; eexists _, _; split; try reflexivity.
    + split; [left; exists k; auto|]. exact WI.
    + split; [right; auto|]. exact WI.
Qed.

Lemma run_spec os : forall w m, winv w m -> legal_run tc def m os ->
  exists w' l, a_run tm tc def mv eqb w os = Some (w', l) /\ answers_ok tc def eqb m os l /\ winv w' (fold_left (effect tc def) os m).
Proof.
  induction os as [|o os IH]; intros w m WI LG; cbn [a_run legal_run fold_left] in *.
  - exists w, []. repeat split; auto; apply WI.
  - destruct LG as (L1 & L2). destruct (op_spec WI L1) as (w1 & a & -> & AO & W1). cbn [obind].
    destruct (IH w1 _ W1 L2) as (w2 & l & -> & AL & W2). cbn [obind]. exists w2, (a :: l). split; [reflexivity|]. split; [|exact W2].
    cbn. auto.
Qed.

(** The theorem for histories. *)
Lemma history os : legal_run tc def (@store0 T) os ->
  exists w l, a_run tm tc def mv eqb (world0 T) os = Some (w, l) /\ answers_ok tc def eqb (@store0 T) os l /\
    (forall i, exists b, getb (wm w) (wp w i) = Some b /\ Forall2 (fun c s => s = N \/ c = s) b (final tc def os i)) /\
    (forall i j a, wp w i = Some a -> wp w j = Some a -> i = j) /\
    (forall a, blk (wm w) a <> None <-> exists i, wp w i = Some a).
Proof.
  intros LG. destruct (@run_spec os _ _ winv0 LG) as (w & l & E & AO & (W & A & I & L)). exists w, l. split; [exact E|]. split; [exact AO|].
  split; [|split; [exact I|]].
  - intros i. destruct (A i) as (b & V & OK & _). exists b. split; [apply V|exact OK].
  - intros a. split; [apply L|]. intros (i & Ei). destruct (A i) as (b & (G & _) & _). rewrite Ei in G. cbn in G. congruence.
Qed.

(** * Own elements and [remove] *)
Lemma tc_f : tm = false -> tc = false.
Proof. intros E. destruct tc; [specialize (Htm eq_refl); congruence|reflexivity]. Qed.

(** Elements that are moved one by one always go to a new block. *)
Lemma grow_moves h p b n h' q : tm = false -> wf h -> vec h p b -> n <> 0 -> grow tm tc mv h p n = Some (h', q) -> q <> p.
Proof.
  intros E W V Hn. unfold grow. rewrite (if_f _ _ E). unfold alloc. rewrite (proj2 (Nat.eqb_neq _ _) Hn).
  destruct getb; [|discriminate]. cbn [obind]. destruct move_to; [|discriminate]. cbn [obind].
  destruct free; [|discriminate]. cbn [obind]. intros [= _ <-] EE. symmetry in EE. pose proof (vec_lt W V EE). lia.
Qed.

Lemma push_self_undefined h p b k : tm = false -> wf h -> vec h p b -> full b -> k < length b ->
  a_push_self tm tc mv h p k = None.
Proof.
  intros E W V F Hk. unfold a_push_self. rewrite (proj1 V). cbn [obind].
  destruct (@grow_spec h p b (length b + 1) W V F ltac:(lia)) as (h1 & q & e & EG & V1 & A1 & Le & De).
  assert (NE : q <> p) by (refine (grow_moves E W V _ EG); lia). rewrite EG. cbn [obind].
  destruct A1 as (_ & A2 & _). destruct (A2 NE) as (X & _).
  destruct p as [a|]; [|destruct V as (G & _); cbn in G; injection G as <-; cbn in Hk; lia].
  cbn [getb]. rewrite (X a eq_refl). reflexivity.
Qed.

Lemma push_self_bytes h a b k : tm = true -> wf h -> vec h (Some a) b -> k < length b ->
  (mv h a (length b + 1) = true -> a_push_self tm tc mv h (Some a) k = None) /\
  (mv h a (length b + 1) = false -> exists h', a_push_self tm tc mv h (Some a) k = Some (h', Some a) /\
     getb h' (Some a) = Some (b ++ [nth k b None])).
Proof.
  intros E W V Hk. unfold a_push_self. rewrite (proj1 V). cbn [obind]. unfold grow, realloc. rewrite (if_t _ _ E).
  rewrite (proj2 (Nat.eqb_neq (length b + 1) 0)) by lia. destruct V as (G & Z). cbn [getb] in G. rewrite G. cbn [obind].
  rewrite (@droppable_t _ E). replace (Nat.ltb (length b) (length b + 1)) with true by (symmetry; apply Nat.ltb_lt; lia).
  cbn [andb]. split; intros M; rewrite M; cbn [obind getb blk].
  - assert (La : a < nxt h) by (apply (vec_lt (p := Some a) (b := b) W); [split; assumption|reflexivity]).
    destruct (Nat.eqb_spec a (nxt h)); [lia|]. rewrite Nat.eqb_refl. reflexivity.
  - cbn [setb blk]. rewrite Nat.eqb_refl. cbn [obind]. rewrite firstn_all2 by lia.
    replace (length b + 1 - length b) with 1 by lia. cbn [repeat].
    rewrite (@rdn_one (b ++ [N]) k (nth k b N)).
    2:{ rewrite nth_error_app1 by assumption. now apply nth_error_nth'. }
    cbn [obind]. unfold Arr_Model.values. rewrite (if_t _ _ E). cbn [obind on blk setb]. rewrite Nat.eqb_refl. cbn [obind].
    rewrite (@init_at (b ++ [N]) b [N] [] [nth k b N] (length b)); try reflexivity; [|now apply droppable_t].
    cbn [obind]. eexists. split; [reflexivity|]. cbn [getb blk setb]. now rewrite Nat.eqb_refl.
Qed.

(** * [remove] *)
Lemma shift_undefined b to n : tm = false -> tc = false -> 2 <= n ->
  nth_error b (to + n - 1) <> Some N -> shift_down tm tc b to n = None.
Proof.
  intros E1 E2 L H. unfold shift_down. rewrite (if_f _ _ E1). destruct n as [|k]; [lia|]. cbn [shift_loop].
  destruct (rdn b (to + 1 + k) 1) as [cs|] eqn:R1; [|reflexivity]. cbn [obind].
  destruct (values cs) as [vs|] eqn:V1; [|reflexivity]. cbn [obind].
  assert (Lv : length vs = 1).
  { assert (Lc : length cs = 1).
    { unfold rdn in R1. destruct (Nat.leb_spec (to + 1 + k + 1) (length b)); [|discriminate].
      assert (Ec : cs = firstn 1 (skipn (to + 1 + k) b)) by congruence. rewrite Ec, firstn_length, skipn_length. lia. }
    unfold Arr_Model.values in V1. rewrite E1 in V1. clear R1.
    destruct cs as [|c [|c' cs]]; try discriminate. cbn in V1. destruct c; cbn in V1; [|discriminate]. now injection V1 as <-. }
  unfold Arr_Model.init. rewrite Lv. destruct (rdn b (to + k) 1) as [old|] eqn:R2; [|reflexivity]. cbn [obind].
  assert (D : droppable old = false).
  { unfold Arr_Model.droppable, tdest. rewrite E1, E2. cbn [orb]. unfold rdn in R2. destruct Nat.leb eqn:LE in R2; [|discriminate].
    apply Nat.leb_le in LE. injection R2 as <-. replace (to + S k - 1) with (to + k) in H by lia.
    destruct (nth_error b (to + k)) as [c|] eqn:EN; [|apply nth_error_None in EN; lia].
    destruct (nth_error_split _ _ EN) as (x & y & -> & Lx). rewrite <- Lx, skipn_app, skipn_all, Nat.sub_diag. cbn.
    destruct c; [reflexivity|congruence]. }
  now rewrite D.
Qed.

(** The whole of [remove]: [l] = [l1] ++ [y] :: [l2] with [y] the first equal
    element. *)
Lemma find_split x l i k : find_from eqb x (known l) i = Some (Some k) ->
  exists l1 y l2, l = l1 ++ y :: l2 /\ k = i + length l1 /\ eqb y x = true /\ Forall (fun z => eqb z x = false) l1.
Proof.
  revert i. induction l as [|y l IH]; intros i; cbn; [discriminate|]. destruct (eqb y x) eqn:E.
  - intros [= <-]. exists [], y, l. rewrite Nat.add_0_r. auto.
  - intros H. destruct (IH (S i) H) as (l1 & z & l2 & -> & -> & Ez & Fz). exists (y :: l1), z, l2. cbn. rewrite Nat.add_succ_r. auto.
Qed.

Lemma find_at x l1 y l2 i : eqb y x = true -> Forall (fun z => eqb z x = false) l1 ->
  find_from eqb x (known (l1 ++ y :: l2)) i = Some (Some (i + length l1)).
Proof.
  intros Ey F. revert i. induction F as [|z l1 Ez F IH]; intros i; cbn.
  - rewrite Ey. f_equal. f_equal. lia.
  - rewrite Ez. unfold Arr_Spec.known in IH. rewrite IH. f_equal. f_equal. lia.
Qed.

Lemma known_app l1 l2 : known (l1 ++ l2) = known l1 ++ known l2.
Proof. apply map_app. Qed.
Lemma known_length l : length (known l) = length l.
Proof. apply map_length. Qed.

(** After the destruction of the found element. *)
Lemma destroy_found l1 y l2 :
  destroy (known (l1 ++ y :: l2)) (length l1) 1 = Some (known l1 ++ dead [Some y] ++ known l2).
Proof.
  apply (@destroy_at _ (known l1) [Some y] (known l2)); [|now rewrite known_length|reflexivity|right; intros [H|[]]; discriminate].
  now rewrite known_app.
Qed.

Lemma remove_undefined h p l1 y l2 x : wf h -> vec h p (known (l1 ++ y :: l2)) -> eqb y x = true ->
  Forall (fun z => eqb z x = false) l1 -> 2 <= length l2 -> a_remove tm tc mv eqb h p x = None.
Proof.
  intros W V Ey F L. unfold a_remove. rewrite (proj1 V). cbn [obind]. rewrite find_at by assumption. cbn [obind Nat.add].
  destruct (@on_spec h p _ (known l1 ++ dead [Some y] ++ known l2) (fun c => destroy c (length l1) 1) V)
    as (h1 & -> & V1 & A1 & _); [apply destroy_found|rewrite !app_length, !known_length, dead_length, app_length; cbn; lia|].
  cbn [obind]. rewrite known_length, app_length. cbn [length]. replace (length l1 + S (length l2) - (length l1 + 1)) with (length l2) by lia.
  enough (S : shift_down tm tc (known l1 ++ dead [Some y] ++ known l2) (length l1) (length l2) = None).
  { unfold on. destruct p as [a|].
    - destruct V1 as (G1 & _). cbn [getb] in G1. rewrite G1. cbn [obind]. rewrite S. reflexivity.
    - destruct V1 as (G1 & _). cbn in G1. apply (f_equal (option_map (@length _))) in G1. cbn in G1. injection G1 as G1.
      rewrite !app_length, dead_length in G1. cbn in G1. lia. }
  destruct (Bool.bool_dec tm true) as [E|E]; [|apply not_true_is_false in E].
  - unfold shift_down. rewrite (if_t _ _ E). destruct (Nat.leb_spec 2 (length l2)); [reflexivity|lia].
  - apply shift_undefined; [exact E|apply tc_f; exact E|exact L|].
    rewrite nth_error_app2 by (rewrite known_length; lia). rewrite nth_error_app2 by (rewrite dead_length, known_length; cbn; lia).
    rewrite dead_length, known_length. cbn [length]. unfold Arr_Spec.known. rewrite nth_error_map.
    destruct (nth_error l2 _) eqn:EN; cbn; [discriminate|]. discriminate.
Qed.

Lemma remove_partial h p l1 y l2 x : wf h -> vec h p (known (l1 ++ y :: l2)) -> eqb y x = true ->
  Forall (fun z => eqb z x = false) l1 -> length l2 <= 1 -> 1 <= length l1 + length l2 ->
  exists h', a_remove tm tc mv eqb h p x = Some (h', p, true) /\ vec h' p (known (l1 ++ l2)) /\ astep h p h' p.
Proof.
  intros W V Ey F L L'. unfold a_remove. rewrite (proj1 V). cbn [obind]. rewrite find_at by assumption. cbn [obind Nat.add].
  destruct (@on_spec h p _ (known l1 ++ dead [Some y] ++ known l2) (fun c => destroy c (length l1) 1) V)
    as (h1 & -> & V1 & A1 & _); [apply destroy_found|rewrite !app_length, !known_length, dead_length, app_length; cbn; lia|].
  cbn [obind]. rewrite known_length, app_length. cbn [length]. replace (length l1 + S (length l2) - (length l1 + 1)) with (length l2) by lia.
  assert (SH : exists c, shift_down tm tc (known l1 ++ dead [Some y] ++ known l2) (length l1) (length l2) = Some (known l1 ++ known l2 ++ [c]) /\
     droppable [c] = true).
  { assert (DS : exists c0, dead [Some y] = [c0] /\ droppable [c0] = true).
    { pose proof (dead_droppable [Some y]) as D. pose proof (dead_length [Some y]) as DL.
      destruct (dead [Some y]) as [|c0 [|]]; try discriminate. eauto. }
    destruct DS as (c0 & -> & D0).
    destruct l2 as [|z [|]]; [| |cbn in L; lia].
    - exists c0. split; [|exact D0]. unfold shift_down. cbn [length Nat.leb]. unfold memmove, rdn, wrn. cbn [obind shift_loop].
      destruct tm; cbn [obind]; [now rewrite app_nil_r|].
      unfold Arr_Model.destroy. destruct tdest; [now rewrite app_nil_r|]. unfold rdn. cbn. reflexivity.
    - unfold shift_down. destruct (Bool.bool_dec tm true) as [E|E]; [|apply not_true_is_false in E]; rewrite ?(if_t _ _ E), ?(if_f _ _ E).
      + exists (Some z). cbn [length Nat.leb Arr_Spec.known map].
        rewrite (@memmove_at (known l1 ++ [c0] ++ [Some z]) (known l1 ++ [c0]) [Some z] [] (known l1) [c0] [Some z]).
        * split; [reflexivity|]. now apply droppable_t.
        * now rewrite app_nil_r, <- app_assoc.
        * rewrite app_length, known_length. reflexivity.
        * reflexivity.
        * reflexivity.
        * now rewrite known_length.
        * reflexivity.
      + exists N. cbn [length shift_loop]. rewrite !Nat.add_0_r.
        rewrite (@rdn_at (known l1 ++ [c0] ++ known [z]) (known l1 ++ [c0]) [Some z] []).
        2:{ now rewrite app_nil_r, <- app_assoc. } 2:{ rewrite app_length, known_length. reflexivity. } 2:{ reflexivity. }
        cbn [obind]. unfold Arr_Model.values. rewrite (if_f _ _ E). cbn [obind objs map].
        rewrite (@init_at (known l1 ++ [c0] ++ known [z]) (known l1) [c0] (known [z]) [Some z]); try reflexivity; [|now rewrite known_length|exact D0].
        cbn [obind shift_loop]. 
        rewrite (@destroy_at (known l1 ++ [Some z] ++ known [z]) (known l1 ++ [Some z]) (known [z]) []).
        * split; [|apply (droppable_none 1)].
          unfold dead, tdest. rewrite E, (tc_f E). cbn. now rewrite <- app_assoc.
        * now rewrite app_nil_r, <- app_assoc.
        * rewrite app_length, known_length. reflexivity.
        * reflexivity.
        * right. intros [H|[]]. discriminate. }
  destruct SH as (c & SH & Dc).
  destruct (@on_spec h1 p _ _ (fun b => shift_down tm tc b (length l1) (length l2)) V1 SH) as (h2 & -> & V2 & A2 & _).
  { rewrite !app_length, dead_length. cbn. lia. }
  cbn [obind]. assert (W1 : wf h1) by (apply A1; exact W). assert (W2 : wf h2) by (apply A2; exact W1).
  assert (Le : length (known (l1 ++ l2)) = length l1 + S (length l2) - 1) by (rewrite known_length, app_length; lia).
  rewrite app_assoc, <- known_app in V2.
  destruct (@realloc_spec h2 p _ (length l1 + S (length l2) - 1) W2 V2) as (h3 & q & ER & V3 & A3).
  { rewrite skipn_app, skipn_all2, <- Le, Nat.sub_diag by lia. exact Dc. }
  rewrite firstn_app, <- Le, Nat.sub_diag, firstn_all in V3. cbn [firstn] in V3.
  replace (length (known (l1 ++ l2)) - length (known (l1 ++ l2) ++ [c])) with 0 in V3 by (rewrite app_length; lia). cbn [repeat] in V3.
  rewrite !app_nil_r in V3.
  assert (EQ : q = p).
  { revert ER. unfold realloc. rewrite (proj2 (Nat.eqb_neq _ _)) by lia. destruct p as [a|].
    - destruct (blk h2 a) as [b2|] eqn:EB; [|discriminate]. cbn [obind].
      assert (b2 = known (l1 ++ l2) ++ [c]) as -> by (destruct V2 as (G2 & _); cbn in G2; congruence).
      destruct (Nat.ltb_spec (length (known (l1 ++ l2) ++ [c])) (length l1 + S (length l2) - 1)) as [LT|_];
        [rewrite app_length in LT; lia|]. cbn [andb].
      match goal with |- context [if ?d then _ else _] => destruct d end; congruence.
    - destruct V2 as (G2 & _). cbn in G2. apply (f_equal (option_map (@length _))) in G2. cbn in G2. rewrite app_length in G2. cbn in G2.
      injection G2 as G2. lia. }
  rewrite ER. cbn [obind]. subst q. exists h3. split; [reflexivity|]. split; [exact V3|].
  exact (astep_trans W V V2 (astep_trans W V V1 A1 A2) A3).
Qed.

Lemma remove_only h p y x : wf h -> vec h p (known [y]) -> eqb y x = true ->
  exists h', a_remove tm tc mv eqb h p x = Some (h', p, true) /\ getb h' p = None.
Proof.
  intros W V Ey. unfold a_remove. rewrite (proj1 V). cbn [obind Arr_Spec.known map find_from]. rewrite Ey. cbn [obind].
  destruct (@on_spec h p _ (known [] ++ dead [Some y] ++ known []) (fun c => destroy c 0 1) V)
    as (h1 & -> & V1 & A1 & _); [apply (destroy_found [] y [])|cbn; rewrite app_length, dead_length; reflexivity|].
  cbn [obind length Nat.add Nat.sub].
  destruct (@on_spec h1 p _ (known [] ++ dead [Some y] ++ known []) (fun b => shift_down tm tc b 0 0) V1) as (h2 & -> & V2 & A2 & _).
  { unfold shift_down, memmove, Arr_Model.destroy. destruct tm; [reflexivity|]. cbn. now destruct tc. }
  { reflexivity. }
  cbn [obind realloc Nat.eqb].
  destruct (@free_spec h2 p _ (proj1 V2)) as (h3 & -> & F1 & _).
  { cbn. rewrite app_nil_r. apply dead_droppable. }
  cbn [obind]. exists h3. split; [reflexivity|]. destruct p as [a|]; [cbn; now apply F1|].
  destruct V as (G & _). discriminate.
Qed.

(** * After a history *)
Lemma reach os i : legal_run tc def (@store0 T) os ->
  exists w l b, a_run tm tc def mv eqb (world0 T) os = Some (w, l) /\ wf (wm w) /\ vec (wm w) (wp w i) b /\
    okc b (final tc def os i) /\ full b.
Proof.
  intros LG. destruct (@run_spec os _ _ winv0 LG) as (w & l & E & _ & (W & A & _)).
  destruct (A i) as (b & V & OK & F). exists w, l, b. auto.
Qed.

Lemma push_self_undefined_h os i k : tm = false -> legal_run tc def (@store0 T) os -> k < length (final tc def os i) ->
  exists w l, a_run tm tc def mv eqb (world0 T) os = Some (w, l) /\ a_push_self tm tc mv (wm w) (wp w i) k = None.
Proof.
  intros E LG Hk. destruct (reach i LG) as (w & l & b & R & W & V & OK & F). exists w, l. split; [exact R|].
  apply push_self_undefined with b; auto. now rewrite (okc_length OK).
Qed.

Lemma push_self_bytes_h os i k : tm = true -> legal_run tc def (@store0 T) os -> k < length (final tc def os i) ->
  exists w l a b, a_run tm tc def mv eqb (world0 T) os = Some (w, l) /\ wp w i = Some a /\ getb (wm w) (Some a) = Some b /\
    (mv (wm w) a (length b + 1) = true -> a_push_self tm tc mv (wm w) (Some a) k = None) /\
    (mv (wm w) a (length b + 1) = false -> exists h', a_push_self tm tc mv (wm w) (Some a) k = Some (h', Some a) /\
       getb h' (Some a) = Some (b ++ [nth k b None])).
Proof.
  intros E LG Hk. destruct (reach i LG) as (w & l & b & R & W & V & OK & F). rewrite <- (okc_length OK) in Hk.
  destruct (wp w i) as [a|] eqn:EP; [|destruct V as (G & _); injection G as <-; cbn in Hk; lia].
  exists w, l, a, b. split; [exact R|]. split; [exact EP|]. split; [apply V|]. now apply push_self_bytes.
Qed.

Lemma reach_known os i s : legal_run tc def (@store0 T) os -> final tc def os i = known s ->
  exists w l, a_run tm tc def mv eqb (world0 T) os = Some (w, l) /\ wf (wm w) /\ vec (wm w) (wp w i) (known s).
Proof.
  intros LG E. destruct (reach i LG) as (w & l & b & R & W & V & OK & F). exists w, l. split; [exact R|]. split; [exact W|].
  rewrite E in OK. apply okc_known in OK; [now subst|]. unfold Arr_Spec.known. intros I. apply in_map_iff in I.
  destruct I as (? & ? & _). discriminate.
Qed.

Lemma remove_partial_h os i l1 y l2 x : legal_run tc def (@store0 T) os -> final tc def os i = known (l1 ++ y :: l2) ->
  eqb y x = true -> (forall z, In z l1 -> eqb z x = false) -> length l2 <= 1 -> 1 <= length l1 + length l2 ->
  exists w l h', a_run tm tc def mv eqb (world0 T) os = Some (w, l) /\
    a_remove tm tc mv eqb (wm w) (wp w i) x = Some (h', wp w i, true) /\ getb h' (wp w i) = Some (known (l1 ++ l2)) /\
    (forall a, wp w i <> Some a -> blk h' a = blk (wm w) a).
Proof.
  intros LG E Ey F L L'. destruct (@reach_known _ _ _ LG E) as (w & l & R & W & V). rewrite <- Forall_forall in F.
  destruct (remove_partial W V Ey F L L') as (h' & E' & V' & A). exists w, l, h'. split; [exact R|]. split; [exact E'|].
  split; [apply V'|]. intros a NE. apply A; congruence.
Qed.

Lemma remove_undefined_h os i l1 y l2 x : legal_run tc def (@store0 T) os -> final tc def os i = known (l1 ++ y :: l2) ->
  eqb y x = true -> (forall z, In z l1 -> eqb z x = false) -> 2 <= length l2 ->
  exists w l, a_run tm tc def mv eqb (world0 T) os = Some (w, l) /\ a_remove tm tc mv eqb (wm w) (wp w i) x = None.
Proof.
  intros LG E Ey F L. destruct (@reach_known _ _ _ LG E) as (w & l & R & W & V). rewrite <- Forall_forall in F.
  exists w, l. split; [exact R|]. exact (remove_undefined W V Ey F L).
Qed.

Lemma remove_only_h os i y x : legal_run tc def (@store0 T) os -> final tc def os i = known [y] -> eqb y x = true ->
  exists w l h', a_run tm tc def mv eqb (world0 T) os = Some (w, l) /\
    a_remove tm tc mv eqb (wm w) (wp w i) x = Some (h', wp w i, true) /\ getb h' (wp w i) = None.
Proof.
  intros LG E Ey. destruct (@reach_known _ _ _ LG E) as (w & l & R & W & V).
  destruct (remove_only W V Ey) as (h' & E' & G). exists w, l, h'. auto.
Qed.
End P.
