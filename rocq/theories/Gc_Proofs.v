(** Proofs about the collector (C40). *)
From Verif Require Import Base Ref_Model List_Model Gc_Model Gc_Spec.
From Verif Require Import Ref_Proofs.
Local Open Scope res_scope.
Local Open Scope nat_scope.
Notation gheap := (list (option gobj)).

Lemma getG_nth : forall (h : gheap) o x, getG h o = Some x <-> nth_error h o = Some (Some x).
Proof. intros. unfold getG. destruct (nth_error h o) as [[y|]|]; split; congruence. Qed.
Lemma getG_lt : forall (h : gheap) o x, getG h o = Some x -> o < length h.
Proof. intros h o x H. apply getG_nth in H. apply nth_error_Some. congruence. Qed.
Lemma getG_upd : forall (h : gheap) o c p, o < length h -> getG (upd h o c) p = if Nat.eqb p o then c else getG h p.
Proof.
  intros h o c p L. unfold getG. rewrite nth_upd. destruct (Nat.eqb p o); auto. apply Nat.ltb_lt in L. rewrite L. destruct c; auto.
Qed.
Lemma getG_snoc : forall (h : gheap) x p, getG (h ++ [Some x]) p = if Nat.eqb p (length h) then Some x else getG h p.
Proof. intros. unfold getG. rewrite nth_snoc. destruct (Nat.eqb p (length h)); auto. Qed.

Lemma same_refl : forall h, same_graph h h. Proof. intros h o. auto. Qed.
Lemma same_trans : forall a b c, same_graph a b -> same_graph b c -> same_graph a c.
Proof. intros a b c H1 H2 o. rewrite H1. auto. Qed.
Lemma same_sym : forall a b, same_graph a b -> same_graph b a.
Proof. intros a b H o. rewrite H. auto. Qed.
Lemma same_get : forall h h' o x, same_graph h h' -> getG h o = Some x -> exists x', getG h' o = Some x' /\ grefs x' = grefs x.
Proof. intros h h' o x H E. specialize (H o). rewrite E in H. cbn in H. destruct (getG h' o) as [y|]; [|discriminate]. injection H as H. exists y. auto. Qed.
Lemma same_alive : forall h h' o, same_graph h h' -> alive h o -> alive h' o.
Proof.
  intros h h' o H A. unfold alive in *. destruct (getG h o) as [x|] eqn:E; [|congruence]. destruct (same_get H E) as (y & -> & _). discriminate.
Qed.
Lemma same_reach : forall h h' a b, same_graph h h' -> reach h a b -> reach h' a b.
Proof.
  intros h h' a b H R. induction R as [o|o x r y E I _ IH]; [constructor|]. destruct (same_get H E) as (x' & E' & F).
  apply reach_step with x' r; auto. rewrite F. auto.
Qed.
Lemma same_closed : forall h h', same_graph h h' -> closed h -> closed h'.
Proof.
  intros h h' H C o x r E I. destruct (same_get (same_sym H) E) as (y & E' & F). apply same_alive with h; auto.
  apply C with o y; auto. rewrite F. auto.
Qed.
Lemma reach_trans : forall h a b c, reach h a b -> reach h b c -> reach h a c.
Proof. intros h a b c R. induction R; auto. intros S. eapply reach_step; eauto. Qed.
Lemma reach_alive : forall h a b, closed h -> alive h a -> reach h a b -> alive h b.
Proof.
  intros h a b C A R. induction R as [o|o x r y E I _ IH]; auto. apply IH. apply C with o x; auto.
Qed.

(** ** The depth-first marker *)
Fixpoint unm (h : gheap) : nat := match h with [] => 0 | Some x :: r => (if gmark x then 0 else 1) + unm r | None :: r => unm r end.
Lemma unm_mark : forall (h : gheap) o x, nth_error h o = Some (Some x) -> gmark x = false -> S (unm (upd h o (Some (mkG true (grefs x))))) = unm h.
Proof.
  induction h as [|a h IH]; intros [|o] x H E; try discriminate; cbn in H |- *.
  - injection H as ->. rewrite E. reflexivity.
  - destruct a as [y|]; rewrite <- (IH _ _ H E); lia.
Qed.
Lemma unm_le : forall h, unm h <= length h.
Proof. induction h as [|[x|] h IH]; cbn; auto. destruct (gmark x); lia. Qed.

(** What a marking step keeps. *)
Definition more (h h' : gheap) : Prop := same_graph h h' /\ (forall x, marked h x -> marked h' x) /\ unm h' <= unm h.
Lemma more_refl : forall h, more h h. Proof. intros. split; [apply same_refl|]. auto. Qed.
Lemma more_trans : forall a b c, more a b -> more b c -> more a c.
Proof. intros a b c (A1 & A2 & A3) (B1 & B2 & B3). split; [eapply same_trans; eauto|]. split; auto. lia. Qed.

Definition dfs_all (f : nat) := fix all (h : gheap) (l : list nat) : res gheap :=
  match l with [] => Ok h | r :: l' => h1 <- dfs f h r ;; all h1 l' end.

(** New marks are reachable, and their pointers are marked. *)
Definition newly (h h' : gheap) (from : nat -> Prop) : Prop :=
  forall x, marked h' x -> marked h x \/ ((exists o, from o /\ reach h o x) /\ forall y r, getG h' x = Some y -> In r (grefs y) -> marked h' r).

Lemma marked_mono_get : forall h h' x y r, more h h' -> (forall y r, getG h x = Some y -> In r (grefs y) -> marked h r) ->
  getG h' x = Some y -> In r (grefs y) -> marked h' r.
Proof.
  intros h h' x y r (S1 & S2 & _) H E I. destruct (same_get (same_sym S1) E) as (z & Ez & F). apply S2. apply H with z; auto. rewrite F. auto.
Qed.

Lemma dfs_ok : forall f h o, closed h -> alive h o -> unm h < f ->
  exists h', dfs f h o = Ok h' /\ more h h' /\ marked h' o /\ newly h h' (fun p => p = o).
Proof.
  induction f as [|f IH]; intros h o HC HA Hf; [lia|]. cbn [dfs]. unfold alive in HA.
  destruct (getG h o) as [x|] eqn:E; [|congruence]. destruct (gmark x) eqn:M.
  - exists h. split; auto. split; [apply more_refl|]. split; [exists x; auto|]. intros y Hy. auto.
  - fold (dfs_all f). set (h1 := upd h o (Some (mkG true (grefs x)))). pose proof (getG_lt E) as L.
    assert (G1 : forall p, getG h1 p = if Nat.eqb p o then Some (mkG true (grefs x)) else getG h p) by (intros; apply getG_upd; auto).
    assert (U1 : S (unm h1) = unm h) by (apply unm_mark; auto; apply getG_nth; auto).
    assert (M1 : more h h1).
    { split; [|split; [|lia]].
      - intros p. rewrite G1. destruct (Nat.eqb_spec p o) as [->|]; auto. rewrite E. auto.
      - intros p (y & Ey & My). unfold marked. rewrite G1. destruct (Nat.eqb p o); [eexists; split; reflexivity|exists y; auto]. }
    assert (All : forall l g, more h1 g -> (forall r, In r l -> alive h r) ->
        exists h', dfs_all f g l = Ok h' /\ more g h' /\ (forall r, In r l -> marked h' r) /\ newly g h' (fun p => In p l)).
    { induction l as [|r l IHl]; intros g Hg Hl.
      - exists g. split; auto. split; [apply more_refl|]. split; [intros r []|]. intros y Hy; auto.
      - cbn [dfs_all]. 
        assert (SG : same_graph h g) by (eapply same_trans; [apply M1|apply Hg]).
        destruct (IH g r) as (g1 & A1 & A2 & A3 & A4).
        { eapply same_closed; eauto. } { eapply same_alive; eauto. apply Hl; left; auto. } { destruct Hg as (_ & _ & Hg). lia. }
        rewrite A1. cbn [rb]. destruct (IHl g1) as (g2 & B1 & B2 & B3 & B4).
        { eapply more_trans; eauto. } { intros q Hq. apply Hl. right; auto. }
        fold (dfs_all f). rewrite B1. exists g2. split; auto. split; [eapply more_trans; eauto|]. split.
        + intros q [<-|Hq]; auto. apply B2. auto.
        + intros y Hy. destruct (B4 y Hy) as [Q|[(p & P1 & P2) P3]].
          * destruct (A4 y Q) as [Q'|[(p & P1 & P2) P3]]; auto. right. split.
            -- exists r. subst p. split; [left; auto|auto].
            -- intros z t Ez It. eapply marked_mono_get with (h := g1); eauto.
          * right. split; auto. exists p. split; [right; auto|]. eapply same_reach; [|exact P2]. apply same_sym. apply A2. }
    destruct (All (grefs x) h1 (more_refl h1)) as (h' & B1 & B2 & B3 & B4). { intros r Hr. eapply HC; eauto. }
    exists h'. split; auto. split; [eapply more_trans; eauto|].
    assert (Mo : marked h1 o) by (eexists; rewrite G1, Nat.eqb_refl; split; reflexivity).
    split; [apply B2; auto|]. intros y Hy. destruct (B4 y Hy) as [Q|[(p & P1 & P2) P3]].
    + destruct (Nat.eq_dec y o) as [->|N].
      * right. split; [exists o; split; auto; constructor|]. intros z r Ez Ir. apply B3.
        destruct (same_get (same_sym (proj1 B2)) Ez) as (w & Ew & F). rewrite G1, Nat.eqb_refl in Ew. injection Ew as <-. cbn in F. rewrite F. auto.
      * left. destruct Q as (w & Ew & Mw). rewrite G1 in Ew. apply Nat.eqb_neq in N. rewrite N in Ew. exists w. auto.
    + right. split; auto. exists o. split; auto. apply reach_step with x p; auto.
      eapply same_reach; [|exact P2]. apply same_sym. apply M1.
Qed.

Lemma dfs_marker : marker_ok mark_dfs.
Proof.
  intros h o HC HM HA. unfold mark_dfs.
  destruct (@dfs_ok (S (length h)) h o HC HA) as (h' & A & B & C & D); [pose proof (unm_le h); lia|].
  exists h'. split; auto. split; [apply B|].
  assert (MC' : marks_closed h').
  { intros p x r E M I. destruct (D p) as [Q|[_ Q]]; [exists x; auto| |eauto].
    destruct Q as (y & Ey & My). apply B. destruct (same_get (proj1 B) Ey) as (x' & Ex & F). rewrite E in Ex. injection Ex as <-.
    apply HM with p y; auto. rewrite <- F. auto. }
  intros x. split.
  - intros Hx. destruct (D x Hx) as [Q|[(p & -> & R) _]]; auto.
  - intros [Hx|R]; [apply B; auto|]. clear -C R MC' B.
    assert (K : forall a b, reach h a b -> marked h' a -> marked h' b).
    { intros a b R'. induction R' as [|p y r b' E I _ IH]; auto. intros M. apply IH. destruct (same_get (proj1 B) E) as (y' & E' & F).
      destruct M as (y2 & E2 & M2). rewrite E' in E2. injection E2 as <-. apply MC' with p y'; auto. rewrite F. auto. }
    eapply K; eauto.
Qed.

(** ** Collections *)
Section Coll.
Variable mk : gheap -> nat -> res gheap.
Hypothesis Hmk : marker_ok mk.

Lemma marks_closed_reach : forall h h' o, closed h -> marks_closed h -> same_graph h h' ->
  (forall x, marked h' x <-> marked h x \/ reach h o x) -> marks_closed h'.
Proof.
  intros h h' o HC HM HS HR p x r E M I. apply HR. destruct (same_get (same_sym HS) E) as (y & Ey & F).
  assert (Q : marked h' p) by (exists x; auto). apply HR in Q. destruct Q as [(z & Ez & Mz)|Q].
  - left. rewrite Ey in Ez. injection Ez as <-. apply HM with p y; auto. rewrite F; auto.
  - right. eapply reach_trans; [exact Q|]. apply reach_step with y r; auto; [rewrite F; auto|constructor].
Qed.

Lemma mark_roots_ok : forall rv rs h, closed h -> marks_closed h ->
  (forall r, In r rs -> exists o, nth_error rv r = Some (Some o) /\ alive h o) ->
  exists h', mark_roots mk h rv rs = Ok h' /\ same_graph h h' /\
    forall x, marked h' x <-> marked h x \/ exists r o, In r rs /\ nth_error rv r = Some (Some o) /\ reach h o x.
Proof.
  intros rv. induction rs as [|r rs IH]; intros h HC HM HR.
  - exists h. split; auto. split; [apply same_refl|]. intros x. split; auto. intros [H|(r & o & [] & _)]; auto.
  - cbn [mark_roots]. destruct (HR r) as (o & E & A); [left; auto|]. rewrite E.
    destruct (Hmk HC HM A) as (h1 & B1 & B2 & B3). rewrite B1. cbn [rb].
    destruct (IH h1) as (h2 & C1 & C2 & C3).
    { eapply same_closed; eauto. } { eapply marks_closed_reach; eauto. }
    { intros q Hq. destruct (HR q) as (p & E' & A'); [right; auto|]. exists p. split; auto. eapply same_alive; eauto. }
    rewrite C1. exists h2. split; auto. split; [eapply same_trans; eauto|]. intros x. rewrite C3, B3. split.
    + intros [[H|H]|(q & p & H1 & H2 & H3)]; auto.
      * right. exists r, o. split; [left; auto|]. auto.
      * right. exists q, p. split; [right; auto|]. split; auto. eapply same_reach; [|exact H3]. apply same_sym; auto.
    + intros [H|(q & p & [<-|H1] & H2 & H3)]; auto.
      * left. right. congruence.
      * right. exists q, p. split; auto. split; auto. eapply same_reach; eauto.
Qed.

(** The sweep: each listed object is unmarked or destroyed. *)
Lemma sweep_ok : forall l h, NoDup l -> (forall o, In o l -> alive h o) ->
  exists h', sweep_from (fun o => [o]) h l = Ok h' /\
    forall o, getG h' o = if isin o l then (match getG h o with Some x => if gmark x then Some (mkG false (grefs x)) else None | None => None end)
                          else getG h o.
Proof.
  induction l as [|a l IH]; intros h ND HA.
  - exists h. split; auto.
  - inversion ND as [|? ? N1 N2]; subst. cbn [sweep_from].
    assert (A : alive h a) by (apply HA; left; auto). unfold alive in A. destruct (getG h a) as [x|] eqn:E; [|congruence].
    pose proof (getG_lt E) as L.
    set (h1 := if gmark x then upd h a (Some (mkG false (grefs x))) else kill h [a]).
    assert (G : forall o, getG h1 o = if Nat.eqb o a then (if gmark x then Some (mkG false (grefs x)) else None) else getG h o).
    { intros o. unfold h1. destruct (gmark x); cbn [kill]; apply getG_upd; auto. }
    destruct (IH h1 N2) as (h2 & B1 & B2).
    { intros o Ho. unfold alive. rewrite G. destruct (Nat.eqb_spec o a) as [->|]; [tauto|]. apply HA. right; auto. }
    exists h2. split; auto. intros o. rewrite B2, G. unfold isin. cbn [existsb]. fold (isin o l).
    destruct (Nat.eqb_spec o a) as [->|N]; cbn [orb].
    + destruct (isin a l) eqn:Q; [exfalso; apply N1; unfold isin in Q; apply existsb_exists in Q; destruct Q as (y & Q1 & Q2); apply Nat.eqb_eq in Q2; congruence|].
      rewrite E. auto.
    + auto.
Qed.

Lemma isin_iff : forall x l, isin x l = true <-> In x l.
Proof.
  intros. unfold isin. rewrite existsb_exists. split; [intros (y & H & E); apply Nat.eqb_eq in E; congruence|].
  intros H. exists x. split; auto. apply Nat.eqb_refl.
Qed.

Definition GI (s : gst) : Prop :=
  closed (objs s) /\ (forall o, ~ marked (objs s) o) /\ NoDup (order s) /\ (forall o, In o (order s) <-> alive (objs s) o) /\
  (forall i, i < length (rvars s) -> exists o, nth_error (rvars s) i = Some (Some o) /\ alive (objs s) o) /\
  (forall i, In i (reg s) <-> i < length (rvars s)).

Lemma collect_spec : forall s, GI s ->
  exists s', collect mk (fun o => [o]) s = Ok s' /\ rvars s' = rvars s /\ reg s' = reg s /\
    (forall o x, getG (objs s') o = Some x <-> getG (objs s) o = Some x /\ rooted s o) /\
    order s' = filter (fun o => match getG (objs s') o with Some _ => true | None => false end) (order s).
Proof.
  intros s (H1 & H2 & H3 & H4 & H5 & H6). unfold collect.
  assert (MC : marks_closed (objs s)) by (intros o x r E M _; exfalso; apply (H2 o); exists x; auto).
  destruct (@mark_roots_ok (rvars s) (reg s) (objs s) H1 MC) as (h1 & A1 & A2 & A3).
  { intros r Hr. apply H5. apply H6. auto. }
  rewrite A1. cbn [rb].
  destruct (@sweep_ok (order s) h1 H3) as (h2 & B1 & B2).
  { intros o Ho. apply same_alive with (objs s); auto. apply H4; auto. }
  rewrite B1. cbn [rb]. eexists. split; [reflexivity|]. split; auto. split; auto. split; [|reflexivity]. cbn [objs].
  assert (MR : forall o, marked h1 o <-> rooted s o).
  { intros o. rewrite A3. split.
    - intros [Q|(r & p & Q1 & Q2 & Q3)]; [exfalso; apply (H2 o); auto|]. exists r, p. auto.
    - intros (i & r & Q1 & Q2). right. exists i, r. split; auto. apply H6. apply nth_error_Some. congruence. }
  intros o x. rewrite B2. destruct (isin o (order s)) eqn:I.
  - apply isin_iff, H4 in I. unfold alive in I. destruct (getG (objs s) o) as [y|] eqn:E; [|congruence].
    destruct (same_get A2 E) as (z & Ez & F). rewrite Ez.
    assert (Uy : gmark y = false) by (destruct (gmark y) eqn:Q; auto; exfalso; apply (H2 o); exists y; auto).
    assert (Ey : mkG false (grefs z) = y) by (rewrite F; destruct y; cbn in *; congruence).
    destruct (gmark z) eqn:Mz.
    + rewrite Ey. split; [|tauto]. intros Q. split; auto. apply MR. exists z. auto.
    + split; [discriminate|]. intros [_ Q]. apply MR in Q. destruct Q as (w & Ew & Mw). rewrite Ez in Ew. congruence.
  - assert (N : ~ alive (objs s) o) by (intros Q; apply H4, isin_iff in Q; congruence).
    assert (N0 : getG (objs s) o = None) by (unfold alive in N; destruct (getG (objs s) o); auto; exfalso; apply N; discriminate).
    assert (N1 : getG h1 o = None).
    { destruct (getG h1 o) as [y|] eqn:Q; auto. destruct (same_get (same_sym A2) Q) as (w & Ew & _). congruence. }
    rewrite N0, N1. split; [discriminate|intros [Q _]; discriminate].
Qed.

Lemma NoDup_snoc : forall (l : list nat) x, NoDup l -> ~ In x l -> NoDup (l ++ [x]).
Proof.
  intros l x H N. rewrite <- (rev_involutive (l ++ [x])). apply NoDup_rev. rewrite rev_app_distr. cbn. constructor; [|apply NoDup_rev; auto].
  intros Q. apply N. apply in_rev; auto.
Qed.

Lemma step_gi : forall s c, GI s -> glegal s c -> exists s', g_op mk (fun o => [o]) s c = Ok s' /\ GI s'.
Proof.
  intros s c HG HL. assert (HG0 := HG). destruct HG as (H1 & H2 & H3 & H4 & H5 & H6).
  destruct c as [refs|o refs|o|i|i o|i|]; cbn [g_op glegal] in *; try tauto.
  - eexists. split; [reflexivity|].
    assert (AL : forall r, alive (objs s ++ [Some (mkG false refs)]) r <-> r = length (objs s) \/ alive (objs s) r).
    { intros r. unfold alive. rewrite getG_snoc. destruct (Nat.eqb_spec r (length (objs s))) as [->|N]; [split; [auto|discriminate]|].
      split; auto. intros [Q|Q]; [congruence|auto]. }
    assert (NA : ~ alive (objs s) (length (objs s))).
    { unfold alive. destruct (getG (objs s) (length (objs s))) eqn:Q; [|congruence]. apply getG_lt in Q. lia. }
    split; [|split; [|split; [|split; [|split]]]]; cbn [objs order rvars reg]; auto.
    + intros p x r E I. rewrite getG_snoc in E. apply AL. destruct (Nat.eqb_spec p (length (objs s))) as [->|N].
      * injection E as <-. cbn in I. destruct (HL r I); auto.
      * right. apply H1 with p x; auto.
    + intros p (x & E & M). rewrite getG_snoc in E. destruct (Nat.eqb p (length (objs s))); [injection E as <-; discriminate|]. apply (H2 p). exists x; auto.
    + apply NoDup_snoc; auto. intros Q. apply H4 in Q. auto.
    + intros p. rewrite in_app_iff, AL, H4. cbn. intuition.
    + intros i Hi. destruct (H5 i Hi) as (p & Q1 & Q2). exists p. split; auto. apply AL. auto.
  - destruct HL as [Ho Hr]. unfold alive in Ho. destruct (getG (objs s) o) as [x|] eqn:E; [|congruence].
    eexists. split; [reflexivity|]. pose proof (getG_lt E) as L.
    assert (G : forall p, getG (upd (objs s) o (Some (mkG (gmark x) refs))) p = if Nat.eqb p o then Some (mkG (gmark x) refs) else getG (objs s) p) by (intros; apply getG_upd; auto).
    assert (AL : forall r, alive (upd (objs s) o (Some (mkG (gmark x) refs))) r <-> alive (objs s) r).
    { intros r. unfold alive. rewrite G. destruct (Nat.eqb_spec r o) as [->|N]; [rewrite E; split; discriminate|tauto]. }
    split; [|split; [|split; [|split; [|split]]]]; cbn [objs order rvars reg]; auto.
    + intros p y r Ep I. rewrite G in Ep. apply AL. destruct (Nat.eqb_spec p o) as [->|N]; [injection Ep as <-; auto|]. apply H1 with p y; auto.
    + intros p (y & Ep & M). rewrite G in Ep. destruct (Nat.eqb_spec p o) as [->|N]; [injection Ep as <-; apply (H2 o); exists x; auto|]. apply (H2 p). exists y; auto.
    + intros p. rewrite AL. auto.
    + intros i Hi. destruct (H5 i Hi) as (p & Q1 & Q2). exists p. split; auto. apply AL. auto.
  - eexists. split; [reflexivity|]. split; [|split; [|split; [|split; [|split]]]]; cbn [objs order rvars reg]; auto.
    + intros i Hi. rewrite nth_snoc. destruct (Nat.eqb_spec i (length (rvars s))) as [->|N]; [exists o; auto|]. apply H5. rewrite app_length in Hi. cbn in Hi. lia.
    + intros i. rewrite app_length. cbn. rewrite H6. lia.
  - destruct HL as [Ho (p & Ep)]. rewrite Ep. eexists. split; [reflexivity|].
    split; [|split; [|split; [|split; [|split]]]]; cbn [objs order rvars reg]; auto.
    + intros j Hj. rewrite upd_length in Hj. rewrite nth_upd. destruct (Nat.eqb_spec j i) as [->|N]; auto.
      apply Nat.ltb_lt in Hj. rewrite Hj. exists o. auto.
    + intros j. rewrite upd_length. auto.
  - destruct (collect_spec HG0) as (s' & A & B & C & D & E). exists s'. split; auto.
    assert (RA : forall o, rooted s o -> alive (objs s) o).
    { intros o (i & r & Q1 & Q2). apply reach_alive with r; auto. destruct (H5 i) as (p & Q3 & Q4); [apply nth_error_Some; congruence|]. congruence. }
    assert (AL : forall o, alive (objs s') o <-> rooted s o).
    { intros o. unfold alive. split.
      - intros Q. destruct (getG (objs s') o) as [x|] eqn:F; [|congruence]. apply D in F. tauto.
      - intros Q. pose proof (RA _ Q) as W. unfold alive in W. destruct (getG (objs s) o) as [x|] eqn:F; [|congruence].
        rewrite (proj2 (D o x)) by auto. discriminate. }
    split; [|split; [|split; [|split; [|split]]]].
    + intros o x r F I. apply AL. apply D in F. destruct F as [F (i & q & Q1 & Q2)]. exists i, q. split; auto.
      eapply reach_trans; [exact Q2|]. apply reach_step with x r; auto. constructor.
    + intros o (x & F & M). apply D in F. apply (H2 o). exists x. tauto.
    + rewrite E. apply NoDup_filter; auto.
    + intros o. rewrite E, filter_In, H4. split.
      * intros [_ Q]. unfold alive. destruct (getG (objs s') o); discriminate.
      * intros Q. split; [apply RA, AL; auto|]. unfold alive in Q. destruct (getG (objs s') o); auto.
    + rewrite B. intros i Hi. destruct (H5 i Hi) as (p & Q1 & Q2). exists p. split; auto. apply AL. exists i, p. split; auto. constructor.
    + rewrite B, C. auto.
Qed.

Lemma gi0 : GI gst0.
Proof.
  assert (N : forall o, getG [] o = None) by (intros [|o]; auto).
  split; [|split; [|split; [|split; [|split]]]]; cbn [gst0 objs order rvars reg].
  - intros o x r E. rewrite N in E. discriminate.
  - intros o (x & E & _). rewrite N in E. discriminate.
  - constructor.
  - intros o. unfold alive. rewrite N. split; [intros []|congruence].
  - intros i H. cbn in H. lia.
  - intros i. cbn. split; [intros []|lia].
Qed.
Lemma greach_gi : forall s, greach mk s -> GI s.
Proof.
  induction 1 as [|s c s' _ IH HL E]; [apply gi0|]. destruct (step_gi IH HL) as (s1 & A & B). congruence.
Qed.

Lemma legal_defined : forall s c, greach mk s -> glegal s c -> exists s', g_op mk (fun o => [o]) s c = Ok s'.
Proof. intros s c HR HL. destruct (step_gi (greach_gi HR) HL) as (s' & A & _). eauto. Qed.

Lemma filter_len : forall (p : nat -> bool) l, length (filter p l) <= length l.
Proof. induction l as [|a l IH]; cbn; auto. destruct (p a); cbn; lia. Qed.
Lemma filter_len_lt : forall (p : nat -> bool) l, length (filter p l) < length l <-> exists x, In x l /\ p x = false.
Proof.
  induction l as [|a l IH]; cbn [filter length].
  - split; [lia|]. intros (x & [] & _).
  - destruct (p a) eqn:E; cbn [length].
    + split.
      * intros H. destruct (proj1 IH) as (x & H1 & H2); [lia|]. exists x. split; auto. right; auto.
      * intros (x & [<-|H1] & H2); [congruence|]. assert (length (filter p l) < length l) by (apply IH; eauto). lia.
    + split; [|pose proof (filter_len p l); lia]. intros _. exists a. split; auto. left; auto.
Qed.

Lemma collection : forall s, greach mk s ->
  exists s', g_op mk (fun o => [o]) s GCollect = Ok s' /\
    (forall o x, getG (objs s') o = Some x <-> getG (objs s) o = Some x /\ rooted s o) /\
    rvars s' = rvars s /\
    (gc_success s s' = true <-> exists o, alive (objs s) o /\ ~ rooted s o).
Proof.
  intros s HR. pose proof (greach_gi HR) as HG. destruct (collect_spec HG) as (s' & A & B & C & D & E). exists s'. split; auto. split; auto. split; auto.
  unfold gc_success. rewrite Nat.ltb_lt, E, filter_len_lt. destruct HG as (_ & _ & _ & H4 & _). split; intros (o & Q1 & Q2); exists o.
  - apply H4 in Q1. split; auto. intros Q3. unfold alive in Q1. destruct (getG (objs s) o) as [x|] eqn:F; [|congruence].
    rewrite (proj2 (D o x)) in Q2 by auto. discriminate.
  - split; [apply H4; auto|]. destruct (getG (objs s') o) as [x|] eqn:F; auto. apply D in F. tauto.
Qed.
End Coll.

(** A destroyed root pointer makes every collection fail. *)
Lemma dead_root : forall mk kills s i, In i (reg s) -> nth_error (rvars s) i = Some None -> forall s', collect mk kills s <> Ok s'.
Proof.
  intros mk kills s i Hi Hn s'. unfold collect.
  assert (K : forall rs h h', In i rs -> mark_roots mk h (rvars s) rs <> Ok h').
  { induction rs as [|r rs IH]; intros h h' I; [destruct I|]. cbn [mark_roots]. destruct I as [->|I].
    - rewrite Hn. discriminate.
    - destruct (nth_error (rvars s) r) as [[o|]|]; try discriminate. destruct (mk h o); cbn [rb]; try discriminate. auto. }
  destruct (mark_roots mk (objs s) (rvars s) (reg s)) as [h| |] eqn:E; cbn [rb]; try discriminate. exfalso. exact (K _ _ _ Hi E).
Qed.

(** Dropping a root pointer therefore spoils all later collections. *)
Lemma mem_upd : forall mk s i s', GI s -> g_op mk (fun o => [o]) s (GDrop i) = Ok s' ->
  In i (reg s') /\ nth_error (rvars s') i = Some None.
Proof.
  intros mk s i s' (_ & _ & _ & _ & _ & H6) H. cbn [g_op] in H. destruct (nth_error (rvars s) i) as [[o|]|] eqn:E; try discriminate.
  injection H as <-. cbn [reg rvars]. assert (L : i < length (rvars s)) by (apply nth_error_Some; congruence). split; [apply H6; auto|].
  rewrite nth_upd, Nat.eqb_refl. apply Nat.ltb_lt in L. rewrite L. auto.
Qed.
Lemma after_drop : forall mk, marker_ok mk -> forall s i s', greach mk s -> g_op mk (fun o => [o]) s (GDrop i) = Ok s' ->
  forall s'', g_op mk (fun o => [o]) s' GCollect <> Ok s''.
Proof.
  intros mk Hmk s i s' HR H s''. destruct (mem_upd (greach_gi Hmk HR) H) as [A B]. apply dead_root with i; auto.
Qed.
