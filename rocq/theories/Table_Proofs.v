(** Proofs about the linked stacks and the hash table. *)
From Coq Require Import Permutation.
From Verif Require Import Base Table_Model Table_Spec.

Section Seg.
Variable T : Type.
Notation heap := (heap T).

(** The nodes at the addresses [al] hold [l] and link [p] to [q]. *)
Fixpoint lseg (h : heap) (p : ptr) (al : list nat) (l : list T) (q : ptr) : Prop :=
  match al, l with
  | [], [] => p = q
  | a :: al', d :: l' => p = Some a /\ exists nx, cell h a = Some (d, nx) /\ lseg h nx al' l' q
  | _, _ => False
  end.

Lemma lseg_length h p al l q : lseg h p al l q -> length al = length l.
Proof.
  revert p l; induction al as [|a al IH]; intros p [|d l]; cbn; try easy.
  intros (_ & nx & _ & H). f_equal. exact (IH _ _ H).
Qed.

Lemma lseg_frame h h' p al l q :
  (forall a, In a al -> cell h' a = cell h a) -> lseg h p al l q -> lseg h' p al l q.
Proof.
  revert p l; induction al as [|a al IH]; intros p [|d l] F; cbn; try easy.
  intros (E & nx & C & H). split; [exact E|]. exists nx. split.
  - rewrite F; [exact C|now left].
  - apply IH; [|exact H]. intros b Hb. apply F. now right.
Qed.

Lemma lseg_app h p al1 al2 l1 l2 q m :
  lseg h p al1 l1 m -> lseg h m al2 l2 q -> lseg h p (al1 ++ al2) (l1 ++ l2) q.
Proof.
  revert p l1; induction al1 as [|a al IH]; intros p [|d l1]; cbn; try easy.
  - now intros ->.
  - intros (E & nx & C & H) H2. split; [exact E|]. exists nx. split; [exact C|]. now apply IH.
Qed.

Lemma upd_same (h : heap) a c : cell (upd h a c) a = c.
Proof. cbn. now rewrite Nat.eqb_refl. Qed.

Lemma upd_other (h : heap) a c x : x <> a -> cell (upd h a c) x = cell h x.
Proof. cbn. intros H. now destruct (Nat.eqb_spec x a). Qed.

Lemma lseg_snoc_upd h p al b l d q q' :
  lseg h p (al ++ [b]) (l ++ [d]) q -> NoDup (al ++ [b]) ->
  lseg (upd h b (Some (d, q'))) p (al ++ [b]) (l ++ [d]) q'.
Proof.
  revert p l; induction al as [|a al IH]; intros p l H ND.
  - destruct l as [|x l].
    + destruct H as (E & nx & C & H). cbn [app lseg]. split; [exact E|].
      exists q'. rewrite upd_same. auto.
    + cbn [app lseg] in H. destruct H as (E & nx & C & H). destruct l; cbn in H; easy.
  - destruct l as [|x l].
    + cbn [app lseg] in H. destruct H as (E & nx & C & H). destruct al; cbn in H; easy.
    + cbn [app lseg] in H |- *. destruct H as (E & nx & C & H).
      cbn [app] in ND. apply NoDup_cons_iff in ND. destruct ND as (NI & ND).
      split; [exact E|]. exists nx. split.
      * rewrite upd_other; [exact C|]. intros ->. apply NI, in_or_app. right; now left.
      * now apply IH.
Qed.

(** How the footprint of a structure may evolve: its new cells are old ones or
    freshly allocated, nothing else that was allocated changed, and whatever
    left the footprint has been freed. *)
Definition fstep (h h' : heap) (F F' : list nat) : Prop :=
  (forall x, In x F' -> In x F \/ nxt h <= x < nxt h') /\
  (forall x, ~ In x F -> x < nxt h -> cell h' x = cell h x) /\
  nxt h <= nxt h' /\
  (forall x, cell h' x <> None -> In x F' \/ (~ In x F /\ cell h x <> None)).

Lemma fstep_refl h F : fstep h h F F.
Proof.
  split; [auto|]. split; [auto|]. split; [auto|]. intros x Hx.
  destruct (in_dec Nat.eq_dec x F); [now left|right; auto].
Qed.

(** All changes are within the old footprint, and what left it was freed. *)
Lemma fstep_within h h' F F' : incl F' F -> (forall x, ~ In x F -> cell h' x = cell h x) -> nxt h' = nxt h ->
  (forall x, In x F -> ~ In x F' -> cell h' x = None) -> fstep h h' F F'.
Proof.
  intros I C N D. split; [auto|]. split; [auto|]. split; [lia|]. intros x Hx.
  destruct (in_dec Nat.eq_dec x F) as [J|J]; [|right; rewrite C in Hx; auto].
  destruct (in_dec Nat.eq_dec x F') as [J'|J']; [now left|]. now rewrite D in Hx.
Qed.

Lemma fstep_trans h h1 h2 F F1 F2 : fstep h h1 F F1 -> fstep h1 h2 F1 F2 -> fstep h h2 F F2.
Proof.
  intros (A & B & C & D) (A' & B' & C' & D'). split; [|split; [|split; [lia|]]].
  - intros x Hx. destruct (A' x Hx) as [H|H]; [|right; lia].
    destruct (A x H); [now left|right; lia].
  - intros x Hx L. rewrite B'; [now apply B| |lia].
    intros H. destruct (A x H); [contradiction|lia].
  - intros x Hx. destruct (D' x Hx) as [H|(H & Hx')]; [now left|].
    destruct (D x Hx') as [J|J]; [contradiction|now right].
Qed.

(** A stack whose nodes are at [fst p] and whose elements are [snd p]. *)
Definition brep (h : heap) (s : stack) (p : list nat * list T) : Prop :=
  lseg h (top s) (fst p) (snd p) None /\ ssize s = Z.of_nat (length (snd p)).

Lemma brep_frame h h' s p : (forall a, In a (fst p) -> cell h' a = cell h a) -> brep h s p -> brep h' s p.
Proof. intros F (A & B). split; [now apply (lseg_frame F)|exact B]. Qed.

(** What [tmp_] refers to when the walk has passed the nodes [al1]. *)
Definition slot_ok (al1 : list nat) (l1 : list T) (s : slot) : Prop :=
  (al1 = [] /\ l1 = [] /\ s = SHead) \/
  exists al b l d, al1 = al ++ [b] /\ l1 = l ++ [d] /\ s = SNext b.

Lemma lseg_last_cell h p al b l d q : lseg h p (al ++ [b]) (l ++ [d]) q -> cell h b = Some (d, q).
Proof.
  revert p l; induction al as [|a al IH]; intros p l H.
  - destruct l as [|x l].
    + destruct H as (E & nx & C & H). cbn in H. now subst.
    + cbn [app lseg] in H. destruct H as (E & nx & C & H). destruct l; cbn in H; easy.
  - destruct l as [|x l].
    + cbn [app lseg] in H. destruct H as (E & nx & C & H). destruct al; cbn in H; easy.
    + cbn [app lseg] in H. destruct H as (E & nx & C & H). exact (IH _ _ H).
Qed.

Lemma store_slot_spec h tp s al1 l1 q v :
  lseg h tp al1 l1 q -> NoDup al1 -> slot_ok al1 l1 s ->
  exists h1 tp1, store_slot h tp s v = Done (h1, tp1) /\ lseg h1 tp1 al1 l1 v /\
    (forall x, ~ In x al1 -> cell h1 x = cell h x) /\ nxt h1 = nxt h.
Proof.
  intros L ND [(-> & -> & ->)|(al & b & l & d & -> & -> & ->)].
  - exists h, v. cbn. auto.
  - cbn [store_slot]. rewrite (lseg_last_cell L).
    exists (upd h b (Some (d, v))), tp. split; [reflexivity|]. split; [|split; [|reflexivity]].
    + now apply lseg_snoc_upd with (q := q).
    + intros x Hx. apply upd_other. intros ->. apply Hx, in_or_app. right; now left.
Qed.

Lemma slot_ok_next al1 l1 a d : length al1 = length l1 -> slot_ok (al1 ++ [a]) (l1 ++ [d]) (SNext a).
Proof. intros _. right. exists al1, a, l1, d. auto. Qed.

Lemma NoDup_app_l {A} (a b : list A) : NoDup (a ++ b) -> NoDup a.
Proof.
  induction a as [|x a IH]; cbn; intros H; [constructor|].
  apply NoDup_cons_iff in H. destruct H as (NI & H). constructor; [|auto].
  intros I. apply NI, in_or_app. now left.
Qed.

Lemma NoDup_app_r {A} (a b : list A) : NoDup (a ++ b) -> NoDup b.
Proof.
  induction a as [|x a IH]; cbn; intros H; [exact H|].
  apply NoDup_cons_iff in H. apply IH, H.
Qed.

Lemma NoDup_app_disj {A} (a b : list A) x : NoDup (a ++ b) -> In x a -> ~ In x b.
Proof.
  induction a as [|y a IH]; cbn; intros H I; [easy|].
  apply NoDup_cons_iff in H. destruct H as (NI & H). destruct I as [->|I].
  - intros J. apply NI, in_or_app. now right.
  - now apply IH.
Qed.

Lemma combine_app A B (a1 a2 : list A) (b1 b2 : list B) : length a1 = length b1 ->
  combine (a1 ++ a2) (b1 ++ b2) = combine a1 b1 ++ combine a2 b2.
Proof.
  revert b1; induction a1 as [|x a1 IH]; intros [|y b1] H; try discriminate; [reflexivity|].
  cbn. f_equal. apply IH. now injection H.
Qed.

Lemma af_loop_spec p fuel : forall h tp tmp s al1 l1 al2 l2,
  lseg h tp al1 l1 tmp -> lseg h tmp al2 l2 None -> NoDup (al1 ++ al2) -> slot_ok al1 l1 s ->
  length l2 < fuel ->
  (af_loop fuel h tp tmp s p = Done (h, tp, None) /\ forall x, In x l2 -> p x = false) \/
  (exists h' a al' d r, af_loop fuel h tp tmp s p = Done (h', Some a, Some a) /\
     lseg h' (Some a) (a :: al') (d :: l1 ++ r) None /\ Permutation (a :: al') (al1 ++ al2) /\
     Permutation l2 (d :: r) /\
     Permutation (combine (al1 ++ al2) (l1 ++ l2)) (combine (a :: al') (d :: l1 ++ r)) /\ p d = true /\
     (forall x, ~ In x (al1 ++ al2) -> cell h' x = cell h x) /\ nxt h' = nxt h).
Proof.
  induction fuel as [|f IH]; intros h tp tmp s al1 l1 al2 l2 L1 L2 ND SO Hf; [lia|].
  destruct al2 as [|a al2]; destruct l2 as [|d l2]; cbn [lseg] in L2; try easy.
  - subst tmp. left. split; [reflexivity|easy].
  - destruct L2 as (-> & nx & C & L2). cbn [af_loop]. rewrite C.
    destruct (p d) eqn:Pd.
    + right.
      destruct (store_slot_spec nx L1 (NoDup_app_l ND) SO) as (h1 & tp1 & -> & L1' & F1 & N1).
      cbn [bnd].
      assert (Ca : cell h1 a = Some (d, nx)).
      { rewrite F1; [exact C|]. intros I. apply (NoDup_app_disj ND I). now left. }
      unfold set_next. rewrite Ca. cbn [bnd].
      assert (ND2 : NoDup (al1 ++ al2) /\ ~ In a (al1 ++ al2)).
      { split; [exact (NoDup_remove_1 _ _ _ ND)|exact (NoDup_remove_2 _ _ _ ND)]. }
      eexists _, a, (al1 ++ al2), d, l2. split; [reflexivity|]. split; [|split; [|split; [|split; [|split; [|split]]]]].
      * cbn [lseg]. split; [reflexivity|]. exists tp1. split; [apply upd_same|].
        apply lseg_frame with (h := h1).
        { intros x Hx. apply upd_other. intros ->. tauto. }
        apply lseg_app with (m := nx); [exact L1'|].
        apply lseg_frame with (h := h); [|exact L2].
        intros x Hx. apply F1. intros I. apply (NoDup_app_disj ND I). now right.
      * apply Permutation_middle.
      * reflexivity.
      * apply lseg_length in L1. cbn [combine]. rewrite !combine_app by exact L1. cbn [combine].
        symmetry. apply Permutation_middle.
      * exact Pd.
      * intros x Hx. rewrite upd_other; [apply F1|].
        -- intros I. apply Hx, in_or_app. now left.
        -- intros ->. apply Hx, in_or_app. right; now left.
      * exact N1.
    + specialize (IH h tp nx (SNext a) (al1 ++ [a]) (l1 ++ [d]) al2 l2).
      destruct IH as [(E & N)|(h' & a' & al' & d' & r & E & L & P1 & P2 & PC & P3 & F & N)].
      * apply lseg_app with (m := Some a); [exact L1|]. cbn. split; [reflexivity|]. exists nx; auto.
      * exact L2.
      * rewrite <- app_assoc. exact ND.
      * now apply slot_ok_next, lseg_length with (h := h) (p := tp) (q := Some a).
      * cbn in Hf. lia.
      * left. split; [exact E|]. intros x [<-|Hx]; [exact Pd|now apply N].
      * right. exists h', a', al', d', (d :: r). rewrite <- app_assoc in L, P1, F.
        split; [exact E|]. split; [exact L|]. split; [exact P1|]. split; [|split; [|auto]].
        { apply perm_trans with (d :: d' :: r); [now apply perm_skip|apply perm_swap]. }
        rewrite <- !app_assoc in PC. exact PC.
Qed.

Lemma a_find_spec p fuel h s al l :
  brep h s (al, l) -> NoDup al -> length l < fuel ->
  exists h' s' r al' l', a_find fuel h s p = Done (h', s', r) /\ brep h' s' (al', l') /\
    Permutation al al' /\ Permutation l l' /\
    Permutation (combine al l) (combine al' l') /\ fstep h h' al al' /\
    match r with
    | None => forall x, In x l -> p x = false
    | Some a => exists al2 d l2, al' = a :: al2 /\ l' = d :: l2 /\ p d = true
    end.
Proof.
  intros (L & Z) ND Hf. cbn [fst snd] in *.
  destruct (@af_loop_spec p fuel h (top s) (top s) SHead [] [] al l)
    as [(E & N)|(h' & a & al' & d & r & E & L' & P1 & P2 & PC & P3 & F & N)]; auto.
  { cbn. reflexivity. } { left; auto. }
  - exists h, s, None, al, l. unfold a_find. rewrite E. cbn [bnd].
    split; [now destruct s|]. split; [split; auto|]. split; [reflexivity|]. split; [reflexivity|]. split; [reflexivity|].
    split; [apply fstep_refl|exact N].
  - exists h', (mkStack (Some a) (ssize s)), (Some a), (a :: al'), (d :: r).
    unfold a_find. rewrite E. cbn [bnd]. split; [reflexivity|]. cbn [app] in *.
    split; [split; [exact L'|]|].
    { cbn [ssize snd]. rewrite Z. f_equal. now apply Permutation_length. }
    split; [now symmetry|]. split; [exact P2|]. split; [exact PC|]. split.
    + apply fstep_within; auto.
      * intros x Hx. now apply (Permutation_in x P1).
      * intros x Hx N'. exfalso. apply N'. now apply (Permutation_in x (Permutation_sym P1)).
    + exists al', d, r. auto.
Qed.

Lemma bf_loop_spec p fuel : forall h tmp al l,
  lseg h tmp al l None -> length l < fuel ->
  exists r, bf_loop fuel h tmp p = Done r /\
    match r with
    | None => forall x, In x l -> p x = false
    | Some a => In a al /\ exists d nx, cell h a = Some (d, nx) /\ p d = true /\ In d l
    end.
Proof.
  induction fuel as [|f IH]; intros h tmp al l L Hf; [lia|].
  destruct al as [|a al]; destruct l as [|d l]; cbn [lseg] in L; try easy.
  - subst. exists None. cbn. easy.
  - destruct L as (-> & nx & C & L). cbn [bf_loop]. rewrite C. destruct (p d) eqn:Pd.
    + exists (Some a). split; [reflexivity|]. split; [now left|]. exists d, nx. split; [exact C|]. split; [exact Pd|now left].
    + destruct (IH h nx al l L) as (r & E & R); [cbn in Hf; lia|]. exists r. split; [exact E|].
      destruct r as [b|].
      * destruct R as (I & d' & nx' & R1 & R2 & R3). split; [now right|]. exists d', nx'. cbn. auto.
      * intros x [<-|I]; auto.
Qed.

Lemma s_add_spec h s al l d :
  brep h s (al, l) -> NoDup al -> Forall (fun a => a < nxt h) al ->
  exists h' s', s_add h s d = (h', s') /\ brep h' s' (nxt h :: al, d :: l) /\
    fstep h h' al (nxt h :: al) /\ NoDup (nxt h :: al) /\ nxt h' = S (nxt h).
Proof.
  intros (L & Z) ND B. cbn [fst snd] in *. unfold s_add, h_new.
  eexists _, _. split; [reflexivity|].
  assert (NI : ~ In (nxt h) al) by (intros I; rewrite Forall_forall in B; specialize (B _ I); lia).
  split; [split|split; [|split]].
  - cbn [top fst snd lseg]. split; [reflexivity|]. exists (top s). cbn [cell]. rewrite Nat.eqb_refl.
    split; [reflexivity|]. apply lseg_frame with (h := h); [|exact L].
    intros a Ha. cbn [cell]. destruct (Nat.eqb_spec a (nxt h)); [subst; contradiction|reflexivity].
  - cbn [ssize snd length]. rewrite Z. lia.
  - split; [|split; [|split]].
    + intros x [<-|I]; [right; cbn; lia|now left].
    + intros x Hx Lx. cbn [cell]. destruct (Nat.eqb_spec x (nxt h)); [lia|reflexivity].
    + cbn. lia.
    + intros x. cbn [cell]. destruct (Nat.eqb_spec x (nxt h)) as [->|Nx]; [left; now left|]. intros Hx.
      destruct (in_dec Nat.eq_dec x al); [left; now right|right; auto].
  - now constructor.
  - reflexivity.
Qed.

Lemma sr_loop_spec p fuel : forall h tp tmp s al1 l1 al2 l2,
  lseg h tp al1 l1 tmp -> lseg h tmp al2 l2 None -> NoDup (al1 ++ al2) -> slot_ok al1 l1 s ->
  length l2 < fuel ->
  (sr_loop fuel h tp tmp s p = Done (h, tp, false) /\ forall x, In x l2 -> p x = false) \/
  (exists h' tp' a al' d r, sr_loop fuel h tp tmp s p = Done (h', tp', true) /\
     lseg h' tp' al' (l1 ++ r) None /\ Permutation (a :: al') (al1 ++ al2) /\
     Permutation l2 (d :: r) /\ p d = true /\
     (forall x, ~ In x (al1 ++ al2) -> cell h' x = cell h x) /\ nxt h' = nxt h /\ cell h' a = None).
Proof.
  induction fuel as [|f IH]; intros h tp tmp s al1 l1 al2 l2 L1 L2 ND SO Hf; [lia|].
  destruct al2 as [|a al2]; destruct l2 as [|d l2]; cbn [lseg] in L2; try easy.
  - subst tmp. left. split; [reflexivity|easy].
  - destruct L2 as (-> & nx & C & L2). cbn [sr_loop]. rewrite C.
    destruct (p d) eqn:Pd.
    + right.
      destruct (store_slot_spec nx L1 (NoDup_app_l ND) SO) as (h1 & tp1 & -> & L1' & F1 & N1).
      cbn [bnd].
      assert (ND2 : NoDup (al1 ++ al2) /\ ~ In a (al1 ++ al2)).
      { split; [exact (NoDup_remove_1 _ _ _ ND)|exact (NoDup_remove_2 _ _ _ ND)]. }
      eexists _, tp1, a, (al1 ++ al2), d, l2. split; [reflexivity|]. split; [|split; [|split; [|split; [|split; [|split; [|apply upd_same]]]]]].
      * apply lseg_frame with (h := h1).
        { intros x Hx. apply upd_other. intros ->. tauto. }
        apply lseg_app with (m := nx); [exact L1'|].
        apply lseg_frame with (h := h); [|exact L2].
        intros x Hx. apply F1. intros I. apply (NoDup_app_disj ND I). now right.
      * apply Permutation_middle.
      * reflexivity.
      * exact Pd.
      * intros x Hx. rewrite upd_other; [apply F1|].
        -- intros I. apply Hx, in_or_app. now left.
        -- intros ->. apply Hx, in_or_app. right; now left.
      * exact N1.
    + specialize (IH h tp nx (SNext a) (al1 ++ [a]) (l1 ++ [d]) al2 l2).
      destruct IH as [(E & N)|(h' & tp' & a' & al' & d' & r & E & L & P1 & P2 & P3 & F & N)].
      * apply lseg_app with (m := Some a); [exact L1|]. cbn. split; [reflexivity|]. exists nx; auto.
      * exact L2.
      * rewrite <- app_assoc. exact ND.
      * now apply slot_ok_next, lseg_length with (h := h) (p := tp) (q := Some a).
      * cbn in Hf. lia.
      * left. split; [exact E|]. intros x [<-|Hx]; [exact Pd|now apply N].
      * right. exists h', tp', a', al', d', (d :: r). rewrite <- app_assoc in L, P1, F.
        split; [exact E|]. split; [exact L|]. split; [exact P1|]. split; [|auto].
        apply perm_trans with (d :: d' :: r); [now apply perm_skip|apply perm_swap].
Qed.

Lemma s_remove_spec p fuel h s al l :
  brep h s (al, l) -> NoDup al -> length l < fuel ->
  exists h' s' b al' l', s_remove fuel h s p = Done (h', s', b) /\ brep h' s' (al', l') /\
    NoDup al' /\ incl al' al /\ nxt h' = nxt h /\ fstep h h' al al' /\
    (if (b : bool) then exists d, Permutation l (d :: l') /\ p d = true
     else l' = l /\ forall x, In x l -> p x = false).
Proof.
  intros (L & Z) ND Hf. cbn [fst snd] in *.
  destruct (@sr_loop_spec p fuel h (top s) (top s) SHead [] [] al l)
    as [(E & N)|(h' & tp' & a & al' & d & r & E & L' & P1 & P2 & P3 & F & N & FRE)]; auto.
  { cbn. reflexivity. } { left; auto. }
  - exists h, s, false, al, l. unfold s_remove. rewrite E. cbn [bnd].
    split; [now destruct s|]. split; [split; auto|]. split; [exact ND|]. split; [apply incl_refl|].
    split; [reflexivity|]. split; [apply fstep_refl|auto].
  - exists h', (mkStack tp' (ssize s - 1)), true, al', r.
    unfold s_remove. rewrite E. cbn [bnd]. split; [reflexivity|]. cbn [app] in *.
    assert (ND' : NoDup (a :: al')) by (apply (Permutation_NoDup (Permutation_sym P1) ND)).
    apply NoDup_cons_iff in ND'. destruct ND' as (_ & ND').
    assert (IN : incl al' al) by (intros x Hx; apply (Permutation_in x P1); now right).
    split; [split; [exact L'|]|].
    { cbn [ssize snd]. rewrite Z. apply Permutation_length in P2. cbn in P2. lia. }
    split; [exact ND'|]. split; [exact IN|]. split; [exact N|]. split.
    + apply fstep_within; auto. intros x Hx Nx.
      apply (Permutation_in x (Permutation_sym P1)) in Hx. destruct Hx as [<-|Hx]; [exact FRE|contradiction].
    + exists d. auto.
Qed.

Lemma s_visit_spec fuel : forall h tmp al l, lseg h tmp al l None -> length l < fuel ->
  s_visit fuel h tmp = Done l.
Proof.
  induction fuel as [|f IH]; intros h tmp al l L Hf; [lia|].
  destruct al as [|a al]; destruct l as [|d l]; cbn [lseg] in L; try easy.
  - now subst.
  - destruct L as (-> & nx & C & L). cbn [s_visit]. rewrite C.
    rewrite (IH h nx al l L) by (cbn in Hf; lia). reflexivity.
Qed.

(** Copying. *)
Lemma sc_loop_spec fuel : forall h tp p s al1 l1 al2 l2,
  lseg h tp al1 l1 None -> NoDup al1 -> Forall (fun a => a < nxt h) al1 -> slot_ok al1 l1 s ->
  lseg h p al2 l2 None -> Forall (fun a => a < nxt h) al2 -> (forall x, In x al1 -> ~ In x al2) ->
  length l2 < fuel ->
  exists h' tp' al', sc_loop fuel h tp p s = Done (h', tp') /\
    lseg h' tp' (al1 ++ al') (l1 ++ l2) None /\ NoDup (al1 ++ al') /\
    (forall x, In x al' -> nxt h <= x < nxt h') /\
    (forall x, ~ In x al1 -> x < nxt h -> cell h' x = cell h x) /\ nxt h <= nxt h'.
Proof.
  induction fuel as [|f IH]; intros h tp p s al1 l1 al2 l2 L1 N1 B1 SO L2 B2 DJ Hf; [lia|].
  destruct al2 as [|a al2]; destruct l2 as [|d l2]; cbn [lseg] in L2; try easy.
  - subst p. exists h, tp, []. cbn [sc_loop]. rewrite !app_nil_r.
    split; [reflexivity|]. split; [exact L1|]. split; [exact N1|]. split; [easy|]. split; auto.
  - destruct L2 as (-> & nx & C & L2). cbn [sc_loop]. rewrite C. unfold h_new.
    set (h1 := mkHeap _ _).
    assert (FR : forall x, x < nxt h -> cell h1 x = cell h x).
    { intros x Hx. cbn [h1 cell]. destruct (Nat.eqb_spec x (nxt h)); [lia|reflexivity]. }
    assert (L1h : lseg h1 tp al1 l1 None).
    { apply lseg_frame with (h := h); [|exact L1]. intros x Hx. apply FR. rewrite Forall_forall in B1. now apply B1. }
    assert (NI : ~ In (nxt h) al1) by (intros I; rewrite Forall_forall in B1; specialize (B1 _ I); lia).
    destruct (store_slot_spec (Some (nxt h)) L1h N1 SO) as (h2 & tp2 & E & L1' & F1 & NX).
    rewrite E. cbn [bnd].
    assert (CN : cell h2 (nxt h) = Some (d, None)).
    { rewrite F1 by exact NI. cbn [h1 cell]. now rewrite Nat.eqb_refl. }
    rewrite Forall_forall in B1, B2.
    destruct (IH h2 tp2 nx (SNext (nxt h)) (al1 ++ [nxt h]) (l1 ++ [d]) al2 l2)
      as (h' & tp' & al' & E' & L' & ND' & FRS & FRM & NB).
    + apply lseg_app with (m := Some (nxt h)); [exact L1'|]. cbn. split; [reflexivity|]. exists None; auto.
    + apply (Permutation_NoDup (Permutation_cons_append al1 (nxt h))). now constructor.
    + apply Forall_forall. intros x Hx. rewrite NX. cbn [h1 nxt]. apply in_app_or in Hx.
      destruct Hx as [Hx|[<-|[]]]; [specialize (B1 _ Hx); lia|lia].
    + apply slot_ok_next. now apply lseg_length in L1.
    + apply lseg_frame with (h := h); [|exact L2]. intros x Hx.
      rewrite F1; [apply FR|].
      * apply B2. now right.
      * intros I. apply (DJ x I). now right.
    + apply Forall_forall. intros x Hx. rewrite NX. cbn [h1 nxt]. assert (In x (a :: al2)) as J by (now right). specialize (B2 x J). lia.
    + intros x Hx I. apply in_app_or in Hx. destruct Hx as [Hx|[<-|[]]].
      * apply (DJ x Hx). now right.
      * assert (In (nxt h) (a :: al2)) as J by (now right). specialize (B2 _ J). lia.
    + cbn in Hf. lia.
    + exists h', tp', (nxt h :: al'). rewrite <- app_assoc in ND'. rewrite <- (app_assoc al1), <- (app_assoc l1) in L'. cbn [app] in L', ND'.
      rewrite NX in FRS, NB, FRM. cbn [h1 nxt] in FRS, NB, FRM.
      split; [exact E'|]. split; [exact L'|]. split; [exact ND'|]. split; [|split; [|lia]].
      * intros x [<-|Hx]; [lia|]. specialize (FRS x Hx). lia.
      * intros x Hx Lx. rewrite FRM; [|intros I; apply in_app_or in I; destruct I as [I|[<-|[]]]; [auto|lia]|lia].
        rewrite F1 by exact Hx. now apply FR.
Qed.

Lemma s_copy_spec fuel h s al l :
  brep h s (al, l) -> Forall (fun a => a < nxt h) al -> length l < fuel ->
  exists h' s' al', s_copy fuel h s = Done (h', s') /\ brep h' s' (al', l) /\ brep h' s (al, l) /\
    NoDup al' /\ (forall x, In x al' -> nxt h <= x < nxt h') /\
    (forall x, x < nxt h -> cell h' x = cell h x).
Proof.
  intros (L & Z) B Hf. cbn [fst snd] in *.
  destruct (@sc_loop_spec fuel h None (top s) SHead [] [] al l)
    as (h' & tp' & al' & E & L' & ND & F & FR & N); auto.
  { reflexivity. } { constructor. } { left; auto. }
  exists h', (mkStack tp' (ssize s)), al'. unfold s_copy. rewrite E. cbn [bnd].
  split; [reflexivity|]. split; [split; [exact L'|exact Z]|]. split; [|split; [exact ND|split; auto]].
  split; [|exact Z]. apply lseg_frame with (h := h); [|exact L]. intros a Ha. apply FR; [easy|].
  rewrite Forall_forall in B. now apply B.
Qed.

(** Destruction frees every node of the stack and nothing else. *)
Lemma s_destroy_spec fuel : forall h tmp al l, lseg h tmp al l None -> NoDup al -> length l < fuel ->
  exists h', s_destroy fuel h tmp = Done h' /\ (forall x, In x al -> cell h' x = None) /\
    (forall x, ~ In x al -> cell h' x = cell h x) /\ nxt h' = nxt h.
Proof.
  induction fuel as [|f IH]; intros h tmp al l L ND Hf; [lia|].
  destruct al as [|a al]; destruct l as [|d l]; cbn [lseg] in L; try easy.
  - subst. exists h. cbn. split; [reflexivity|]. split; [easy|auto].
  - destruct L as (-> & nx & C & L). cbn [s_destroy]. rewrite C.
    apply NoDup_cons_iff in ND. destruct ND as (NI & ND).
    destruct (IH (upd h a None) nx al l) as (h' & E & D & F & N); auto.
    + apply lseg_frame with (h := h); [|exact L]. intros x Hx. apply upd_other. intros ->. contradiction.
    + cbn in Hf. lia.
    + exists h'. split; [exact E|]. split; [|split; [|exact N]].
      * intros x [<-|Hx]; [rewrite F by exact NI; apply upd_same|auto].
      * intros x Hx. rewrite F by (intros I; apply Hx; now right). apply upd_other. intros ->. apply Hx; now left.
Qed.

Lemma s_update_spec f fuel : forall h tmp al l, lseg h tmp al l None -> NoDup al -> length l < fuel ->
  exists h', s_update f fuel h tmp = Done h' /\ lseg h' tmp al (map f l) None /\
    (forall x, ~ In x al -> cell h' x = cell h x) /\ nxt h' = nxt h.
Proof.
  induction fuel as [|n IH]; intros h tmp al l L ND Hf; [lia|].
  destruct al as [|a al]; destruct l as [|d l]; cbn [lseg] in L; try easy.
  - subst. exists h. cbn. split; [reflexivity|]. split; [reflexivity|auto].
  - destruct L as (-> & nx & C & L). cbn [s_update]. rewrite C.
    apply NoDup_cons_iff in ND. destruct ND as (NI & ND).
    destruct (IH (upd h a (Some (f d, nx))) nx al l) as (h' & E & D & F & N); auto.
    + apply lseg_frame with (h := h); [|exact L]. intros x Hx. apply upd_other. intros ->. contradiction.
    + cbn in Hf. lia.
    + exists h'. split; [exact E|]. split; [|split; [|exact N]].
      * cbn [map lseg]. split; [reflexivity|]. exists nx. split; [|exact D]. rewrite F by exact NI. apply upd_same.
      * intros x Hx. rewrite F by (intros I; apply Hx; now right). apply upd_other. intros ->. apply Hx; now left.
Qed.
End Seg.
