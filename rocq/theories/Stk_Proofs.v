(** Proofs about programs on stacks. *)
From Verif Require Import Base Table_Model Table_Proofs Stk_Model Stk_Spec.
From Coq Require Import Permutation.

Section P.
Variable T : Type.
Variable eqb : T -> T -> bool.
Notation heap := (heap T).

(** ** The loops find the first *)
Lemma sr_first p fuel : forall (h : heap) tp tmp s al1 l1 al2 l2,
  lseg h tp al1 l1 tmp -> lseg h tmp al2 l2 None -> NoDup (al1 ++ al2) -> slot_ok al1 l1 s -> length l2 < fuel ->
  match first_out p l2 with
  | None => sr_loop fuel h tp tmp s p = Done (h, tp, false)
  | Some (_, r) => exists h' tp' a al', sr_loop fuel h tp tmp s p = Done (h', tp', true) /\
      lseg h' tp' al' (l1 ++ r) None /\ Permutation (a :: al') (al1 ++ al2) /\
      (forall x, ~ In x (al1 ++ al2) -> cell h' x = cell h x) /\ nxt h' = nxt h /\ cell h' a = None
  end.
Proof.
  induction fuel as [|f IH]; intros h tp tmp s al1 l1 al2 l2 L1 L2 ND SO Hf; [lia|].
  destruct al2 as [|a al2]; destruct l2 as [|d l2]; cbn [lseg] in L2; try easy.
  - subst tmp. reflexivity.
  - destruct L2 as (-> & nx & C & L2). cbn [sr_loop first_out]. rewrite C. destruct (p d) eqn:Pd.
    + destruct (store_slot_spec nx L1 (NoDup_app_l ND) SO) as (h1 & tp1 & -> & L1' & F1 & N1). cbn [bnd].
      assert (ND2 : NoDup (al1 ++ al2) /\ ~ In a (al1 ++ al2)).
      { split; [exact (NoDup_remove_1 _ _ _ ND)|exact (NoDup_remove_2 _ _ _ ND)]. }
      eexists _, tp1, a, (al1 ++ al2). split; [reflexivity|]. split; [|split; [apply Permutation_middle|split; [|split; [exact N1|apply upd_same]]]].
      * apply lseg_frame with (h := h1).
        { intros x Hx. apply upd_other. intros ->. tauto. }
        apply lseg_app with (m := nx); [exact L1'|]. apply lseg_frame with (h := h); [|exact L2].
        intros x Hx. apply F1. intros I. apply (NoDup_app_disj ND I). now right.
      * intros x Hx. rewrite upd_other; [apply F1|].
        -- intros I. apply Hx, in_or_app. now left.
        -- intros ->. apply Hx, in_or_app. right; now left.
    + specialize (IH h tp nx (SNext a) (al1 ++ [a]) (l1 ++ [d]) al2 l2).
      assert (Q : match first_out p l2 with
        | Some (_, r) => exists h' tp' b al', sr_loop f h tp nx (SNext a) p = Done (h', tp', true) /\
           lseg h' tp' al' ((l1 ++ [d]) ++ r) None /\ Permutation (b :: al') ((al1 ++ [a]) ++ al2) /\
           (forall x, ~ In x ((al1 ++ [a]) ++ al2) -> cell h' x = cell h x) /\ nxt h' = nxt h /\ cell h' b = None
        | None => sr_loop f h tp nx (SNext a) p = Done (h, tp, false) end).
      { apply IH; auto.
        - apply lseg_app with (m := Some a); [exact L1|]. cbn. split; [reflexivity|]. exists nx; auto.
        - rewrite <- app_assoc. exact ND.
        - now apply slot_ok_next, lseg_length with (h := h) (p := tp) (q := Some a).
        - cbn in Hf. lia. }
      destruct (first_out p l2) as [[e q]|]; [|exact Q].
      destruct Q as (h' & tp' & b & al' & E & L & P1 & F & N). rewrite <- app_assoc in L, P1, F. exists h', tp', b, al'. auto.
Qed.

Lemma af_first p fuel : forall (h : heap) tp tmp s al1 l1 al2 l2,
  lseg h tp al1 l1 tmp -> lseg h tmp al2 l2 None -> NoDup (al1 ++ al2) -> slot_ok al1 l1 s -> length l2 < fuel ->
  match first_out p l2 with
  | None => af_loop fuel h tp tmp s p = Done (h, tp, None)
  | Some (d, r) => exists h' a al', af_loop fuel h tp tmp s p = Done (h', Some a, Some a) /\
      lseg h' (Some a) (a :: al') (d :: l1 ++ r) None /\ Permutation (a :: al') (al1 ++ al2) /\
      (forall x, ~ In x (al1 ++ al2) -> cell h' x = cell h x) /\ nxt h' = nxt h
  end.
Proof.
  induction fuel as [|f IH]; intros h tp tmp s al1 l1 al2 l2 L1 L2 ND SO Hf; [lia|].
  destruct al2 as [|a al2]; destruct l2 as [|d l2]; cbn [lseg] in L2; try easy.
  - subst tmp. reflexivity.
  - destruct L2 as (-> & nx & C & L2). cbn [af_loop first_out]. rewrite C. destruct (p d) eqn:Pd.
    + destruct (store_slot_spec nx L1 (NoDup_app_l ND) SO) as (h1 & tp1 & -> & L1' & F1 & N1). cbn [bnd].
      assert (Ca : cell h1 a = Some (d, nx)).
      { rewrite F1; [exact C|]. intros I. apply (NoDup_app_disj ND I). now left. }
      unfold set_next. rewrite Ca. cbn [bnd].
      assert (ND2 : NoDup (al1 ++ al2) /\ ~ In a (al1 ++ al2)).
      { split; [exact (NoDup_remove_1 _ _ _ ND)|exact (NoDup_remove_2 _ _ _ ND)]. }
      eexists _, a, (al1 ++ al2). split; [reflexivity|]. split; [|split; [apply Permutation_middle|split; [|exact N1]]].
      * cbn [lseg]. split; [reflexivity|]. exists tp1. split; [apply upd_same|].
        apply lseg_frame with (h := h1).
        { intros x Hx. apply upd_other. intros ->. tauto. }
        apply lseg_app with (m := nx); [exact L1'|]. apply lseg_frame with (h := h); [|exact L2].
        intros x Hx. apply F1. intros I. apply (NoDup_app_disj ND I). now right.
      * intros x Hx. rewrite upd_other; [apply F1|].
        -- intros I. apply Hx, in_or_app. now left.
        -- intros ->. apply Hx, in_or_app. right; now left.
    + specialize (IH h tp nx (SNext a) (al1 ++ [a]) (l1 ++ [d]) al2 l2).
      assert (Q : match first_out p l2 with
        | Some (e, r) => exists h' b al', af_loop f h tp nx (SNext a) p = Done (h', Some b, Some b) /\
           lseg h' (Some b) (b :: al') (e :: (l1 ++ [d]) ++ r) None /\ Permutation (b :: al') ((al1 ++ [a]) ++ al2) /\
           (forall x, ~ In x ((al1 ++ [a]) ++ al2) -> cell h' x = cell h x) /\ nxt h' = nxt h
        | None => af_loop f h tp nx (SNext a) p = Done (h, tp, None) end).
      { apply IH; auto.
        - apply lseg_app with (m := Some a); [exact L1|]. cbn. split; [reflexivity|]. exists nx; auto.
        - rewrite <- app_assoc. exact ND.
        - now apply slot_ok_next, lseg_length with (h := h) (p := tp) (q := Some a).
        - cbn in Hf. lia. }
      destruct (first_out p l2) as [[e q]|]; [|exact Q].
      destruct Q as (h' & b & al' & E & L & P1 & F & N). rewrite <- app_assoc in L, P1, F. exists h', b, al'. auto.
Qed.

Lemma bf_first p fuel : forall (h : heap) tmp al l, lseg h tmp al l None -> length l < fuel ->
  match first_out p l with
  | None => bf_loop fuel h tmp p = Done None
  | Some (d, _) => exists a nx, bf_loop fuel h tmp p = Done (Some a) /\ cell h a = Some (d, nx)
  end.
Proof.
  induction fuel as [|f IH]; intros h tmp al l L Hf; [lia|].
  destruct al as [|a al]; destruct l as [|d l]; cbn [lseg] in L; try easy.
  - subst. reflexivity.
  - destruct L as (-> & nx & C & L). cbn [bf_loop first_out]. rewrite C. destruct (p d) eqn:Pd.
    + exists a, nx. auto.
    + specialize (IH h nx al l L ltac:(cbn in Hf; lia)). destruct (first_out p l) as [[e q]|]; exact IH.
Qed.
Lemma first_out_length p : forall l d (r : list T), first_out p l = Some (d, r) -> length l = S (length r).
Proof.
  induction l as [|x l IH]; intros d r E; cbn in E; [discriminate|]. destruct (p x); [now inversion E|].
  destruct (first_out p l) as [[e q]|] eqn:F; [|discriminate]. inversion E; subst. cbn. f_equal. now apply (IH d q).
Qed.

Lemma sc_owned fuel : forall (h : heap) tp p s al1 l1 al2 l2,
  lseg h tp al1 l1 None -> NoDup al1 -> Forall (fun a => a < nxt h) al1 -> slot_ok al1 l1 s ->
  lseg h p al2 l2 None -> Forall (fun a => a < nxt h) al2 -> (forall x, In x al1 -> ~ In x al2) ->
  length l2 < fuel ->
  exists h' tp' al', sc_loop fuel h tp p s = Done (h', tp') /\
    lseg h' tp' (al1 ++ al') (l1 ++ l2) None /\ NoDup (al1 ++ al') /\
    (forall x, In x al' -> nxt h <= x < nxt h') /\
    (forall x, ~ In x (al1 ++ al') -> cell h' x = cell h x) /\ nxt h <= nxt h'.
Proof.
  induction fuel as [|f IH]; intros h tp p s al1 l1 al2 l2 L1 N1 B1 SO L2 B2 DJ Hf; [lia|].
  destruct al2 as [|a al2]; destruct l2 as [|d l2]; cbn [lseg] in L2; try easy.
  - subst p. exists h, tp, []. cbn [sc_loop]. rewrite !app_nil_r.
    split; [reflexivity|]. split; [exact L1|]. split; [exact N1|]. split; [easy|]. split; auto.
  - destruct L2 as (-> & nx & C & L2). cbn [sc_loop]. rewrite C. unfold h_new.
    set (h1 := mkHeap _ _).
    assert (FR : forall x, x < nxt h -> cell h1 x = cell h x).
    { intros x Hx. cbn [h1 cell]. destruct (Nat.eqb_spec x (nxt h)); [lia|reflexivity]. }
    assert (L1h : lseg h1 tp al1 l1 None).
    { apply lseg_frame with (h := h); [|exact L1]. intros x Hx. apply FR. rewrite Forall_forall in B1. now apply B1. }
    assert (NI : ~ In (nxt h) al1) by (intros I; rewrite Forall_forall in B1; specialize (B1 _ I); lia).
    destruct (store_slot_spec (Some (nxt h)) L1h N1 SO) as (h2 & tp2 & E & L1' & F1 & NX).
    rewrite E. cbn [bnd].
    assert (CN : cell h2 (nxt h) = Some (d, None)).
    { rewrite F1 by exact NI. cbn [h1 cell]. now rewrite Nat.eqb_refl. }
    rewrite Forall_forall in B1, B2.
    destruct (IH h2 tp2 nx (SNext (nxt h)) (al1 ++ [nxt h]) (l1 ++ [d]) al2 l2)
      as (h' & tp' & al' & E' & L' & ND' & FRS & FRM & NB).
    + apply lseg_app with (m := Some (nxt h)); [exact L1'|]. cbn. split; [reflexivity|]. exists None; auto.
    + apply (Permutation_NoDup (Permutation_cons_append al1 (nxt h))). now constructor.
    + apply Forall_forall. intros x Hx. rewrite NX. cbn [h1 nxt]. apply in_app_or in Hx.
      destruct Hx as [Hx|[<-|[]]]; [specialize (B1 _ Hx); lia|lia].
    + apply slot_ok_next. now apply lseg_length in L1.
    + apply lseg_frame with (h := h); [|exact L2]. intros x Hx.
      rewrite F1; [apply FR|].
      * apply B2. now right.
      * intros I. apply (DJ x I). now right.
    + apply Forall_forall. intros x Hx. rewrite NX. cbn [h1 nxt]. assert (In x (a :: al2)) as J by (now right). specialize (B2 x J). lia.
    + intros x Hx I. apply in_app_or in Hx. destruct Hx as [Hx|[<-|[]]].
      * apply (DJ x Hx). now right.
      * assert (In (nxt h) (a :: al2)) as J by (now right). specialize (B2 _ J). lia.
    + cbn in Hf. lia.
    + exists h', tp', (nxt h :: al'). rewrite <- app_assoc in ND'. rewrite <- (app_assoc al1), <- (app_assoc l1) in L'. cbn [app] in L', ND'.
      rewrite NX in FRS, NB. cbn [h1 nxt] in FRS, NB, FRM.
      split; [exact E'|]. split; [exact L'|]. split; [exact ND'|]. split; [|split; [|lia]].
      * intros x [<-|Hx]; [lia|]. specialize (FRS x Hx). lia.
      * intros x Hx. rewrite FRM; [|rewrite <- app_assoc; exact Hx]. rewrite F1.
        -- unfold h1. cbn [cell]. destruct (Nat.eqb_spec x (nxt h)) as [->|]; [|reflexivity]. exfalso. apply Hx, in_or_app. right; now left.
        -- intros I. apply Hx, in_or_app. now left.
Qed.

(** ** The stacks of a program stand for lists *)
Record inv (w : sworld T) (A : nat -> list nat) (L : nat -> list T) : Prop := mkInv {
  i_rep : forall i, brep (sh w) (ss w i) (A i, L i);
  i_nodup : forall i, NoDup (A i);
  i_apart : forall i j x, i <> j -> In x (A i) -> ~ In x (A j);
  i_old : forall i x, In x (A i) -> x < nxt (sh w);
  i_owned : forall x, cell (sh w) x <> None -> exists i, In x (A i) }.
Definition with_addr (A : nat -> list nat) (i : nat) (l : list nat) : nat -> list nat := fun j => if Nat.eqb j i then l else A j.

Lemma inv_start : inv (sworld0 T) (fun _ => []) (fun _ => []).
Proof. split; cbn; intros; try tauto; try constructor; reflexivity. Qed.

Lemma inv_step w A L i h' s' al' l' : inv w A L ->
  brep h' s' (al', l') -> NoDup al' -> fstep (sh w) h' (A i) al' ->
  inv (mkSW h' (with_stack (ss w) i s')) (with_addr A i al') (with_list L i l').
Proof.
  intros I B N (F1 & F2 & F3 & F4).
  assert (AP : forall j x, j <> i -> In x (A j) -> cell h' x = cell (sh w) x).
  { intros j x D H. apply F2; [|exact (i_old I H)]. now apply (@i_apart _ _ _ I j i). }
  split; cbn [sh ss]; unfold with_stack, with_addr, with_list.
  - intros j. destruct (Nat.eqb_spec j i); [exact B|]. apply brep_frame with (h := sh w); [|apply (i_rep I)]. cbn. intros a. now apply AP.
  - intros j. destruct (Nat.eqb_spec j i); [exact N|apply (i_nodup I)].
  - intros j k x D. destruct (Nat.eqb_spec j i) as [->|Dj], (Nat.eqb_spec k i) as [->|Dk]; try congruence.
    + intros H H2. destruct (F1 x H) as [X|X]; [now apply (@i_apart _ _ _ I i k x)|]. pose proof (i_old I H2). lia.
    + intros H H2. destruct (F1 x H2) as [X|X]; [now apply (@i_apart _ _ _ I j i x)|]. pose proof (i_old I H). lia.
    + now apply (i_apart I).
  - intros j x. destruct (Nat.eqb_spec j i) as [->|Dj]; intros H.
    + destruct (F1 x H) as [X|X]; [|lia]. pose proof (i_old I X). lia.
    + pose proof (i_old I H). lia.
  - intros x H. destruct (F4 x H) as [X|[X Y]].
    + exists i. now rewrite Nat.eqb_refl.
    + destruct (i_owned I Y) as (j & Hj). exists j. destruct (Nat.eqb_spec j i) as [->|]; [tauto|exact Hj].
Qed.
Lemma inv_ext w w' A A' L L' : inv w A L -> sh w' = sh w -> (forall i, ss w' i = ss w i) ->
  (forall i, A' i = A i) -> (forall i, L' i = L i) -> inv w' A' L'.
Proof.
  intros I E1 E2 E3 E4. split; intros *; rewrite ?E1, ?E2, ?E3, ?E4.
  - apply (i_rep I). - apply (i_nodup I). - apply (i_apart I). - apply (i_old I).
  - intros H. destruct (i_owned I H) as (j & Hj). exists j. now rewrite E3.
Qed.

Lemma perm_out (h h' : heap) a al' A : NoDup A -> Permutation (a :: al') A -> cell h' a = None ->
  (forall x, ~ In x A -> cell h' x = cell h x) -> nxt h' = nxt h -> fstep h h' A al' /\ NoDup al'.
Proof.
  intros N P C F X. pose proof (Permutation_NoDup (Permutation_sym P) N) as N'. inversion N'; subst.
  split; [|assumption]. apply fstep_within; auto.
  - intros x Hx. apply (Permutation_in x P). now right.
  - intros x Hx Nx. apply (Permutation_in x (Permutation_sym P)) in Hx. destruct Hx as [<-|Hx]; [exact C|tauto].
Qed.

Lemma inv_same w A L i : inv w A L -> inv (mkSW (sh w) (with_stack (ss w) i (mkStack (top (ss w i)) (ssize (ss w i))))) A L.
Proof.
  intros I. apply (inv_ext I); auto. cbn [ss]. unfold with_stack. intros j. destruct (Nat.eqb_spec j i) as [->|]; [|reflexivity].
  now destruct (ss w i).
Qed.

Lemma step_ok fuel w A L o : inv w A L -> (forall i, length (L i) < fuel) ->
  match on_lists eqb L o with
  | Some (L', a) => exists w' A', k_op eqb fuel w o = Done (w', a) /\ inv w' A' L'
  | None => k_op eqb fuel w o = Bad
  end.
Proof.
  intros I Hf. destruct o as [i x|i x|i x|i x|i|i|i|i|i j|i j|i j]; cbn [on_lists k_op].
  - (* add *)
    destruct (@s_add_spec T (sh w) (ss w i) (A i) (L i) x) as (h' & s' & E & B & F & N & X).
    { apply (i_rep I). } { apply (i_nodup I). } { apply Forall_forall. intros a Ha. exact (i_old I Ha). }
    rewrite E. eexists _, _. split; [reflexivity|]. exact (inv_step I B N F).
  - (* remove *)
    destruct (i_rep I i) as [Lg Sz]. cbn [fst snd] in *.
    pose proof (@sr_first (eqb x) fuel (sh w) (top (ss w i)) (top (ss w i)) SHead [] [] (A i) (L i) eq_refl Lg (i_nodup I i)
      (or_introl (conj eq_refl (conj eq_refl eq_refl))) (Hf i)) as R. unfold s_remove.
    destruct (first_out (eqb x) (L i)) as [[d r]|] eqn:Fo.
    + destruct R as (h' & tp' & a & al' & E & Lg' & P & Fr & Nx & C). rewrite E. cbn [bnd app] in *.
      destruct (perm_out (i_nodup I i) P C Fr Nx) as [Fs ND]. eexists _, _. split; [reflexivity|].
      apply (inv_step I (s' := mkStack tp' (ssize (ss w i) - 1)) (al' := al')); auto. split; [exact Lg'|].
      cbn [ssize snd]. rewrite Sz, (first_out_length Fo). lia.
    + rewrite R. cbn [bnd]. eexists _, _. split; [reflexivity|]. exact (inv_same i I).
  - (* find *)
    destruct (i_rep I i) as [Lg Sz]. cbn [fst snd] in *.
    pose proof (bf_first (fun d => eqb d x) Lg (Hf i)) as R. unfold b_find.
    destruct (first_out (fun d => eqb d x) (L i)) as [[d r]|]; cbn [option_map fst].
    + destruct R as (a & nx & E & C). rewrite E. cbn [bnd k_read]. rewrite C. cbn [bnd].
      eexists _, _. split; [reflexivity|]. apply (inv_ext I); auto. cbn [ss]. unfold with_stack. intros j. now destruct (Nat.eqb_spec j i) as [->|].
    + rewrite R. cbn [bnd k_read]. eexists _, _. split; [reflexivity|]. apply (inv_ext I); auto. cbn [ss]. unfold with_stack.
      intros j. now destruct (Nat.eqb_spec j i) as [->|].
  - (* find that orders *)
    destruct (i_rep I i) as [Lg Sz]. cbn [fst snd] in *.
    pose proof (@af_first (fun d => eqb d x) fuel (sh w) (top (ss w i)) (top (ss w i)) SHead [] [] (A i) (L i) eq_refl Lg (i_nodup I i)
      (or_introl (conj eq_refl (conj eq_refl eq_refl))) (Hf i)) as R. unfold a_find.
    destruct (first_out (fun d => eqb d x) (L i)) as [[d r]|] eqn:Fo.
    + destruct R as (h' & a & al' & E & Lg' & P & Fr & Nx). rewrite E. cbn [bnd app k_read] in *.
      assert (C : exists q, cell h' a = Some (d, q)) by (cbn [lseg] in Lg'; destruct Lg' as (_ & q & C & _); eauto).
      destruct C as (q & C). rewrite C. cbn [bnd]. eexists _, _. split; [reflexivity|].
      apply (inv_step I (s' := mkStack (Some a) (ssize (ss w i))) (al' := a :: al')).
      * split; [exact Lg'|]. cbn [ssize snd length]. rewrite Sz, (first_out_length Fo). reflexivity.
      * exact (Permutation_NoDup (Permutation_sym P) (i_nodup I i)).
      * apply fstep_within; auto.
        -- intros y Hy. exact (Permutation_in y P Hy).
        -- intros y Hy Ny. exfalso. apply Ny. exact (Permutation_in y (Permutation_sym P) Hy).
    + rewrite R. cbn [bnd k_read]. eexists _, _. split; [reflexivity|]. exact (inv_same i I).
  - (* for_each *)
    destruct (i_rep I i) as [Lg Sz]. cbn [fst snd] in *. rewrite (s_visit_spec Lg (Hf i)). cbn [bnd]. eauto.
  - (* size *)
    destruct (i_rep I i) as [Lg Sz]. cbn [fst snd] in *. rewrite Sz. eauto.
  - (* empty *)
    destruct (i_rep I i) as [Lg Sz]. cbn [fst snd] in *. exists w, A. split; [|exact I]. do 3 f_equal.
    destruct (A i), (L i); cbn [lseg] in Lg; try easy; [now rewrite Lg|destruct Lg as (-> & _); reflexivity].
  - (* clear *)
    destruct (i_rep I i) as [Lg Sz]. cbn [fst snd] in *.
    destruct (s_destroy_spec Lg (i_nodup I i) (Hf i)) as (h' & E & C & Fr & Nx). rewrite E. cbn [bnd].
    eexists _, _. split; [reflexivity|]. apply (inv_step I (al' := [])); [now split|constructor|].
    apply fstep_within; auto. intros y [].
  - (* copy *)
    destruct (i_rep I i) as [Lg Sz]. destruct (i_rep I j) as [Lj Sj]. cbn [fst snd] in *. unfold s_copy.
    destruct (@sc_owned fuel (sh w) None (top (ss w i)) SHead [] [] (A i) (L i)) as (h1 & tp & al' & E & Lc & Nc & Fc & Fr & Nx); auto.
    { reflexivity. } { constructor. } { left; auto. } { apply Forall_forall. intros a Ha. exact (i_old I Ha). }
    rewrite E. cbn [bnd app top] in *.
    assert (Lj1 : lseg h1 (top (ss w j)) (A j) (L j) None).
    { apply lseg_frame with (h := sh w); [|exact Lj]. intros a Ha. apply Fr. intros X. pose proof (i_old I Ha). specialize (Fc _ X). lia. }
    destruct (s_destroy_spec Lj1 (i_nodup I j) (Hf j)) as (h2 & E2 & C2 & Fr2 & Nx2). rewrite E2. cbn [bnd].
    assert (D : forall y, In y al' -> ~ In y (A j)) by (intros y Y Z; pose proof (i_old I Z); specialize (Fc _ Y); lia).
    eexists _, _. split; [reflexivity|]. apply (inv_step I (s' := mkStack tp (ssize (ss w i))) (al' := al')).
    + split; [|exact Sz]. apply lseg_frame with (h := h1); [|exact Lc]. intros a Ha. apply Fr2. now apply D.
    + exact Nc.
    + split; [|split; [|split]].
      * intros y Y. right. rewrite Nx2. now apply Fc.
      * intros y Y1 Y2. rewrite Fr2 by exact Y1. apply Fr. intros Z. specialize (Fc _ Z). lia.
      * lia.
      * intros y Y. destruct (in_dec Nat.eq_dec y al') as [Z|Z]; [now left|right].
        destruct (in_dec Nat.eq_dec y (A j)) as [Z2|Z2]; [now rewrite (C2 _ Z2) in Y|]. split; [exact Z2|].
        rewrite Fr2, Fr in Y by auto. exact Y.
  - (* swap *)
    eexists _, (with_addr (with_addr A i (A j)) j (A i)). split; [reflexivity|].
    set (f := fun k => if Nat.eqb k j then i else if Nat.eqb k i then j else k).
    assert (Inj : forall a b, f a = f b -> a = b).
    { intros a b. unfold f. destruct (Nat.eqb_spec a j), (Nat.eqb_spec b j), (Nat.eqb_spec a i), (Nat.eqb_spec b i); congruence. }
    assert (E1 : forall k, with_addr (with_addr A i (A j)) j (A i) k = A (f k)).
    { intros k. unfold with_addr, f. destruct (Nat.eqb_spec k j); [reflexivity|]. now destruct (Nat.eqb_spec k i). }
    assert (E2 : forall k, with_list (with_list L i (L j)) j (L i) k = L (f k)).
    { intros k. unfold with_list, f. destruct (Nat.eqb_spec k j); [reflexivity|]. now destruct (Nat.eqb_spec k i). }
    assert (E3 : forall k, with_stack (with_stack (ss w) i (ss w j)) j (ss w i) k = ss w (f k)).
    { intros k. unfold with_stack, f. destruct (Nat.eqb_spec k j); [reflexivity|]. now destruct (Nat.eqb_spec k i). }
    split; cbn [sh ss]; intros *; rewrite ?E1, ?E2, ?E3.
    + apply (i_rep I). + apply (i_nodup I). + intros D. apply (i_apart I). intros X. now apply Inj in X. + apply (i_old I).
    + intros H. destruct (i_owned I H) as (k & Hk). exists (f k). rewrite E1.
      replace (f (f k)) with k; [exact Hk|]. unfold f.
      destruct (Nat.eqb_spec k j); [subst; destruct (Nat.eqb_spec i j); [congruence|now rewrite Nat.eqb_refl]|].
      destruct (Nat.eqb_spec k i); [now subst; rewrite Nat.eqb_refl|].
      destruct (Nat.eqb_spec k j); [congruence|]. now destruct (Nat.eqb_spec k i).
  - (* top *)
    destruct (i_rep I i) as [Lg Sz]. cbn [fst snd] in *. pose proof (i_nodup I i) as Ni. pose proof (i_old I (i := i)) as Oi.
    pose proof (fun k x => @i_apart _ _ _ I i k x) as Ap.
    destruct (A i) as [|a al] eqn:EA, (L i) as [|d l] eqn:EL; cbn [lseg] in Lg; try easy.
    + now rewrite Lg.
    + destruct Lg as (-> & nx & C & Lg). rewrite C. cbn zeta.
      assert (Na : ~ In a al) by (inversion Ni; assumption). assert (Nal : NoDup al) by (inversion Ni; assumption).
      set (w1 := mkSW (upd (sh w) a None) (with_stack (ss w) i (mkStack nx (ssize (ss w i) - 1)))).
      assert (I1 : inv w1 (with_addr A i al) (with_list L i l)).
      { apply (inv_step I (al' := al)).
        - split; [|cbn [ssize snd]; rewrite Sz; cbn [length]; lia]. cbn [top fst snd]. apply lseg_frame with (h := sh w); [|exact Lg].
          intros y Hy. apply upd_other. intros ->. tauto.
        - exact Nal.
        - rewrite EA. apply fstep_within.
          + intros y Hy. now right.
          + intros y Hy. apply upd_other. intros ->. apply Hy. now left.
          + reflexivity.
          + intros y [<-|Hy] Ny; [apply upd_same|tauto]. }
      set (f := with_stack (ss w) i (mkStack nx (ssize (ss w i) - 1))) in *.
      set (A1 := with_addr A i al) in *.
      eexists _, (with_addr A1 j (a :: A1 j)). split; [reflexivity|].
      destruct (i_rep I1 j) as [Lj Sj]. cbn [fst snd] in *.
      assert (NaA : forall k, ~ In a (A1 k)).
      { intros k. unfold A1, with_addr. destruct (Nat.eqb_spec k i); [exact Na|]. apply (Ap k a); [congruence|now left]. }
      assert (O : a < nxt (sh w)) by (apply Oi; now left).
      assert (K : forall y, y <> a -> cell (upd (sh w) a (Some (d, top (f j)))) y = cell (sh w1) y).
      { intros y Y. unfold w1. cbn [sh]. now rewrite !upd_other. }
      split; cbn [sh ss].
      * intros k. unfold with_stack at 1, with_addr, with_list at 1. destruct (Nat.eqb_spec k j) as [->|D].
        -- split; cbn [fst snd top ssize].
           ++ cbn [lseg]. split; [reflexivity|]. exists (top (f j)). split; [apply upd_same|].
              apply lseg_frame with (h := sh w1); [|exact Lj]. intros y Y. apply K. intros ->. now apply (NaA j).
           ++ cbn [length]. change (ss w1 j) with (f j) in Sj. rewrite Sj. lia.
        -- apply brep_frame with (h := sh w1); [|apply (i_rep I1 k)]. cbn [fst]. intros y Y. apply K. intros ->. now apply (NaA k).
      * intros k. unfold with_addr. destruct (Nat.eqb_spec k j) as [->|D]; [constructor; [apply NaA|]|]; apply (i_nodup I1).
      * intros k m y D. unfold with_addr. destruct (Nat.eqb_spec k j) as [->|Dk], (Nat.eqb_spec m j) as [->|Dm]; try congruence.
        -- intros [<-|Y]; [apply NaA|]. now apply (@i_apart _ _ _ I1 j m).
        -- intros Y [<-|Z]; [now apply (NaA k)|]. now apply (@i_apart _ _ _ I1 k j y).
        -- now apply (@i_apart _ _ _ I1 k m).
      * intros k y. unfold with_addr. destruct (Nat.eqb_spec k j) as [->|D]; [intros [<-|Y]; [exact O|]|intros Y]; exact (i_old I1 Y).
      * intros y Y. destruct (Nat.eq_dec y a) as [->|Dy].
        -- exists j. unfold with_addr. rewrite Nat.eqb_refl. now left.
        -- rewrite K in Y by exact Dy. destruct (i_owned I1 Y) as (k & Hk). exists k. unfold with_addr.
           destruct (Nat.eqb_spec k j) as [->|]; [now right|exact Hk].
Qed.

(** ** Programs *)
Lemma lists_grow L o L' a n : on_lists eqb L o = Some (L', a) -> (forall i, length (L i) <= n) -> forall i, length (L' i) <= S n.
Proof.
  intros E B k. pose proof (B k) as Bk.
  destruct o as [i x|i x|i x|i x|i|i|i|i|i j|i j|i j]; cbn [on_lists] in E.
  - inversion E; subst. unfold with_list. destruct (Nat.eqb_spec k i); [cbn; specialize (B i); lia|lia].
  - destruct (first_out (eqb x) (L i)) as [[d r]|] eqn:F; inversion E; subst; [|lia]. unfold with_list.
    destruct (Nat.eqb_spec k i); [|lia]. apply first_out_length in F. specialize (B i). lia.
  - inversion E; subst. lia.
  - destruct (first_out (fun d => eqb d x) (L i)) as [[d r]|] eqn:F; inversion E; subst; [|lia]. unfold with_list.
    destruct (Nat.eqb_spec k i); [|lia]. apply first_out_length in F. specialize (B i). cbn. lia.
  - inversion E; subst. lia.
  - inversion E; subst. lia.
  - inversion E; subst. lia.
  - inversion E; subst. unfold with_list. destruct (Nat.eqb_spec k i); [cbn|]; lia.
  - inversion E; subst. unfold with_list. destruct (Nat.eqb_spec k j); [specialize (B i)|]; lia.
  - inversion E; subst. unfold with_list. destruct (Nat.eqb_spec k j); [specialize (B i); lia|].
    destruct (Nat.eqb_spec k i); [specialize (B j)|]; lia.
  - destruct (L i) as [|x r] eqn:F; inversion E; subst. unfold with_list. pose proof (B i) as Bi. rewrite F in Bi. cbn [length] in Bi.
    pose proof (B j). destruct (Nat.eqb_spec k j); cbn [length].
    + destruct (Nat.eqb_spec j i); lia.
    + destruct (Nat.eqb_spec k i); lia.
Qed.

Lemma run_ok fuel : forall os w A L n, inv w A L -> (forall i, length (L i) <= n) -> n + length os < fuel ->
  match on_lists_all eqb L os with
  | Some (L', l) => exists w' A', k_run eqb fuel w os = Done (w', l) /\ inv w' A' L'
  | None => k_run eqb fuel w os = Bad
  end.
Proof.
  induction os as [|o os IH]; intros w A L n I B Hf; cbn [on_lists_all k_run].
  - eauto.
  - cbn [length] in Hf. assert (B' : forall i, length (L i) < fuel) by (intros i; specialize (B i); lia).
    pose proof (step_ok o I B') as Q. destruct (on_lists eqb L o) as [[L1 a]|] eqn:E; [|now rewrite Q].
    destruct Q as (w1 & A1 & Q & I1). rewrite Q. cbn [bnd].
    specialize (IH w1 A1 L1 (S n) I1 (lists_grow E B) ltac:(lia)).
    destruct (on_lists_all eqb L1 os) as [[L2 l]|]; [|now rewrite IH].
    destruct IH as (w2 & A2 & -> & I2). cbn [bnd]. eauto.
Qed.

Lemma filled L o L' a k : on_lists eqb L o = Some (L', a) -> L' k <> [] -> L k <> [] \/ In k (fills o).
Proof.
  intros E N. destruct o as [i x|i x|i x|i x|i|i|i|i|i j|i j|i j]; cbn [on_lists fills] in *.
  - inversion E; subst. unfold with_list in N. destruct (Nat.eqb_spec k i); [right; now left|now left].
  - destruct (first_out (eqb x) (L i)) as [[d r]|] eqn:F; inversion E; subst; [|now left]. unfold with_list in N.
    destruct (Nat.eqb_spec k i) as [->|]; [|now left]. left. intros X. now rewrite X in F.
  - inversion E; subst. now left.
  - destruct (first_out (fun d => eqb d x) (L i)) as [[d r]|] eqn:F; inversion E; subst; [|now left]. unfold with_list in N.
    destruct (Nat.eqb_spec k i) as [->|]; [|now left]. left. intros X. now rewrite X in F.
  - inversion E; subst. now left.
  - inversion E; subst. now left.
  - inversion E; subst. now left.
  - inversion E; subst. unfold with_list in N. destruct (Nat.eqb_spec k i); [easy|now left].
  - inversion E; subst. unfold with_list in N. destruct (Nat.eqb_spec k j); [right; now left|now left].
  - inversion E; subst. unfold with_list in N. destruct (Nat.eqb_spec k j); [right; right; now left|].
    destruct (Nat.eqb_spec k i); [right; now left|now left].
  - destruct (L i) as [|x r] eqn:F; inversion E; subst. unfold with_list in N. destruct (Nat.eqb_spec k j); [right; now left|].
    destruct (Nat.eqb_spec k i) as [->|]; left; [now rewrite F|exact N].
Qed.
Lemma filled_all : forall os L L' l k, on_lists_all eqb L os = Some (L', l) -> L' k <> [] ->
  L k <> [] \/ exists o, In o os /\ In k (fills o).
Proof.
  induction os as [|o os IH]; intros L L' l k E N; cbn [on_lists_all] in E.
  - inversion E; subst. now left.
  - destruct (on_lists eqb L o) as [[L1 a]|] eqn:E1; [|discriminate].
    destruct (on_lists_all eqb L1 os) as [[L2 l2]|] eqn:E2; [|discriminate]. inversion E; subst.
    destruct (IH _ _ _ k E2 N) as [X|(o' & H1 & H2)]; [|right; exists o'; split; [now right|exact H2]].
    destruct (filled E1 X) as [Y|Y]; [now left|]. right. exists o. split; [now left|exact Y].
Qed.
Lemma lists_app : forall os L qs, on_lists_all eqb L (os ++ qs) =
  match on_lists_all eqb L os with
  | None => None
  | Some (L1, l1) => match on_lists_all eqb L1 qs with None => None | Some (L2, l2) => Some (L2, l1 ++ l2) end
  end.
Proof.
  induction os as [|o os IH]; intros L qs; cbn [on_lists_all app].
  - now destruct (on_lists_all eqb L qs) as [[L2 l2]|].
  - destruct (on_lists eqb L o) as [[L1 a]|]; [|reflexivity]. rewrite IH. destruct (on_lists_all eqb L1 os) as [[L2 l2]|]; [|reflexivity].
    now destruct (on_lists_all eqb L2 qs) as [[L3 l3]|].
Qed.
Lemma clear_all : forall is L, exists L' l, on_lists_all eqb L (map KClear is) = Some (L', l) /\
  forall k, (In k is -> L' k = []) /\ (L k = [] -> L' k = []).
Proof.
  induction is as [|i is IH]; intros L; cbn [map on_lists_all on_lists].
  - exists L, []. split; [reflexivity|]. intros k. split; [intros []|auto].
  - destruct (IH (with_list L i [])) as (L' & l & E & H). rewrite E. eexists _, _. split; [reflexivity|].
    intros k. destruct (H k) as [H1 H2]. assert (W : L k = [] \/ k = i -> with_list L i [] k = []).
    { unfold with_list. destruct (Nat.eqb_spec k i); [reflexivity|]. intros [X|X]; [exact X|congruence]. }
    split; [intros [X|X]; [|now apply H1]|]; intros; apply H2, W; auto.
Qed.

Theorem no_leak fuel os is L l : on_lists_all eqb (fun _ => []) os = Some (L, l) ->
  (forall o k, In o os -> In k (fills o) -> In k is) -> length os + length is < fuel ->
  exists w a, k_run eqb fuel (sworld0 T) (os ++ map KClear is) = Done (w, a) /\ forall x, cell (sh w) x = None.
Proof.
  intros E F Hf. destruct (clear_all is L) as (L' & l' & E' & H).
  pose proof (@run_ok fuel (os ++ map KClear is) _ _ _ 0 inv_start (fun _ => le_n 0)) as R.
  rewrite lists_app, E, E' in R. rewrite app_length, map_length in R. destruct (R Hf) as (w & A & Q & I).
  exists w, (l ++ l'). split; [exact Q|]. intros x. destruct (cell (sh w) x) as [c|] eqn:C; [exfalso|reflexivity].
  destruct (i_owned I (x := x)) as (k & Hk); [now rewrite C|].
  destruct (i_rep I k) as [Lg _]. cbn [fst snd] in Lg. destruct (H k) as [H1 H2].
  assert (Z : L' k = []).
  { destruct (L k) as [|y r] eqn:EL; [now apply H2|]. apply H1. destruct (@filled_all os _ _ _ k E) as [X|(o & X & Y)]; [now rewrite EL| |].
    - now destruct X. - now apply (F o k). }
  rewrite Z in Lg. apply lseg_length in Lg. destruct (A k); [exact Hk|discriminate].
Qed.
End P.

Lemma as_lists : forall (T : Type) (eqb : T -> T -> bool) fuel os, length os < fuel ->
  match on_lists_all eqb (fun _ => []) os with
  | Some (_, l) => exists w, k_run eqb fuel (sworld0 T) os = Done (w, l)
  | None => k_run eqb fuel (sworld0 T) os = Bad
  end.
Proof.
  intros T eqb fuel os Hf. pose proof (@run_ok T eqb fuel os _ _ _ 0 (@inv_start T) (fun _ => le_n 0) Hf) as R.
  destruct (on_lists_all eqb (fun _ => []) os) as [[L l]|]; [|exact R]. destruct R as (w & A & E & _). now exists w.
Qed.
Lemma empty_top : forall (T : Type) (eqb : T -> T -> bool) fuel os L l i j,
  on_lists_all eqb (fun _ => []) os = Some (L, l) -> L i = [] -> S (length os) < fuel ->
  k_run eqb fuel (sworld0 T) (os ++ [KTop i j]) = Bad.
Proof.
  intros T eqb fuel os L l i j E N Hf. pose proof (@as_lists T eqb fuel (os ++ [KTop i j])) as R.
  rewrite lists_app, E in R. cbn [on_lists_all on_lists] in R. rewrite N in R. apply R. rewrite app_length. cbn. lia.
Qed.
