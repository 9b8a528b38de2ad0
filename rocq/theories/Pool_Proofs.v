(** Proofs about the pool (C39). *)
From Verif Require Import Base Ref_Model Pool_Model Pool_Spec Ref_Proofs.
From Coq Require Import Permutation.
Local Open Scope nat_scope.

Section Proofs.
Variables n z : nat.
Hypothesis Hn : n >= 2.
Notation pptr := (nat * nat)%type.
Notation step := (p_op n z).
Definition known (p : pptr) : Prop := snd p * z < n - 1.

(** Slots of unit [i] that are live. *)
Definition slots (l : list pptr) (i : nat) : list nat := map snd (filter (fun q => Nat.eqb (fst q) i) l).
Definition MI (l : list pptr) (m : ment) : Prop :=
  length (ui m) = n /\ uii m <= n /\ Permutation (firstn (uii m) (ui m) ++ slots l (mid m)) (seq 0 n).
Definition PI (s : pool) (l : list pptr) : Prop :=
  NoDup (map mid (ms s)) /\ (forall m, In m (ms s) -> mid m < nid s /\ MI l m) /\
  (forall p, In p l -> In (fst p) (map mid (ms s))) /\ NoDup l.

Lemma slots_in : forall l i k, In k (slots l i) <-> In (i, k) l.
Proof.
  intros. unfold slots. rewrite in_map_iff. split.
  - intros ([a b] & E & H). apply filter_In in H. destruct H as [H1 H2]. cbn in *. apply Nat.eqb_eq in H2. subst. auto.
  - intros H. exists (i, k). split; auto. apply filter_In. split; auto. cbn. apply Nat.eqb_refl.
Qed.
Lemma slots_cons : forall l p i, slots (p :: l) i = if Nat.eqb (fst p) i then snd p :: slots l i else slots l i.
Proof. intros. unfold slots. cbn [filter]. destruct (Nat.eqb (fst p) i); auto. Qed.
Lemma remove_cons : forall p q l, remove_ptr p (q :: l) =
  if negb (Nat.eqb (fst q) (fst p) && Nat.eqb (snd q) (snd p)) then q :: remove_ptr p l else remove_ptr p l.
Proof. reflexivity. Qed.
Lemma slots_remove_other : forall l p i, i <> fst p -> slots (remove_ptr p l) i = slots l i.
Proof.
  intros l p i N. induction l as [|q l IH]; auto. rewrite remove_cons.
  destruct (Nat.eqb_spec (fst q) (fst p)) as [E|E]; cbn [andb negb].
  - destruct (Nat.eqb (snd q) (snd p)); cbn [negb]; rewrite ?slots_cons, IH; destruct (Nat.eqb_spec (fst q) i); auto; congruence.
  - rewrite !slots_cons, IH. auto.
Qed.
Lemma slots_remove_same : forall l p, NoDup l -> In p l -> Permutation (slots l (fst p)) (snd p :: slots (remove_ptr p l) (fst p)).
Proof.
  intros l [i k]. cbn [fst snd]. induction l as [|[a b] l IH]; intros ND H; [destruct H|]. inversion ND as [|? ? N1 N2]; subst.
  rewrite remove_cons. cbn [fst snd]. destruct H as [E|H].
  - injection E as -> ->. rewrite !Nat.eqb_refl. cbn [andb negb]. rewrite slots_cons. cbn [fst snd]. rewrite Nat.eqb_refl.
    assert (R : remove_ptr (i, k) l = l); [|rewrite R; auto].
    clear -N1. induction l as [|[a b] l IH]; auto. rewrite remove_cons. cbn [fst snd].
    destruct (Nat.eqb_spec a i), (Nat.eqb_spec b k); cbn [andb negb]; try (rewrite IH; auto; intros Q; apply N1; right; auto).
    subst. exfalso. apply N1. left; auto.
  - specialize (IH N2 H). destruct (Nat.eqb_spec a i) as [->|Na].
    + destruct (Nat.eqb_spec b k) as [->|Nb]; [tauto|]. cbn [andb negb]. rewrite !slots_cons. cbn [fst snd]. rewrite !Nat.eqb_refl.
      rewrite IH. apply perm_swap.
    + cbn [andb negb]. rewrite !slots_cons. cbn [fst snd]. apply Nat.eqb_neq in Na. rewrite Na. auto.
Qed.
Lemma remove_in : forall l p q, In q (remove_ptr p l) <-> In q l /\ q <> p.
Proof.
  intros l [i k] [a b]. unfold remove_ptr. rewrite filter_In. cbn [fst snd].
  destruct (Nat.eqb_spec a i), (Nat.eqb_spec b k); cbn; intuition congruence.
Qed.

Lemma mi_bound : forall l m k, MI l m -> k < uii m -> exists s, nth_error (ui m) k = Some s /\ s < n /\ ~ In (mid m, s) l.
Proof.
  intros l m k (H1 & H2 & H3) Hk. destruct (nth_error (ui m) k) as [s|] eqn:E; [|apply nth_error_None in E; lia].
  exists s. split; auto.
  assert (I : In s (firstn (uii m) (ui m))).
  { apply nth_error_In with k. rewrite <- (firstn_skipn (uii m) (ui m)) in E. rewrite nth_error_app1 in E; auto.
    rewrite firstn_length. lia. }
  split.
  - assert (Q : In s (seq 0 n)) by (eapply Permutation_in; [exact H3|]; apply in_or_app; auto). apply in_seq in Q. lia.
  - intros Q. apply slots_in in Q.
    assert (ND : NoDup (firstn (uii m) (ui m) ++ slots l (mid m))) by (eapply Permutation_NoDup; [apply Permutation_sym; exact H3|apply seq_NoDup]).
    revert ND I Q. clear. generalize (slots l (mid m)). induction (firstn (uii m) (ui m)) as [|a r IH]; intros q ND I Q; [destruct I|].
    cbn in ND. inversion ND as [|? ? ND1 ND2]; subst. destruct I as [->|I]; [apply ND1; apply in_or_app; auto|exact (IH q ND2 I Q)].
Qed.

Lemma firstn_S_nth : forall (l : list nat) k s, nth_error l k = Some s -> firstn (S k) l = firstn k l ++ [s].
Proof.
  induction l as [|a l IH]; intros [|k] s H; try discriminate.
  - injection H as ->. reflexivity.
  - cbn [nth_error] in H. change (firstn (S (S k)) (a :: l)) with (a :: firstn (S k) l). rewrite (IH _ _ H). reflexivity.
Qed.

(** Taking a slot from a unit. *)
Lemma ment_get_ok : forall l m, MI l m ->
  (uii m = 0 /\ ment_get m = Some (m, None)) \/
  (exists m' s, ment_get m = Some (m', Some (mid m, s)) /\ mid m' = mid m /\ s < n /\ ~ In (mid m, s) l /\ MI ((mid m, s) :: l) m').
Proof.
  intros l m HM. unfold ment_get. destruct (uii m) as [|k] eqn:E; auto. right.
  destruct (@mi_bound l m k HM) as (s & A & B & C); [lia|]. rewrite A. cbn [obind].
  eexists _, s. split; [reflexivity|]. cbn [mid]. split; auto. split; auto. split; auto.
  destruct HM as (H1 & H2 & H3). split; [exact H1|]. split; [cbn; lia|]. cbn [uii ui mid]. rewrite slots_cons. cbn [fst snd]. rewrite Nat.eqb_refl.
  rewrite E, (firstn_S_nth A), <- app_assoc in H3. exact H3.
Qed.

Lemma MI_other : forall l m p, fst p <> mid m -> MI l m -> MI (p :: l) m.
Proof.
  intros l m p N (H1 & H2 & H3). split; auto. split; auto. rewrite slots_cons. apply Nat.eqb_neq in N. rewrite N. auto.
Qed.

Lemma get_back_ok : forall l r, NoDup (map mid r) -> (forall m, In m r -> MI l m) ->
  (get_back r = Some None /\ forall m, In m r -> uii m = 0) \/
  (exists r' p, get_back r = Some (Some (r', p)) /\ map mid r' = map mid r /\ In (fst p) (map mid r) /\ snd p < n /\ ~ In p l /\
     forall m, In m r' -> MI (p :: l) m).
Proof.
  intros l. induction r as [|m r IH]; intros ND HM; [left; split; auto; intros m []|].
  cbn [map] in ND. inversion ND as [|? ? N1 N2]; subst. cbn [get_back].
  destruct (@ment_get_ok l m) as [[E ->]|(m' & s & -> & E & B & C & D)]; [apply HM; left; auto| |].
  - cbn [obind]. destruct IH as [[-> HZ]|(r' & p & -> & A & B & C & D & F)]; auto; cbn [obind].
    + intros m' Q. apply HM. right; auto.
    + left. split; auto. intros m' [<-|Q]; auto.
    + right. exists (m :: r'), p. split; auto. split; [cbn; congruence|]. split; [right; auto|]. split; auto. split; auto.
      intros m' [<-|Q]; auto. apply MI_other; [|apply HM; left; auto]. intros Q. rewrite Q in B. auto.
  - cbn [obind]. right. exists (m' :: r), (mid m, s). split; auto. split; [cbn; congruence|]. split; [left; auto|].
    split; auto. split; auto. intros m2 [<-|Q]; auto. apply MI_other; [|apply HM; right; auto].
    cbn. intros E2. apply N1. rewrite E2. apply in_map. auto.
Qed.

Lemma total : forall (l : list pptr) (ms0 : list ment), NoDup l -> NoDup (map mid ms0) ->
  (forall p, In p l -> In (fst p) (map mid ms0)) -> (forall m, In m ms0 -> length (slots l (mid m)) = n) -> length l = n * length ms0.
Proof.
  intros l ms0. revert l. induction ms0 as [|m ms0 IH]; intros l NDl NDm Hl Hs.
  - destruct l as [|p l]; [cbn; lia|]. exfalso. apply (Hl p). left; auto.
  - cbn [map length] in *. inversion NDm as [|? ? N1 N2]; subst.
    set (l' := filter (fun q => negb (Nat.eqb (fst q) (mid m))) l).
    assert (E : length l = length (slots l (mid m)) + length l').
    { unfold slots, l'. rewrite map_length. clear. induction l as [|q l IH]; auto. cbn [filter length]. destruct (Nat.eqb (fst q) (mid m)); cbn [negb length]; lia. }
    rewrite (Hs m) in E by (left; auto).
    assert (S' : forall i, i <> mid m -> slots l' i = slots l i).
    { intros i Ni. unfold l'. clear -Ni. induction l as [|q l IH]; auto. cbn [filter]. destruct (Nat.eqb_spec (fst q) (mid m)) as [Q|Q]; cbn [negb].
      - rewrite IH, slots_cons. destruct (Nat.eqb_spec (fst q) i); auto. congruence.
      - rewrite !slots_cons, IH. auto. }
    rewrite (IH l') in E.
    + lia.
    + apply NoDup_filter; auto.
    + auto.
    + intros p Hp. unfold l' in Hp. apply filter_In in Hp. destruct Hp as [Hp Np]. specialize (Hl p Hp). destruct Hl as [Q|Q]; auto.
      rewrite <- Q, Nat.eqb_refl in Np. discriminate.
    + intros m' Hm'. rewrite S'; [apply Hs; right; auto|]. intros Q. apply N1. rewrite <- Q. apply in_map; auto.
Qed.

Lemma ment0_ok : forall l i, (forall p, In p l -> fst p <> i) -> MI l (ment0 n i).
Proof.
  intros l i H. split; [apply seq_length|]. split; [cbn; lia|]. cbn [ment0 ui uii mid].
  rewrite firstn_all2 by (rewrite seq_length; lia).
  assert (E : slots l i = []).
  { destruct (slots l i) as [|k q] eqn:E; auto. exfalso. assert (I : In k (slots l i)) by (rewrite E; left; auto). apply slots_in in I. apply (H _ I). auto. }
  rewrite E, app_nil_r. auto.
Qed.

Lemma in_ment_iff : forall m p, in_ment n z m p = true <-> fst p = mid m /\ known p.
Proof. intros. unfold in_ment, known. rewrite andb_true_iff, Nat.eqb_eq, Nat.ltb_lt. tauto. Qed.

Lemma end_in_ok : forall ml p, In (fst p) (map mid ml) -> known p -> NoDup (map mid ml) ->
  (forall m, In m ml -> fst p = mid m -> uii m < n) ->
  exists l1 m l2, ml = l1 ++ m :: l2 /\ mid m = fst p /\
    end_in n z ml p = Some (Some (l1 ++ mkMent (mid m) (upd (ui m) (uii m) (snd p)) (S (uii m)) :: l2)).
Proof.
  induction ml as [|m ml IH]; intros p Hi Hk ND Hu; [destruct Hi|]. cbn [end_in]. unfold ment_end.
  destruct (in_ment n z m p) eqn:E.
  - apply in_ment_iff in E. destruct E as [E _]. specialize (Hu m (or_introl eq_refl) E). apply Nat.ltb_lt in Hu. rewrite Hu. cbn [obind].
    exists [], m, ml. auto.
  - assert (N : fst p <> mid m) by (intros Q; assert (in_ment n z m p = true) by (apply in_ment_iff; auto); congruence).
    cbn [obind map] in *. inversion ND; subst. destruct Hi as [Hi|Hi]; [congruence|].
    destruct (IH p) as (l1 & m' & l2 & A & B & C); auto. { intros m' Hm'. apply Hu. right; auto. }
    rewrite C. cbn [obind]. exists (m :: l1), m', l2. subst ml. auto.
Qed.

Lemma end_in_unknown : forall ml p, ~ known p -> end_in n z ml p = Some None.
Proof.
  induction ml as [|m ml IH]; intros p H; auto. cbn [end_in]. unfold ment_end.
  destruct (in_ment n z m p) eqn:E; [apply in_ment_iff in E; tauto|]. cbn [obind]. rewrite IH; auto.
Qed.

Lemma firstn_upd : forall (l : list nat) k v, k < length l -> firstn (S k) (upd l k v) = firstn k l ++ [v].
Proof.
  induction l as [|a l IH]; intros [|k] v H; cbn in H; try lia; auto.
  change (firstn (S (S k)) (upd (a :: l) (S k) v)) with (a :: firstn (S k) (upd l k v)). rewrite IH by lia. reflexivity.
Qed.

Lemma slots_len : forall l m, MI l m -> uii m + length (slots l (mid m)) = n.
Proof.
  intros l m (H1 & H2 & H3). apply Permutation_length in H3. rewrite app_length, firstn_length, seq_length in H3. lia.
Qed.

Lemma pool_op : forall s l o, PI s l -> plegal known l o ->
  exists s' a, step s o = Some (s', a) /\ pgood n l s o s' a /\ PI s' (live_after l o a).
Proof.
  intros s l o (H1 & H2 & H3 & H4) HL. destruct o as [|p| |p]; cbn [p_op plegal pgood live_after] in *.
  - unfold pool_get.
    destruct (@get_back_ok l (rev (ms s))) as [[-> HZ]|(r & p & -> & A & B & C & D & F)].
    + rewrite map_rev. apply NoDup_rev; auto.
    + intros m Hm. apply H2. apply in_rev; auto.
    + cbn [obind]. 
      assert (Fr : forall q, In q l -> fst q <> nid s).
      { intros q Hq E. apply H3 in Hq. apply in_map_iff in Hq. destruct Hq as (m & Q1 & Q2). destruct (H2 _ Q2). lia. }
      destruct (ment_get_ok (ment0_ok Fr)) as [[E _]|(m' & k & -> & E & B & C & D)]; [cbn in E; lia|].
      cbn [obind ment0 mid] in *. eexists _, _. split; [reflexivity|]. split.
      * exists (nid s, k). split; auto. split; auto. split; auto. cbn [ms fst]. rewrite map_app, in_app_iff. cbn [map]. split; [right; left; auto|].
        right. split; [|split].
        -- apply total; auto. intros m Hm. pose proof (slots_len (proj2 (H2 _ Hm))) as Q. rewrite (HZ m) in Q; [lia|]. apply -> in_rev; auto.
        -- rewrite app_length. cbn. lia.
        -- intros Q. apply in_map_iff in Q. destruct Q as (m & Q1 & Q2). destruct (H2 _ Q2). lia.
      * split; [|split; [|split]]; cbn [ms nid].
        -- rewrite map_app. cbn [map]. rewrite E.
           rewrite <- (rev_involutive (map mid (ms s) ++ [nid s])). apply NoDup_rev. rewrite rev_app_distr. cbn. constructor.
           ++ intros Q. apply in_rev in Q. apply in_map_iff in Q. destruct Q as (m & Q1 & Q2). destruct (H2 _ Q2). lia.
           ++ apply NoDup_rev; auto.
        -- intros m Hm. apply in_app_or in Hm. destruct Hm as [Hm|[<-|[]]].
           ++ destruct (H2 _ Hm). split; [lia|]. apply MI_other; auto. cbn. lia.
           ++ split; [lia|auto].
        -- intros q [<-|Hq]; rewrite map_app, in_app_iff; cbn [map]; rewrite E; cbn [fst]; [right; left; auto|left; auto].
        -- constructor; auto.
    + cbn [obind]. eexists _, _. split; [reflexivity|]. 
      assert (M : map mid (rev r) = map mid (ms s)) by (rewrite map_rev, A, map_rev, rev_involutive; auto).
      assert (I : In (fst p) (map mid (ms s))) by (rewrite map_rev, <- in_rev in B; auto).
      split.
      * exists p. split; auto. split; auto. split; auto. cbn [ms]. rewrite M. split; auto.
      * split; [|split; [|split]]; cbn [ms nid].
        -- congruence.
        -- intros m Hm. apply in_rev in Hm. split; auto.
           assert (Q : In (mid m) (map mid (ms s))) by (rewrite <- M, map_rev, <- in_rev; apply in_map; auto).
           apply in_map_iff in Q. destruct Q as (m' & Q1 & Q2). destruct (H2 _ Q2). lia.
        -- intros q [<-|Hq]; rewrite M; auto.
        -- constructor; auto.
  - destruct HL as [Hp Hk]. unfold pool_free.
    assert (U : forall m, In m (ms s) -> fst p = mid m -> uii m < n).
    { intros m Hm E. pose proof (slots_len (proj2 (H2 _ Hm))) as Q.
      assert (I : In (snd p) (slots l (mid m))) by (apply slots_in; rewrite <- E; destruct p; auto).
      destruct (slots l (mid m)); [destruct I|]. cbn [length] in Q. lia. }
    destruct (@end_in_ok (ms s) p) as (l1 & m & l2 & A & B & C); auto. rewrite C. cbn [obind].
    eexists _, _. split; [reflexivity|]. 
    assert (M : map mid (l1 ++ mkMent (mid m) (upd (ui m) (uii m) (snd p)) (S (uii m)) :: l2) = map mid (ms s)) by (rewrite A, !map_app; auto).
    split; [split; auto|]. split; [|split; [|split]]; cbn [ms nid]; rewrite ?M; auto.
    + intros m' Hm'.
      assert (Hm : In m (ms s)) by (rewrite A; apply in_or_app; right; left; auto).
      assert (NDA := H1). rewrite A, map_app in NDA. cbn [map] in NDA. apply NoDup_remove_2 in NDA.
      apply in_app_or in Hm'. destruct Hm' as [Hm'|[<-|Hm']].
      * assert (Q : In m' (ms s)) by (rewrite A; apply in_or_app; auto). destruct (H2 _ Q) as [Q1 (M1 & M2 & M3)]. split; auto. split; auto. split; auto.
        rewrite slots_remove_other; auto. rewrite <- B. intros E. apply NDA. apply in_or_app. left. rewrite <- E. apply in_map; auto.
      * destruct (H2 _ Hm) as [Q1 (M1 & M2 & M3)]. cbn [mid]. split; auto. specialize (U m Hm (eq_sym B)).
        split; [cbn; rewrite upd_length; auto|]. split; [cbn; lia|]. cbn [ui uii mid].
        rewrite firstn_upd by lia. rewrite <- app_assoc. cbn [app]. rewrite B.
        eapply Permutation_trans; [|exact M3]. apply Permutation_app_head. rewrite B. apply Permutation_sym. apply slots_remove_same; auto.
      * assert (Q : In m' (ms s)) by (rewrite A; apply in_or_app; right; right; auto). destruct (H2 _ Q) as [Q1 (M1 & M2 & M3)]. split; auto. split; auto. split; auto.
        rewrite slots_remove_other; auto. rewrite <- B. intros E. apply NDA. apply in_or_app. right. rewrite <- E. apply in_map; auto.
    + intros q Hq. apply remove_in in Hq. apply H3. tauto.
    + apply NoDup_filter; auto.
  - eexists _, _. split; [reflexivity|]. 
    assert (K : forall m, In m (ms s) -> (ment_empty n m = false <-> exists k, In (mid m, k) l)).
    { intros m Hm. pose proof (slots_len (proj2 (H2 _ Hm))) as Q. unfold ment_empty. rewrite Nat.eqb_neq. split.
      - intros N. destruct (slots l (mid m)) as [|k r] eqn:E; [cbn in Q; lia|]. exists k. apply slots_in. rewrite E. left; auto.
      - intros [k Hk] E. apply slots_in in Hk. destruct (slots l (mid m)); [destruct Hk|]. cbn [length] in Q. lia. }
    assert (K2 : forall i, In i (map mid (ms (pool_shrink n s))) <-> exists k, In (i, k) l).
    { intros i. cbn [pool_shrink ms]. rewrite in_map_iff. split.
      - intros (m & E & Hm). apply filter_In in Hm. destruct Hm as [Hm He]. subst i. apply K; auto. destruct (ment_empty n m); auto; discriminate.
      - intros [k Hk]. assert (Q := Hk). apply H3 in Q. cbn in Q. apply in_map_iff in Q. destruct Q as (m & E & Hm). exists m. split; auto.
        apply filter_In. split; auto. assert (E2 : ment_empty n m = false) by (apply K; auto; exists k; congruence). rewrite E2. auto. }
    split; [split; auto|]. split; [|split; [|split]]; auto.
    + cbn [pool_shrink ms]. clear -H1. induction (ms s) as [|m r IH]; [constructor|]. cbn [map] in H1. inversion H1; subst. cbn [filter].
      destruct (negb (ment_empty n m)); auto. cbn [map]. constructor; auto. intros Q. apply H2. apply in_map_iff in Q.
      destruct Q as (m' & E & Q). apply filter_In in Q. rewrite <- E. apply in_map. tauto.
    + intros m Hm. cbn [pool_shrink ms nid] in *. apply filter_In in Hm. apply H2. tauto.
    + intros [i k] Hp. apply K2. exists k. auto.
  - destruct HL as [Hp Hk]. unfold pool_size.
    assert (E : existsb (fun m => in_ment n z m p) (ms s) = true).
    { apply existsb_exists. assert (Q := Hp). apply H3 in Q. apply in_map_iff in Q. destruct Q as (m & Q1 & Q2). exists m. split; auto.
      apply in_ment_iff. auto. }
    rewrite E. cbn [obind]. eexists _, _. split; [reflexivity|]. split; auto. split; auto.
Qed.

Lemma pi0 : PI pool0 [].
Proof. split; [constructor|]. split; [intros m []|]. split; [intros p []|constructor]. Qed.

Lemma behaves_from : forall os s l, PI s l -> behaves n known step l s os.
Proof.
  induction os as [|o os IH]; intros s l HP; [exact I|]. cbn [behaves]. intros HL.
  destruct (pool_op HP HL) as (s' & a & A & B & C). exists s', a. auto.
Qed.

Lemma pool_behaves : forall os, behaves n known step [] pool0 os.
Proof. intros os. apply behaves_from. apply pi0. Qed.

Lemma preach_pi : forall s l, preach known step s l -> PI s l.
Proof.
  induction 1 as [|s l o s' a _ IH HL E]; [apply pi0|]. destruct (pool_op IH HL) as (s1 & a1 & A & _ & B). congruence.
Qed.

Lemma live_disjoint : forall s l, preach known step s l ->
  NoDup l /\ forall p, In p l -> snd p < n /\ In (fst p) (map mid (ms s)).
Proof.
  intros s l HR. destruct (preach_pi HR) as (H1 & H2 & H3 & H4). split; auto. intros p Hp. split; auto.
  pose proof (H3 _ Hp) as Q. apply in_map_iff in Q. destruct Q as (m & E & Hm). destruct (H2 _ Hm) as (_ & _ & _ & M3).
  assert (I : In (snd p) (seq 0 n)).
  { eapply Permutation_in; [exact M3|]. apply in_or_app. right. apply slots_in. rewrite E. destruct p; auto. }
  apply in_seq in I. lia.
Qed.

(** Whatever the state: a pointer that is not recognised cannot be released. *)
Lemma release_unknown : forall s p, n - 1 <= snd p * z -> step s (PFree p) = None.
Proof.
  clear Hn. intros s p H. cbn [p_op]. unfold pool_free. rewrite end_in_unknown; auto. unfold known. lia.
Qed.
Lemma size_unknown : forall s p, n - 1 <= snd p * z -> step s (PSize p) = None.
Proof.
  clear Hn. intros s p H. cbn [p_op]. unfold pool_size.
  destruct (existsb (fun m => in_ment n z m p) (ms s)) eqn:E; auto. apply existsb_exists in E. destruct E as (m & _ & E).
  apply in_ment_iff in E. unfold known in E. lia.
Qed.

(** The first allocation of a pool is such a pointer. *)
Lemma first_is_last : exists s, step pool0 PGet = Some (s, PPtr (Some (0, n - 1))).
Proof.
  destruct n as [|k] eqn:E; [lia|]. cbn [p_op]. unfold pool_get. cbn [pool0 ms rev get_back obind].
  unfold ment_get. cbn [ment0 uii ui]. rewrite (nth_error_nth' _ 0) by (rewrite seq_length; lia). rewrite seq_nth by lia. cbn [obind mid nid Nat.add].
  eexists. replace (S k - 1) with k by lia. reflexivity.
Qed.
Lemma first_release : z >= 1 -> exists s p, step pool0 PGet = Some (s, PPtr (Some p)) /\ step s (PFree p) = None.
Proof.
  intros Hz. destruct first_is_last as [s E]. exists s, (0, n - 1). split; auto. apply release_unknown. cbn. nia.
Qed.
End Proofs.
