(** Proofs about the hash table. *)
From Coq Require Import Permutation.
From Verif Require Import Base Table_Model Table_Spec Table_Proofs.

Lemma Forall2_length A B (R : A -> B -> Prop) l m : Forall2 R l m -> length l = length m.
Proof. induction 1; cbn; auto. Qed.

Section Table.
Variable T : Type.
Notation heap := (heap T).
Notation bkt := (list nat * list T)%type.

(** All addresses, and all elements, of a row of buckets. *)
Definition foot (ps : list bkt) : list nat := concat (map fst ps).
Definition bag (ps : list bkt) : list T := concat (map snd ps).

Lemma foot_app a b : foot (a ++ b) = foot a ++ foot b.
Proof. unfold foot. now rewrite map_app, concat_app. Qed.
Lemma bag_app a b : bag (a ++ b) = bag a ++ bag b.
Proof. unfold bag. now rewrite map_app, concat_app. Qed.
Lemma foot_cons p b : foot (p :: b) = fst p ++ foot b.
Proof. reflexivity. Qed.
Lemma bag_cons p b : bag (p :: b) = snd p ++ bag b.
Proof. reflexivity. Qed.

(** A row of stacks with disjoint, allocated nodes. *)
Definition Trep (h : heap) (t : list stack) (ps : list bkt) : Prop :=
  Forall2 (brep h) t ps /\ NoDup (foot ps) /\ Forall (fun a => a < nxt h) (foot ps).

Lemma Trep_length h t ps : Trep h t ps -> length t = length ps.
Proof. intros (A & _). revert A. clear. induction 1; cbn; auto. Qed.

Lemma Forall2_split A B (R : A -> B -> Prop) l1 x l2 m :
  Forall2 R (l1 ++ x :: l2) m ->
  exists m1 y m2, m = m1 ++ y :: m2 /\ length m1 = length l1 /\ Forall2 R l1 m1 /\ R x y /\ Forall2 R l2 m2.
Proof.
  revert m; induction l1 as [|a l1 IH]; intros m H; cbn in H; inversion H; subst.
  - exists [], y, l'. auto.
  - destruct (IH _ H4) as (m1 & y' & m2 & -> & L & R1 & R2 & R3).
    exists (y :: m1), y', m2. cbn. repeat split; auto.
Qed.

Lemma Trep_frame h h' t ps :
  (forall a, In a (foot ps) -> cell h' a = cell h a) -> nxt h <= nxt h' -> Trep h t ps -> Trep h' t ps.
Proof.
  intros F N (A & B & C). split; [|split; [exact B|]].
  - clear B C. induction A as [|s p t ps Hs A IH]; constructor.
    + apply brep_frame with (h := h); [|exact Hs]. intros a Ha. apply F. rewrite foot_cons. apply in_or_app; now left.
    + apply IH. intros a Ha. apply F. rewrite foot_cons. apply in_or_app; now right.
  - revert C. apply Forall_impl. intros; lia.
Qed.

(** One bucket changes, the others do not notice. *)
Lemma Trep_step h h' t1 s t2 ps1 al l ps2 s' al' l' :
  Trep h (t1 ++ s :: t2) (ps1 ++ (al, l) :: ps2) -> length t1 = length ps1 ->
  brep h' s' (al', l') -> NoDup al' -> fstep h h' al al' -> Forall (fun a => a < nxt h') al' ->
  Trep h' (t1 ++ s' :: t2) (ps1 ++ (al', l') :: ps2) /\
  fstep h h' (foot (ps1 ++ (al, l) :: ps2)) (foot (ps1 ++ (al', l') :: ps2)).
Proof.
  intros (A & B & C) L R ND (F1 & F2 & F3 & F4) BD.
  rewrite foot_app, foot_cons in B, C. cbn [fst] in B, C.
  apply Forall2_app_inv_l in A. destruct A as (q1 & q2 & A1 & A2 & E).
  assert (L1 : length q1 = length t1) by (symmetry; apply (Forall2_length A1)).
  apply app_eq_app in E. destruct E as (z & E).
  assert (z = [] /\ q1 = ps1 /\ q2 = (al, l) :: ps2) as (-> & -> & ->).
  { destruct E as [(E1 & E2)|(E1 & E2)].
    - assert (z = []). { apply length_zero_iff_nil. subst. rewrite app_length in *. lia. }
      subst z. rewrite app_nil_r in E1. cbn in E2. subst. auto.
    - assert (z = []). { apply length_zero_iff_nil. subst. rewrite app_length in *. lia. }
      subst z. rewrite app_nil_r in E1. cbn in E2. subst. auto. }
  inversion A2 as [|s0 p0 t0 r0 R0 A3]; subst.
  assert (DJ : forall x, In x (foot ps1 ++ foot ps2) -> ~ In x al /\ x < nxt h).
  { intros x Hx. rewrite Forall_forall in C. split.
    - apply (Permutation_NoDup (Permutation_app_swap_app _ _ _)) in B.
      intros I. exact (NoDup_app_disj B I Hx).
    - apply C. apply in_app_or in Hx. destruct Hx; apply in_or_app; [now left|right; apply in_or_app; now right]. }
  assert (FR : forall x, In x (foot ps1 ++ foot ps2) -> cell h' x = cell h x).
  { intros x Hx. destruct (DJ x Hx). now apply F2. }
  assert (SUB : forall ts ps, Forall2 (brep h) ts ps -> incl (foot ps) (foot ps1 ++ foot ps2) -> Forall2 (brep h') ts ps).
  { clear -FR. intros ts ps H. induction H as [|s p t ps Hs A IH]; intros I; constructor.
    - apply brep_frame with (h := h); [|exact Hs]. intros a Ha. apply FR, I. rewrite foot_cons. apply in_or_app; now left.
    - apply IH. intros a Ha. apply I. rewrite foot_cons. apply in_or_app; now right. }
  split; [split; [|split]|].
  - apply Forall2_app.
    + apply SUB; [exact A1|]. intros a Ha; apply in_or_app; now left.
    + constructor; [exact R|]. apply SUB; [exact A3|]. intros a Ha; apply in_or_app; now right.
  - rewrite foot_app, foot_cons. cbn [fst].
    apply (Permutation_NoDup (Permutation_app_swap_app al' (foot ps1) (foot ps2))).
    assert (NDr : NoDup (foot ps1 ++ foot ps2)).
    { apply (Permutation_NoDup (Permutation_app_swap_app _ _ _)) in B. exact (NoDup_app_r B). }
    clear -ND NDr DJ F1. induction al' as [|a al' IH]; [exact NDr|]. cbn [app].
    apply NoDup_cons_iff in ND. destruct ND as (NI & ND). constructor.
    + intros I. apply in_app_or in I. destruct I as [I|I]; [contradiction|].
      destruct (DJ a I) as (D1 & D2). destruct (F1 a (or_introl eq_refl)); [contradiction|lia].
    + apply IH; [exact ND|]. intros x Hx. apply F1. now right.
  - rewrite foot_app, foot_cons. cbn [fst]. apply Forall_app. rewrite Forall_app.
    apply Forall_app in C. destruct C as (C1 & C2). apply Forall_app in C2. destruct C2 as (C2 & C3).
    split; [revert C1; apply Forall_impl; intros; lia|]. split; [exact BD|].
    revert C3; apply Forall_impl; intros; lia.
  - rewrite !foot_app, !foot_cons. cbn [fst]. split; [|split; [|split; [exact F3|]]].
    + intros x Hx. apply in_app_or in Hx. destruct Hx as [Hx|Hx]; [left; apply in_or_app; now left|].
      apply in_app_or in Hx. destruct Hx as [Hx|Hx].
      * destruct (F1 x Hx); [left; apply in_or_app; right; apply in_or_app; now left|now right].
      * left. apply in_or_app; right; apply in_or_app; now right.
    + intros x Hx Lx. apply F2; [|exact Lx]. intros I. apply Hx. apply in_or_app; right; apply in_or_app; now left.
    + intros x Hx. rewrite !in_app_iff. destruct (F4 x Hx) as [J|(J & K)]; [left; tauto|].
      destruct (in_dec Nat.eq_dec x (foot ps1)); [left; tauto|]. destruct (in_dec Nat.eq_dec x (foot ps2)); [left; tauto|].
      right. tauto.
Qed.

Lemma set_nth_split A (l1 : list A) x l2 v : set_nth (length l1) v (l1 ++ x :: l2) = Some (l1 ++ v :: l2).
Proof. induction l1 as [|a l1 IH]; cbn; [reflexivity|]. now rewrite IH. Qed.

(** Selecting bucket [i]. *)
Lemma bucket_split h t ps i : Trep h t ps -> i < length t ->
  exists t1 s t2 ps1 al l ps2, t = t1 ++ s :: t2 /\ ps = ps1 ++ (al, l) :: ps2 /\
    length t1 = i /\ length ps1 = i /\ bucket_at t i = Done s /\ brep h s (al, l) /\ NoDup al /\
    Forall (fun a => a < nxt h) al.
Proof.
  intros R Hi. destruct (nth_error t i) as [s|] eqn:E; [|apply nth_error_None in E; lia].
  destruct (nth_error_split t i E) as (t1 & t2 & -> & L).
  pose proof R as (A & B & C).
  destruct (Forall2_split A) as (m1 & (al, l) & m2 & -> & L' & _ & Rb & _).
  exists t1, s, t2, m1, al, l, m2. rewrite foot_app, foot_cons in B, C. cbn [fst] in B, C.
  split; [reflexivity|]. split; [reflexivity|]. split; [exact L|]. split; [lia|].
  split; [unfold bucket_at; now rewrite E|]. split; [exact Rb|]. split.
  - apply NoDup_app_r in B. now apply NoDup_app_l in B.
  - apply Forall_app in C. destruct C as (_ & C). apply Forall_app in C. apply C.
Qed.

Lemma bidx_lt hz n : 0 < n -> bidx hz n < n.
Proof. intros H. unfold bidx. pose proof (Z.mod_pos_bound hz (Z.of_nat n)). lia. Qed.

(** Every element is in the bucket its hash selects. *)
Definition placed (hf : T -> Z) (ps : list bkt) : Prop :=
  forall i al l x, nth_error ps i = Some (al, l) -> In x l -> bidx (hf x) (length ps) = i.

(** Row-wise: the same elements, or fewer. *)
Definition rows_perm (ps ps' : list bkt) : Prop :=
  Forall2 (fun a b : bkt => Permutation (snd a) (snd b) /\
    Permutation (combine (fst a) (snd a)) (combine (fst b) (snd b))) ps ps'.
Definition rows_incl (ps ps' : list bkt) : Prop := Forall2 (fun a b : bkt => incl (snd b) (snd a)) ps ps'.

Lemma rows_perm_incl ps ps' : rows_perm ps ps' -> rows_incl ps ps'.
Proof. induction 1; constructor; auto. intros z Hz. now apply (Permutation_in z (Permutation_sym (proj1 H))). Qed.

Lemma rows_perm_bag ps ps' : rows_perm ps ps' -> Permutation (bag ps) (bag ps').
Proof. induction 1; [constructor|]. rewrite !bag_cons. now apply Permutation_app. Qed.

Lemma rows_perm_refl ps : rows_perm ps ps.
Proof. induction ps; constructor; auto. Qed.

Lemma rows_incl_refl ps : rows_incl ps ps.
Proof. apply rows_perm_incl, rows_perm_refl. Qed.

Lemma rows_perm_trans a b c : rows_perm a b -> rows_perm b c -> rows_perm a c.
Proof.
  intros H. revert c. induction H; intros c H2; inversion H2; subst; constructor.
  - destruct H, H4. split; eapply perm_trans; eassumption.
  - now apply IHForall2.
Qed.

Lemma rows_incl_trans a b c : rows_incl a b -> rows_incl b c -> rows_incl a c.
Proof.
  intros H. revert c. induction H; intros c H2; inversion H2; subst; constructor.
  - eapply incl_tran; eassumption.
  - now apply IHForall2.
Qed.

Lemma rows_perm_mid ps1 p p' ps2 : Permutation (snd p) (snd p') ->
  Permutation (combine (fst p) (snd p)) (combine (fst p') (snd p')) -> rows_perm (ps1 ++ p :: ps2) (ps1 ++ p' :: ps2).
Proof. intros H H2. apply Forall2_app; [apply rows_perm_refl|]. constructor; [split; assumption|apply rows_perm_refl]. Qed.

Lemma rows_incl_mid ps1 p p' ps2 : incl (snd p') (snd p) -> rows_incl (ps1 ++ p :: ps2) (ps1 ++ p' :: ps2).
Proof. intros H. apply Forall2_app; [apply rows_incl_refl|]. constructor; [exact H|apply rows_incl_refl]. Qed.

Lemma placed_incl hf ps ps' : placed hf ps -> rows_incl ps ps' -> placed hf ps'.
Proof.
  intros P H i al l x E I. rewrite <- (Forall2_length H).
  assert (exists p, nth_error ps i = Some p /\ In x (snd p)) as ((al0 & l0) & E0 & I0).
  { clear P. revert i E. induction H as [|a b ps ps' Hab H IH]; intros [|i] E; cbn in *; try discriminate.
    - injection E as ->. exists a. split; [reflexivity|now apply Hab].
    - now apply IH. }
  exact (P _ _ _ _ E0 I0).
Qed.

Lemma placed_mid hf ps1 al l ps2 x :
  placed hf (ps1 ++ (al, l) :: ps2) -> In x (bag (ps1 ++ (al, l) :: ps2)) ->
  bidx (hf x) (length (ps1 ++ (al, l) :: ps2)) = length ps1 -> In x l.
Proof.
  intros P I E. unfold bag in I. apply in_concat in I. destruct I as (l0 & I0 & I).
  apply in_map_iff in I0. destruct I0 as ((al1 & l1) & <- & I1). cbn [snd] in I.
  apply In_nth_error in I1. destruct I1 as (i & E1).
  specialize (P _ _ _ _ E1 I). rewrite E in P. subst i.
  rewrite nth_error_app2, Nat.sub_diag in E1 by lia. cbn in E1. now injection E1 as _ ->.
Qed.

Lemma NoDup_app_intro A (a b : list A) : NoDup a -> NoDup b -> (forall x, In x a -> ~ In x b) -> NoDup (a ++ b).
Proof.
  induction a as [|x a IH]; cbn; intros Na Nb D; [exact Nb|].
  apply NoDup_cons_iff in Na. destruct Na as (NI & Na). constructor.
  - intros I. apply in_app_or in I. destruct I as [I|I]; [contradiction|]. exact (D x (or_introl eq_refl) I).
  - apply IH; auto.
Qed.

(** The tail of a row changes, its head does not notice. *)
Lemma Trep_tail h h' s t t' p ps ps' :
  Trep h (s :: t) (p :: ps) -> Trep h' t' ps' -> fstep h h' (foot ps) (foot ps') ->
  Trep h' (s :: t') (p :: ps') /\ fstep h h' (foot (p :: ps)) (foot (p :: ps')).
Proof.
  intros (A & B & C) (A' & B' & C') (F1 & F2 & F3 & F4). rewrite foot_cons in B, C.
  inversion A as [|? ? ? ? R A2]; subst. apply Forall_app in C. destruct C as (C1 & C2).
  rewrite Forall_forall in C1.
  assert (FR : forall x, In x (fst p) -> cell h' x = cell h x).
  { intros x Hx. apply F2; [exact (NoDup_app_disj B Hx)|auto]. }
  split; [split; [|split]|].
  - constructor; [now apply brep_frame with (h := h)|exact A'].
  - rewrite foot_cons. apply NoDup_app_intro; [exact (NoDup_app_l B)|exact B'|].
    intros x Hx I. destruct (F1 x I) as [J|J]; [exact (NoDup_app_disj B Hx J)|].
    specialize (C1 x Hx). lia.
  - rewrite foot_cons. apply Forall_app. split; [|exact C']. apply Forall_forall. intros x Hx. specialize (C1 x Hx). lia.
  - rewrite !foot_cons. split; [|split; [|split; [exact F3|]]].
    + intros x Hx. apply in_app_or in Hx. destruct Hx as [Hx|Hx]; [left; apply in_or_app; now left|].
      destruct (F1 x Hx); [left; apply in_or_app; now right|now right].
    + intros x Hx Lx. apply F2; [|exact Lx]. intros I. apply Hx, in_or_app. now right.
    + intros x Hx. rewrite !in_app_iff. destruct (F4 x Hx) as [J|(J & K)]; [left; tauto|].
      destruct (in_dec Nat.eq_dec x (fst p)); [left; tauto|right; tauto].
Qed.

Lemma Trep_tl h s t p ps : Trep h (s :: t) (p :: ps) -> Trep h t ps.
Proof.
  intros (A & B & C). inversion A; subst. rewrite foot_cons in B, C.
  split; [assumption|]. split; [exact (NoDup_app_r B)|]. apply Forall_app in C. apply C.
Qed.

Lemma Trep_hd h s t al l ps : Trep h (s :: t) ((al, l) :: ps) ->
  brep h s (al, l) /\ NoDup al /\ Forall (fun a => a < nxt h) al.
Proof.
  intros (A & B & C). inversion A; subst. rewrite foot_cons in B, C.
  split; [assumption|]. split; [exact (NoDup_app_l B)|]. apply Forall_app in C. apply C.
Qed.

Lemma Forall_perm_lt (n : nat) (a b : list nat) : Permutation a b -> Forall (fun x => x < n) a -> Forall (fun x => x < n) b.
Proof. intros P H. rewrite Forall_forall in *. intros x Hx. apply H. now apply (Permutation_in x (Permutation_sym P)). Qed.

Lemma Forall_lt_le (n m : nat) (a : list nat) : n <= m -> Forall (fun x => x < n) a -> Forall (fun x => x < m) a.
Proof. intros H. apply Forall_impl. intros; lia. Qed.

Lemma Forall_lt_incl (n : nat) (a b : list nat) : incl b a -> Forall (fun x => x < n) a -> Forall (fun x => x < n) b.
Proof. intros I H. rewrite Forall_forall in *. intros x Hx. apply H. now apply I. Qed.

(** The fallback loop of [find]. *)
Lemma find_others_spec p fuel i : forall t h j ps,
  Trep h t ps -> length (bag ps) < fuel ->
  exists h' t' r ps', find_others fuel h i j t p = Done (h', t', r) /\ Trep h' t' ps' /\
    rows_perm ps ps' /\ fstep h h' (foot ps) (foot ps') /\
    match r with
    | None => forall k q x, nth_error ps k = Some q -> i <> j + k -> In x (snd q) -> p x = false
    | Some a => exists ps1 al d l ps2, ps' = ps1 ++ (a :: al, d :: l) :: ps2 /\ p d = true
    end.
Proof.
  induction t as [|s t IH]; intros h j ps R Hf.
  - pose proof R as (A & B & C). inversion A; subst. exists h, [], None, []. cbn.
    split; [reflexivity|]. split; [exact R|]. split; [constructor|]. split; [apply fstep_refl|].
    intros [|k]; discriminate.
  - assert (exists al l ps2, ps = (al, l) :: ps2) as (al & l & ps2 & ->).
    { destruct R as (A & _). inversion A as [|? [al l] ? ps2]; subst. eauto. }
    rewrite bag_cons in Hf. cbn [snd] in Hf. rewrite app_length in Hf.
    cbn [find_others]. destruct (Nat.eqb_spec i j) as [Eij|Nij].
    + destruct (IH h (S j) ps2 (Trep_tl R)) as (h' & t' & r & ps' & E & R' & P & F & M); [lia|].
      rewrite E. cbn [bnd]. exists h', (s :: t'), r, ((al, l) :: ps').
      destruct (Trep_tail R R' F) as (R2 & F2).
      split; [reflexivity|]. split; [exact R2|]. split; [constructor; auto|]. split; [exact F2|].
      destruct r as [a|].
      * destruct M as (ps1 & al1 & d & l1 & ps3 & -> & Pd). exists ((al, l) :: ps1), al1, d, l1, ps3. auto.
      * intros [|k] q x Eq N I; cbn in Eq; [lia|]. apply (M k q x Eq); [lia|exact I].
    + destruct (Trep_hd R) as (Rb & ND & BD).
      destruct (a_find_spec p (fuel := fuel) Rb ND) as (h1 & s1 & r1 & al1 & l1 & E1 & Rb1 & P1 & P2 & PC & F1 & M1); [lia|].
      rewrite E1. cbn [bnd].
      destruct (@Trep_step h h1 [] s t [] al l ps2 s1 al1 l1) as (R1 & F1'); auto.
      { exact (Permutation_NoDup P1 ND). }
      { apply (Forall_perm_lt P1). destruct F1 as (_ & _ & N1 & _). exact (Forall_lt_le N1 BD). }
      cbn [app] in R1, F1'.
      destruct r1 as [a|].
      * exists h1, (s1 :: t), (Some a), ((al1, l1) :: ps2). split; [reflexivity|]. split; [exact R1|].
        split; [constructor; [split; assumption|apply rows_perm_refl]|]. split; [exact F1'|].
        destruct M1 as (al2 & d & l2 & -> & -> & Pd). exists [], al2, d, l2, ps2. auto.
      * destruct (IH h1 (S j) ps2 (Trep_tl R1)) as (h' & t' & r & ps' & E & R' & P & F & M); [lia|].
        rewrite E. cbn [bnd]. exists h', (s1 :: t'), r, ((al1, l1) :: ps').
        destruct (Trep_tail R1 R' F) as (R2 & F2).
        split; [reflexivity|]. split; [exact R2|]. split; [constructor; auto|].
        split; [exact (fstep_trans F1' F2)|].
        destruct r as [a|].
        -- destruct M as (ps1 & al3 & d & l3 & ps3 & -> & Pd). exists ((al1, l1) :: ps1), al3, d, l3, ps3. auto.
        -- intros [|k] q x Eq N I; cbn in Eq.
           ++ injection Eq as <-. now apply M1.
           ++ apply (M k q x Eq); [lia|exact I].
Qed.

Lemma in_bag_nth ps x : In x (bag ps) -> exists k q, nth_error ps k = Some q /\ In x (snd q).
Proof.
  unfold bag. intros I. apply in_concat in I. destruct I as (l0 & I0 & I).
  apply in_map_iff in I0. destruct I0 as (q & <- & I1).
  apply In_nth_error in I1. destruct I1 as (k & E). eauto.
Qed.

(** The condition under which looking into one bucket is enough. *)
Definition findable (unst : bool) (hz : Z) (p : T -> bool) (ps : list bkt) : Prop :=
  unst = true \/ exists hf, placed hf ps /\ forall x, p x = true -> hf x = hz.

Lemma t_find_spec unst fuel h t hz p ps :
  Trep h t ps -> 0 < length t -> length (bag ps) < fuel -> findable unst hz p ps ->
  exists h' t' r ps', t_find unst fuel h t hz p = Done (h', t', r) /\ Trep h' t' ps' /\
    rows_perm ps ps' /\ fstep h h' (foot ps) (foot ps') /\
    match r with
    | None => forall x, In x (bag ps) -> p x = false
    | Some a => exists ps1 al d l ps2, ps' = ps1 ++ (a :: al, d :: l) :: ps2 /\ p d = true
    end.
Proof.
  intros R Ht Hf FD. unfold t_find.
  destruct (bucket_split (i := bidx hz (length t)) R (bidx_lt hz Ht))
    as (t1 & s & t2 & ps1 & al & l & ps2 & Et & Ep & L1 & L2 & EB & Rb & ND & BD).
  rewrite EB. cbn [bnd].
  assert (Hl : length l < fuel).
  { subst ps. rewrite bag_app, bag_cons, !app_length in Hf. cbn [snd] in Hf. lia. }
  destruct (a_find_spec p Rb ND Hl) as (h1 & s1 & r1 & al1 & l1 & E1 & Rb1 & P1 & P2 & PC & F1 & M1).
  rewrite E1. cbn [bnd].
  destruct (@Trep_step h h1 t1 s t2 ps1 al l ps2 s1 al1 l1) as (R1 & F1'); auto.
  { now rewrite <- Et, <- Ep. } { lia. } { exact (Permutation_NoDup P1 ND). }
  { apply (Forall_perm_lt P1). destruct F1 as (_ & _ & N1 & _). exact (Forall_lt_le N1 BD). }
  assert (SB : set_bucket t (bidx hz (length t)) s1 = Done (t1 ++ s1 :: t2)).
  { unfold set_bucket. rewrite <- L1, Et. now rewrite set_nth_split. }
  rewrite SB. cbn [bnd].
  rewrite <- Ep in F1'.
  assert (RP : rows_perm ps (ps1 ++ (al1, l1) :: ps2)) by (subst ps; now apply rows_perm_mid).
  destruct r1 as [a|].
  - eexists _, _, (Some a), _. split; [reflexivity|]. split; [exact R1|]. split; [exact RP|]. split; [exact F1'|].
    destruct M1 as (al2 & d & l2 & -> & -> & Pd). exists ps1, al2, d, l2, ps2. auto.
  - destruct unst.
    + destruct (@find_others_spec p fuel (bidx hz (length t)) _ h1 0 _ R1) as (h' & t' & r & ps' & E & R' & P & F & M).
      { rewrite <- (Permutation_length (rows_perm_bag RP)). exact Hf. }
      exists h', t', r, ps'. split; [exact E|]. split; [exact R'|]. split; [exact (rows_perm_trans RP P)|].
      split; [exact (fstep_trans F1' F)|].
      destruct r as [a|]; [exact M|].
      intros x Hx. apply (Permutation_in x (rows_perm_bag RP)) in Hx.
      apply in_bag_nth in Hx. destruct Hx as (k & q & Eq & I).
      destruct (Nat.eq_dec (bidx hz (length t)) k) as [<-|Nk].
      * rewrite nth_error_app2 in Eq by lia. rewrite L2, Nat.sub_diag in Eq. cbn in Eq. injection Eq as <-.
        apply M1. now apply (Permutation_in x (Permutation_sym P2)).
      * exact (M k q x Eq Nk I).
    + eexists _, _, None, _. split; [reflexivity|]. split; [exact R1|]. split; [exact RP|]. split; [exact F1'|].
      destruct FD as [FD|(hf & PL & EQ)]; [discriminate|].
      intros x Hx. destruct (p x) eqn:Px; [|reflexivity]. rewrite <- Px. apply M1.
      rewrite Ep in PL, Hx. apply (placed_mid PL Hx). rewrite (EQ x Px), <- Ep, <- (Trep_length R). auto.
Qed.

(** The fallback loop of [remove]. *)
Lemma remove_others_spec p fuel i : forall t h j ps,
  Trep h t ps -> length (bag ps) < fuel ->
  exists h' t' (b : bool) ps', remove_others fuel h i j t p = Done (h', t', b) /\ Trep h' t' ps' /\
    rows_incl ps ps' /\ fstep h h' (foot ps) (foot ps') /\
    (if b then exists d, Permutation (bag ps) (d :: bag ps') /\ p d = true
     else bag ps' = bag ps /\ forall k q x, nth_error ps k = Some q -> i <> j + k -> In x (snd q) -> p x = false).
Proof.
  induction t as [|s t IH]; intros h j ps R Hf.
  - pose proof R as (A & B & C). inversion A; subst. exists h, [], false, []. cbn.
    split; [reflexivity|]. split; [exact R|]. split; [constructor|]. split; [apply fstep_refl|].
    split; [reflexivity|]. intros [|k]; discriminate.
  - assert (exists al l ps2, ps = (al, l) :: ps2) as (al & l & ps2 & ->).
    { destruct R as (A & _). inversion A as [|? [al l] ? ps2]; subst. eauto. }
    rewrite bag_cons in Hf. cbn [snd] in Hf. rewrite app_length in Hf.
    cbn [remove_others]. destruct (Nat.eqb_spec i j) as [Eij|Nij].
    + destruct (IH h (S j) ps2 (Trep_tl R)) as (h' & t' & b & ps' & E & R' & P & F & M); [lia|].
      rewrite E. cbn [bnd]. exists h', (s :: t'), b, ((al, l) :: ps').
      destruct (Trep_tail R R' F) as (R2 & F2).
      split; [reflexivity|]. split; [exact R2|]. split; [constructor; [apply incl_refl|exact P]|]. split; [exact F2|].
      rewrite !bag_cons. cbn [snd]. destruct b.
      * destruct M as (d & PM & Pd). exists d. split; [|exact Pd].
        apply perm_trans with (l ++ d :: bag ps'); [now apply Permutation_app_head|].
        symmetry. apply Permutation_middle.
      * destruct M as (-> & M). split; [reflexivity|].
        intros [|k] q x Eq N I; cbn in Eq; [lia|]. apply (M k q x Eq); [lia|exact I].
    + destruct (Trep_hd R) as (Rb & ND & BD).
      destruct (s_remove_spec p (fuel := fuel) Rb ND) as (h1 & s1 & b1 & al1 & l1 & E1 & Rb1 & ND1 & I1 & N1 & F1 & M1); [lia|].
      rewrite E1. cbn [bnd].
      destruct (@Trep_step h h1 [] s t [] al l ps2 s1 al1 l1) as (R1 & F1'); auto.
      { apply (Forall_lt_incl I1). rewrite N1. exact BD. }
      cbn [app] in R1, F1'.
      destruct b1.
      * exists h1, (s1 :: t), true, ((al1, l1) :: ps2). split; [reflexivity|]. split; [exact R1|].
        destruct M1 as (d & PM & Pd).
        split; [constructor; [intros x Hx; apply (Permutation_in x (Permutation_sym PM)); now right|apply rows_incl_refl]|].
        split; [exact F1'|]. exists d. split; [|exact Pd]. rewrite !bag_cons. cbn [snd].
        change (d :: l1 ++ bag ps2) with ((d :: l1) ++ bag ps2). now apply Permutation_app_tail.
      * destruct M1 as (-> & M1).
        destruct (IH h1 (S j) ps2 (Trep_tl R1)) as (h' & t' & b & ps' & E & R' & P & F & M); [lia|].
        rewrite E. cbn [bnd]. exists h', (s1 :: t'), b, ((al1, l) :: ps').
        destruct (Trep_tail R1 R' F) as (R2 & F2).
        split; [reflexivity|]. split; [exact R2|]. split; [constructor; [apply incl_refl|exact P]|].
        split; [exact (fstep_trans F1' F2)|].
        rewrite !bag_cons. cbn [snd]. destruct b.
        -- destruct M as (d & PM & Pd). exists d. split; [|exact Pd].
           apply perm_trans with (l ++ d :: bag ps'); [now apply Permutation_app_head|].
           symmetry. apply Permutation_middle.
        -- destruct M as (-> & M). split; [reflexivity|].
           intros [|k] q x Eq N I; cbn in Eq.
           ++ injection Eq as <-. now apply M1.
           ++ apply (M k q x Eq); [lia|exact I].
Qed.

Lemma perm_mid_bag ps1 al l al' l' ps2 d : Permutation l (d :: l') ->
  Permutation (bag (ps1 ++ (al, l) :: ps2)) (d :: bag (ps1 ++ (al', l') :: ps2)).
Proof.
  intros P. rewrite !bag_app, !bag_cons. cbn [snd].
  apply perm_trans with (bag ps1 ++ (d :: l') ++ bag ps2).
  - apply Permutation_app_head. now apply Permutation_app_tail.
  - cbn [app]. symmetry. apply Permutation_middle.
Qed.

Lemma t_remove_spec unst fuel h t hz p ps :
  Trep h t ps -> 0 < length t -> length (bag ps) < fuel -> findable unst hz p ps ->
  exists h' t' (b : bool) ps', t_remove unst fuel h t hz p = Done (h', t', b) /\ Trep h' t' ps' /\
    rows_incl ps ps' /\ fstep h h' (foot ps) (foot ps') /\
    (if b then exists d, Permutation (bag ps) (d :: bag ps') /\ p d = true
     else bag ps' = bag ps /\ forall x, In x (bag ps) -> p x = false).
Proof.
  intros R Ht Hf FD. unfold t_remove.
  destruct (bucket_split (i := bidx hz (length t)) R (bidx_lt hz Ht))
    as (t1 & s & t2 & ps1 & al & l & ps2 & Et & Ep & L1 & L2 & EB & Rb & ND & BD).
  rewrite EB. cbn [bnd].
  assert (Hl : length l < fuel).
  { subst ps. rewrite bag_app, bag_cons, !app_length in Hf. cbn [snd] in Hf. lia. }
  destruct (s_remove_spec p Rb ND Hl) as (h1 & s1 & b1 & al1 & l1 & E1 & Rb1 & ND1 & I1 & N1 & F1 & M1).
  rewrite E1. cbn [bnd].
  destruct (@Trep_step h h1 t1 s t2 ps1 al l ps2 s1 al1 l1) as (R1 & F1'); auto.
  { now rewrite <- Et, <- Ep. } { lia. } { apply (Forall_lt_incl I1). rewrite N1. exact BD. }
  assert (SB : set_bucket t (bidx hz (length t)) s1 = Done (t1 ++ s1 :: t2)).
  { unfold set_bucket. rewrite <- L1, Et. now rewrite set_nth_split. }
  rewrite SB. cbn [bnd].
  rewrite <- Ep in F1'.
  destruct b1; cbn [negb andb].
  - rewrite Bool.andb_false_r. eexists _, _, true, _. split; [reflexivity|]. split; [exact R1|].
    destruct M1 as (d & PM & Pd). split; [|split; [exact F1'|]].
    + subst ps. apply rows_incl_mid. cbn [snd]. intros x Hx. apply (Permutation_in x (Permutation_sym PM)). now right.
    + exists d. split; [|exact Pd]. subst ps. now apply perm_mid_bag.
  - rewrite Bool.andb_true_r. destruct M1 as (-> & M1).
    assert (EB2 : bag (ps1 ++ (al1, l) :: ps2) = bag ps) by (subst ps; now rewrite !bag_app, !bag_cons).
    assert (RI : rows_incl ps (ps1 ++ (al1, l) :: ps2)) by (subst ps; apply rows_incl_mid, incl_refl).
    destruct unst.
    + destruct (@remove_others_spec p fuel (bidx hz (length t)) _ h1 0 _ R1) as (h' & t' & b & ps' & E & R' & P & F & M).
      { rewrite EB2. exact Hf. }
      exists h', t', b, ps'. split; [exact E|]. split; [exact R'|]. split; [exact (rows_incl_trans RI P)|].
      split; [exact (fstep_trans F1' F)|]. rewrite EB2 in M.
      destruct b; [exact M|]. destruct M as (E2 & M). split; [exact E2|].
      intros x Hx. rewrite <- EB2 in Hx.
      apply in_bag_nth in Hx. destruct Hx as (k & q & Eq & I).
      destruct (Nat.eq_dec (bidx hz (length t)) k) as [<-|Nk].
      * rewrite nth_error_app2 in Eq by lia. rewrite L2, Nat.sub_diag in Eq. cbn in Eq. injection Eq as <-.
        now apply M1.
      * exact (M k q x Eq Nk I).
    + eexists _, _, false, _. split; [reflexivity|]. split; [exact R1|]. split; [exact RI|]. split; [exact F1'|].
      split; [exact EB2|].
      destruct FD as [FD|(hf & PL & EQ)]; [discriminate|].
      intros x Hx. destruct (p x) eqn:Px; [|reflexivity]. rewrite <- Px. apply M1.
      rewrite Ep in PL, Hx. apply (placed_mid PL Hx). rewrite (EQ x Px), <- Ep, <- (Trep_length R). auto.
Qed.

(** * Growing *)
Lemma placed_set hf ps1 al l ps2 a x :
  placed hf (ps1 ++ (al, l) :: ps2) ->
  bidx (hf x) (length (ps1 ++ (al, l) :: ps2)) = length ps1 ->
  placed hf (ps1 ++ (a, x :: l) :: ps2).
Proof.
  intros P E i al' l' y E1 I. rewrite app_length in *. cbn [length] in *.
  destruct (Nat.eq_dec i (length ps1)) as [->|N].
  - rewrite nth_error_app2, Nat.sub_diag in E1 by lia. cbn in E1. injection E1 as <- <-.
    destruct I as [<-|I]; [exact E|].
    specialize (P (length ps1) al l y). rewrite app_length in P. cbn [length] in P. apply P; [|exact I].
    rewrite nth_error_app2, Nat.sub_diag by lia. reflexivity.
  - specialize (P i al' l' y). rewrite app_length in P. cbn [length] in P. apply P; [|exact I].
    rewrite <- E1. destruct (Nat.lt_ge_cases i (length ps1)) as [L|L].
    + now rewrite !nth_error_app1 by lia.
    + rewrite !nth_error_app2 by lia. destruct (i - length ps1) eqn:D; [lia|reflexivity].
Qed.

Lemma perm_shift {A} (a : A) (x y z : list A) : Permutation ((a :: x) ++ y ++ z) (x ++ y ++ a :: z).
Proof. rewrite !app_assoc. cbn [app]. apply (Permutation_middle (x ++ y) z a). Qed.

Lemma Trep_intro h t ps : Forall2 (brep h) t ps -> NoDup (foot ps) -> Forall (fun a => a < nxt h) (foot ps) -> Trep h t ps.
Proof. unfold Trep; auto. Qed.

(** Draining one bucket into a row that lies apart from it. *)
Lemma drain_spec hf fuel : forall h s tmp al l qs,
  Trep h (s :: tmp) ((al, l) :: qs) -> placed hf qs -> 0 < length tmp -> length l < fuel ->
  exists h' tmp' qs', drain hf fuel h s tmp = Done (h', tmp') /\ Trep h' tmp' qs' /\
    placed hf qs' /\ length tmp' = length tmp /\ Permutation (l ++ bag qs) (bag qs') /\
    Permutation (al ++ foot qs) (foot qs') /\
    (forall x, ~ In x (al ++ foot qs) -> cell h' x = cell h x) /\ nxt h' = nxt h.
Proof.
  induction fuel as [|f IH]; intros h s tmp al l qs R PL Ht Hf; [lia|].
  destruct (Trep_hd R) as ((L & Z) & ND & BD). cbn [fst snd] in L, Z.
  destruct al as [|a al]; destruct l as [|d l]; cbn [lseg] in L; try easy.
  - cbn [drain]. rewrite L. exists h, tmp, qs. cbn [app]. split; [reflexivity|].
    split; [exact (Trep_tl R)|]. split; [exact PL|]. repeat split; auto.
  - destruct L as (Et & nx & C & L). cbn [drain]. rewrite Et, C.
    destruct (bucket_split (i := bidx (hf d) (length tmp)) (Trep_tl R) (bidx_lt (hf d) Ht))
      as (t1 & s2 & t2 & q1 & al2 & l2 & q2 & Etm & Eq & L1 & L2 & EB & Rb & ND2 & BD2).
    rewrite EB. cbn [bnd]. unfold move_top_to. rewrite Et, C. cbn [bnd].
    assert (SB : forall z, set_bucket tmp (bidx (hf d) (length tmp)) z = Done (t1 ++ z :: t2)).
    { intros z. unfold set_bucket. rewrite <- L1, Etm. now rewrite set_nth_split. }
    rewrite SB. cbn [bnd].
    set (h1 := upd h a (Some (d, top s2))).
    set (s1 := mkStack nx (ssize s - 1)).
    set (s3 := mkStack (Some a) (ssize s2 + 1)).
    pose proof R as (RA & RB & RC). rewrite foot_cons in RB, RC. cbn [fst] in RB, RC.
    assert (NA : ~ In a (al ++ foot qs)) by (cbn in RB; apply NoDup_cons_iff in RB; apply RB).
    assert (FR : forall x, In x (al ++ foot qs) -> cell h1 x = cell h x).
    { intros x Hx. apply upd_other. intros ->. contradiction. }
    assert (PF : Permutation ((a :: al) ++ foot qs) (al ++ foot (q1 ++ (a :: al2, d :: l2) :: q2))).
    { subst qs. rewrite !foot_app, !foot_cons. cbn [fst]. apply perm_shift. }
    assert (PB : Permutation ((d :: l) ++ bag qs) (l ++ bag (q1 ++ (a :: al2, d :: l2) :: q2))).
    { subst qs. rewrite !bag_app, !bag_cons. cbn [snd]. apply perm_shift. }
    assert (R1 : Trep h1 (s1 :: t1 ++ s3 :: t2) ((al, l) :: q1 ++ (a :: al2, d :: l2) :: q2)).
    { apply Trep_intro.
      - inversion RA as [|? ? ? ? Rs RT]; subst. constructor.
        + split; [|cbn [snd ssize s1 length]; cbn [snd length] in Z; lia].
          cbn [fst snd top s1]. apply lseg_frame with (h := h); [|exact L].
          intros x Hx. apply FR, in_or_app. now left.
        + assert (LL : length t1 = length q1) by lia.
          apply Forall2_app_inv_l in RT. destruct RT as (z1 & z2 & A1 & A2 & E).
          assert (z1 = q1 /\ z2 = (al2, l2) :: q2) as (-> & ->).
          { pose proof (Forall2_length A1) as LZ. rewrite LL in LZ. clear -LZ E.
            revert z1 LZ E. induction q1 as [|q q1 IHq]; intros [|z z1] LZ E; try discriminate; [auto|].
            cbn in E. injection E as <- E. injection LZ as LZ. destruct (IHq z1 LZ E) as (-> & ->). auto. }
          inversion A2 as [|? ? ? ? R2 A3]; subst.
          assert (SUB : forall ts ps, Forall2 (brep h) ts ps -> incl (foot ps) (al ++ foot (q1 ++ (al2, l2) :: q2)) -> Forall2 (brep h1) ts ps).
          { clear -FR. intros ts ps H. induction H as [|s p t ps Hs A IH]; intros I; constructor.
            - apply brep_frame with (h := h); [|exact Hs]. intros x Hx. apply FR, I. rewrite foot_cons. apply in_or_app; now left.
            - apply IH. intros x Hx. apply I. rewrite foot_cons. apply in_or_app; now right. }
          rewrite foot_app, foot_cons in SUB, FR. cbn [fst] in SUB, FR.
          apply Forall2_app; [|constructor].
          * apply SUB; [exact A1|]. intros x Hx. apply in_or_app; right; apply in_or_app; now left.
          * destruct R2 as (R2 & Z2). cbn [fst snd] in R2, Z2. split; [|cbn [snd ssize s3 length]; lia].
            cbn [fst snd top s3 lseg]. split; [reflexivity|]. exists (top s2). split; [apply upd_same|].
            apply lseg_frame with (h := h); [|exact R2]. intros x Hx. apply FR.
            apply in_or_app; right; apply in_or_app; right; apply in_or_app; now left.
          * apply SUB; [exact A3|]. intros x Hx. apply in_or_app; right; apply in_or_app; right; apply in_or_app; now right.
      - rewrite foot_cons. cbn [fst]. exact (Permutation_NoDup PF RB).
      - rewrite foot_cons. cbn [fst]. exact (Forall_perm_lt PF RC). }
    destruct (IH h1 s1 (t1 ++ s3 :: t2) al l (q1 ++ (a :: al2, d :: l2) :: q2) R1)
      as (h' & tmp' & qs' & E & R' & PL' & LT & P1 & P2 & F & N).
    { subst qs. apply (placed_set PL). rewrite <- (Trep_length (Trep_tl R)). lia. }
    { rewrite app_length. cbn. lia. } { cbn in Hf. lia. }
    exists h', tmp', qs'. split; [exact E|]. split; [exact R'|]. split; [exact PL'|].
    split; [rewrite LT, Etm, !app_length; reflexivity|].
    split; [exact (perm_trans PB P1)|]. split; [exact (perm_trans PF P2)|]. split; [|exact N].
    intros x Hx. rewrite F.
    + apply upd_other. intros ->. apply Hx. now left.
    + intros I. apply Hx. exact (Permutation_in x (Permutation_sym PF) I).
Qed.

Lemma drain_all_spec hf fuel : forall bs h tmp ps qs,
  Trep h (bs ++ tmp) (ps ++ qs) -> length bs = length ps -> placed hf qs -> 0 < length tmp ->
  length (bag ps) < fuel ->
  exists h' tmp' qs', drain_all hf fuel h bs tmp = Done (h', tmp') /\ Trep h' tmp' qs' /\
    placed hf qs' /\ length tmp' = length tmp /\ Permutation (bag (ps ++ qs)) (bag qs') /\
    Permutation (foot (ps ++ qs)) (foot qs') /\
    (forall x, ~ In x (foot (ps ++ qs)) -> cell h' x = cell h x) /\ nxt h' = nxt h.
Proof.
  induction bs as [|s bs IH]; intros h tmp ps qs R LE PL Ht Hf; destruct ps as [|[al l] ps]; try discriminate.
  - cbn [drain_all app] in *. exists h, tmp, qs. repeat split; auto; apply R.
  - cbn [drain_all app] in *. injection LE as LE. rewrite bag_cons in Hf. cbn [snd] in Hf. rewrite app_length in Hf.
    destruct (Trep_hd R) as (Rb & ND & BD). pose proof R as (RA & RB & RC).
    rewrite foot_cons in RB, RC. cbn [fst] in RB, RC. rewrite foot_app in RB, RC.
    inversion RA as [|? ? ? ? _ RT]; subst.
    apply Forall2_app_inv_l in RT. destruct RT as (z1 & z2 & A1 & A2 & E).
    assert (z1 = ps /\ z2 = qs) as (-> & ->).
    { pose proof (Forall2_length A1) as LZ. rewrite LE in LZ. clear -LZ E.
      revert z1 LZ E. induction ps as [|q q1 IHq]; intros [|z z1] LZ E; try discriminate; [auto|].
      cbn in E. injection E as <- E. injection LZ as LZ. destruct (IHq z1 LZ E) as (-> & ->). auto. }
    assert (PR : Permutation (al ++ foot ps ++ foot qs) (foot ps ++ al ++ foot qs)) by apply Permutation_app_swap_app.
    assert (R0 : Trep h (s :: tmp) ((al, l) :: qs)).
    { apply Trep_intro; [constructor; auto| |]; rewrite foot_cons; cbn [fst].
      - exact (NoDup_app_r (Permutation_NoDup PR RB)).
      - apply (Forall_perm_lt PR) in RC. apply Forall_app in RC. apply RC. }
    destruct (@drain_spec hf fuel h s tmp al l qs R0 PL Ht) as (h1 & tmp1 & qs1 & E1 & R1 & PL1 & LT1 & PB1 & PF1 & F1 & N1); [lia|].
    rewrite E1. cbn [bnd].
    assert (PX : Permutation (foot ps ++ al ++ foot qs) (foot (ps ++ qs1))).
    { rewrite foot_app. now apply Permutation_app_head. }
    assert (R2 : Trep h1 (bs ++ tmp1) (ps ++ qs1)).
    { apply Trep_intro.
      - apply Forall2_app; [|apply R1].
        assert (FRx : forall x, In x (foot ps) -> cell h1 x = cell h x).
        { intros x Hx. apply F1. exact (NoDup_app_disj (Permutation_NoDup PR RB) Hx). }
        clear -A1 FRx. induction A1 as [|s p t ps Hs A IH]; constructor.
        + apply brep_frame with (h := h); [|exact Hs]. intros x Hx. apply FRx. rewrite foot_cons. apply in_or_app; now left.
        + apply IH. intros x Hx. apply FRx. rewrite foot_cons. apply in_or_app; now right.
      - exact (Permutation_NoDup (perm_trans PR PX) RB).
      - rewrite N1. exact (Forall_perm_lt (perm_trans PR PX) RC). }
    destruct (IH h1 tmp1 ps qs1 R2 LE PL1) as (h' & tmp' & qs' & E2 & R' & PL' & LT' & PB' & PF' & F' & N'); [lia|lia|].
    exists h', tmp', qs'. split; [exact E2|]. split; [exact R'|]. split; [exact PL'|]. split; [lia|].
    rewrite bag_cons, bag_app, foot_cons, foot_app. cbn [fst snd].
    split; [|split; [|split]].
    + apply perm_trans with (bag ps ++ l ++ bag qs); [apply Permutation_app_swap_app|].
      apply perm_trans with (2 := PB'). rewrite bag_app. now apply Permutation_app_head.
    + exact (perm_trans (perm_trans PR PX) PF').
    + intros x Hx. rewrite F'.
      * apply F1. intros I. apply Hx. apply (Permutation_in x (Permutation_sym PR)). apply in_or_app. now right.
      * intros I. apply Hx. exact (Permutation_in x (Permutation_sym (perm_trans PR PX)) I).
    + lia.
Qed.

Lemma t_new_rep h n : Trep h (t_new n) (repeat (@nil nat, @nil T) n).
Proof.
  assert (E : foot (repeat (@nil nat, @nil T) n) = []) by (induction n; cbn; auto).
  apply Trep_intro; rewrite ?E; [|constructor|constructor].
  induction n; cbn; constructor; auto. split; reflexivity.
Qed.

Lemma bag_new n : bag (repeat (@nil nat, @nil T) n) = [].
Proof. induction n; cbn; auto. Qed.
Lemma foot_new n : foot (repeat (@nil nat, @nil T) n) = [].
Proof. induction n; cbn; auto. Qed.

Lemma placed_new hf n : placed hf (repeat (@nil nat, @nil T) n).
Proof.
  intros i al l x E I. apply nth_error_In, repeat_spec in E. injection E as -> ->. destruct I.
Qed.

Lemma t_grow_spec hf gold fuel h t ps :
  (forall n, 0 < n -> 0 < gold n) -> Trep h t ps -> 0 < length t -> length (bag ps) < fuel ->
  exists h' t' ps', t_grow hf gold fuel h t = Done (h', t') /\ Trep h' t' ps' /\ placed hf ps' /\
    0 < length t' /\ Permutation (bag ps) (bag ps') /\ fstep h h' (foot ps) (foot ps').
Proof.
  intros G R Ht Hf. unfold t_grow.
  destruct (@drain_all_spec hf fuel t h (t_new (gold (length t))) ps (repeat ([], []) (gold (length t))))
    as (h' & t' & ps' & E & R' & PL & LT & PB & PF & F & N); auto.
  - apply Trep_intro.
    + apply Forall2_app; [apply R|apply t_new_rep].
    + rewrite foot_app, foot_new, app_nil_r. apply R.
    + rewrite foot_app, foot_new, app_nil_r. apply R.
  - exact (Trep_length R).
  - apply placed_new.
  - unfold t_new. rewrite repeat_length. now apply G.
  - rewrite bag_app, bag_new, app_nil_r in PB. rewrite foot_app, foot_new, app_nil_r in PF, F.
    exists h', t', ps'. split; [exact E|]. split; [exact R'|]. split; [exact PL|].
    split; [rewrite LT; unfold t_new; rewrite repeat_length; now apply G|]. split; [exact PB|].
    apply fstep_within; auto.
    + intros x Hx. exact (Permutation_in x (Permutation_sym PF) Hx).
    + intros x Hx Nx. exfalso. apply Nx. exact (Permutation_in x PF Hx).
Qed.

Lemma t_add_spec hf gold mx fuel h t x ps :
  (forall n, 0 < n -> 0 < gold n) -> Trep h t ps -> 0 < length t -> S (length (bag ps)) < fuel ->
  exists h' t' ps', t_add hf gold mx fuel h t x = Done (h', t') /\ Trep h' t' ps' /\
    (placed hf ps -> placed hf ps') /\
    0 < length t' /\ Permutation (x :: bag ps) (bag ps') /\ fstep h h' (foot ps) (foot ps') /\
    ((Z.of_nat (S (length (bag ps))) <= mx)%Z -> length t' = length t).
Proof.
  intros G R Ht Hf. unfold t_add.
  destruct (bucket_split (i := bidx (hf x) (length t)) R (bidx_lt (hf x) Ht))
    as (t1 & s & t2 & ps1 & al & l & ps2 & Et & Ep & L1 & L2 & EB & Rb & ND & BD).
  rewrite EB. cbn [bnd].
  destruct (s_add_spec x Rb ND BD) as (h1 & s1 & E1 & Rb1 & F1 & ND1 & N1). rewrite E1.
  destruct (@Trep_step h h1 t1 s t2 ps1 al l ps2 s1 (nxt h :: al) (x :: l)) as (R1 & F1'); auto.
  { now rewrite <- Et, <- Ep. } { lia. }
  { constructor; [lia|]. rewrite N1. revert BD; apply Forall_impl; intros; lia. }
  assert (SB : set_bucket t (bidx (hf x) (length t)) s1 = Done (t1 ++ s1 :: t2)).
  { unfold set_bucket. rewrite <- L1, Et. now rewrite set_nth_split. }
  rewrite SB. cbn [bnd].
  rewrite <- Ep in F1'.
  assert (PB : Permutation (x :: bag ps) (bag (ps1 ++ (nxt h :: al, x :: l) :: ps2))).
  { symmetry. subst ps. apply perm_mid_bag. reflexivity. }
  assert (PL : placed hf ps -> placed hf (ps1 ++ (nxt h :: al, x :: l) :: ps2)).
  { intros PL. subst ps. apply (placed_set PL). rewrite <- (Trep_length R). lia. }
  destruct (Z.ltb_spec mx (ssize s1)) as [GT|_].
  - destruct (@t_grow_spec hf gold fuel h1 _ _ G R1) as (h' & t' & ps' & E & R' & PL' & LT & PB' & F).
    { rewrite app_length. cbn. lia. }
    { rewrite <- (Permutation_length PB). cbn. lia. }
    exists h', t', ps'. split; [exact E|]. split; [exact R'|]. split; [auto|]. split; [exact LT|].
    split; [exact (perm_trans PB PB')|]. split; [exact (fstep_trans F1' F)|].
    intros LE. destruct Rb1 as (_ & SZ). cbn [snd length] in SZ.
    rewrite Ep, bag_app, bag_cons, !app_length in LE. cbn [snd] in LE. lia.
  - eexists _, _, _. split; [reflexivity|]. split; [exact R1|]. split; [exact PL|].
    split; [rewrite app_length; cbn; lia|]. split; [exact PB|]. split; [exact F1'|].
    intros _. rewrite Et, !app_length. reflexivity.
Qed.

Lemma t_size_spec h t ps : Trep h t ps -> t_size t = Z.of_nat (length (bag ps)).
Proof.
  intros (A & _). unfold t_size.
  assert (G : forall acc, fold_left (fun acc s => acc + ssize s)%Z t acc = (acc + Z.of_nat (length (bag ps)))%Z).
  { induction A as [|s p t ps (_ & Z) A IH]; intros acc; [cbn; lia|].
    cbn [fold_left]. rewrite IH, Z, bag_cons, app_length. lia. }
  rewrite G. lia.
Qed.

Lemma t_visit_spec fuel h t ps : Trep h t ps -> length (bag ps) < fuel ->
  t_visit fuel h t = Done (bag ps).
Proof.
  intros (A & _). induction A as [|s p t ps (L & _) A IH]; intros Hf; [reflexivity|].
  rewrite bag_cons, app_length in Hf. cbn [t_visit].
  rewrite (s_visit_spec L) by lia. cbn [bnd]. rewrite IH by lia. reflexivity.
Qed.

Lemma t_destroy_spec fuel : forall t h ps, Trep h t ps -> length (bag ps) < fuel ->
  exists h', t_destroy fuel h t = Done h' /\ (forall x, ~ In x (foot ps) -> cell h' x = cell h x) /\
    (forall x, In x (foot ps) -> cell h' x = None) /\ nxt h' = nxt h.
Proof.
  induction t as [|s t IH]; intros h ps R Hf.
  - destruct R as (A & _). inversion A; subst. exists h. split; [reflexivity|]. split; [auto|]. split; [intros x []|auto].
  - assert (exists al l ps2, ps = (al, l) :: ps2) as (al & l & ps2 & ->).
    { destruct R as (A & _). inversion A as [|? [al l] ? ps2]; subst. eauto. }
    rewrite bag_cons, app_length in Hf. cbn [snd] in Hf. destruct (Trep_hd R) as ((L & _) & ND & _).
    cbn [fst snd] in L.
    destruct (s_destroy_spec L ND (fuel := fuel)) as (h1 & E & D & F & N); [lia|].
    pose proof R as (_ & NF & _). rewrite foot_cons in NF. cbn [fst] in NF.
    destruct (IH h1 ps2) as (h2 & E2 & F2 & D2 & N2); [|lia|].
    + apply Trep_frame with (h := h); [|lia|exact (Trep_tl R)].
      intros x Hx. apply F. intros I. exact (NoDup_app_disj NF I Hx).
    + cbn [t_destroy]. rewrite E. cbn [bnd]. exists h2. split; [exact E2|]. rewrite foot_cons. cbn [fst].
      split; [|split; [|lia]].
      * intros x Hx. rewrite F2, F; [reflexivity| |]; intros I; apply Hx, in_or_app; auto.
      * intros x Hx. destruct (in_dec Nat.eq_dec x (foot ps2)) as [I|I]; [auto|]. rewrite F2 by exact I.
        apply D. apply in_app_or in Hx. tauto.
Qed.

Lemma t_clear_spec fuel h t ps : Trep h t ps -> length (bag ps) < fuel ->
  exists h', t_clear fuel h t = Done (h', t_new 5) /\ fstep h h' (foot ps) (foot (repeat (@nil nat, @nil T) 5)).
Proof.
  intros R Hf. destruct (t_destroy_spec R Hf) as (h' & E & F & D & N). unfold t_clear. rewrite E. cbn [bnd].
  exists h'. split; [reflexivity|]. rewrite foot_new. apply fstep_within; auto. intros x [].
Qed.

(** The elements are replaced in place. *)
Definition upd_rows (f : T -> T) (ps : list bkt) : list bkt := map (fun p => (fst p, map f (snd p))) ps.

Lemma upd_rows_foot f ps : foot (upd_rows f ps) = foot ps.
Proof. unfold foot, upd_rows. rewrite map_map. reflexivity. Qed.

Lemma upd_rows_bag f ps : bag (upd_rows f ps) = map f (bag ps).
Proof. unfold bag, upd_rows. rewrite map_map, concat_map, map_map. reflexivity. Qed.

Lemma t_update_spec f fuel : forall t h ps, Trep h t ps -> length (bag ps) < fuel ->
  exists h', t_update f fuel h t = Done h' /\ Trep h' t (upd_rows f ps) /\
    (forall x, ~ In x (foot ps) -> cell h' x = cell h x) /\ nxt h' = nxt h.
Proof.
  induction t as [|s t IH]; intros h ps R Hf.
  - pose proof R as (A & _). inversion A; subst. exists h. split; [reflexivity|]. auto.
  - assert (exists al l ps2, ps = (al, l) :: ps2) as (al & l & ps2 & ->).
    { destruct R as (A & _). inversion A as [|? [al l] ? ps2]; subst. eauto. }
    rewrite bag_cons, app_length in Hf. cbn [snd] in Hf. destruct (Trep_hd R) as ((L & Z) & ND & BD).
    cbn [fst snd] in L, Z.
    destruct (s_update_spec f L ND (fuel := fuel)) as (h1 & E & D & F & N); [lia|].
    pose proof R as (_ & NF & BF). rewrite foot_cons in NF, BF. cbn [fst] in NF, BF.
    destruct (IH h1 ps2) as (h2 & E2 & R2 & F2 & N2); [|lia|].
    + apply Trep_frame with (h := h); [|lia|exact (Trep_tl R)].
      intros x Hx. apply F. intros I. exact (NoDup_app_disj NF I Hx).
    + cbn [t_update]. rewrite E. cbn [bnd]. exists h2. split; [exact E2|]. rewrite foot_cons. cbn [fst].
      split; [|split; [|lia]].
      * split; [|split].
        -- constructor; [|apply R2]. cbn [fst snd]. split; [|cbn [fst snd]; rewrite map_length; exact Z].
           apply lseg_frame with (h := h1); [|exact D]. intros x Hx. apply F2. exact (NoDup_app_disj NF Hx).
        -- cbn [upd_rows map]. rewrite foot_cons. cbn [fst]. change (map _ ps2) with (upd_rows f ps2).
           rewrite upd_rows_foot. exact NF.
        -- cbn [upd_rows map]. rewrite foot_cons. cbn [fst]. change (map _ ps2) with (upd_rows f ps2).
           rewrite upd_rows_foot, N2, N. exact BF.
      * intros x Hx. rewrite F2, F; [reflexivity| |]; intros I; apply Hx, in_or_app; auto.
Qed.
End Table.

(** * The table as a multiset *)
Section Multiset.
Variable T : Type.
Variable eqb : T -> T -> bool.
Hypothesis HE : equivalence eqb.
Variable gold : nat -> nat.
Hypothesis HG : forall n, 0 < n -> 0 < gold n.
Variable mx : Z.
Variable unst : bool.
(** Either the table has the fallback, or hashes behave. *)
Variable hf0 : T -> Z.
Definition coherent (os : list (top_t T)) : Prop := unst = true \/ stable_hashes eqb hf0 os.

Definition count (y : T) (l : list T) : nat := length (filter (fun x => eqb x y) l).

Lemma count_perm y l l' : Permutation l l' -> count y l = count y l'.
Proof.
  unfold count. induction 1; cbn; auto.
  - destruct (eqb x y); cbn; lia.
  - destruct (eqb y0 y), (eqb x y); cbn; lia.
  - lia.
Qed.

Lemma count_cons y x l : count y (x :: l) = (if eqb x y then 1 else 0) + count y l.
Proof. unfold count. cbn. destruct (eqb x y); reflexivity. Qed.

Lemma count_pos y l : 0 < count y l <-> exists x, In x l /\ eqb x y = true.
Proof.
  unfold count. induction l as [|a l IH]; cbn [filter].
  - cbn. split; [lia|]. intros (x & [] & _).
  - destruct (eqb a y) eqn:E; cbn [length].
    + split; [|lia]. intros _. exists a. split; [now left|exact E].
    + rewrite IH. split; intros (x & I & Ex).
      * exists x. split; [now right|exact Ex].
      * destruct I as [->|I]; [congruence|]. eauto.
Qed.

(** The table agrees with the multiset described by [past]. *)
(** Every allocated node belongs to the table. *)
Definition owned (h : heap T) (ps : list (list nat * list T)) : Prop := forall x, cell h x <> None -> In x (foot ps).

Lemma owned_all (h : heap T) t ps x : Trep h t ps -> In x (foot ps) -> cell h x <> None.
Proof.
  intros (A & _) I. revert I. induction A as [|s [al l] t ps (L & _) A IH]; [intros []|].
  rewrite foot_cons. cbn [fst snd] in *. intros I. apply in_app_or in I. destruct I as [I|I]; [|auto].
  clear -L I. revert L. generalize (top s). revert l. induction al as [|a al IH]; intros [|d l] p L; cbn in L; try easy.
  destruct L as (-> & nx & C & L). destruct I as [<-|I]; [congruence|]. exact (IH I _ _ L).
Qed.

Lemma foot_bag_length (h : heap T) t ps : Trep h t ps -> length (foot ps) = length (bag (T := T) ps).
Proof.
  intros (A & _). induction A as [|s [al l] t ps (L & _) A IH]; [reflexivity|].
  rewrite foot_cons, bag_cons, !app_length, IH. f_equal. exact (lseg_length L).
Qed.

Definition agree (past : list (top_t T)) (st : heap T * table) : Prop :=
  exists ps, Trep (fst st) (snd st) ps /\ 0 < length (snd st) /\
    (forall y, count y (bag ps) = copies eqb y past) /\ length (bag ps) = total eqb past /\
    (unst = false -> placed hf0 ps) /\ owned (fst st) ps.

Lemma owned_step (h h' : heap T) ps ps' : fstep h h' (foot ps) (foot ps') -> owned h ps -> owned h' ps'.
Proof. intros (_ & _ & _ & F) O x Hx. destruct (F x Hx) as [J|(J & K)]; [exact J|]. elim J. exact (O x K). Qed.

Lemma total_le past : total eqb past <= length past.
Proof. induction past as [|[] past IH]; cbn [total length]; try lia. match goal with |- context [if ?b then _ else _] => destruct b end; lia. Qed.

Lemma eqb_l x y z : eqb x y = true -> eqb x z = eqb y z.
Proof.
  intros E. destruct HE as (R & S & Tr). destruct (eqb x z) eqn:A, (eqb y z) eqn:B; auto.
  - rewrite <- B. symmetry. apply (Tr y x z); [now rewrite S|exact A].
  - rewrite <- A. apply (Tr x y z E B).
Qed.

Lemma t_op_spec fuel past st o :
  agree past st -> S (length past) < fuel -> coherent [o] ->
  exists h' t', t_op eqb gold mx unst fuel st o =
      Done (h', t', hd true (answers eqb past [o])) /\ agree (o :: past) (h', t').
Proof.
  intros (ps & R & Ht & CN & TT & PL & OW) Hf CO. destruct st as [h t]. cbn [fst snd] in *.
  pose proof (total_le past) as TL.
  assert (HP : forall hf, (op_hash hf0 o -> hf = hf0) -> unst = false -> hf = hf0 /\ (forall x y, eqb x y = true -> hf0 x = hf0 y)).
  { intros hf E U. destruct CO as [CO|(C1 & C2)]; [congruence|]. split; [|exact C1].
    inversion C2; auto. }
  destruct HE as (RF & SY & TR).
  destruct o as [hf x|hf x|hf x|]; cbn [t_op hd answers].
  - destruct (@t_add_spec T hf gold mx fuel h t x ps HG R Ht) as (h' & t' & ps' & E & R' & PL' & LT & PB & F & _); [lia|].
    rewrite E. cbn [bnd]. exists h', t'. split; [reflexivity|]. exists ps'. cbn [fst snd].
    split; [exact R'|]. split; [exact LT|]. split; [|split; [|split; [|exact (owned_step F OW)]]].
    + intros y. rewrite <- (count_perm y PB), count_cons, CN. reflexivity.
    + rewrite <- (Permutation_length PB). cbn. now rewrite TT.
    + intros U. destruct (HP hf (fun x => x) U) as (-> & _). auto.
  - assert (FD : findable unst (hf x) (fun d => eqb x d) ps).
    { destruct (unst) eqn:U; [now left|]. right. exists hf0. split; [auto|].
      destruct (HP hf (fun x => x) eq_refl) as (-> & CP). intros d Hd. symmetry. now apply CP. }
    destruct (@t_remove_spec T unst fuel h t (hf x) (fun d => eqb x d) ps R Ht ltac:(lia) FD)
      as (h' & t' & b & ps' & E & R' & RI & F & M).
    assert (B : b = (0 <? copies eqb x past)).
    { rewrite <- CN. destruct b.
      - destruct M as (d & PM & Ed). symmetry. apply Nat.ltb_lt, count_pos. exists d. split; [|now rewrite SY].
        apply (Permutation_in d (Permutation_sym PM)). now left.
      - destruct M as (_ & M). symmetry. apply Nat.ltb_ge.
        destruct (count x (bag ps)) eqn:C0; [lia|].
        assert (0 < count x (bag ps)) as CP by lia. apply count_pos in CP. destruct CP as (d & I & Ed).
        specialize (M d I). cbn in M. rewrite SY in M. congruence. }
    rewrite E. exists h', t'. rewrite <- B. split; [reflexivity|]. exists ps'. cbn [fst snd].
    split; [exact R'|].
    assert (LT : length t' = length t).
    { rewrite (Trep_length R'), (Trep_length R). symmetry. exact (Forall2_length RI). }
    split; [lia|]. split; [|split; [|split; [|exact (owned_step F OW)]]].
    + intros y. cbn [copies]. rewrite <- CN. destruct b.
      * destruct M as (d & PM & Ed). rewrite (count_perm y PM), count_cons.
        rewrite (eqb_l y Ed). destruct (eqb d y); lia.
      * destruct M as (-> & M). destruct (eqb x y) eqn:Exy; [|reflexivity].
        destruct (count y (bag ps)) eqn:C0; [reflexivity|].
        assert (0 < count y (bag ps)) as CP by lia. apply count_pos in CP. destruct CP as (d & I & Ed).
        specialize (M d I). cbn in M. rewrite (eqb_l d Exy), SY in M. congruence.
    + cbn [total]. rewrite <- B. destruct b.
      * destruct M as (d & PM & _). apply Permutation_length in PM. cbn in PM. lia.
      * destruct M as (-> & _). exact TT.
    + intros U. exact (placed_incl (PL U) RI).
  - assert (FD : findable unst (hf x) (fun d => eqb d x) ps).
    { destruct (unst) eqn:U; [now left|]. right. exists hf0. split; [auto|].
      destruct (HP hf (fun x => x) eq_refl) as (-> & CP). intros d Hd. now apply CP. }
    destruct (@t_find_spec T unst fuel h t (hf x) (fun d => eqb d x) ps R Ht ltac:(lia) FD)
      as (h' & t' & r & ps' & E & R' & RP & F & M).
    pose proof (rows_perm_bag RP) as PB.
    rewrite E. cbn [bnd]. exists h', t'. split.
    + f_equal. f_equal. rewrite <- CN. destruct r as [a|].
      * destruct M as (ps1 & al & d & l & ps2 & -> & Ed). symmetry. apply Nat.ltb_lt, count_pos. exists d. split; [|exact Ed].
        apply (Permutation_in d (Permutation_sym PB)). rewrite bag_app, bag_cons. apply in_or_app; right; now left.
      * symmetry. apply Nat.ltb_ge.
        destruct (count x (bag ps)) eqn:C0; [lia|].
        assert (0 < count x (bag ps)) as CP by lia. apply count_pos in CP. destruct CP as (d & I & Ed).
        specialize (M d I). cbn in M. congruence.
    + exists ps'. cbn [fst snd]. split; [exact R'|].
      split; [rewrite (Trep_length R'), <- (Forall2_length RP), <- (Trep_length R); exact Ht|].
      split; [|split; [|split; [|exact (owned_step F OW)]]].
      * intros y. now rewrite <- (count_perm y PB), CN.
      * now rewrite <- (Permutation_length PB), TT.
      * intros U. exact (placed_incl (PL U) (rows_perm_incl RP)).
  - destruct (@t_clear_spec T fuel h t ps R ltac:(lia)) as (h' & E & F). rewrite E. cbn [bnd].
    exists h', (t_new 5). split; [reflexivity|]. exists (repeat ([], []) 5). cbn [fst snd].
    split; [apply t_new_rep|]. split; [cbn; lia|]. rewrite bag_new.
    split; [reflexivity|]. split; [reflexivity|]. split; [intros _; apply placed_new|exact (owned_step F OW)].
Qed.

Lemma coherent_cons o os : coherent (o :: os) -> coherent [o] /\ coherent os.
Proof.
  intros [U|(A & B)]; [split; now left|]. inversion B; subst.
  split; right; split; auto.
Qed.

Lemma t_run_spec fuel : forall os past st,
  agree past st -> length past + length os < fuel -> S (length past + length os) <= fuel -> coherent os ->
  exists h' t', t_run eqb gold mx unst fuel st os = Done (h', t', answers eqb past os) /\
    agree (rev os ++ past) (h', t').
Proof.
  induction os as [|o os IH]; intros past st A Hf Hf2 CO.
  - destruct st as [h t]. exists h, t. cbn. auto.
  - destruct (coherent_cons CO) as (C1 & C2). cbn [length] in *.
    destruct (@t_op_spec fuel past st o A) as (h1 & t1 & E & A1); [lia|exact C1|].
    cbn [t_run]. rewrite E. cbn [bnd].
    destruct (IH (o :: past) (h1, t1) A1) as (h' & t' & E2 & A2); [cbn; lia|cbn; lia|exact C2|].
    rewrite E2. cbn [bnd]. exists h', t'. split; [reflexivity|].
    cbn [rev]. rewrite <- app_assoc. exact A2.
Qed.

Lemma agree_new n : 0 < n -> agree [] (heap0, t_new n).
Proof.
  intros Hn. exists (repeat ([], []) n). cbn [fst snd]. split; [apply t_new_rep|].
  split; [unfold t_new; now rewrite repeat_length|]. rewrite bag_new.
  split; [reflexivity|]. split; [reflexivity|]. split; [intros _; apply placed_new|]. intros x Hx. now cbn in Hx.
Qed.

(** After any history the answers are those of the multiset, the size is the
    number of elements held, a traversal visits exactly the elements held, and
    exactly so many nodes are allocated. *)
Theorem table_multiset fuel os :
  coherent os -> length os < fuel ->
  exists h t, t_run eqb gold mx unst fuel (heap0, t_new 5) os = Done (h, t, answers eqb [] os) /\
    t_size t = Z.of_nat (total eqb (rev os)) /\
    exists l, t_visit fuel h t = Done l /\ length l = total eqb (rev os) /\
      (forall y, length (filter (fun x => eqb x y) l) = copies eqb y (rev os)) /\
    exists al, NoDup al /\ length al = total eqb (rev os) /\ forall a, cell h a <> None <-> In a al.
Proof.
  intros CO Hf. destruct (@t_run_spec fuel os [] (heap0, t_new 5)) as (h & t & E & (ps & R & _ & CN & TT & _ & OW)).
  - apply agree_new. lia.
  - cbn. lia.
  - cbn. lia.
  - exact CO.
  - rewrite app_nil_r in *. cbn [fst snd] in *. exists h, t. split; [exact E|].
    split; [rewrite (t_size_spec R), TT; reflexivity|].
    exists (bag ps). split.
    + apply (t_visit_spec R). rewrite TT. pose proof (total_le (rev os)). rewrite rev_length in *. lia.
    + split; [exact TT|]. split; [exact CN|]. exists (foot ps). split; [apply R|].
      split; [rewrite (foot_bag_length R); exact TT|]. intros a. split; [apply OW|exact (owned_all R)].
Qed.
End Multiset.
