(** Proofs about the intrusive list (C58). *)
From Verif Require Import Base Ref_Model List_Model List_Spec.
Local Open Scope nat_scope.
Local Open Scope res_scope.

Definition link (m : mem) (a b : nat) : Prop :=
  (exists c, at_ m a = Some c /\ nxt c = Some b) /\ (exists c, at_ m b = Some c /\ bef c = Some a).
Fixpoint chain (m : mem) (a : nat) (l : list nat) : Prop :=
  match l with [] => True | b :: r => link m a b /\ chain m b r end.
Definition lastof (a : nat) (l : list nat) : nat := last l a.

Lemma lastof_cons : forall a b l, lastof a (b :: l) = lastof b l.
Proof.
  intros a b l. unfold lastof. revert a b. induction l as [|c l IH]; intros a b; auto. 
  change (last (b :: c :: l) a) with (last (c :: l) a). rewrite (IH a c), (IH b c). auto.
Qed.
Lemma lastof_snoc : forall a l x, lastof a (l ++ [x]) = x.
Proof. intros. unfold lastof. apply last_last. Qed.
Lemma lastof_in : forall a l, In (lastof a l) (a :: l).
Proof.
  intros a l. revert a. induction l as [|b l IH]; intros a; [left; auto|]. rewrite lastof_cons. right. apply IH.
Qed.
Lemma chain_app : forall m l1 l2 a, chain m a (l1 ++ l2) <-> chain m a l1 /\ chain m (lastof a l1) l2.
Proof.
  induction l1 as [|b l1 IH]; intros l2 a; [cbn; tauto|]. rewrite lastof_cons. cbn [app chain]. rewrite IH. tauto.
Qed.

(** [link] depends on the [next] of the source and the [before] of the target. *)
Definition same_nxt (m m' : mem) (a : nat) : Prop :=
  forall c, at_ m a = Some c -> exists c', at_ m' a = Some c' /\ nxt c' = nxt c.
Definition same_bef (m m' : mem) (a : nat) : Prop :=
  forall c, at_ m a = Some c -> exists c', at_ m' a = Some c' /\ bef c' = bef c.
Lemma link_ext : forall m m' a b, same_nxt m m' a -> same_bef m m' b -> link m a b -> link m' a b.
Proof.
  intros m m' a b Ha Hb [(c & H1 & H2) (d & H3 & H4)].
  destruct (Ha _ H1) as (c' & H5 & H6). destruct (Hb _ H3) as (d' & H7 & H8). split; [exists c'|exists d']; split; congruence.
Qed.
Lemma chain_ext : forall m m' l a, (forall x, In x (a :: l) -> x <> lastof a l -> same_nxt m m' x) ->
  (forall x, In x l -> same_bef m m' x) -> NoDup (a :: l) -> chain m a l -> chain m' a l.
Proof.
  induction l as [|b l IH]; intros a Hn Hb ND H; [exact I|]. destruct H as [H1 H2]. split.
  - apply link_ext with m; auto; [|apply Hb; left; auto]. apply Hn; [left; auto|]. rewrite lastof_cons.
    inversion ND as [|? ? N1 N2]; subst. pose proof (lastof_in b l) as L. intros E. rewrite E in N1. auto.
  - apply IH; auto.
    + intros x Hx Nx. apply Hn; [right; auto|rewrite lastof_cons; auto].
    + intros x Hx. apply Hb. right; auto.
    + inversion ND; auto.
Qed.

Lemma NoDup_app_snoc : forall (l : list nat) x, NoDup l -> ~ In x l -> NoDup (l ++ [x]).
Proof.
  induction l as [|a l IH]; intros x ND Nx; cbn; [constructor; auto; constructor|]. inversion ND; subst. constructor.
  - intros H. apply in_app_or in H. destruct H as [H|[H|[]]]; [auto|]. apply Nx. left. auto.
  - apply IH; auto. intros H. apply Nx. right. auto.
Qed.

(** The ring through [_begin], the elements and [_end]. *)
Definition ring (m : mem) (l : list nat) : Prop := chain m 0 (l ++ [1]) /\ link m 1 0 /\ NoDup (0 :: 1 :: l).

Lemma at_store : forall m a c x, at_ (store m a c) x = if Nat.eqb x a then c else at_ m x.
Proof. reflexivity. Qed.

Lemma put_nxt_ok : forall m x v c, at_ m x = Some c -> put_nxt m x v = Ok (store m x (Some (mkCell (bef c) (Some v)))).
Proof. intros. unfold put_nxt, look. rewrite H. auto. Qed.
Lemma put_bef_ok : forall m x v c, at_ m x = Some c -> put_bef m x v = Ok (store m x (Some (mkCell (Some v) (nxt c)))).
Proof. intros. unfold put_bef, look. rewrite H. auto. Qed.

(** [set_next x a], [x <> a]: the link is made, only [next] of [x] and [before] of [a] change. *)
Lemma set_next_ok : forall m x a c d, x <> a -> at_ m x = Some c -> at_ m a = Some d ->
  exists m', set_next m x a = Ok m' /\ top m' = top m /\
    (forall y, at_ m' y = if Nat.eqb y a then Some (mkCell (Some x) (nxt d)) else if Nat.eqb y x then Some (mkCell (bef c) (Some a)) else at_ m y).
Proof.
  intros m x a c d N Hx Ha. unfold set_next. rewrite (put_nxt_ok a Hx). cbn [rb].
  rewrite (@put_bef_ok _ a x d); [|rewrite at_store; apply not_eq_sym, Nat.eqb_neq in N; rewrite N; auto].
  eexists. split; [reflexivity|]. split; auto. 
Qed.
Lemma set_before_ok : forall m x a c d, x <> a -> at_ m x = Some c -> at_ m a = Some d ->
  exists m', set_before m x a = Ok m' /\ top m' = top m /\
    (forall y, at_ m' y = if Nat.eqb y a then Some (mkCell (bef d) (Some x)) else if Nat.eqb y x then Some (mkCell (Some a) (nxt c)) else at_ m y).
Proof.
  intros m x a c d N Hx Ha. unfold set_before. rewrite (put_bef_ok a Hx). cbn [rb].
  rewrite (@put_nxt_ok _ a x d); [|rewrite at_store; apply not_eq_sym, Nat.eqb_neq in N; rewrite N; auto].
  eexists. split; [reflexivity|]. split; auto.
Qed.

Lemma get_nxt_link : forall m a b, link m a b -> get_nxt m a = Ok b.
Proof. intros m a b [(c & H1 & H2) _]. unfold get_nxt, look. rewrite H1. cbn [rb]. rewrite H2. auto. Qed.
Lemma get_bef_link : forall m a b, link m a b -> get_bef m b = Ok a.
Proof. intros m a b [_ (c & H1 & H2)]. unfold get_bef, look. rewrite H1. cbn [rb]. rewrite H2. auto. Qed.

Definition LI (m : mem) (s : lst) : Prop :=
  ring m (inl s) /\ top m = fresh s /\ NoDup (outl s) /\
  (forall x, In x (outl s) -> at_ m x = Some (mkCell None None)) /\
  (forall x, In x (inl s) \/ In x (outl s) -> 2 <= x < fresh s) /\ 2 <= fresh s /\
  (forall x, 2 <= x -> ~ In x (inl s) -> ~ In x (outl s) -> at_ m x = None).

Lemma ring_last : forall m l, ring m l -> link m (lastof 0 l) 1.
Proof. intros m l (H & _). apply chain_app in H. cbn [chain] in H. tauto. Qed.

Lemma ring_out : forall m l x, ring m l -> at_ m x = Some (mkCell None None) -> ~ In x (0 :: 1 :: l).
Proof.
  intros m l x (H1 & H2 & _) Hx.
  assert (K : forall k a, chain m a k -> In x k -> False).
  { induction k as [|b k IH]; intros a Hc Hi; [destruct Hi|]. destruct Hc as [[_ (c & E1 & E2)] Hc]. destruct Hi as [->|Hi]; [|eauto].
    rewrite Hx in E1. injection E1 as <-. discriminate. }
  intros [<-|[<-|Hi]].
  - destruct H2 as [_ (c & E1 & E2)]. rewrite Hx in E1. injection E1 as <-. discriminate.
  - apply (K _ _ H1). apply in_or_app. right. left. auto.
  - apply (K _ _ H1). apply in_or_app. auto.
Qed.

(** Adding. *)
Lemma add_ok : forall m l x c0, ring m l -> at_ m x = Some c0 -> ~ In x (0 :: 1 :: l) ->
  exists m', add_elem m x = Ok m' /\ ring m' (l ++ [x]) /\ top m' = top m /\
    (forall y, ~ In y (0 :: 1 :: x :: l) -> at_ m' y = at_ m y).
Proof.
  intros m l x c0 HR Hx Nx. pose proof (ring_last HR) as HL. set (p := lastof 0 l) in *.
  assert (Np : p <> 1).
  { intros E. destruct HR as (_ & _ & ND). pose proof (lastof_in 0 l) as L. fold p in L. rewrite E in L.
    inversion ND as [|? ? A B]; subst. inversion B; subst. destruct L as [L|L]; [discriminate|auto]. }
  assert (Nxp : x <> p).
  { intros E. apply Nx. pose proof (lastof_in 0 l) as L. fold p in L. rewrite <- E in L. cbn in L |- *. tauto. }
  assert (Nx1 : x <> 1) by (intros ->; apply Nx; right; left; auto).
  destruct HL as [(cp & P1 & P2) (c1 & Q1 & Q2)].
  unfold add_elem, insert_to_before. 
  rewrite (@get_bef_link m p 1); [|split; eauto]. cbn [rb].
  destruct (@set_before_ok m x p c0 cp Nxp Hx P1) as (m1 & A1 & A2 & A3). rewrite A1. cbn [rb].
  assert (E1 : at_ m1 x = Some (mkCell (Some p) (nxt c0))).
  { rewrite A3. destruct (Nat.eqb_spec x p); [congruence|]. rewrite Nat.eqb_refl. auto. }
  assert (E2 : at_ m1 1 = Some c1).
  { rewrite A3. destruct (Nat.eqb_spec 1 p); [congruence|]. destruct (Nat.eqb_spec 1 x); [congruence|]. auto. }
  destruct (@set_next_ok m1 x 1 _ _ Nx1 E1 E2) as (m2 & B1 & B2 & B3). exists m2. split; auto.
  assert (F : forall y, at_ m2 y = if Nat.eqb y 1 then Some (mkCell (Some x) (nxt c1)) else if Nat.eqb y x then Some (mkCell (Some p) (Some 1))
     else if Nat.eqb y p then Some (mkCell (bef cp) (Some x)) else at_ m y).
  { intros y. rewrite B3. destruct (Nat.eqb y 1); auto. destruct (Nat.eqb_spec y x) as [->|N]; auto.
    rewrite A3. destruct (Nat.eqb y p); auto. destruct (Nat.eqb_spec y x); [congruence|auto]. }
  split; [|split; [congruence|]].
  - destruct HR as (H1 & H2 & ND). apply chain_app in H1. destruct H1 as [H1 H1'].
    split; [|split].
    + rewrite <- app_assoc. apply chain_app. split.
      * apply chain_ext with m; auto.
        -- intros y Hy Ny c Hc. rewrite F. fold p in Ny.
           destruct (Nat.eqb_spec y 1) as [->|]; [exists (mkCell (Some x) (nxt c1)); split; auto; cbn; congruence|].
           destruct (Nat.eqb_spec y x) as [->|]; [exfalso; apply Nx; cbn in Hy |- *; tauto|].
           destruct (Nat.eqb_spec y p) as [->|]; [congruence|]. eauto.
        -- intros y Hy c Hc. rewrite F.
           destruct (Nat.eqb_spec y 1) as [->|].
           { exfalso. inversion ND as [|? ? A B]; subst. inversion B; subst. auto. }
           destruct (Nat.eqb_spec y x) as [->|]; [exfalso; apply Nx; cbn; tauto|].
           destruct (Nat.eqb_spec y p) as [->|]; [exists (mkCell (bef cp) (Some x)); split; auto; cbn; congruence|]. eauto.
        -- inversion ND as [|? ? A B]; subst. inversion B; subst. constructor; auto. intros Q. apply A. right. auto.
      * fold p. cbn [app chain]. split; [|split; [|exact I]].
        -- split; eexists; rewrite F.
           ++ destruct (Nat.eqb_spec p 1); [congruence|]. destruct (Nat.eqb_spec p x); [congruence|]. rewrite Nat.eqb_refl. split; reflexivity.
           ++ destruct (Nat.eqb_spec x 1); [congruence|]. rewrite Nat.eqb_refl. split; reflexivity.
        -- split; eexists; rewrite F.
           ++ destruct (Nat.eqb_spec x 1); [congruence|]. rewrite Nat.eqb_refl. split; reflexivity.
           ++ split; reflexivity.
    + apply link_ext with m; auto.
      * intros c Hc. rewrite F, Nat.eqb_refl. eexists. split; [reflexivity|]. cbn. congruence.
      * intros c Hc. rewrite F. destruct (Nat.eqb_spec 0 1) as [|_]; [congruence|].
        destruct (Nat.eqb_spec 0 x) as [<-|]; [exfalso; apply Nx; left; auto|].
        destruct (Nat.eqb_spec 0 p) as [<-|]; [|eauto]. eexists. split; [reflexivity|]. cbn. congruence.
    + change (0 :: 1 :: l ++ [x]) with ((0 :: 1 :: l) ++ [x]). apply NoDup_app_snoc; auto.
  - intros y Hy. rewrite F. cbn in Hy.
    destruct (Nat.eqb_spec y 1) as [->|]; [tauto|]. destruct (Nat.eqb_spec y x) as [->|]; [tauto|].
    destruct (Nat.eqb_spec y p) as [->|]; auto. exfalso. pose proof (lastof_in 0 l) as L. fold p in L. cbn in L. tauto.
Qed.

Lemma hd_snoc : forall (r : list nat) a, exists n k, r ++ [a] = n :: k /\ (r = [] -> n = a).
Proof. intros [|b r] a; cbn; [exists a, []|exists b, (r ++ [a])]; split; auto. discriminate. Qed.

Lemma NoDup_mid : forall (l1 l2 : list nat) x, NoDup (l1 ++ x :: l2) -> NoDup (l1 ++ l2) /\ ~ In x l1 /\ ~ In x l2.
Proof.
  intros l1 l2 x H. apply NoDup_remove in H. destruct H as [H1 H2]. split; auto. split; intros Q; apply H2; apply in_or_app; auto.
Qed.

(** Destroying. *)
Lemma destroy_ok : forall m l1 l2 x, ring m (l1 ++ x :: l2) ->
  exists m', destroy m x = Ok m' /\ ring m' (l1 ++ l2) /\ top m' = top m /\ at_ m' x = None /\
    (forall y, ~ In y (0 :: 1 :: l1 ++ x :: l2) -> at_ m' y = at_ m y) /\
    (forall a b, In a l2 -> In b l2 -> link m a b -> link m' a b).
Proof.
  intros m l1 l2 x (H1 & H2 & ND).
  assert (NDm : NoDup ((0 :: 1 :: l1) ++ x :: l2)) by exact ND.
  apply NoDup_mid in NDm. destruct NDm as (ND' & Nx1 & Nx2). change ((0 :: 1 :: l1) ++ l2) with (0 :: 1 :: l1 ++ l2) in ND'.
  assert (X0 : x <> 0) by (intros ->; apply Nx1; left; auto). assert (X1 : x <> 1) by (intros ->; apply Nx1; right; left; auto).
  assert (Xl : ~ In x l1) by (intros Q; apply Nx1; right; right; auto).
  set (p := lastof 0 l1).
  rewrite <- app_assoc in H1. cbn [app] in H1. destruct (hd_snoc l2 1) as (n & k & En & _). rewrite En in H1.
  apply chain_app in H1. destruct H1 as [C1 C2]. fold p in C2. cbn [chain] in C2. destruct C2 as (Lp & Ln & C3).
  assert (Pin : In p (0 :: l1)) by apply lastof_in.
  assert (Nin : In n (l2 ++ [1])) by (rewrite En; left; auto).
  assert (Disj : forall y, In y (0 :: l1) -> In y (l2 ++ [1]) -> False).
  { intros y A B. inversion ND' as [|? ? Q1 Q2]; subst. inversion Q2 as [|? ? Q3 Q4]; subst.
    apply in_app_or in B. destruct B as [B|[B|[]]].
    - destruct A as [<-|A]; [apply Q1; right; apply in_or_app; auto|].
      clear -Q4 A B. induction l1 as [|a l1 IH]; [destruct A|]. cbn in Q4. inversion Q4; subst.
      destruct A as [->|A]; [apply H1; apply in_or_app; auto|auto].
    - subst y. destruct A as [A|A]; [discriminate|]. apply Q3. apply in_or_app. auto. }
  assert (Npn : p <> n) by (intros E; apply (Disj p); [auto|rewrite E; auto]).
  assert (Npx : p <> x).
  { intros E. destruct Pin as [E'|E']; [congruence|]. apply Xl. rewrite <- E. auto. }
  assert (Nnx : n <> x).
  { intros E. apply in_app_or in Nin. destruct Nin as [Q|[Q|[]]]; [|congruence]. apply Nx2. rewrite <- E. auto. }
  unfold destroy, remove_from_list. rewrite (get_bef_link Lp). cbn [rb]. rewrite (get_nxt_link Ln). cbn [rb].
  destruct Lp as [(cp & P1 & P2) (cx & X2 & X3)]. destruct Ln as [(cx' & X4 & X5) (cn & N1 & N2)].
  rewrite X2 in X4. injection X4 as <-.
  destruct (@set_next_ok m p n cp cn Npn P1 N1) as (m1 & A1 & A2 & A3). rewrite A1. cbn [rb]. 
  exists (store m1 x None). split; [reflexivity|].
  assert (F : forall y, at_ (store m1 x None) y = if Nat.eqb y x then None else if Nat.eqb y n then Some (mkCell (Some p) (nxt cn))
     else if Nat.eqb y p then Some (mkCell (bef cp) (Some n)) else at_ m y).
  { intros y. rewrite at_store. destruct (Nat.eqb y x); auto. }
  assert (SN : forall y, y <> p -> y <> x -> same_nxt m (store m1 x None) y).
  { intros y Np Nx c Hc. rewrite F. destruct (Nat.eqb_spec y x); [congruence|].
    destruct (Nat.eqb_spec y n) as [->|]; [eexists; split; [reflexivity|]; cbn; congruence|].
    destruct (Nat.eqb_spec y p); [congruence|]. eauto. }
  assert (SB : forall y, y <> n -> y <> x -> same_bef m (store m1 x None) y).
  { intros y Nn Nx c Hc. rewrite F. destruct (Nat.eqb_spec y x); [congruence|].
    destruct (Nat.eqb_spec y n); [congruence|].
    destruct (Nat.eqb_spec y p) as [->|]; [eexists; split; [reflexivity|]; cbn; congruence|]. eauto. }
  assert (NDn : NoDup (n :: k)).
  { rewrite <- En. apply NoDup_app_snoc.
    - inversion ND' as [|? ? Q1 Q2]; subst. inversion Q2 as [|? ? Q3 Q4]; subst. clear -Q4. induction l1; auto. inversion Q4; auto.
    - intros Q. inversion ND' as [|? ? Q1 Q2]; subst. inversion Q2 as [|? ? Q3 Q4]; subst. apply Q3. apply in_or_app. auto. }
  split; [split; [|split]|split; [|split; [|split]]]; auto.
  - rewrite <- app_assoc. rewrite En. apply chain_app. fold p. split; [|split].
    + apply chain_ext with m; auto.
      * intros y Hy Ny. apply SN; auto. intros ->. destruct Hy as [Q|Q]; [congruence|auto].
      * intros y Hy. apply SB; [|intros ->; auto]. intros ->. apply (Disj n); [right; auto|auto].
      * inversion ND' as [|? ? Q1 Q2]; subst. inversion Q2 as [|? ? Q3 Q4]; subst. constructor.
        -- intros Q. apply Q1. right. apply in_or_app. auto.
        -- clear -Q4. induction l1; [constructor|]. cbn in Q4. inversion Q4; subst. constructor; auto.
           intros Q. apply H1. apply in_or_app. auto.
    + split; eexists; rewrite F.
      * destruct (Nat.eqb_spec p x); [congruence|]. destruct (Nat.eqb_spec p n); [congruence|]. rewrite Nat.eqb_refl. split; reflexivity.
      * destruct (Nat.eqb_spec n x); [congruence|]. rewrite Nat.eqb_refl. split; reflexivity.
    + apply chain_ext with m; auto.
      * intros y Hy Ny. rewrite <- En in Hy. apply SN.
        -- intros ->. apply (Disj p); auto.
        -- intros ->. apply in_app_or in Hy. destruct Hy as [Q|[Q|[]]]; [auto|congruence].
      * intros y Hy. apply SB.
        -- intros ->. inversion NDn; auto.
        -- intros ->. assert (Q : In x (n :: k)) by (right; auto). rewrite <- En in Q. apply in_app_or in Q. destruct Q as [Q|[Q|[]]]; [auto|congruence].
  - apply link_ext with m; auto.
    + apply SN; auto. intros E. apply (Disj 1); [rewrite <- E in Pin; exact Pin|]. apply in_or_app. right. left. auto.
    + apply SB; auto. intros E. apply (Disj 0); [left; auto|rewrite <- E in Nin; exact Nin].
  - rewrite F, Nat.eqb_refl. auto.
  - intros y Hy. rewrite F.
    destruct (Nat.eqb_spec y x) as [->|]; [exfalso; apply Hy; right; right; apply in_or_app; right; left; auto|].
    destruct (Nat.eqb_spec y n) as [->|].
    { exfalso. apply Hy. apply in_app_or in Nin. destruct Nin as [Q|[Q|[]]]; [|subst; right; left; auto].
      right; right. apply in_or_app. right. right. auto. }
    destruct (Nat.eqb_spec y p) as [->|]; auto.
    exfalso. apply Hy. destruct Pin as [Q|Q]; [left; auto|]. right; right. apply in_or_app. auto.
  - intros a b Ia Ib Lab. apply link_ext with m; auto.
    + apply SN; [|intros ->; auto]. intros ->. apply (Disj p); auto. apply in_or_app; auto.
    + apply SB; [|intros ->; auto]. intros ->. 
      (* the first of [l2] has [x] before it *)
      destruct Lab as [_ (c & E1 & E2)]. rewrite N1 in E1. injection E1 as <-. rewrite N2 in E2. injection E2 as ->. auto.
Qed.

(** Walks. *)
Lemma walk_ok : forall l m a fuel, chain m a (l ++ [1]) -> ~ In 1 l -> fuel > length l ->
  (n <- get_nxt m a ;; walk fuel m n) = Ok l.
Proof.
  induction l as [|b l IH]; intros m a fuel H N1 Hf; cbn [app chain] in H; destruct H as [HL HC].
  - rewrite (get_nxt_link HL). cbn [rb]. destruct fuel; [cbn in Hf; lia|]. reflexivity.
  - rewrite (get_nxt_link HL). cbn [rb]. destruct fuel as [|fuel]; [cbn in Hf; lia|]. cbn [walk].
    destruct (Nat.eqb_spec b 1) as [->|]; [exfalso; apply N1; left; auto|].
    cbn [length] in Hf. specialize (IH m b fuel HC). 
    assert (Q : (n <- get_nxt m b ;; walk fuel m n) = Ok l) by (apply IH; [intros Q; apply N1; right; auto|lia]).
    destruct (get_nxt m b) as [n'| |]; cbn [rb] in *; try discriminate. rewrite Q. reflexivity.
Qed.
Lemma walk_back_ok : forall l m b fuel, chain m 0 (l ++ [b]) -> ~ In 0 l -> fuel > length l ->
  walk_back fuel m b = Ok (rev l).
Proof.
  intros l. induction l as [|x l IH] using rev_ind; intros m b fuel H N0 Hf; destruct fuel as [|fuel]; try lia; cbn [walk_back].
  - cbn [app chain] in H. rewrite (get_bef_link (proj1 H)). reflexivity.
  - apply chain_app in H. rewrite lastof_snoc in H. destruct H as [H [HL _]]. rewrite (get_bef_link HL). cbn [rb].
    destruct (Nat.eqb_spec x 0) as [->|]; [exfalso; apply N0; apply in_or_app; right; left; auto|].
    rewrite app_length in Hf. cbn [length] in Hf. rewrite (IH m x fuel); auto; [|intros Q; apply N0; apply in_or_app; auto|lia].
    cbn [rb]. rewrite rev_app_distr. reflexivity.
Qed.

Lemma sweep_ok : forall p r k m fuel, ring m (k ++ r) -> fuel > length r ->
  exists m', sweep fuel m p (hd 1 r) = Ok (m', r) /\ ring m' (k ++ filter (fun x => negb (p x)) r) /\ top m' = top m /\
    (forall y, ~ In y (0 :: 1 :: k ++ r) -> at_ m' y = at_ m y) /\
    (forall y, In y r -> p y = true -> at_ m' y = None).
Proof.
  intros p. induction r as [|x r IH]; intros k m fuel HR Hf; (destruct fuel as [|fuel]; [lia|]); cbn [sweep hd].
  - exists m. split; [reflexivity|]. split; [exact HR|]. split; auto. split; [auto|]. intros y [].
  - assert (X1 : x <> 1).
    { intros ->. destruct HR as (_ & _ & ND). inversion ND as [|? ? Q1 Q2]; subst. inversion Q2 as [|? ? Q3 Q4]; subst.
      apply Q3. apply in_or_app. right. left. auto. }
    destruct (Nat.eqb_spec x 1); [congruence|].
    assert (HL : link m x (hd 1 r)).
    { destruct HR as (C & _ & _). rewrite <- app_assoc in C. apply chain_app in C. destruct C as [_ C]. cbn [app chain] in C.
      destruct C as [_ C]. destruct r; cbn [app chain hd] in *; tauto. }
    rewrite (get_nxt_link HL). cbn [rb length] in *. cbn [filter].
    destruct (p x) eqn:Px; cbn [negb].
    + destruct (destroy_ok HR) as (m1 & D1 & D2 & D3 & D4 & D5 & _). rewrite D1. cbn [rb].
      destruct (IH k m1 fuel D2) as (m2 & S1 & S2 & S3 & S4 & S5); [lia|]. rewrite S1. cbn [rb].
      exists m2. split; [reflexivity|]. split; auto. split; [congruence|]. split.
      * intros y Hy. rewrite S4, D5; auto. intros Q. apply Hy. cbn in Q |- *. rewrite in_app_iff in *. cbn. tauto.
      * intros y [<-|Hy] Py; auto. rewrite S4; auto.
        destruct HR as (_ & _ & ND). change (0 :: 1 :: k ++ x :: r) with ((0 :: 1 :: k) ++ x :: r) in ND. apply NoDup_remove_2 in ND. exact ND.
    + cbn [rb]. destruct (IH (k ++ [x]) m fuel) as (m2 & S1 & S2 & S3 & S4 & S5); [rewrite <- app_assoc; exact HR|lia|].
      rewrite S1. cbn [rb]. exists m2. split; [reflexivity|]. rewrite <- app_assoc in S2. split; auto. split; auto. split.
      * intros y Hy. apply S4. rewrite <- app_assoc. exact Hy.
      * intros y [<-|Hy] Py; [congruence|auto].
Qed.

(** Everything together. *)
Lemma rem_in : forall x y l, In y (rem x l) <-> In y l /\ y <> x.
Proof.
  intros. unfold rem. rewrite filter_In. destruct (Nat.eqb_spec y x); cbn; intuition congruence.
Qed.
Lemma rem_mid : forall l1 l2 x, ~ In x l1 -> ~ In x l2 -> rem x (l1 ++ x :: l2) = l1 ++ l2.
Proof.
  intros l1 l2 x H1 H2. unfold rem. rewrite filter_app. cbn [filter]. rewrite Nat.eqb_refl. cbn [negb].
  assert (K : forall l, ~ In x l -> filter (fun y => negb (Nat.eqb y x)) l = l).
  { induction l as [|a l IH]; intros N; auto. cbn [filter]. destruct (Nat.eqb_spec a x) as [->|]; [exfalso; apply N; left; auto|].
    cbn [negb]. rewrite IH; auto. intros Q; apply N; right; auto. }
  rewrite !K; auto.
Qed.

Lemma li0 : LI list0 lst0.
Proof.
  split; [split; [|split]|split; [|split; [|split; [|split; [|split]]]]]; cbn [inl outl fresh lst0].
  - cbn. split; [|exact I]. split; eexists; split; reflexivity.
  - split; eexists; split; reflexivity.
  - repeat constructor; cbn; intuition discriminate.
  - reflexivity.
  - constructor.
  - intros x [].
  - intros x [[]|[]].
  - lia.
  - intros [|[|x]] H _ _; try lia. reflexivity.
Qed.

Lemma nth_length_incl : forall (l : list nat) n, NoDup l -> (forall x, In x l -> x < n) -> length l <= n.
Proof.
  intros l n ND H. rewrite <- (seq_length n 0). apply NoDup_incl_length; auto. intros x Hx. apply in_seq. specialize (H x Hx). lia.
Qed.

Lemma op_ok : forall m s o fuel, LI m s -> llegal s o -> fuel >= fresh s ->
  exists m', l_op fuel m o = Ok (m', snd (ls_op s o)) /\ LI m' (fst (ls_op s o)).
Proof.
  intros m s o fuel HI HL Hf. assert (HI0 := HI). destruct HI as (HR & HT & ND & HO & HB & H2 & HN).
  assert (Hlen : length (inl s) < fuel).
  { destruct HR as (_ & _ & ND'). inversion ND' as [|? ? Q1 Q2]; subst.
    assert (length (1 :: inl s) <= fresh s); [|cbn [length] in *; lia].
    apply nth_length_incl; auto. intros x [<-|Hx]; [lia|]. apply HB. auto. }
  destruct o as [|x|x| | |p]; cbn [l_op ls_op llegal fst snd] in *.
  - (* new *)
    cbn [new_elem]. rewrite HT. eexists. split; [reflexivity|].
    assert (F : forall y, at_ (mkMem (at_ (store m (fresh s) (Some (mkCell None None)))) (S (fresh s))) y =
                 if Nat.eqb y (fresh s) then Some (mkCell None None) else at_ m y) by reflexivity.
    set (m' := mkMem _ _) in *.
    assert (Out : ~ In (fresh s) (inl s) /\ ~ In (fresh s) (outl s)) by (split; intros Q; assert (2 <= fresh s < fresh s) by (apply HB; auto); lia).
    split; [|split; [|split; [|split; [|split; [|split]]]]]; cbn [inl outl fresh].
    + destruct HR as (C & L & NDr).
      assert (SN : forall y, y <> fresh s -> same_nxt m m' y).
      { intros y Ny c Hc. rewrite F. destruct (Nat.eqb_spec y (fresh s)); [congruence|eauto]. }
      assert (SB : forall y, y <> fresh s -> same_bef m m' y).
      { intros y Ny c Hc. rewrite F. destruct (Nat.eqb_spec y (fresh s)); [congruence|eauto]. }
      assert (K : forall y, In y (0 :: inl s ++ [1]) -> y <> fresh s).
      { intros y Q E. subst y. destruct Q as [Q|Q]; [lia|]. apply in_app_or in Q. destruct Q as [Q|[Q|[]]]; [tauto|lia]. }
      split; [|split]; auto.
      * apply chain_ext with m; auto.
        -- intros y Hy. apply SB. apply K. right; auto.
        -- constructor.
           ++ inversion NDr as [|? ? Q1 Q2]; subst. intros Q. apply Q1. apply in_app_or in Q. destruct Q as [Q|[Q|[]]]; [right; auto|discriminate].
           ++ inversion NDr as [|? ? Q1 Q2]; subst. inversion Q2; subst. apply NoDup_app_snoc; auto.
      * apply link_ext with m; auto; [apply SN|apply SB]; lia.
    + reflexivity.
    + constructor; tauto.
    + intros y [<-|Hy]; rewrite F; [rewrite Nat.eqb_refl; auto|]. destruct (Nat.eqb_spec y (fresh s)); auto.
    + intros y [Hy|[<-|Hy]]; try lia; assert (2 <= y < fresh s) by (apply HB; auto); lia.
    + lia.
    + intros y Hy N1 N2. rewrite F. destruct (Nat.eqb_spec y (fresh s)) as [->|]; [exfalso; apply N2; left; auto|].
      apply HN; auto. intros Q; apply N2; right; auto.
  - (* add *)
    pose proof (HO _ HL) as Hx. pose proof (ring_out HR Hx) as Nx.
    destruct (add_ok HR Hx Nx) as (m' & A1 & A2 & A3 & A4). exists m'. rewrite A1. cbn [rb]. split; auto.
    split; [|split; [|split; [|split; [|split; [|split]]]]]; cbn [inl outl fresh]; auto.
    + congruence.
    + apply NoDup_filter; auto.
    + intros y Hy. apply rem_in in Hy. destruct Hy as [Hy Ny]. rewrite A4; auto.
      pose proof (ring_out HR (HO _ Hy)) as Q. cbn in Q |- *. intuition congruence.
    + intros y [Hy|Hy].
      * apply in_app_or in Hy. destruct Hy as [Hy|[<-|[]]]; auto.
      * apply rem_in in Hy. apply HB. tauto.
    + intros y Hy N1 N2. rewrite rem_in in N2. rewrite in_app_iff in N1. cbn in N1.
      destruct (Nat.eq_dec y x) as [->|Ny]; [tauto|]. rewrite A4; [apply HN; tauto|]. cbn. intuition lia.
  - (* destroy *)
    apply in_split in HL. destruct HL as (l1 & l2 & E). rewrite E in HR. assert (HR' := HR).
    destruct (destroy_ok HR) as (m' & A1 & A2 & A3 & A4 & A5 & _). exists m'. rewrite A1. cbn [rb]. split; auto.
    assert (Nx : ~ In x l1 /\ ~ In x l2).
    { destruct HR' as (_ & _ & NDr). change (0 :: 1 :: l1 ++ x :: l2) with ((0 :: 1 :: l1) ++ x :: l2) in NDr.
      apply NoDup_mid in NDr. destruct NDr as (_ & Q1 & Q2). split; auto. intros Q. apply Q1. right; right; auto. }
    rewrite E in *. rewrite rem_mid by tauto.
    assert (Ox : ~ In x (outl s)).
    { intros Q. apply (ring_out HR' (HO _ Q)). right; right. apply in_or_app. right; left; auto. }
    split; [|split; [|split; [|split; [|split; [|split]]]]]; cbn [inl outl fresh]; auto.
    + congruence.
    + intros y Hy. rewrite A5; auto. apply (ring_out HR' (HO _ Hy)).
    + intros y [Hy|Hy]; apply HB; auto. left. apply in_app_or in Hy. apply in_or_app. cbn. tauto.
    + intros y Hy N1 N2. destruct (Nat.eq_dec y x) as [->|Ny]; auto. rewrite in_app_iff in N1.
      rewrite A5; [apply HN; auto; rewrite in_app_iff; cbn; intuition congruence|].
      cbn. rewrite in_app_iff. cbn. intuition (lia || congruence).
  - (* forward *)
    destruct HR as (C & L & NDr). exists m.
    assert (Q : (n <- get_nxt m 0 ;; walk fuel m n) = Ok (inl s)).
    { apply walk_ok; auto. inversion NDr as [|? ? Q1 Q2]; subst. inversion Q2; auto. }
    destruct (get_nxt m 0); cbn [rb] in *; try discriminate. rewrite Q. auto.
  - (* backward *)
    destruct HR as (C & L & NDr). exists m. rewrite (@walk_back_ok (inl s) m 1 fuel); auto.
    inversion NDr as [|? ? Q1 Q2]; subst. intros Q. apply Q1. right; auto.
  - (* sweep *)
    assert (HR' := HR). destruct (@sweep_ok p (inl s) [] m fuel HR Hlen) as (m' & A1 & A2 & A3 & A4 & A5).
    cbn [app] in A2, A4. exists m'.
    assert (G : get_nxt m 0 = Ok (hd 1 (inl s))).
    { destruct HR as (C & _). destruct (inl s); cbn [app chain hd] in *; apply get_nxt_link; tauto. }
    rewrite G. cbn [rb]. split; auto.
    split; [|split; [|split; [|split; [|split; [|split]]]]]; cbn [inl outl fresh]; auto.
    + congruence.
    + intros y Hy. rewrite A4; auto. apply (ring_out HR' (HO _ Hy)).
    + intros y [Hy|Hy]; apply HB; auto. apply filter_In in Hy. tauto.
    + intros y Hy N1 N2. rewrite filter_In in N1. destruct (in_dec Nat.eq_dec y (inl s)) as [I|I].
      * apply A5; auto. destruct (p y); auto.
      * rewrite A4; [apply HN; auto|]. cbn. intuition lia.
Qed.

Fixpoint mx (s : lst) (os : list lop) : nat := match os with [] => fresh s | o :: r => mx (fst (ls_op s o)) r end.
Lemma mx_ge : forall os s, fresh s <= mx s os.
Proof.
  induction os as [|o os IH]; intros s; cbn [mx]; auto. specialize (IH (fst (ls_op s o))).
  destruct o; cbn [ls_op fst fresh] in *; lia.
Qed.
Lemma mx_len : forall os s, mx s os <= fresh s + length os.
Proof.
  induction os as [|o os IH]; intros s; cbn [mx length]; [lia|]. specialize (IH (fst (ls_op s o))).
  destruct o; cbn [ls_op fst fresh] in *; lia.
Qed.

Lemma run_ok : forall os m s fuel, LI m s -> llegal_run s os -> fuel >= mx s os ->
  exists m', l_run fuel m os = Ok (m', snd (ls_run s os)) /\ LI m' (fst (ls_run s os)).
Proof.
  induction os as [|o os IH]; intros m s fuel HI HL Hf; cbn [l_run ls_run llegal_run mx] in *.
  - exists m. auto.
  - destruct HL as [H1 H2]. 
    assert (fresh s <= mx (fst (ls_op s o)) os) by (pose proof (mx_ge (o :: os) s); auto).
    destruct (op_ok (fuel := fuel) HI H1) as (m1 & A & B); [lia|]. rewrite A. cbn [rb].
    destruct (ls_op s o) as [s1 a] eqn:E. cbn [fst snd] in *. destruct (IH m1 s1 fuel B H2 Hf) as (m2 & C & D). rewrite C. cbn [rb].
    destruct (ls_run s1 os) as [s2 q]. exists m2. auto.
Qed.

Lemma list_history : forall os fuel, llegal_run lst0 os -> fuel >= length os + 2 ->
  exists m, l_run fuel list0 os = Ok (m, snd (ls_run lst0 os)) /\
    forall x, x >= 2 -> (at_ m x <> None <-> In x (inl (fst (ls_run lst0 os))) \/ In x (outl (fst (ls_run lst0 os)))).
Proof.
  intros os fuel HL Hf. pose proof (mx_len os lst0) as Q. cbn [fresh lst0] in Q.
  destruct (@run_ok os list0 lst0 fuel li0 HL) as (m & A & B); [lia|]. exists m. split; auto.
  set (s := fst (ls_run lst0 os)) in *. destruct B as (HR & HT & ND & HO & HB & H2 & HN). intros x Hx. split.
  - intros H. destruct (in_dec Nat.eq_dec x (inl s)); auto. destruct (in_dec Nat.eq_dec x (outl s)); auto. exfalso. auto.
  - intros [H|H].
    + destruct HR as (C & _ & _). clear -C H. 
      assert (K : forall l a, chain m a l -> In x l -> at_ m x <> None).
      { induction l as [|b l IH]; intros a Hc Hi; [destruct Hi|]. destruct Hc as [[_ (c & E1 & _)] Hc]. destruct Hi as [->|Hi]; [congruence|eauto]. }
      eapply K; [exact C|]. apply in_or_app; auto.
    + rewrite (HO _ H). discriminate.
Qed.

(** An element that was never added cannot be destroyed. *)
Lemma destroy_unlisted : forall os fuel m q x, llegal_run lst0 os -> fuel >= length os + 2 ->
  l_run fuel list0 os = Ok (m, q) -> In x (outl (fst (ls_run lst0 os))) -> l_op fuel m (LDel x) = Ub.
Proof.
  intros os fuel m q x HL Hf Hr Hx. pose proof (mx_len os lst0) as Q. cbn [fresh lst0] in Q.
  destruct (@run_ok os list0 lst0 fuel li0 HL) as (m' & A & B); [lia|]. rewrite Hr in A. injection A as -> ->.
  destruct B as (_ & _ & _ & HO & _). specialize (HO _ Hx). cbn [l_op]. unfold destroy, remove_from_list, get_bef, look. rewrite HO. reflexivity.
Qed.
