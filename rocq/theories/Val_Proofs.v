(** Proofs for C72 and C73. *)
From Verif Require Import Base.
From Verif Require Import Ref_Model Val_Model Val_Spec.
Local Open Scope nat_scope.

Lemma vupd_len : forall A (l : list A) n v, length (upd l n v) = length l.
Proof. induction l; intros [|n] v; cbn; auto. Qed.
Lemma vnth_upd : forall A (l : list A) n v i,
  nth_error (upd l n v) i = if Nat.eqb i n then (if Nat.ltb n (length l) then Some v else None) else nth_error l i.
Proof.
  induction l as [|a l IH]; intros n v i.
  - replace (upd [] n v) with (@nil A) by (destruct n; reflexivity). replace (Nat.ltb n (length (@nil A))) with false by (destruct n; reflexivity).
    destruct (Nat.eqb i n); destruct i; reflexivity.
  - destruct n as [|n], i as [|i]; cbn [upd nth_error]; try reflexivity. rewrite IH. reflexivity.
Qed.
Lemma vnth_lt : forall A (l : list A) n v, nth_error l n = Some v -> n < length l.
Proof. intros A l n v H. apply nth_error_Some. congruence. Qed.
Lemma vnth_some : forall A (l : list A) n, n < length l -> exists v, nth_error l n = Some v.
Proof. intros A l n H. destruct (nth_error l n) eqn:E; [eauto|]. apply nth_error_None in E. lia. Qed.
Lemma vnth_app : forall A (l : list A) v i,
  nth_error (l ++ [v]) i = if Nat.eqb i (length l) then Some v else nth_error l i.
Proof.
  intros. destruct (Nat.eqb_spec i (length l)) as [->|N].
  - rewrite nth_error_app2, Nat.sub_diag by lia. reflexivity.
  - destruct (Nat.lt_ge_cases i (length l)); [apply nth_error_app1; assumption|].
    rewrite (proj2 (nth_error_None _ _)) by (rewrite app_length; cbn; lia).
    rewrite (proj2 (nth_error_None _ _)) by lia. reflexivity.
Qed.

Lemma vupd_same : forall A (l : list A) n a, nth_error l n = Some a -> upd l n a = l.
Proof. induction l as [|b l IH]; intros [|n] a H; cbn in *; try congruence. rewrite IH by exact H. reflexivity. Qed.
Lemma vupd_upd : forall A (l : list A) n a b, upd (upd l n a) n b = upd l n b.
Proof. induction l as [|c l IH]; intros [|n] a b; cbn; try reflexivity. rewrite IH. reflexivity. Qed.

(** Chains of replaced data objects. *)
Inductive droot (d : list dcell) : nat -> nat -> Prop :=
| droot_here : forall a x, nth_error d a = Some x -> dfwd x = None -> droot d a a
| droot_next : forall a x b r, nth_error d a = Some x -> dfwd x = Some b -> droot d b r -> droot d a r.

Lemma droot_fun : forall d a r, droot d a r -> forall r', droot d a r' -> r = r'.
Proof.
  induction 1 as [a x E F|a x b r E F R IH]; intros r' H; inversion H as [? x' E' F'|? x' b' ? E' F' R']; subst; rewrite E in E'; injection E' as <-; try congruence.
  rewrite F in F'. injection F' as <-. auto.
Qed.
Lemma droot_end : forall d a r, droot d a r -> exists x, nth_error d r = Some x /\ dfwd x = None.
Proof. induction 1; eauto. Qed.
Lemma droot_self : forall d a r, droot d a r -> droot d r r.
Proof. intros d a r H. destruct (droot_end H) as (x & E & F). eapply droot_here; eauto. Qed.
Lemma follow_root : forall fuel d a r, follow fuel d a = Ok r -> droot d a r.
Proof.
  induction fuel as [|f IH]; intros d a r H; [discriminate|]. cbn in H.
  destruct (nth_error d a) as [x|] eqn:E; [|discriminate]. cbn in H. destruct (dfwd x) as [b|] eqn:F.
  - eapply droot_next; eauto.
  - injection H as <-. eapply droot_here; eauto.
Qed.
Lemma root_follow : forall d a r, droot d a r -> exists n, forall fuel, n < fuel -> follow fuel d a = Ok r.
Proof.
  induction 1 as [a x E F|a x b r E F R (n & IH)].
  - exists 0. intros [|f] L; [lia|]. cbn. rewrite E. cbn. rewrite F. reflexivity.
  - exists (S n). intros [|f] L; [lia|]. cbn. rewrite E. cbn. rewrite F. apply IH. lia.
Qed.

Record VWF (s : vstate) : Prop := mkVWF {
  w_zero : 0 < length (data s);
  w_val : forall x a, nth_error (vals s) x = Some a -> a < length (data s);
  w_fwd : forall a c b, nth_error (data s) a = Some c -> dfwd c = Some b -> b < length (data s);
  w_rank : exists rk : nat -> nat, forall a c b, nth_error (data s) a = Some c -> dfwd c = Some b -> rk b < rk a }.

Lemma wf_root : forall s, VWF s -> forall a, a < length (data s) -> exists r, droot (data s) a r.
Proof.
  intros s [_ _ WF (rk & R)] a L. remember (rk a) as n eqn:En. revert a L En.
  induction n as [n IH] using (well_founded_induction lt_wf). intros a L ->.
  destruct (vnth_some L) as (c & E). destruct (dfwd c) as [b|] eqn:F.
  - destruct (IH (rk b) (R _ _ _ E F) b (WF _ _ _ E F) eq_refl) as (r & H). exists r. eapply droot_next; eauto.
  - exists a. eapply droot_here; eauto.
Qed.
Lemma droot_lt : forall d a r, droot d a r -> r < length d.
Proof. intros d a r H. destruct (droot_end H) as (x & E & _). eapply vnth_lt; eauto. Qed.

(** A change that keeps all chains. *)
Lemma wf_vals : forall s v, VWF s -> (forall x a, nth_error v x = Some a -> a < length (data s)) -> VWF (mkVs (data s) v).
Proof. intros s v [Z V F R] H. constructor; cbn; auto. Qed.
Lemma wf_upd_val : forall s x r, VWF s -> r < length (data s) -> VWF (mkVs (data s) (upd (vals s) x r)).
Proof.
  intros s x r W L. apply wf_vals; [exact W|]. intros y a. rewrite vnth_upd.
  destruct (Nat.eqb y x); [destruct (Nat.ltb _ _); [injection 1 as <-; exact L|discriminate]|apply (w_val W)].
Qed.
Lemma wf_app : forall s k p v, VWF s ->
  (forall x a, nth_error v x = Some a -> a <= length (data s)) ->
  VWF (mkVs (data s ++ [mkD None k p]) v).
Proof.
  intros s k p v [Z V F (rk & R)] H. constructor; cbn [data vals].
  - rewrite app_length; cbn; lia.
  - intros x a E. apply H in E. rewrite app_length; cbn; lia.
  - intros a c b E G. rewrite vnth_app in E. destruct (Nat.eqb a (length (data s))); [injection E as <-; discriminate|].
    rewrite app_length. pose proof (F _ _ _ E G). lia.
  - exists rk. intros a c b E G. rewrite vnth_app in E. destruct (Nat.eqb a (length (data s))); [injection E as <-; discriminate|].
    eauto.
Qed.
Lemma wf_fresh : forall s k p, VWF s -> VWF (fresh s k p).
Proof.
  intros s k p W. apply wf_app; [exact W|]. intros x a E. rewrite vnth_app in E.
  destruct (Nat.eqb x (length (vals s))); [injection E as <-; lia|]. apply (w_val W) in E. lia.
Qed.
Lemma wf_set : forall s a c k p, VWF s -> nth_error (data s) a = Some c ->
  VWF (mkVs (upd (data s) a (mkD (dfwd c) k p)) (vals s)).
Proof.
  intros s a c k p [Z V F (rk & R)] E. constructor; cbn [data vals].
  - rewrite vupd_len; exact Z.
  - intros x y G. rewrite vupd_len. eauto.
  - intros y c' b G H. rewrite vupd_len. rewrite vnth_upd in G. destruct (Nat.eqb_spec y a) as [->|N]; [|eauto].
    destruct (Nat.ltb _ _); [|discriminate]. injection G as <-. eauto.
  - exists rk. intros y c' b G H. rewrite vnth_upd in G. destruct (Nat.eqb_spec y a) as [->|N]; [|eauto].
    destruct (Nat.ltb _ _); [|discriminate]. injection G as <-. eauto.
Qed.

Lemma replace_ok : forall d a p, a < length d -> exists c, nth_error d a = Some c /\
  replace_data d a p = Ok (upd d a (mkD (if Nat.eqb p a then None else Some p) (dk c) (dnode c))).
Proof. intros d a p L. destruct (vnth_some L) as (c & E). exists c. unfold replace_data. rewrite E. auto. Qed.

Lemma wf_replace : forall s a p c k z, VWF s -> nth_error (data s) a = Some c -> droot (data s) p p ->
  VWF (mkVs (upd (data s) a (mkD (if Nat.eqb p a then None else Some p) k z)) (vals s)).
Proof.
  intros s a p c k z [Z V F (rk & R)] E D. pose proof (droot_lt D) as Lp.
  destruct (droot_end D) as (cp & Ep & Fp).
  constructor; cbn [data vals].
  - rewrite vupd_len; exact Z.
  - intros x y G. rewrite vupd_len. eauto.
  - intros y c' b G H. rewrite vupd_len. rewrite vnth_upd in G. destruct (Nat.eqb_spec y a) as [->|N]; [|eauto].
    destruct (Nat.ltb _ _); [|discriminate]. injection G as <-. cbn in H. destruct (Nat.eqb p a); [discriminate|].
    injection H as <-. exact Lp.
  - exists (fun q => if Nat.eqb q p then 0 else S (rk q)). intros y c' b G H. rewrite vnth_upd in G.
    destruct (Nat.eqb_spec y a) as [->|N].
    + destruct (Nat.ltb _ _); [|discriminate]. injection G as <-. cbn in H.
      destruct (Nat.eqb_spec p a) as [->|N]; [discriminate|]. injection H as <-.
      rewrite Nat.eqb_refl. destruct (Nat.eqb_spec a p); [congruence|lia].
    + destruct (Nat.eqb_spec y p) as [->|N2]; [rewrite Ep in G; injection G as <-; congruence|].
      destruct (Nat.eqb b p); [lia|]. pose proof (R _ _ _ G H). lia.
Qed.

Definition in_scope (n : nat) (o : vop) : Prop :=
  match o with
  | VNew | VNull | VConst _ => True
  | VCopy x | VSet x _ | VGet x | VUnRef x => x < n
  | VRefTo x y | VReRef x y | VShift x y => x < n /\ y < n
  end.

Lemma look_ok : forall s x, VWF s -> x < length (vals s) ->
  exists a r c n, nth_error (vals s) x = Some a /\ droot (data s) a r /\ nth_error (data s) r = Some c /\ dfwd c = None /\
    (forall fuel, n < fuel -> look fuel s x = Ok (mkVs (data s) (upd (vals s) x r), r)) /\
    (forall fuel, n < fuel -> look_copy fuel s x = Ok r) /\ VWF (mkVs (data s) (upd (vals s) x r)).
Proof.
  intros s x W L. destruct (vnth_some L) as (a & E). pose proof (w_val W E) as La.
  destruct (wf_root W La) as (r & D). destruct (droot_end D) as (c & Er & Fr). destruct (root_follow D) as (n & Hn).
  exists a, r, c, n. refine (conj E (conj D (conj Er (conj Fr (conj _ (conj _ _)))))).
  - intros fuel Lf. unfold look. rewrite E. cbn [vmust vthen]. rewrite Hn by exact Lf. reflexivity.
  - intros fuel Lf. unfold look_copy. rewrite E. cbn [vmust vthen]. apply Hn, Lf.
  - apply wf_upd_val; [exact W|]. eapply vnth_lt; eauto.
Qed.

Lemma step_safe : forall s o, VWF s -> in_scope (length (vals s)) o ->
  exists s' b n, (forall fuel, n < fuel -> vstep fuel s o = Ok (s', b)) /\ VWF s' /\ length (vals s') = vmade (length (vals s)) o.
Proof.
  intros s o W I. destruct o as [| |p|x|x p|x|x y|x|x y|x y]; cbn [in_scope] in I.
  - eexists _, _, 0. refine (conj (fun _ _ => eq_refl) (conj (wf_fresh _ _ W) _)). cbn. rewrite app_length. cbn. lia.
  - eexists _, _, 0. refine (conj (fun _ _ => eq_refl) (conj _ _)); [|cbn; rewrite app_length; cbn; lia].
    apply wf_vals; [exact W|]. intros x a E. rewrite vnth_app in E.
    destruct (Nat.eqb x (length (vals s))); [injection E as <-; apply (w_zero W)|apply (w_val W E)].
  - eexists _, _, 0. refine (conj (fun _ _ => eq_refl) (conj (wf_fresh _ _ W) _)). cbn. rewrite app_length. cbn. lia.
  - destruct (vnth_some I) as (a & E). eexists _, _, 0. cbn [vstep]. rewrite E. cbn [vmust vthen].
    refine (conj (fun _ _ => eq_refl) (conj _ _)); [|cbn; rewrite app_length; cbn; lia].
    apply wf_vals; [exact W|]. intros z b G. rewrite vnth_app in G.
    destruct (Nat.eqb z (length (vals s))); [injection G as <-; apply (w_val W E)|apply (w_val W G)].
  - destruct (look_ok W I) as (a & r & c & n & E & D & Er & Fr & H1 & _ & W1).
    eexists _, _, n. cbn [vstep]. refine (conj _ (conj _ _)).
    + intros fuel L. rewrite H1 by exact L. cbn [vthen data vals]. rewrite Er. cbn [vmust vthen]. reflexivity.
    + destruct (dk c) eqn:K.
      1,2: replace c with (mkD (dfwd c) (dk c) (dnode c)) by (destruct c; reflexivity); apply (@wf_set (mkVs (data s) (upd (vals s) x r))); assumption.
      apply (@wf_set (mkVs (data s) (upd (vals s) x r))); assumption.
    + cbn. apply vupd_len.
  - destruct (look_ok W I) as (a & r & c & n & E & D & Er & Fr & H1 & _ & W1).
    eexists _, _, n. cbn [vstep]. refine (conj _ (conj _ _)).
    + intros fuel L. rewrite H1 by exact L. cbn [vthen data vals]. rewrite Er. cbn [vmust vthen]. reflexivity.
    + exact W1.
    + cbn. apply vupd_len.
  - destruct I as (Ix & Iy). destruct (look_ok W Iy) as (b & p & c & n & E & D & Er & Fr & _ & H2 & W1).
    destruct (vnth_some Ix) as (a & Ea). destruct (replace_ok p (w_val W Ea)) as (ca & Ca & HR).
    eexists _, _, n. cbn [vstep]. refine (conj _ (conj _ _)).
    + intros fuel L. rewrite Ea. cbn [vmust vthen]. rewrite H2 by exact L. cbn [vthen]. rewrite HR. cbn [vthen]. reflexivity.
    + pose proof (wf_replace (dk ca) (dnode ca) W Ca (droot_self D)) as W2.
      apply (wf_upd_val x W2). cbn [data]. rewrite vupd_len. eapply droot_lt; eauto.
    + cbn. apply vupd_len.
  - destruct (look_ok W I) as (a & r & c & n & E & D & Er & Fr & H1 & _ & W1).
    assert (HH : exists s', (forall fuel, n < fuel -> vstep fuel s (VUnRef x) = Ok (s', VNothing)) /\ VWF s' /\ length (vals s') = length (vals s)).
    { cbn [vstep]. destruct (dk c) eqn:K.
      - eexists. refine (conj _ (conj W1 _)); [|cbn; apply vupd_len].
        intros fuel L. rewrite H1 by exact L. cbn [vthen data vals]. rewrite Er. cbn [vmust vthen]. rewrite K. reflexivity.
      - eexists (mkVs (data s ++ [mkD None KConst (dnode c)]) (upd (upd (vals s) x r) x (length (data s)))).
        refine (conj _ (conj _ _)); [|apply wf_app; [exact W|]|cbn; rewrite !vupd_len; reflexivity].
        + intros fuel L. rewrite H1 by exact L. cbn [vthen data vals]. rewrite Er. cbn [vmust vthen]. rewrite K. reflexivity.
        + intros z b G. rewrite vnth_upd in G. destruct (Nat.eqb z x).
          * destruct (Nat.ltb _ _); [injection G as <-; lia|discriminate].
          * apply (w_val W1) in G. cbn in G. lia.
      - eexists (mkVs (data s ++ [mkD None KVar (dnode c)]) (upd (upd (vals s) x r) x (length (data s)))).
        refine (conj _ (conj _ _)); [|apply wf_app; [exact W|]|cbn; rewrite !vupd_len; reflexivity].
        + intros fuel L. rewrite H1 by exact L. cbn [vthen data vals]. rewrite Er. cbn [vmust vthen]. rewrite K. reflexivity.
        + intros z b G. rewrite vnth_upd in G. destruct (Nat.eqb z x).
          * destruct (Nat.ltb _ _); [injection G as <-; lia|discriminate].
          * apply (w_val W1) in G. cbn in G. lia. }
    destruct HH as (s' & A & B & C). exists s', VNothing, n. auto.
  - destruct I as (Ix & Iy). destruct (look_ok W Iy) as (b & p & c & n & E & D & Er & Fr & _ & H2 & W1).
    destruct (vnth_some Ix) as (a & Ea).
    eexists _, _, n. cbn [vstep]. refine (conj _ (conj _ _)).
    + intros fuel L. rewrite Ea. cbn [vmust vthen]. rewrite H2 by exact L. cbn [vthen]. reflexivity.
    + apply wf_upd_val; [exact W|]. eapply droot_lt; eauto.
    + cbn. apply vupd_len.
  - destruct I as (Ix & Iy). destruct (look_ok W Ix) as (b & p & c & n & E & D & Er & Fr & _ & H2 & W1).
    destruct (vnth_some Iy) as (a & Ea). destruct (replace_ok p (w_val W Ea)) as (ca & Ca & HR).
    eexists _, _, n. cbn [vstep]. refine (conj _ (conj _ _)).
    + intros fuel L. rewrite Ea. cbn [vmust vthen]. rewrite H2 by exact L. cbn [vthen]. rewrite HR. cbn [vthen]. reflexivity.
    + apply (wf_replace (dk ca) (dnode ca) W Ca (droot_self D)).
    + reflexivity.
Qed.

Record VRel (s : vstate) (w : vworld) (F : list nat) (m : nat -> nat) : Prop := mkVRel {
  q_len : length (vals s) = length (vdenotes w);
  q_den : forall x t, nth_error (vdenotes w) x = Some t -> t < length (vthings w);
  q_val : forall x t a, nth_error (vdenotes w) x = Some t -> nth_error (vals s) x = Some a -> droot (data s) a (m t);
  q_con : forall t k p, nth_error (vthings w) t = Some (k, p) ->
          exists c, nth_error (data s) (m t) = Some c /\ dk c = k /\
            match k with KNull => m t = 0 /\ p = 0%Z | _ => m t <> 0 /\ dnode c = p end;
  q_inj : forall t t', t < length (vthings w) -> t' < length (vthings w) -> m t = m t' -> m t <> 0 -> t = t';
  q_zero : exists c, nth_error (data s) 0 = Some c /\ dfwd c = None;
  q_use : forall x a, In x F -> nth_error (vals s) x = Some a -> droot (data s) a a }.

Lemma vthing_inv : forall w x t k p, vthing w x = Some (t, k, p) ->
  nth_error (vdenotes w) x = Some t /\ nth_error (vthings w) t = Some (k, p).
Proof.
  unfold vthing. intros w x t k p. destruct (nth_error (vdenotes w) x) as [t'|]; [|discriminate].
  destruct (nth_error (vthings w) t') as [[k' p']|] eqn:E; [|discriminate]. injection 1 as -> -> ->. auto.
Qed.
Lemma vthing_scope : forall s w F m x t k p, VRel s w F m -> vthing w x = Some (t, k, p) -> x < length (vals s).
Proof. intros s w F m x t k p R H. rewrite (q_len R). destruct (vthing_inv H) as (E & _). eapply vnth_lt; eauto. Qed.

(** Chains after appending an object and after changing the contents of one. *)
Lemma droot_app : forall d c a r, droot d a r -> droot (d ++ [c]) a r.
Proof.
  induction 1 as [a x E F|a x b r E F R IH].
  - eapply droot_here; [|exact F]. rewrite nth_error_app1 by (eapply vnth_lt; eauto). exact E.
  - eapply droot_next; [|exact F|exact IH]. rewrite nth_error_app1 by (eapply vnth_lt; eauto). exact E.
Qed.
Lemma droot_new : forall d k p, droot (d ++ [mkD None k p]) (length d) (length d).
Proof. intros. eapply droot_here; [rewrite vnth_app, Nat.eqb_refl; reflexivity|reflexivity]. Qed.
Lemma droot_set : forall d q c k p a r, nth_error d q = Some c -> droot d a r -> droot (upd d q (mkD (dfwd c) k p)) a r.
Proof.
  intros d q c k p a r Eq H. induction H as [a x E F|a x b r E F R IH].
  - destruct (Nat.eqb_spec a q) as [->|N].
    + eapply droot_here; [rewrite vnth_upd, Nat.eqb_refl, (proj2 (Nat.ltb_lt _ _)) by (eapply vnth_lt; eauto); reflexivity|]. cbn. congruence.
    + eapply droot_here; [rewrite vnth_upd, (proj2 (Nat.eqb_neq _ _) N); exact E|exact F].
  - destruct (Nat.eqb_spec a q) as [->|N].
    + eapply droot_next with (b := b); [rewrite vnth_upd, Nat.eqb_refl, (proj2 (Nat.ltb_lt _ _)) by (eapply vnth_lt; eauto); reflexivity| |exact IH]. cbn. congruence.
    + eapply droot_next; [rewrite vnth_upd, (proj2 (Nat.eqb_neq _ _) N); exact E|exact F|exact IH].
Qed.
(** Chains after the end [q] of some of them was replaced by [p]. *)
Lemma droot_replace : forall d q p k z a r, droot d q q -> droot d p p -> p <> q -> droot d a r ->
  droot (upd d q (mkD (Some p) k z)) a (if Nat.eqb r q then p else r).
Proof.
  intros d q p k z a r Dq Dp N H.
  assert (P : droot (upd d q (mkD (Some p) k z)) p p).
  { destruct (droot_end Dp) as (cp & Ep & Fp). eapply droot_here; [|exact Fp].
    rewrite vnth_upd, (proj2 (Nat.eqb_neq _ _) N). exact Ep. }
  induction H as [a x E F|a x b r E F R IH].
  - destruct (Nat.eqb_spec a q) as [->|M].
    + eapply droot_next; [rewrite vnth_upd, Nat.eqb_refl, (proj2 (Nat.ltb_lt _ _)) by (eapply vnth_lt; eauto); reflexivity|reflexivity|exact P].
    + eapply droot_here; [rewrite vnth_upd, (proj2 (Nat.eqb_neq _ _) M); exact E|exact F].
  - assert (M : a <> q).
    { intros ->. destruct (droot_end Dq) as (cq & Eq & Fq). rewrite E in Eq. injection Eq as <-. congruence. }
    eapply droot_next; [rewrite vnth_upd, (proj2 (Nat.eqb_neq _ _) M); exact E|exact F|exact IH].
Qed.

Lemma look_run : forall fuel s x s' r, look fuel s x = Ok (s', r) ->
  exists a, nth_error (vals s) x = Some a /\ droot (data s) a r /\ s' = mkVs (data s) (upd (vals s) x r).
Proof.
  intros fuel s x s' r H. unfold look in H. destruct (nth_error (vals s) x) as [a|]; [|discriminate]. cbn [vmust vthen] in H.
  destruct (follow fuel (data s) a) as [r'| |] eqn:E; [|discriminate..]. cbn [vthen] in H. injection H as <- <-.
  exists a. refine (conj eq_refl (conj _ eq_refl)). eapply follow_root; eauto.
Qed.
Lemma look_copy_run : forall fuel s x r, look_copy fuel s x = Ok r ->
  exists a, nth_error (vals s) x = Some a /\ droot (data s) a r.
Proof.
  intros fuel s x r H. unfold look_copy in H. destruct (nth_error (vals s) x) as [a|]; [|discriminate]. cbn [vmust vthen] in H.
  exists a. split; [reflexivity|]. eapply follow_root; eauto.
Qed.

Lemma rel_look : forall s w F m x t a r, VRel s w F m -> nth_error (vdenotes w) x = Some t ->
  nth_error (vals s) x = Some a -> droot (data s) a r -> r = m t /\
  VRel (mkVs (data s) (upd (vals s) x r)) w (x :: F) m.
Proof.
  intros s w F m x t a r R D E H. pose proof (q_val R D E) as H2. pose proof (droot_fun H H2) as ->. split; [reflexivity|].
  destruct R as [q1 q2 q3 q4 q5 q6 q7]. constructor; cbn [data vals]; auto.
  - rewrite vupd_len. exact q1.
  - intros y t' b D' E'. rewrite vnth_upd in E'. destruct (Nat.eqb_spec y x) as [->|N]; [|eauto].
    destruct (Nat.ltb _ _); [|discriminate]. injection E' as <-. rewrite D in D'. injection D' as <-. eapply droot_self; eauto.
  - intros y b I E'. rewrite vnth_upd in E'. destruct (Nat.eqb_spec y x) as [->|N].
    + destruct (Nat.ltb _ _); [|discriminate]. injection E' as <-. eapply droot_self; eauto.
    + destruct I as [->|I]; [contradiction|eauto].
Qed.

Lemma rel_less : forall s w F G m, VRel s w F m -> (forall x, In x G -> In x F) -> VRel s w G m.
Proof. intros s w F G m [q1 q2 q3 q4 q5 q6 q7] H. constructor; auto. eauto. Qed.

(** A new object and a new thing for it. *)
Lemma rel_new : forall s w F m k p v dn G, VRel s w F m -> k <> KNull ->
  length v = length dn ->
  (forall x t, nth_error dn x = Some t -> t = length (vthings w) /\ nth_error v x = Some (length (data s)) \/
      nth_error (vdenotes w) x = Some t /\ nth_error v x = nth_error (vals s) x) ->
  (forall x, In x G -> nth_error v x = Some (length (data s)) \/ In x F /\ nth_error v x = nth_error (vals s) x) ->
  exists m', VRel (mkVs (data s ++ [mkD None k p]) v) (mkVw (vthings w ++ [(k, p)]) dn) G m'.
Proof.
  intros s w F m k p v dn G [q1 q2 q3 q4 q5 q6 q7] Nk L HV HG.
  set (T := length (vthings w)) in *.
  exists (fun t => if Nat.eqb t T then length (data s) else m t).
  constructor; cbn [data vals vthings vdenotes].
  - exact L.
  - intros x t E. rewrite app_length. cbn. fold T. destruct (HV _ _ E) as [(-> & _)|(E' & _)]; [lia|]. specialize (q2 _ _ E'). lia.
  - intros x t a E Ev. destruct (HV _ _ E) as [(-> & Ev')|(E' & Ev')].
    + rewrite Nat.eqb_refl. rewrite Ev in Ev'. injection Ev' as ->. apply droot_new.
    + specialize (q2 _ _ E'). destruct (Nat.eqb_spec t T); [lia|]. rewrite Ev in Ev'. apply droot_app. eauto.
  - intros t k' p' E. rewrite vnth_app in E. fold T in E. destruct (Nat.eqb_spec t T) as [->|N].
    + injection E as <- <-. eexists. rewrite vnth_app, Nat.eqb_refl. refine (conj eq_refl (conj eq_refl _)).
      destruct q6 as (c0 & E0 & _). apply vnth_lt in E0. destruct k; [contradiction|split; [lia|reflexivity]..].
    + destruct (q4 _ _ _ E) as (c & Ec & K). exists c. rewrite nth_error_app1 by (eapply vnth_lt; eauto). auto.
  - intros t t' Lt Lt'. rewrite app_length in Lt, Lt'. cbn in Lt, Lt'. fold T in Lt, Lt'.
    assert (B : forall t, t < T -> m t < length (data s)).
    { intros u Lu. destruct (vnth_some Lu) as ((ku & pu) & Eu). destruct (q4 _ _ _ Eu) as (c & Ec & _). eapply vnth_lt; eauto. }
    destruct (Nat.eqb_spec t T), (Nat.eqb_spec t' T); intros E0 N0.
    + congruence.
    + specialize (B t'). lia.
    + specialize (B t). lia.
    + apply q5; auto; lia.
  - destruct q6 as (c & E & Fc). exists c. rewrite nth_error_app1 by (eapply vnth_lt; eauto). auto.
  - intros x a I E. destruct (HG _ I) as [E'|(I' & E')].
    + rewrite E in E'. injection E' as ->. apply droot_new.
    + rewrite E in E'. apply droot_app. eauto.
Qed.

(** A new null thing. *)
Lemma rel_null : forall s w F m v dn G, VRel s w F m ->
  length v = length dn ->
  (forall x t, nth_error dn x = Some t -> t = length (vthings w) /\ nth_error v x = Some 0 \/
      nth_error (vdenotes w) x = Some t /\ nth_error v x = nth_error (vals s) x) ->
  (forall x, In x G -> nth_error v x = Some 0 \/ In x F /\ nth_error v x = nth_error (vals s) x) ->
  (exists c, nth_error (data s) 0 = Some c /\ dk c = KNull) ->
  exists m', VRel (mkVs (data s) v) (mkVw (vthings w ++ [(KNull, 0%Z)]) dn) G m'.
Proof.
  intros s w F m v dn G [q1 q2 q3 q4 q5 q6 q7] L HV HG (c0 & E0 & K0).
  set (T := length (vthings w)) in *.
  assert (D0 : droot (data s) 0 0) by (destruct q6 as (c & E & Fc); exact (@droot_here _ _ _ E Fc)).
  exists (fun t => if Nat.eqb t T then 0 else m t).
  constructor; cbn [data vals vthings vdenotes]; auto.
  - intros x t E. rewrite app_length. cbn. fold T. destruct (HV _ _ E) as [(-> & _)|(E' & _)]; [lia|]. specialize (q2 _ _ E'). lia.
  - intros x t a E Ev. destruct (HV _ _ E) as [(-> & Ev')|(E' & Ev')].
    + rewrite Nat.eqb_refl. rewrite Ev in Ev'. injection Ev' as ->. exact D0.
    + specialize (q2 _ _ E'). destruct (Nat.eqb_spec t T); [lia|]. rewrite Ev in Ev'. eauto.
  - intros t k' p' E. rewrite vnth_app in E. fold T in E. destruct (Nat.eqb_spec t T) as [->|N].
    + injection E as <- <-. exists c0. auto.
    + eauto.
  - intros t t' Lt Lt'. rewrite app_length in Lt, Lt'. cbn in Lt, Lt'. fold T in Lt, Lt'.
    destruct (Nat.eqb_spec t T), (Nat.eqb_spec t' T); intros EE NN; try congruence. apply q5; auto; lia.
  - intros x a I E. destruct (HG _ I) as [E'|(I' & E')].
    + rewrite E in E'. injection E' as ->. exact D0.
    + rewrite E in E'. eauto.
Qed.

(** Redirecting the thing [t] to [u]. *)
Lemma rel_redirect : forall s w F m x y t k z u ky zy c v G, VRel s w F m ->
  vthing w x = Some (t, k, z) -> vthing w y = Some (u, ky, zy) -> k <> KNull ->
  nth_error (data s) (m t) = Some c -> dfwd c = None ->
  length v = length (vals s) ->
  (forall i a, nth_error v i = Some a -> nth_error (vals s) i = Some a \/ (i = x /\ a = m u)) ->
  (forall i, In i G -> nth_error v i = Some (m u)) ->
  VRel (mkVs (upd (data s) (m t) (mkD (if Nat.eqb (m u) (m t) then None else Some (m u)) (dk c) (dnode c))) v)
       (mkVw (vthings w) (vredirect t u (vdenotes w))) G m.
Proof.
  intros s w F m x y t k z u ky zy c v G R Ht Hu Nk Ec Fc L HV HG.
  pose proof R as [q1 q2 q3 q4 q5 q6 q7].
  destruct (vthing_inv Ht) as (Dt & Tt). destruct (vthing_inv Hu) as (Du & Tu).
  assert (Mt : m t <> 0). { destruct (q4 _ _ _ Tt) as (c' & _ & _ & X). destruct k; [contradiction|apply X..]. }
  assert (Lt : t < length (vthings w)) by eauto. assert (Lu : u < length (vthings w)) by eauto.
  assert (Ru : droot (data s) (m u) (m u)).
  { assert (Ly : y < length (vals s)) by (rewrite q1; eapply vnth_lt; eauto).
    destruct (vnth_some Ly) as (ay & Ey). eapply droot_self, q3; eauto. }
  assert (Rt : droot (data s) (m t) (m t)) by (eapply droot_here; eauto).
  destruct (Nat.eqb_spec (m u) (m t)) as [E|N].
  { (* the same thing *)
    assert (u = t) by (symmetry; apply q5; auto). subst u.
    assert (EQ : upd (data s) (m t) (mkD None (dk c) (dnode c)) = data s).
    { replace (mkD None (dk c) (dnode c)) with c by (destruct c; cbn in *; congruence).
      apply vupd_same, Ec. }
    rewrite EQ.
    assert (ED : vredirect t t (vdenotes w) = vdenotes w).
    { unfold vredirect. rewrite <- (map_id (vdenotes w)) at 2. apply map_ext. intros i. destruct (Nat.eqb_spec i t); congruence. }
    rewrite ED. constructor; cbn [data vals vthings vdenotes]; auto.
    - congruence.
    - intros i t' a Di Ei. destruct (HV _ _ Ei) as [Ei'|(-> & ->)]; [eauto|]. rewrite Dt in Di. injection Di as <-. exact Rt.
    - intros i a I Ei. rewrite (HG _ I) in Ei. injection Ei as <-. exact Rt. }
  assert (DR : forall a r, droot (data s) a r -> droot (upd (data s) (m t) (mkD (Some (m u)) (dk c) (dnode c))) a (if Nat.eqb r (m t) then m u else r)).
  { intros a r. apply droot_replace; auto. }
  assert (DU : droot (upd (data s) (m t) (mkD (Some (m u)) (dk c) (dnode c))) (m u) (m u)).
  { specialize (DR _ _ Ru). rewrite (proj2 (Nat.eqb_neq _ _) N) in DR. exact DR. }
  constructor; cbn [data vals vthings vdenotes]; auto.
  - unfold vredirect. rewrite map_length. congruence.
  - intros i t' E. unfold vredirect in E. rewrite nth_error_map in E. destruct (nth_error (vdenotes w) i) as [t0|] eqn:E0; [|discriminate].
    injection E as <-. destruct (Nat.eqb t0 t); eauto.
  - intros i t' a E Ei. unfold vredirect in E. rewrite nth_error_map in E. destruct (nth_error (vdenotes w) i) as [t0|] eqn:E0; [|discriminate].
    injection E as <-. destruct (HV _ _ Ei) as [Ei'|(-> & ->)].
    + pose proof (DR _ _ (q3 _ _ _ E0 Ei')) as D. destruct (Nat.eqb_spec t0 t) as [->|Nt].
      * rewrite Nat.eqb_refl in D. exact D.
      * destruct (Nat.eqb_spec (m t0) (m t)) as [Em|_]; [|exact D].
        exfalso. apply Nt. apply q5; [eauto|exact Lt|exact Em|congruence].
    + rewrite Dt in E0. injection E0 as <-. rewrite Nat.eqb_refl. exact DU.
  - intros t' k' p' E. destruct (q4 _ _ _ E) as (c' & Ec' & X).
    destruct (Nat.eqb_spec (m t') (m t)) as [Em|Nm].
    + rewrite Em in *. rewrite Ec in Ec'. injection Ec' as <-. eexists. rewrite vnth_upd, Nat.eqb_refl, (proj2 (Nat.ltb_lt _ _)) by (eapply vnth_lt; eauto).
      split; [reflexivity|]. exact X.
    + exists c'. rewrite vnth_upd, (proj2 (Nat.eqb_neq _ _) Nm). auto.
  - destruct q6 as (c0 & E0 & F0). exists c0. rewrite vnth_upd. destruct (Nat.eqb_spec 0 (m t)); [congruence|auto].
  - intros i a I Ei. rewrite (HG _ I) in Ei. injection Ei as <-. exact DU.
Qed.

Lemma existsb_in' : forall x F, existsb (Nat.eqb x) F = true -> In x F.
Proof. intros x F H. apply existsb_exists in H as (y & I & E). apply Nat.eqb_eq in E. subst. exact I. Qed.

Lemma nth_upd_cases : forall A (l : list A) n v i a, nth_error (upd l n v) i = Some a ->
  (i = n /\ a = v) \/ (i <> n /\ nth_error l i = Some a).
Proof.
  intros A l n v i a H. rewrite vnth_upd in H. destruct (Nat.eqb_spec i n); [left|right; auto].
  destruct (Nat.ltb _ _); [injection H as <-; auto|discriminate].
Qed.
Lemma nth_app_cases : forall A (l : list A) v i a, nth_error (l ++ [v]) i = Some a ->
  (i = length l /\ a = v) \/ (i < length l /\ nth_error l i = Some a).
Proof.
  intros A l v i a H. rewrite vnth_app in H. destruct (Nat.eqb_spec i (length l)); [left; injection H as <-; auto|right].
  split; [eapply vnth_lt; eauto|exact H].
Qed.

Definition null_zero (s : vstate) : Prop := exists c, nth_error (data s) 0 = Some c /\ dk c = KNull.

Lemma zero_step : forall fuel s o s' b, null_zero s -> vstep fuel s o = Ok (s', b) -> null_zero s'.
Proof.
  intros fuel s o s' b (c0 & E0 & K0) H.
  assert (A : forall k p v, null_zero (mkVs (data s ++ [mkD None k p]) v)).
  { intros k p v. exists c0. cbn [data]. rewrite nth_error_app1 by (eapply vnth_lt; eauto). auto. }
  assert (U : forall a c f p v, nth_error (data s) a = Some c -> null_zero (mkVs (upd (data s) a (mkD f (dk c) p)) v)).
  { intros a c f p v E. unfold null_zero. cbn [data]. rewrite vnth_upd. destruct (Nat.eqb_spec 0 a) as [<-|N]; [|eauto].
    rewrite (proj2 (Nat.ltb_lt _ _)) by (eapply vnth_lt; eauto). eexists. split; [reflexivity|]. cbn. congruence. }
  assert (V : forall v, null_zero (mkVs (data s) v)) by (intros v; exists c0; auto).
  destruct o as [| |p|x|x p|x|x y|x|x y|x y]; cbn [vstep] in H.
  - injection H as <- <-. apply A.
  - injection H as <- <-. apply V.
  - injection H as <- <-. apply A.
  - destruct (nth_error (vals s) x); [|discriminate]. injection H as <- <-. apply V.
  - destruct (look fuel s x) as [[s1 r]| |] eqn:L; [|discriminate..]. destruct (look_run L) as (a & _ & _ & ->). cbn [vthen data vals] in H.
    destruct (nth_error (data s) r) as [c|] eqn:E; [|discriminate]. cbn [vmust vthen] in H. injection H as <- <-.
    destruct (dk c) eqn:K; [replace c with (mkD (dfwd c) (dk c) (dnode c)) by (destruct c; reflexivity); apply U, E..|].
    rewrite <- K. apply U, E.
  - destruct (look fuel s x) as [[s1 r]| |] eqn:L; [|discriminate..]. destruct (look_run L) as (a & _ & _ & ->). cbn [vthen data vals] in H.
    destruct (nth_error (data s) r) as [c|] eqn:E; [|discriminate]. cbn [vmust vthen] in H. injection H as <- <-. apply V.
  - destruct (nth_error (vals s) x) as [a|]; [|discriminate]. cbn [vmust vthen] in H.
    destruct (look_copy fuel s y) as [p| |]; [|discriminate..]. cbn [vthen] in H. unfold replace_data in H.
    destruct (nth_error (data s) a) as [c|] eqn:E; [|discriminate]. cbn [vmust vthen] in H. injection H as <- <-. apply U, E.
  - destruct (look fuel s x) as [[s1 r]| |] eqn:L; [|discriminate..]. destruct (look_run L) as (a & _ & _ & ->). cbn [vthen data vals] in H.
    destruct (nth_error (data s) r) as [c|] eqn:E; [|discriminate]. cbn [vmust vthen] in H.
    destruct (dk c); injection H as <- <-; auto.
  - destruct (nth_error (vals s) x) as [a|]; [|discriminate]. cbn [vmust vthen] in H.
    destruct (look_copy fuel s y) as [p| |]; [|discriminate..]. cbn [vthen] in H. injection H as <- <-. apply V.
  - destruct (nth_error (vals s) y) as [a|]; [|discriminate]. cbn [vmust vthen] in H.
    destruct (look_copy fuel s x) as [p| |]; [|discriminate..]. cbn [vthen] in H. unfold replace_data in H.
    destruct (nth_error (data s) a) as [c|] eqn:E; [|discriminate]. cbn [vmust vthen] in H. injection H as <- <-. apply U, E.
Qed.

Lemma step_right : forall fuel s o s' b w w' b' F m, VRel s w F m -> null_zero s -> (forall x, In x F -> x < length (vals s)) ->
  vguard w F o = true -> vmeant w o = Some (w', b') -> vstep fuel s o = Ok (s', b) ->
  b = b' /\ exists m', VRel s' w' (vused (length (vdenotes w)) F o) m'.
Proof.
  intros fuel s o s' b w w' b' F m R Z0 FB G M H. pose proof (q_len R) as QL.
  destruct o as [| |p|x|x p|x|x y|x|x y|x y]; cbn [vmeant] in M; cbn [vstep] in H; cbn [vused].
  - (* value() *) injection M as <- <-. injection H as <- <-. split; [reflexivity|].
    apply (@rel_new s w F m KVar 0%Z); [exact R|discriminate|rewrite !app_length; cbn; lia| |].
    + intros x t E. destruct (nth_app_cases E) as [(-> & ->)|(L & E')].
      * left. split; [reflexivity|]. rewrite vnth_app, QL, Nat.eqb_refl. reflexivity.
      * right. split; [exact E'|]. rewrite nth_error_app1 by lia. reflexivity.
    + intros x [<-|I].
      * left. rewrite vnth_app, QL, Nat.eqb_refl. reflexivity.
      * right. split; [exact I|]. rewrite nth_error_app1 by auto. reflexivity.
  - (* null *) injection M as <- <-. injection H as <- <-. split; [reflexivity|].
    apply (@rel_null s w F m); [exact R|rewrite !app_length; cbn; lia| | |exact Z0].
    + intros x t E. destruct (nth_app_cases E) as [(-> & ->)|(L & E')].
      * left. split; [reflexivity|]. rewrite vnth_app, QL, Nat.eqb_refl. reflexivity.
      * right. split; [exact E'|]. rewrite nth_error_app1 by lia. reflexivity.
    + intros x [<-|I].
      * left. rewrite vnth_app, QL, Nat.eqb_refl. reflexivity.
      * right. split; [exact I|]. rewrite nth_error_app1 by auto. reflexivity.
  - (* constant *) injection M as <- <-. injection H as <- <-. split; [reflexivity|].
    apply (@rel_new s w F m KConst p); [exact R|discriminate|rewrite !app_length; cbn; lia| |].
    + intros x t E. destruct (nth_app_cases E) as [(-> & ->)|(L & E')].
      * left. split; [reflexivity|]. rewrite vnth_app, QL, Nat.eqb_refl. reflexivity.
      * right. split; [exact E'|]. rewrite nth_error_app1 by lia. reflexivity.
    + intros x [<-|I].
      * left. rewrite vnth_app, QL, Nat.eqb_refl. reflexivity.
      * right. split; [exact I|]. rewrite nth_error_app1 by auto. reflexivity.
  - (* copy *) destruct (vthing w x) as [[[t k] z]|] eqn:T; [|discriminate]. injection M as <- <-.
    destruct (vthing_inv T) as (D & _).
    destruct (nth_error (vals s) x) as [a|] eqn:E; [|discriminate]. injection H as <- <-. split; [reflexivity|]. exists m.
    destruct R as [q1 q2 q3 q4 q5 q6 q7]. constructor; cbn [data vals vthings vdenotes]; auto.
    + rewrite !app_length. cbn. lia.
    + intros i t' Ei. destruct (nth_app_cases Ei) as [(-> & ->)|(_ & Ei')]; eauto.
    + intros i t' a' Ei Ea. destruct (nth_app_cases Ei) as [(-> & ->)|(Li & Ei')].
      * rewrite <- QL, vnth_app, Nat.eqb_refl in Ea. injection Ea as <-. eauto.
      * rewrite nth_error_app1 in Ea by lia. eauto.
    + intros i a' I Ea. assert (CC : In i F \/ (i = length (vdenotes w) /\ In x F)).
      { destruct (existsb (Nat.eqb x) F) eqn:X; [|auto]. destruct I as [<-|I]; [right|auto]. split; [reflexivity|]. apply existsb_in', X. }
      destruct CC as [I'|(-> & I')].
      * rewrite nth_error_app1 in Ea by auto. eauto.
      * rewrite <- QL, vnth_app, Nat.eqb_refl in Ea. injection Ea as <-. eauto.
  - (* set *) destruct (vthing w x) as [[[t k] z]|] eqn:T; [|discriminate]. destruct (vthing_inv T) as (D & TT).
    destruct (look fuel s x) as [[s1 r]| |] eqn:L; [|discriminate..]. destruct (look_run L) as (a & Ea & Dr & ->).
    destruct (rel_look R D Ea Dr) as (-> & R1). cbn [vthen data vals] in H.
    destruct (q_con R TT) as (c & Ec & Kc & XX). rewrite Ec in H. cbn [vmust vthen] in H. injection H as <- <-.
    destruct k.
    + injection M as <- <-. split; [reflexivity|]. exists m. rewrite Kc. rewrite vupd_same by exact Ec. exact R1.
    + injection M as <- <-. split; [reflexivity|]. exists m. rewrite Kc. rewrite vupd_same by exact Ec. exact R1.
    + injection M as <- <-. split; [reflexivity|]. exists m. rewrite Kc. destruct XX as (Mt & _).
      assert (Lt : t < length (vthings w)) by (eapply vnth_lt; eauto).
      destruct R1 as [q1 q2 q3 q4 q5 q6 q7]. cbn [data vals] in *. constructor; cbn [data vals vthings vdenotes]; auto.
      * intros i t' Di. rewrite vupd_len. eauto.
      * intros i t' a' Di Ei. apply droot_set; [exact Ec|]. eauto.
      * intros t' k' p' E'. destruct (nth_upd_cases E') as [(-> & EE)|(N & E'')].
        -- injection EE as -> ->. eexists. rewrite vnth_upd, Nat.eqb_refl, (proj2 (Nat.ltb_lt _ _)) by (eapply vnth_lt; eauto). cbn. auto.
        -- destruct (q4 _ _ _ E'') as (c' & Ec' & X'). exists c'. rewrite vnth_upd.
           destruct (Nat.eqb_spec (m t') (m t)) as [EQ|_]; [|auto].
           exfalso. apply N. apply q5; [eapply vnth_lt; eauto|exact Lt|exact EQ|congruence].
      * intros t1 t2. rewrite vupd_len. apply q5.
      * destruct q6 as (c0 & E0 & F0). exists c0. rewrite vnth_upd. destruct (Nat.eqb_spec 0 (m t)); [congruence|auto].
      * intros i a' I Ei. apply droot_set; [exact Ec|]. eauto.
  - (* get *) destruct (vthing w x) as [[[t k] z]|] eqn:T; [|discriminate]. destruct (vthing_inv T) as (D & TT).
    injection M as <- <-.
    destruct (look fuel s x) as [[s1 r]| |] eqn:L; [|discriminate..]. destruct (look_run L) as (a & Ea & Dr & ->).
    destruct (rel_look R D Ea Dr) as (-> & R1). cbn [vthen data vals] in H.
    destruct (q_con R TT) as (c & Ec & Kc & XX). rewrite Ec in H. cbn [vmust vthen] in H. injection H as <- <-.
    split; [|exists m; exact R1]. rewrite Kc. destruct k; destruct XX as (_ & <-); reflexivity.
  - (* ref_to *) destruct (vthing w x) as [[[t k] z]|] eqn:T; [|discriminate]. destruct (vthing w y) as [[[u ky] zy]|] eqn:U; [|discriminate].
    injection M as <- <-. cbn [vguard] in G. apply andb_true_iff in G as (G1 & G2). apply existsb_in' in G1.
    destruct (vthing_inv T) as (D & TT). destruct (vthing_inv U) as (Du & TU).
    destruct (nth_error (vals s) x) as [a|] eqn:Ea; [|discriminate]. cbn [vmust vthen] in H.
    destruct (look_copy fuel s y) as [p| |] eqn:L; [|discriminate..]. cbn [vthen] in H. unfold replace_data in H.
    destruct (nth_error (data s) a) as [c|] eqn:E; [|discriminate]. cbn [vmust vthen] in H. injection H as <- <-. split; [reflexivity|].
    exists m. destruct (look_copy_run L) as (ay & Ey & Dy). pose proof (droot_fun Dy (q_val R Du Ey)) as ->.
    pose proof (droot_fun (q_use R G1 Ea) (q_val R D Ea)) as ->.
    destruct (droot_end (q_val R D Ea)) as (c' & Ec' & Fc'). rewrite E in Ec'. injection Ec' as <-.
    assert (Lx : x < length (vals s)) by (eapply vnth_lt; eauto).
    apply (@rel_redirect s w F m x y t k z u ky zy c); auto.
    + rewrite T in G2. destruct k; [discriminate|discriminate|discriminate].
    + apply vupd_len.
    + intros i a' Ei. destruct (nth_upd_cases Ei) as [(-> & ->)|(_ & Ei')]; auto.
    + intros i [<-|[]]. rewrite vnth_upd, Nat.eqb_refl, (proj2 (Nat.ltb_lt _ _)) by exact Lx. reflexivity.
  - (* un_ref *) destruct (vthing w x) as [[[t k] z]|] eqn:T; [|discriminate]. injection M as <- <-.
    destruct (vthing_inv T) as (D & TT).
    destruct (look fuel s x) as [[s1 r]| |] eqn:L; [|discriminate..]. destruct (look_run L) as (a & Ea & Dr & ->).
    destruct (rel_look R D Ea Dr) as (-> & R1). cbn [vthen data vals] in H.
    destruct (q_con R TT) as (c & Ec & Kc & XX). rewrite Ec in H. cbn [vmust vthen] in H. rewrite Kc in H.
    assert (Lx : x < length (vals s)) by (eapply vnth_lt; eauto).
    destruct k.
    + injection H as <- <-. split; [reflexivity|]. destruct XX as (M0 & ->). rewrite M0.
      apply (@rel_null s w F m); [exact R|rewrite !vupd_len; exact QL| | |exact Z0].
      * intros i t' E. destruct (nth_upd_cases E) as [(-> & ->)|(N & E')]; [left|right]; rewrite vnth_upd.
        -- rewrite Nat.eqb_refl, (proj2 (Nat.ltb_lt _ _)) by exact Lx. auto.
        -- rewrite (proj2 (Nat.eqb_neq _ _) N). auto.
      * intros i [<-|I]; rewrite vnth_upd.
        -- rewrite Nat.eqb_refl, (proj2 (Nat.ltb_lt _ _)) by exact Lx. auto.
        -- destruct (Nat.eqb_spec i x) as [->|N]; [rewrite (proj2 (Nat.ltb_lt _ _)) by exact Lx|]; auto.
    + injection H as <- <-. split; [reflexivity|]. destruct XX as (M0 & ->). rewrite vupd_upd.
      apply (@rel_new s w F m KConst z); [exact R|discriminate|rewrite !vupd_len; exact QL| |].
      * intros i t' E. destruct (nth_upd_cases E) as [(-> & ->)|(N & E')]; [left|right]; rewrite vnth_upd.
        -- rewrite Nat.eqb_refl, (proj2 (Nat.ltb_lt _ _)) by exact Lx. auto.
        -- rewrite (proj2 (Nat.eqb_neq _ _) N). auto.
      * intros i [<-|I]; rewrite vnth_upd.
        -- rewrite Nat.eqb_refl, (proj2 (Nat.ltb_lt _ _)) by exact Lx. auto.
        -- destruct (Nat.eqb_spec i x) as [->|N]; [rewrite (proj2 (Nat.ltb_lt _ _)) by exact Lx|]; auto.
    + injection H as <- <-. split; [reflexivity|]. destruct XX as (M0 & ->). rewrite vupd_upd.
      apply (@rel_new s w F m KVar z); [exact R|discriminate|rewrite !vupd_len; exact QL| |].
      * intros i t' E. destruct (nth_upd_cases E) as [(-> & ->)|(N & E')]; [left|right]; rewrite vnth_upd.
        -- rewrite Nat.eqb_refl, (proj2 (Nat.ltb_lt _ _)) by exact Lx. auto.
        -- rewrite (proj2 (Nat.eqb_neq _ _) N). auto.
      * intros i [<-|I]; rewrite vnth_upd.
        -- rewrite Nat.eqb_refl, (proj2 (Nat.ltb_lt _ _)) by exact Lx. auto.
        -- destruct (Nat.eqb_spec i x) as [->|N]; [rewrite (proj2 (Nat.ltb_lt _ _)) by exact Lx|]; auto.
  - (* re_ref_to *) destruct (vthing w x) as [[[t k] z]|] eqn:T; [|discriminate]. destruct (vthing w y) as [[[u ky] zy]|] eqn:U; [|discriminate].
    injection M as <- <-. destruct (vthing_inv T) as (D & TT). destruct (vthing_inv U) as (Du & TU).
    destruct (nth_error (vals s) x) as [a|] eqn:Ea; [|discriminate]. cbn [vmust vthen] in H.
    destruct (look_copy fuel s y) as [p| |] eqn:L; [|discriminate..]. cbn [vthen] in H. injection H as <- <-. split; [reflexivity|].
    exists m. destruct (look_copy_run L) as (ay & Ey & Dy). pose proof (droot_fun Dy (q_val R Du Ey)) as ->.
    pose proof (droot_self (q_val R Du Ey)) as DU.
    destruct R as [q1 q2 q3 q4 q5 q6 q7]. constructor; cbn [data vals vthings vdenotes]; auto.
    + rewrite !vupd_len. exact q1.
    + intros i t' E. destruct (nth_upd_cases E) as [(-> & ->)|(N & E')]; eauto.
    + intros i t' a' E Ei. destruct (nth_upd_cases E) as [(-> & ->)|(N & E')].
      * destruct (nth_upd_cases Ei) as [(_ & ->)|(N & _)]; [exact DU|contradiction].
      * destruct (nth_upd_cases Ei) as [(-> & _)|(_ & Ei')]; [contradiction|eauto].
    + intros i a' I Ei. destruct (nth_upd_cases Ei) as [(-> & ->)|(N & Ei')]; [exact DU|].
      destruct I as [->|I]; [contradiction|eauto].
  - (* >> *) destruct (vthing w y) as [[[t k] z]|] eqn:T; [|discriminate]. destruct (vthing w x) as [[[u ky] zy]|] eqn:U; [|discriminate].
    injection M as <- <-. cbn [vguard] in G. apply andb_true_iff in G as (G1 & G2). apply existsb_in' in G1.
    destruct (vthing_inv T) as (D & TT). destruct (vthing_inv U) as (Du & TU).
    destruct (nth_error (vals s) y) as [a|] eqn:Ea; [|discriminate]. cbn [vmust vthen] in H.
    destruct (look_copy fuel s x) as [p| |] eqn:L; [|discriminate..]. cbn [vthen] in H. unfold replace_data in H.
    destruct (nth_error (data s) a) as [c|] eqn:E; [|discriminate]. cbn [vmust vthen] in H. injection H as <- <-. split; [reflexivity|].
    exists m. destruct (look_copy_run L) as (ay & Ey & Dy). pose proof (droot_fun Dy (q_val R Du Ey)) as ->.
    pose proof (droot_fun (q_use R G1 Ea) (q_val R D Ea)) as ->.
    destruct (droot_end (q_val R D Ea)) as (c' & Ec' & Fc'). rewrite E in Ec'. injection Ec' as <-.
    apply (@rel_redirect s w F m y x t k z u ky zy c); auto.
    + rewrite T in G2. destruct k; [discriminate|discriminate|discriminate].
    + intros i [].
Qed.

Lemma vthing_lt : forall w x t, vthing w x = Some t -> x < length (vdenotes w).
Proof. intros w x [[t k] p] H. destruct (vthing_inv H) as (E & _). eapply vnth_lt; eauto. Qed.

Lemma meant_scope : forall w o w' b, vmeant w o = Some (w', b) ->
  in_scope (length (vdenotes w)) o /\ length (vdenotes w') = vmade (length (vdenotes w)) o.
Proof.
  intros w o w' b H. destruct o as [| |p|x|x p|x|x y|x|x y|x y]; cbn [vmeant] in H.
  1,2,3: injection H as <- <-; cbn; rewrite app_length; cbn; split; [exact I|lia].
  1,2,3,5: destruct (vthing w x) as [[[t k] z]|] eqn:T; [|discriminate]; pose proof (vthing_lt T) as L.
  - injection H as <- <-. cbn. rewrite app_length. cbn. split; [exact L|lia].
  - destruct k; injection H as <- <-; cbn; auto.
  - injection H as <- <-. cbn. auto.
  - injection H as <- <-. cbn. rewrite vupd_len. auto.
  - destruct (vthing w x) as [[[t k] z]|] eqn:T; [|discriminate]. destruct (vthing w y) as [[[u ky] zy]|] eqn:U; [|discriminate].
    injection H as <- <-. cbn. unfold vredirect. rewrite map_length. split; [split; eapply vthing_lt; eauto|reflexivity].
  - destruct (vthing w x) as [[[t k] z]|] eqn:T; [|discriminate]. destruct (vthing w y) as [[[u ky] zy]|] eqn:U; [|discriminate].
    injection H as <- <-. cbn. rewrite vupd_len. split; [split; eapply vthing_lt; eauto|reflexivity].
  - destruct (vthing w y) as [[[t k] z]|] eqn:T; [|discriminate]. destruct (vthing w x) as [[[u ky] zy]|] eqn:U; [|discriminate].
    injection H as <- <-. cbn. unfold vredirect. rewrite map_length. split; [split; eapply vthing_lt; eauto|reflexivity].
Qed.

Lemma used_bound : forall n F o, (forall x, In x F -> x < n) -> in_scope n o -> forall x, In x (vused n F o) -> x < vmade n o.
Proof.
  intros n F o B I x H. destruct o as [| |p|y|y p|y|y z|y|y z|y z]; cbn [vused vmade in_scope] in *.
  1,2,3: destruct H as [<-|H]; [lia|specialize (B _ H); lia].
  - destruct (existsb (Nat.eqb y) F); [destruct H as [<-|H]; [lia|]|]; specialize (B _ H); lia.
  - destruct H as [<-|H]; auto.
  - destruct H as [<-|H]; auto.
  - destruct H as [<-|[]]. tauto.
  - destruct H as [<-|H]; auto.
  - destruct H as [<-|H]; [tauto|auto].
  - destruct H.
Qed.

Lemma run_safe : forall l s w w' bs, VWF s -> length (vals s) = length (vdenotes w) -> vmeaning w l = Some (w', bs) ->
  exists s' bs' n, (forall fuel, n < fuel -> vrun fuel s l = Ok (s', bs')) /\ VWF s' /\ length (vals s') = length (vdenotes w').
Proof.
  induction l as [|o l IH]; intros s w w' bs W L M; cbn [vmeaning] in M.
  - injection M as <- <-. exists s, [], 0. auto.
  - destruct (vmeant w o) as [[w1 b]|] eqn:E; [|discriminate]. destruct (vmeaning w1 l) as [[w2 bs2]|] eqn:E2; [|discriminate].
    injection M as <- <-. destruct (meant_scope E) as (I & L1). rewrite <- L in I.
    destruct (step_safe W I) as (s1 & b1 & n1 & H1 & W1 & L2).
    destruct (IH s1 w1 w2 bs2 W1) as (s' & bs' & n & H & W' & L'); [congruence|exact E2|].
    exists s', (b1 :: bs'), (n1 + n). refine (conj _ (conj W' L')). intros fuel Lf. cbn [vrun].
    rewrite H1 by lia. cbn [vthen]. rewrite H by lia. reflexivity.
Qed.

Lemma run_right : forall l fuel s w w' bs s' bs' F m, VRel s w F m -> null_zero s -> (forall x, In x F -> x < length (vals s)) ->
  vcareful w F l = true -> vmeaning w l = Some (w', bs) -> vrun fuel s l = Ok (s', bs') -> bs' = bs.
Proof.
  induction l as [|o l IH]; intros fuel s w w' bs s' bs' F m R Z0 FB C M H; cbn [vmeaning vrun vcareful] in *.
  - injection M as <- <-. injection H as <- <-. reflexivity.
  - destruct (vmeant w o) as [[w1 b]|] eqn:E; [|discriminate]. destruct (vmeaning w1 l) as [[w2 bs2]|] eqn:E2; [|discriminate].
    injection M as <- <-. apply andb_true_iff in C as (C1 & C2).
    destruct (vstep fuel s o) as [[s1 b1]| |] eqn:HS; [|discriminate..]. cbn [vthen] in H.
    destruct (vrun fuel s1 l) as [[s2 bs3]| |] eqn:HR; [|discriminate..]. cbn [vthen] in H. injection H as <- <-.
    destruct (step_right R Z0 FB C1 E HS) as (-> & m1 & R1).
    f_equal. refine (IH _ _ _ _ _ _ _ _ _ R1 (zero_step Z0 HS) _ C2 E2 HR).
    intros x I. destruct (meant_scope E) as (Sc & L1). rewrite (q_len R1), L1.
    eapply used_bound; [|exact Sc|exact I]. intros y Iy. rewrite <- (q_len R). auto.
Qed.

Lemma wf_init : VWF vinit.
Proof.
  constructor; cbn.
  - lia.
  - intros [|x] a H; discriminate.
  - intros [|[|a]] c b H; cbn in H; try discriminate. injection H as <-. discriminate.
  - exists (fun _ => 0). intros [|[|a]] c b H; cbn in H; try discriminate. injection H as <-. discriminate.
Qed.
Lemma rel_init : VRel vinit vempty [] (fun _ => 0).
Proof.
  constructor; cbn.
  - reflexivity.
  - intros [|x] t H; discriminate.
  - intros [|x] t a H; discriminate.
  - intros [|x] t a H; discriminate.
  - intros; lia.
  - eexists. split; reflexivity.
  - intros x a [].
Qed.
Lemma zero_init : null_zero vinit.
Proof. eexists. split; reflexivity. Qed.

Lemma programs_safe : forall l, vwell_formed l -> exists s bs n, forall fuel, n < fuel -> vrun fuel vinit l = Ok (s, bs).
Proof.
  intros l (w & bs & M). destruct (@run_safe l vinit vempty w bs wf_init eq_refl M) as (s & bs' & n & H & _). eauto.
Qed.
Lemma programs_right : forall l w bs, vmeaning vempty l = Some (w, bs) -> vcareful vempty [] l = true ->
  exists s n, forall fuel, n < fuel -> vrun fuel vinit l = Ok (s, bs).
Proof.
  intros l w bs M C. destruct (@run_safe l vinit vempty w bs wf_init eq_refl M) as (s & bs' & n & H & _).
  exists s, n. intros fuel L. rewrite H by exact L.
  rewrite (@run_right l fuel vinit vempty w bs s bs' [] _ rel_init zero_init) by (auto; intros x []). reflexivity.
Qed.

(** Null values. *)
Lemma run_app : forall l1 l2 fuel s, vrun fuel s (l1 ++ l2) =
  vthen (vrun fuel s l1) (fun '(s1, b1) => vthen (vrun fuel s1 l2) (fun '(s2, b2) => Ok (s2, b1 ++ b2))).
Proof.
  induction l1 as [|o l1 IH]; intros l2 fuel s; cbn [vrun app].
  - cbn [vthen]. destruct (vrun fuel s l2) as [[s2 b2]| |]; reflexivity.
  - destruct (vstep fuel s o) as [[s1 b1]| |]; cbn [vthen]; try reflexivity. rewrite IH.
    destruct (vrun fuel s1 l1) as [[s2 b2]| |]; cbn [vthen]; try reflexivity.
    destruct (vrun fuel s2 l2) as [[s3 b3]| |]; reflexivity.
Qed.

Lemma meaning_app : forall l1 l2 w, vmeaning w (l1 ++ l2) =
  match vmeaning w l1 with
  | Some (w1, b1) => match vmeaning w1 l2 with Some (w2, b2) => Some (w2, b1 ++ b2) | None => None end
  | None => None end.
Proof.
  induction l1 as [|o l1 IH]; intros l2 w; cbn [vmeaning app].
  - destruct (vmeaning w l2) as [[w2 b2]|]; reflexivity.
  - destruct (vmeant w o) as [[w1 b1]|]; [|reflexivity]. rewrite IH.
    destruct (vmeaning w1 l1) as [[w2 b2]|]; [|reflexivity]. destruct (vmeaning w2 l2) as [[w3 b3]|]; reflexivity.
Qed.

Lemma nth_app0 : forall A (l r : list A) i a, nth_error (l ++ a :: r) (length l) = Some a /\ (i = S (length l) -> forall b r', r = b :: r' -> nth_error (l ++ a :: r) i = Some b).
Proof.
  intros. split.
  - rewrite nth_error_app2, Nat.sub_diag by lia. reflexivity.
  - intros -> b r' ->. rewrite nth_error_app2 by lia. replace (S (length l) - length l) with 1 by lia. reflexivity.
Qed.

Lemma null_tail : forall s p, VWF s ->
  forall fuel, 2 < fuel ->
  exists s', vrun fuel s [VNull; VConst p; VRefTo (length (vals s)) (S (length (vals s))); VNull; VGet (S (S (length (vals s))))]
             = Ok (s', [VNothing; VNothing; VNothing; VNothing; VSaw p]).
Proof.
  intros s p W fuel Lf. set (n := length (vals s)). set (D := length (data s)).
  pose proof (w_zero W) as Z0. fold D in Z0. destruct (vnth_some (w_zero W)) as (c0 & E0).
  destruct fuel as [|[|[|f]]]; try lia.
  cbn [vrun vstep vthen]. unfold fresh. cbn [data vals].
  assert (V : (vals s ++ [0]) ++ [length (data s)] = vals s ++ [0; D]) by (rewrite <- app_assoc; reflexivity).
  rewrite V.
  assert (N0 : nth_error (vals s ++ [0; D]) n = Some 0) by apply (nth_app0 (vals s) [D] 0 0).
  assert (N1 : nth_error (vals s ++ [0; D]) (S n) = Some D) by apply (proj2 (nth_app0 (vals s) [D] (S n) 0) eq_refl D [] eq_refl).
  rewrite N0. cbn [vmust vthen]. unfold look_copy. cbn [data vals]. rewrite N1. cbn [vmust vthen].
  cbn [follow]. rewrite vnth_app. fold D. rewrite Nat.eqb_refl. cbn [vmust vthen dfwd].
  unfold replace_data. rewrite vnth_app. fold D. destruct (Nat.eqb_spec 0 D); [lia|]. rewrite E0. cbn [vmust vthen].
  destruct (Nat.eqb_spec D 0); [lia|].
  unfold look. cbn [data vals].
  assert (LV : length (upd (vals s ++ [0; D]) n D) = S (S n)) by (rewrite vupd_len, app_length; cbn; lia).
  rewrite vnth_app, LV, Nat.eqb_refl. cbn [vmust vthen follow].
  rewrite vnth_upd. cbn [Nat.eqb]. rewrite app_length. fold D. cbn [length].
  rewrite (proj2 (Nat.ltb_lt 0 (D + 1))) by lia. cbn [vmust vthen dfwd].
  rewrite vnth_upd. destruct (Nat.eqb_spec D 0); [lia|]. rewrite vnth_app. fold D. rewrite Nat.eqb_refl. cbn [vmust vthen dfwd data].
  rewrite vnth_upd. destruct (Nat.eqb_spec D 0); [lia|]. rewrite vnth_app. fold D. rewrite Nat.eqb_refl. cbn [vmust vthen dk dnode].
  eexists. reflexivity.
Qed.

Lemma null_wrong : forall l w bs p, vmeaning vempty l = Some (w, bs) ->
  let n := length (vdenotes w) in
  let l' := l ++ [VNull; VConst p; VRefTo n (S n); VNull; VGet (S (S n))] in
  (exists w' bs', vmeaning vempty l' = Some (w', bs') /\ last bs' VNothing = VSaw 0%Z) /\
  exists s bs' k, (forall fuel, k < fuel -> vrun fuel vinit l' = Ok (s, bs')) /\ last bs' VNothing = VSaw p.
Proof.
  intros l w bs p M n l'.
  assert (MM : exists w' bs', vmeaning vempty l' = Some (w', bs') /\ last bs' VNothing = VSaw 0%Z).
  { unfold l'. rewrite meaning_app, M. set (T := length (vthings w)).
    cbn [vmeaning vmeant]. unfold vfresh. cbn [vthings vdenotes].
    assert (V : (vdenotes w ++ [T]) ++ [length (vthings w ++ [(KNull, 0%Z)])] = vdenotes w ++ [T; S T]).
    { rewrite <- app_assoc, app_length. cbn. fold T. rewrite Nat.add_1_r. reflexivity. }
    fold T. rewrite V. unfold vthing. cbn [vthings vdenotes].
    assert (V2 : (vthings w ++ [(KNull, 0%Z)]) ++ [(KConst, p)] = vthings w ++ [(KNull, 0%Z); (KConst, p)]) by (rewrite <- app_assoc; reflexivity).
    rewrite V2.
    assert (N0 : nth_error (vdenotes w ++ [T; S T]) n = Some T) by apply (nth_app0 (vdenotes w) [S T] 0 T).
    assert (N1 : nth_error (vdenotes w ++ [T; S T]) (S n) = Some (S T)) by apply (proj2 (nth_app0 (vdenotes w) [S T] _ T) eq_refl _ _ eq_refl).
    assert (T0 : nth_error (vthings w ++ [(KNull, 0%Z); (KConst, p)]) T = Some (KNull, 0%Z)) by apply (nth_app0 (vthings w) [(KConst, p)] 0 (KNull, 0%Z)).
    assert (T1 : nth_error (vthings w ++ [(KNull, 0%Z); (KConst, p)]) (S T) = Some (KConst, p)) by apply (proj2 (nth_app0 (vthings w) [(KConst, p)] _ (KNull, 0%Z)) eq_refl _ _ eq_refl).
    rewrite N0, T0, N1, T1.
    assert (LD : length (vredirect T (S T) (vdenotes w ++ [T; S T])) = S (S n)).
    { unfold vredirect. rewrite map_length, app_length. cbn. unfold n. lia. }
    cbn [vthings vdenotes]. rewrite vnth_app, LD, Nat.eqb_refl.
    rewrite vnth_app, Nat.eqb_refl.
    eexists _, _. split; [reflexivity|].
    match goal with |- last (_ ++ ?b) _ = _ => change b with ([VNothing; VNothing; VNothing; VNothing] ++ [VSaw 0%Z]) end.
    rewrite app_assoc, last_last. reflexivity. }
  split; [exact MM|].
  destruct (@run_safe l vinit vempty w bs wf_init eq_refl M) as (s & bs' & k & H & W & L). fold n in L.
  destruct MM as (w2 & bs2 & M2 & _).
  destruct (@run_safe l' vinit vempty w2 bs2 wf_init eq_refl M2) as (s3 & bs3 & k3 & H3 & _).
  exists s3, bs3, k3. split; [exact H3|].
  assert (E : vrun (S (k + k3 + 2)) vinit l' = Ok (s3, bs3)) by (apply H3; lia).
  unfold l' in E. rewrite run_app, H in E by lia. cbn [vthen] in E. rewrite <- L in E.
  destruct (@null_tail s p W (S (k + k3 + 2)) ltac:(lia)) as (s4 & H4). rewrite H4 in E. cbn [vthen] in E.
  injection E as <- <-.
  change [VNothing; VNothing; VNothing; VNothing; VSaw p] with ([VNothing; VNothing; VNothing; VNothing] ++ [VSaw p]).
  rewrite app_assoc, last_last. reflexivity.
Qed.

(** Lists of statements. *)
Lemma code_ind' : forall P : code -> Prop, (forall p, P (Leaf p)) ->
  (forall c l, P c -> Forall P l -> P (Block c l)) -> forall c, P c.
Proof.
  intros P HL HB. fix IH 1. intros [p|c l]; [apply HL|]. apply HB; [apply IH|].
  induction l as [|d l IHl]; constructor; [apply IH|exact IHl].
Qed.

(** Nothing but the replacement of [null_data] and new objects. *)
Record frame (s s' : vstate) : Prop := mkFrame {
  f_vals : exists v, vals s' = vals s ++ v;
  f_len : length (data s) <= length (data s');
  f_data : forall i, i <> 0 -> i < length (data s) -> nth_error (data s') i = nth_error (data s) i }.
Lemma frame_refl : forall s, frame s s.
Proof. intros s. constructor; [exists []; rewrite app_nil_r; reflexivity|lia|auto]. Qed.
Lemma frame_trans : forall a b c, frame a b -> frame b c -> frame a c.
Proof.
  intros a b c [(v1 & V1) L1 D1] [(v2 & V2) L2 D2]. constructor.
  - exists (v1 ++ v2). rewrite V2, V1, app_assoc. reflexivity.
  - lia.
  - intros i N L. rewrite D2, D1 by lia. reflexivity.
Qed.
Lemma frame_val : forall s s' x a, frame s s' -> nth_error (vals s) x = Some a -> nth_error (vals s') x = Some a.
Proof. intros s s' x a [(v & V) _ _] E. rewrite V, nth_error_app1 by (eapply vnth_lt; eauto). exact E. Qed.

(** The value [h] has the address [a] and leads to a new constant [z]. *)
Definition yields (s s' : vstate) (h a : nat) (z : Z) : Prop :=
  exists r, nth_error (vals s') h = Some a /\ (a = r \/ a = 0 /\ exists c, nth_error (data s') 0 = Some c /\ dfwd c = Some r) /\
    length (data s) <= r /\ nth_error (data s') r = Some (mkD None KConst z).

Lemma yields_look : forall s s' h a z, 0 < length (data s) -> yields s s' h a z -> exists r, nth_error (vals s') h = Some a /\
  length (data s) <= r /\ nth_error (data s') r = Some (mkD None KConst z) /\
  (forall fuel, 1 < fuel -> follow fuel (data s') a = Ok r).
Proof.
  intros s s' h a z L (r & E & A & Lr & Er). exists r. refine (conj E (conj Lr (conj Er _))).
  intros [|[|f]] Lf; try lia. cbn [follow]. destruct A as [->|(-> & c & E0 & F0)].
  - rewrite Er. reflexivity.
  - rewrite E0. cbn [vmust vthen]. rewrite F0, Er. reflexivity.
Qed.

Definition stmt fuel aret s c := vthen (eval_code fuel s c) (fun '(s1, h) =>
  vthen (vstep fuel s1 (VShift h aret)) (fun '(s2, _) => Ok s2)).
Fixpoint stmts fuel aret s l := match l with [] => Ok s | c :: r => vthen (stmt fuel aret s c) (fun s' => stmts fuel aret s' r) end.
Lemma eval_block : forall fuel s c l, eval_code fuel s (Block c l) =
  vthen (stmt fuel (length (vals s)) (mkVs (data s) (vals s ++ [0])) c) (fun s1 =>
  vthen (stmts fuel (length (vals s)) s1 l) (fun s2 => Ok (s2, length (vals s)))).
Proof.
  intros. cbn [eval_code vstep vthen]. unfold stmt at 1. cbn zeta.
  destruct (vthen (eval_code fuel (mkVs (data s) (vals s ++ [0])) c) _) as [s1| |]; cbn [vthen]; try reflexivity.
  match goal with |- vthen (?F s1 l) _ = _ => assert (E : forall l s1, F s1 l = stmts fuel (length (vals s)) s1 l) end.
  { induction l0 as [|d l0 IH]; intros t; cbn [stmts]; [reflexivity|]. unfold stmt at 1. cbn [vstep].
    match goal with |- vthen ?X _ = vthen ?X _ => destruct X end; cbn [vthen]; try reflexivity. apply IH. }
  rewrite E. reflexivity.
Qed.

Definition evaluates (c : code) : Prop := forall s, 0 < length (data s) -> exists s',
  (forall fuel, 1 < fuel -> eval_code fuel s c = Ok (s', length (vals s))) /\ frame s s' /\
  exists a, yields s s' (length (vals s)) a (last_value c) /\
    match c with Leaf _ => a <> 0 | Block _ _ => a = 0 end.

Lemma stmt_right : forall c, evaluates c -> forall s aret, 0 < length (data s) -> nth_error (vals s) aret = Some 0 ->
  exists s', (forall fuel, 1 < fuel -> stmt fuel aret s c = Ok s') /\ frame s s' /\ yields s s' aret 0 (last_value c).
Proof.
  intros c IH s aret L A. destruct (IH s L) as (s1 & H1 & F1 & a & Y & _).
  destruct (yields_look L Y) as (r & E & Lr & Er & HF).
  pose proof (frame_val F1 A) as A1.
  assert (L1 : 0 < length (data s1)) by (pose proof (f_len F1); lia).
  destruct (vnth_some L1) as (c0 & E0).
  exists (mkVs (upd (data s1) 0 (mkD (Some r) (dk c0) (dnode c0))) (vals s1)).
  refine (conj _ (conj _ _)).
  - intros fuel Lf. unfold stmt. rewrite H1 by exact Lf. cbn [vthen vstep]. rewrite A1. cbn [vmust vthen].
    unfold look_copy. rewrite E. cbn [vmust vthen]. rewrite HF by exact Lf. cbn [vthen]. unfold replace_data. rewrite E0. cbn [vmust vthen].
    destruct (Nat.eqb_spec r 0); [lia|]. reflexivity.
  - apply (frame_trans F1). constructor; cbn [data vals].
    + exists []. rewrite app_nil_r. reflexivity.
    + rewrite vupd_len. lia.
    + intros i N _. rewrite vnth_upd. destruct (Nat.eqb_spec i 0); [contradiction|reflexivity].
  - exists r. cbn [data vals]. refine (conj A1 (conj _ (conj Lr _))).
    + right. split; [reflexivity|]. eexists. rewrite vnth_upd. cbn [Nat.eqb]. rewrite (proj2 (Nat.ltb_lt _ _)) by exact L1.
      split; reflexivity.
    + rewrite vnth_upd. destruct (Nat.eqb_spec r 0); [lia|exact Er].
Qed.

Lemma stmts_right : forall l, Forall evaluates l -> forall s0 s aret z, 0 < length (data s0) -> frame s0 s -> yields s0 s aret 0 z ->
  exists s', (forall fuel, 1 < fuel -> stmts fuel aret s l = Ok s') /\ frame s0 s' /\ yields s0 s' aret 0 (last (map last_value l) z).
Proof.
  induction 1 as [|c l Hc Hl IH]; intros s0 s aret z L F Y.
  - exists s. cbn. auto.
  - assert (L1 : 0 < length (data s)) by (pose proof (f_len F); lia).
    assert (A : nth_error (vals s) aret = Some 0) by (destruct Y as (r & E & _); exact E).
    destruct (stmt_right Hc L1 A) as (s1 & H1 & F1 & Y1).
    assert (Y2 : yields s0 s1 aret 0 (last_value c)).
    { destruct Y1 as (r & E & B & Lr & Er). exists r. pose proof (f_len F). repeat split; auto; lia. }
    destruct (IH s0 s1 aret _ L (frame_trans F F1) Y2) as (s' & H' & F' & Y').
    exists s'. refine (conj _ (conj F' _)).
    + intros fuel Lf. cbn [stmts]. rewrite H1 by exact Lf. cbn [vthen]. auto.
    + assert (EQ : last (map last_value (c :: l)) z = last (map last_value l) (last_value c)).
      { cbn [map]. destruct l as [|d l]; [reflexivity|]. cbn [map]. generalize (map last_value l) as q, (last_value d) as y, (last_value c) as v.
        clear. intros q y v. change (last (y :: q) z = last (y :: q) v). revert y. induction q as [|q0 q IHq]; intros y; [reflexivity|].
        cbn [last] in *. apply IHq. }
      rewrite EQ. exact Y'.
Qed.

Lemma eval_right : forall c, evaluates c.
Proof.
  apply code_ind'.
  - intros p s L. exists (fresh s KConst p). refine (conj (fun _ _ => eq_refl) (conj _ _)).
    + constructor; cbn [fresh data vals].
      * eexists. reflexivity.
      * rewrite app_length. lia.
      * intros i N Li. rewrite nth_error_app1 by exact Li. reflexivity.
    + exists (length (data s)). split; [|lia]. exists (length (data s)). cbn [fresh data vals last_value].
      rewrite !vnth_app, !Nat.eqb_refl. auto.
  - intros c l Hc Hl s L. set (s0 := mkVs (data s) (vals s ++ [0])).
    assert (F0 : frame s s0) by (constructor; cbn [s0 data vals]; [eexists; reflexivity|lia|auto]).
    assert (A : nth_error (vals s0) (length (vals s)) = Some 0) by (cbn [s0 vals]; rewrite vnth_app, Nat.eqb_refl; reflexivity).
    destruct (stmt_right Hc (L : 0 < length (data s0)) A) as (s1 & H1 & F1 & Y1).
    destruct (stmts_right Hl (L : 0 < length (data s0)) F1 Y1) as (s2 & H2 & F2 & Y2).
    exists s2. refine (conj _ (conj (frame_trans F0 F2) _)).
    + intros fuel Lf. rewrite eval_block. fold s0. rewrite H1 by exact Lf. cbn [vthen]. rewrite H2 by exact Lf. reflexivity.
    + exists 0. split; [|reflexivity]. cbn [last_value]. exact Y2.
Qed.

Lemma block_value : forall c s, 0 < length (data s) -> exists s1 h, (forall fuel, 1 < fuel -> eval_code fuel s c = Ok (s1, h)) /\
  exists s2, forall fuel, 1 < fuel -> vstep fuel s1 (VGet h) = Ok (s2, VSaw (last_value c)).
Proof.
  intros c s L. destruct (eval_right c L) as (s1 & H1 & F1 & a & Y & _). destruct (yields_look L Y) as (r & E & Lr & Er & HF).
  exists s1, (length (vals s)). split; [exact H1|]. eexists. intros fuel Lf. cbn [vstep]. unfold look. rewrite E. cbn [vmust vthen].
  rewrite HF by exact Lf. cbn [vthen data]. rewrite Er. reflexivity.
Qed.

Lemma block_later : forall c l d m s, 0 < length (data s) -> exists s1 h1 s2 h2 s3,
  forall fuel, 1 < fuel -> eval_code fuel s (Block c l) = Ok (s1, h1) /\ eval_code fuel s1 (Block d m) = Ok (s2, h2) /\
  vstep fuel s2 (VGet h1) = Ok (s3, VSaw (last_value (Block d m))).
Proof.
  intros c l d m s L. destruct (eval_right (Block c l) L) as (s1 & H1 & F1 & a & Y & ->).
  destruct (yields_look L Y) as (r & E & Lr & Er & _).
  assert (L1 : 0 < length (data s1)) by (pose proof (f_len F1); lia).
  destruct (eval_right (Block d m) L1) as (s2 & H2 & F2 & b & Y2 & ->).
  destruct (yields_look L1 Y2) as (r2 & E2 & Lr2 & Er2 & HF2).
  exists s1, (length (vals s)), s2, (length (vals s1)).
  eexists. intros fuel Lf. refine (conj (H1 _ Lf) (conj (H2 _ Lf) _)).
  cbn [vstep]. unfold look. rewrite (frame_val F2 E). cbn [vmust vthen]. rewrite HF2 by exact Lf. cbn [vthen data]. rewrite Er2. reflexivity.
Qed.

Lemma block_read_first : forall c d s, 0 < length (data s) -> exists s1 h1 s2 s3 h2 s4,
  forall fuel, 1 < fuel -> eval_code fuel s c = Ok (s1, h1) /\ vstep fuel s1 (VGet h1) = Ok (s2, VSaw (last_value c)) /\
  eval_code fuel s2 d = Ok (s3, h2) /\ vstep fuel s3 (VGet h1) = Ok (s4, VSaw (last_value c)).
Proof.
  intros c d s L. destruct (eval_right c L) as (s1 & H1 & F1 & a & Y & _).
  destruct (yields_look L Y) as (r & E & Lr & Er & HF).
  assert (L1 : 0 < length (data s1)) by (pose proof (f_len F1); lia).
  set (s2 := mkVs (data s1) (upd (vals s1) (length (vals s)) r)).
  assert (E2 : nth_error (vals s2) (length (vals s)) = Some r).
  { cbn [s2 vals]. rewrite vnth_upd, Nat.eqb_refl, (proj2 (Nat.ltb_lt _ _)) by (eapply vnth_lt; eauto). reflexivity. }
  destruct (eval_right d (L1 : 0 < length (data s2))) as (s3 & H3 & F3 & b & Y3 & _).
  exists s1, (length (vals s)), s2, s3, (length (vals s2)).
  eexists. intros fuel Lf. refine (conj (H1 _ Lf) (conj _ (conj (H3 _ Lf) _))).
  - cbn [vstep]. unfold look. rewrite E. cbn [vmust vthen]. rewrite HF by exact Lf. cbn [vthen data]. rewrite Er. reflexivity.
  - cbn [vstep]. unfold look. rewrite (frame_val F3 E2). cbn [vmust vthen].
    assert (Er3 : nth_error (data s3) r = Some (mkD None KConst (last_value c))).
    { rewrite (f_data F3) by (cbn [s2 data]; try lia; eapply vnth_lt; eauto). exact Er. }
    destruct fuel as [|f]; [lia|]. cbn [follow]. rewrite Er3. cbn [vmust vthen dfwd data]. rewrite Er3. reflexivity.
Qed.

Lemma zero_run : forall l fuel s s' bs, null_zero s -> vrun fuel s l = Ok (s', bs) -> null_zero s'.
Proof.
  induction l as [|o l IH]; intros fuel s s' bs Z0 H; cbn [vrun] in H.
  - injection H as <- <-. exact Z0.
  - destruct (vstep fuel s o) as [[s1 b1]| |] eqn:E; [|discriminate..]. cbn [vthen] in H.
    destruct (vrun fuel s1 l) as [[s2 bs2]| |] eqn:E2; [|discriminate..]. cbn [vthen] in H. injection H as <- <-.
    eapply IH; [|exact E2]. eapply zero_step; eauto.
Qed.
Lemma reach_zero : forall l fuel s bs, vrun fuel vinit l = Ok (s, bs) -> 0 < length (data s).
Proof. intros l fuel s bs H. destruct (zero_run zero_init H) as (c & E & _). eapply vnth_lt; eauto. Qed.

Lemma code_value : forall l n s bs, vrun n vinit l = Ok (s, bs) -> forall c,
  exists s1 h s2, forall fuel, 1 < fuel -> eval_code fuel s c = Ok (s1, h) /\ vstep fuel s1 (VGet h) = Ok (s2, VSaw (last_value c)).
Proof.
  intros l n s bs H c. destruct (block_value c (reach_zero H)) as (s1 & h & H1 & s2 & H2).
  exists s1, h, s2. intros fuel L. auto.
Qed.
Lemma code_later : forall l n s bs, vrun n vinit l = Ok (s, bs) -> forall c cs d ds, exists s1 h1 s2 h2 s3,
  forall fuel, 1 < fuel -> eval_code fuel s (Block c cs) = Ok (s1, h1) /\ eval_code fuel s1 (Block d ds) = Ok (s2, h2) /\
  vstep fuel s2 (VGet h1) = Ok (s3, VSaw (last_value (Block d ds))).
Proof. intros l n s bs H c cs d ds. exact (block_later c cs d ds (reach_zero H)). Qed.
Lemma code_read_first : forall l n s bs, vrun n vinit l = Ok (s, bs) -> forall c d, exists s1 h1 s2 s3 h2 s4,
  forall fuel, 1 < fuel -> eval_code fuel s c = Ok (s1, h1) /\ vstep fuel s1 (VGet h1) = Ok (s2, VSaw (last_value c)) /\
  eval_code fuel s2 d = Ok (s3, h2) /\ vstep fuel s3 (VGet h1) = Ok (s4, VSaw (last_value c)).
Proof. intros l n s bs H c d. exact (block_read_first c d (reach_zero H)). Qed.
