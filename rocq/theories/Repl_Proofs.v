(** Proofs about replaceable objects (Repl_Model.v against Repl_Spec.v). *)
From Verif Require Import Base.
From Verif Require Import Ref_Model Repl_Model Repl_Spec.
Local Open Scope nat_scope.

Definition olist (o : option nat) : list nat := match o with Some a => [a] | None => [] end.
Definition clist (c : option cell) : list nat := match c with Some x => olist (fwd x) | None => [] end.
Definition occ (l : list nat) (a : nat) : nat := count_occ Nat.eq_dec l a.
Definition refs (h : list (option cell)) (e : list (option nat)) (k : list nat) (a : nat) : nat :=
  occ (flat_map clist h) a + occ (flat_map olist e) a + occ k a.

Lemma occ_app : forall l1 l2 a, occ (l1 ++ l2) a = occ l1 a + occ l2 a.
Proof. intros; apply count_occ_app. Qed.
Lemma occ_one : forall a b, occ [a] b = if Nat.eqb a b then 1 else 0.
Proof. intros; unfold occ; cbn; destruct (Nat.eq_dec a b); destruct (Nat.eqb_spec a b); congruence. Qed.
Lemma occ_nil : forall a, occ [] a = 0. Proof. reflexivity. Qed.
Lemma occ_cons : forall a l b, occ (a :: l) b = (if Nat.eqb a b then 1 else 0) + occ l b.
Proof. intros; change (a :: l) with ([a] ++ l); rewrite occ_app, occ_one; auto. Qed.
Lemma occ_in : forall l a, occ l a > 0 <-> In a l.
Proof. intros; unfold occ; symmetry; apply count_occ_In. Qed.

Lemma upd_len : forall A (l : list A) n v, length (upd l n v) = length l.
Proof. induction l; destruct n; cbn; auto. Qed.
Lemma nth_upd' : forall A (l : list A) n v i,
  nth_error (upd l n v) i = if Nat.eqb i n then (if Nat.ltb n (length l) then Some v else None) else nth_error l i.
Proof.
  induction l; intros; destruct n, i; cbn; auto.
  - destruct (Nat.eqb i n); auto.
  - rewrite IHl; reflexivity.
Qed.
Lemma occ_upd : forall A (f : A -> list nat) l n a a' v, nth_error l n = Some a ->
  occ (flat_map f (upd l n a')) v + occ (f a) v = occ (flat_map f l) v + occ (f a') v.
Proof.
  induction l; intros; destruct n; cbn [nth_error] in H; try discriminate; cbn [upd flat_map].
  - inversion H; subst; rewrite !occ_app; lia.
  - rewrite !occ_app; specialize (IHl n a0 a' v H); lia.
Qed.

Lemma getC_nth : forall h a x, getC h a = Some x -> nth_error h a = Some (Some x).
Proof. unfold getC; intros; destruct (nth_error h a) as [[c|]|]; congruence. Qed.
Lemma getV_nth : forall e a x, getV e a = Some x -> nth_error e a = Some (Some x).
Proof. unfold getV; intros; destruct (nth_error e a) as [[c|]|]; congruence. Qed.
Lemma nth_lt : forall A (l : list A) n v, nth_error l n = Some v -> n < length l.
Proof. intros; apply nth_error_Some; congruence. Qed.
Lemma getC_lt : forall h a x, getC h a = Some x -> a < length h.
Proof. intros; eapply nth_lt, getC_nth; eauto. Qed.
Lemma getV_lt : forall e a x, getV e a = Some x -> a < length e.
Proof. intros; eapply nth_lt, getV_nth; eauto. Qed.
Lemma getC_upd : forall h a c p, a < length h -> getC (upd h a c) p = if Nat.eqb p a then c else getC h p.
Proof.
  unfold getC; intros; rewrite nth_upd'; destruct (Nat.eqb_spec p a); auto.
  apply Nat.ltb_lt in H; rewrite H; destruct c; auto.
Qed.
Lemma getV_upd : forall e a c p, a < length e -> getV (upd e a c) p = if Nat.eqb p a then c else getV e p.
Proof.
  unfold getV; intros; rewrite nth_upd'; destruct (Nat.eqb_spec p a); auto.
  apply Nat.ltb_lt in H; rewrite H; destruct c; auto.
Qed.
Lemma getC_app : forall h x p, getC (h ++ [Some x]) p = if Nat.eqb p (length h) then Some x else getC h p.
Proof.
  unfold getC; intros; destruct (Nat.eqb_spec p (length h)).
  - subst; rewrite nth_error_app2, Nat.sub_diag; auto.
  - destruct (Nat.ltb_spec p (length h)).
    + rewrite nth_error_app1; auto.
    + rewrite nth_error_app2 by lia. destruct (p - length h) eqn:E; [lia|]; cbn.
      rewrite (proj2 (nth_error_None h p)) by lia. destruct n0; auto.
Qed.
Lemma getV_app : forall e x p, getV (e ++ [Some x]) p = if Nat.eqb p (length e) then Some x else getV e p.
Proof.
  unfold getV; intros; destruct (Nat.eqb_spec p (length e)).
  - subst; rewrite nth_error_app2, Nat.sub_diag; auto.
  - destruct (Nat.ltb_spec p (length e)).
    + rewrite nth_error_app1; auto.
    + rewrite nth_error_app2 by lia. destruct (p - length e) eqn:E; [lia|]; cbn.
      rewrite (proj2 (nth_error_None e p)) by lia. destruct n0; auto.
Qed.

Lemma refs_cell : forall h e k a x c v, getC h a = Some x ->
  refs (upd h a c) e k v + occ (olist (fwd x)) v = refs h e k v + occ (clist c) v.
Proof.
  unfold refs; intros; apply getC_nth in H.
  pose proof (occ_upd clist c v H) as Q; cbn [clist] in Q; lia.
Qed.
Lemma refs_var : forall h e k x a c v, getV e x = Some a ->
  refs h (upd e x c) k v + occ [a] v = refs h e k v + occ (olist c) v.
Proof.
  unfold refs; intros; apply getV_nth in H.
  pose proof (occ_upd olist c v H) as Q; cbn [olist] in Q; lia.
Qed.
Lemma refs_keep : forall h e k a x n z v, getC h a = Some x ->
  refs (upd h a (Some (mkCell n (fwd x) z))) e k v = refs h e k v.
Proof. intros; pose proof (refs_cell e k (Some (mkCell n (fwd x) z)) v H); cbn [clist fwd] in *; lia. Qed.
Lemma refs_pend : forall h e k a v, refs h e (a :: k) v = (if Nat.eqb a v then 1 else 0) + refs h e k v.
Proof. intros; unfold refs; rewrite occ_cons; lia. Qed.
Lemma refs_var_pos : forall h e k x a, getV e x = Some a -> refs h e k a > 0.
Proof.
  intros; unfold refs. apply getV_nth in H.
  enough (In a (flat_map olist e)) by (apply occ_in in H0; lia).
  apply in_flat_map; exists (Some a); split; [eapply nth_error_In; eauto | left; auto].
Qed.
Lemma refs_cell_pos : forall h e k b x a, getC h b = Some x -> fwd x = Some a -> refs h e k a > 0.
Proof.
  intros; unfold refs. apply getC_nth in H.
  enough (In a (flat_map clist h)) by (apply occ_in in H1; lia).
  apply in_flat_map; exists (Some x); split; [eapply nth_error_In; eauto | cbn; rewrite H0; left; auto].
Qed.
Lemma refs_pos : forall h e k a, refs h e k a > 0 ->
  (exists x, getV e x = Some a) \/ (exists b x, getC h b = Some x /\ fwd x = Some a) \/ In a k.
Proof.
  intros; unfold refs in H.
  assert (occ (flat_map clist h) a > 0 \/ occ (flat_map olist e) a > 0 \/ occ k a > 0) as [Q|[Q|Q]] by lia; apply occ_in in Q; auto.
  - apply in_flat_map in Q; destruct Q as [[x|] [Q1 Q2]]; cbn in Q2; [|contradiction].
    apply In_nth_error in Q1; destruct Q1 as [b Q1]. right; left; exists b, x; unfold getC; rewrite Q1.
    destruct (fwd x); cbn in Q2; destruct Q2; try contradiction; subst; auto.
  - apply in_flat_map in Q; destruct Q as [[x|] [Q1 Q2]]; cbn in Q2; [|contradiction].
    apply In_nth_error in Q1; destruct Q1 as [b Q1]. left; exists b; unfold getV; rewrite Q1.
    destruct Q2; [subst; auto|contradiction].
Qed.

(** The invariant; [k] holds references that are still to be cut. *)
Record Good (h : list (option cell)) (e : list (option nat)) (k : list nat) : Prop := mkGood {
  g_cnt : forall a x, getC h a = Some x -> lk x = refs h e k a;
  g_dng : forall a, refs h e k a > 0 -> exists x, getC h a = Some x;
  g_pos : forall a x, getC h a = Some x -> lk x > 0;
  g_rank : exists rk : nat -> nat, forall a x b, getC h a = Some x -> fwd x = Some b -> rk b < rk a }.
Arguments g_cnt {h e k} _ a {x} _.
Arguments g_dng {h e k} _ a _.
Arguments g_pos {h e k} _ {a x} _.

(** The end of the chain of replacements. *)
Inductive root (h : list (option cell)) : nat -> nat -> Prop :=
| root_here : forall a x, getC h a = Some x -> fwd x = None -> root h a a
| root_next : forall a x b r, getC h a = Some x -> fwd x = Some b -> root h b r -> root h a r.

Lemma root_fun : forall h a r, root h a r -> forall r', root h a r' -> r = r'.
Proof.
  induction 1; intros r' Q; inversion Q; subst; try congruence.
  rewrite H in H2; inversion H2; subst. rewrite H0 in H3; inversion H3; subst; auto.
Qed.
Lemma root_end : forall h a r, root h a r -> exists x, getC h r = Some x /\ fwd x = None.
Proof. induction 1; eauto. Qed.
Lemma root_of_root : forall h a r, root h a r -> root h r r.
Proof. intros; destruct (root_end H) as [x [? ?]]; eapply root_here; eauto. Qed.

Lemma good_root : forall h e k, Good h e k -> forall a x, getC h a = Some x ->
  exists r n, root h a r /\ forall fuel, n < fuel -> get_ptr fuel h a = Ok r.
Proof.
  intros h e k G; destruct (g_rank G) as [rk Hr].
  enough (forall m a x, rk a < m -> getC h a = Some x ->
    exists r n, root h a r /\ forall fuel, n < fuel -> get_ptr fuel h a = Ok r) by (intros; eauto).
  induction m; intros a x L Q; [lia|].
  destruct (fwd x) as [b|] eqn:F.
  - destruct (g_dng G b) as [y Hy]; [eapply refs_cell_pos; eauto|].
    destruct (IHm b y) as (r & n & R & Hn); auto.
    { specialize (Hr a x b Q F); lia. }
    exists r, (S n); split; [eapply root_next; eauto|].
    intros fuel Lf; destruct fuel; [lia|]; cbn [get_ptr]; rewrite Q; cbn [must rthen]; rewrite F; apply Hn; lia.
  - exists a, 0; split; [eapply root_here; eauto|].
    intros fuel Lf; destruct fuel; [lia|]; cbn [get_ptr]; rewrite Q; cbn [must rthen]; rewrite F; auto.
Qed.

(** [h'] has the objects of [h] except those destroyed. *)
Definition shrunk (h h' : list (option cell)) : Prop :=
  length h' = length h /\
  (forall p y', getC h' p = Some y' -> exists y, getC h p = Some y /\ fwd y' = fwd y /\ val y' = val y).
Lemma shrunk_refl : forall h, shrunk h h.
Proof. split; eauto. Qed.
Lemma shrunk_trans : forall a b c, shrunk a b -> shrunk b c -> shrunk a c.
Proof.
  intros a b c [L1 H1] [L2 H2]; split; [congruence|]; intros.
  destruct (H2 _ _ H) as (y & A & B & C); destruct (H1 _ _ A) as (z & D & E & F); exists z; repeat split; congruence.
Qed.
Lemma shrunk_root : forall h h' e, Good h' e [] -> shrunk h h' -> forall a r, root h a r ->
  forall x, getC h' a = Some x -> root h' a r.
Proof.
  intros h h' e G [_ Hs] a r R; induction R; intros y Hy;
    destruct (Hs _ _ Hy) as (z & A & B & C); rewrite H in A; inversion A; subst z.
  - eapply root_here; [exact Hy|congruence].
  - destruct (g_dng G b) as [w Hw]; [eapply refs_cell_pos; [exact Hy|congruence]|].
    eapply root_next; [exact Hy|rewrite B; eassumption|]; eauto.
Qed.

Lemma rank_shrunk : forall h h', shrunk h h' ->
  (exists rk : nat -> nat, forall a x b, getC h a = Some x -> fwd x = Some b -> rk b < rk a) ->
  (exists rk : nat -> nat, forall a x b, getC h' a = Some x -> fwd x = Some b -> rk b < rk a).
Proof.
  intros h h' [_ Hs] [rk Hr]; exists rk; intros a x b Q F.
  destruct (Hs _ _ Q) as (y & A & B & C); eapply Hr; eauto; congruence.
Qed.

Lemma cut_good : forall h e k a, Good h e (a :: k) ->
  exists h' n, (forall fuel, n < fuel -> cut_link fuel h a = Ok h') /\ Good h' e k /\ shrunk h h'.
Proof.
  intros h e k a G; destruct (g_rank G) as [rk Hr].
  enough (forall m h a, Good h e (a :: k) -> (forall a x b, getC h a = Some x -> fwd x = Some b -> rk b < rk a) -> rk a < m ->
    exists h' n, (forall fuel, n < fuel -> cut_link fuel h a = Ok h') /\ Good h' e k /\ shrunk h h') by (eapply H; eauto).
  clear h a G Hr; induction m; intros h a G Hr L; [lia|].
  destruct (g_dng G a) as [x Hx]; [rewrite refs_pend, Nat.eqb_refl; lia|].
  pose proof (getC_lt Hx) as La.
  pose proof (g_cnt G _ Hx) as Hc; rewrite refs_pend, Nat.eqb_refl in Hc.
  destruct (lk x) as [|[|n]] eqn:Ek; [lia| |].
  - (* destroyed *)
    assert (Sh : shrunk h (upd h a None)).
    { split; [apply upd_len|]; intros p y'; rewrite getC_upd by auto.
      destruct (Nat.eqb_spec p a); [discriminate|]; eauto. }
    assert (Rv : forall v, refs (upd h a None) e k v + occ (olist (fwd x)) v = refs h e k v).
    { intros; pose proof (refs_cell e k None v Hx) as Q; cbn [clist] in Q; rewrite occ_nil in Q; lia. }
    assert (Na : fwd x <> Some a) by (intro F; specialize (Hr a x a Hx F); lia).
    assert (G1 : Good (upd h a None) e (olist (fwd x) ++ k)).
    { assert (Rw : forall v, refs (upd h a None) e (olist (fwd x) ++ k) v = refs h e k v).
      { intros; rewrite <- Rv; unfold refs; rewrite occ_app; lia. }
      constructor.
      - intros p y; rewrite getC_upd by auto; destruct (Nat.eqb_spec p a); [discriminate|]; intros Hy.
        rewrite (g_cnt G _ Hy), refs_pend, Rw. destruct (Nat.eqb_spec a p); [congruence|lia].
      - intros p; rewrite Rw; intros P. destruct (Nat.eqb_spec p a); [subst; lia|].
        destruct (g_dng G p) as [y Hy]; [rewrite refs_pend; lia|].
        exists y; rewrite getC_upd by auto; destruct (Nat.eqb_spec p a); congruence.
      - intros p y; rewrite getC_upd by auto; destruct (Nat.eqb_spec p a); [discriminate|]; apply (g_pos G).
      - eapply rank_shrunk; eauto. }
    destruct (fwd x) as [b|] eqn:F.
    + destruct (IHm (upd h a None) b) as (h' & n & A & B & C); auto.
      { intros p y c; rewrite getC_upd by auto; destruct (Nat.eqb_spec p a); [discriminate|]; apply Hr. }
      { specialize (Hr a x b Hx F); lia. }
      exists h', (S n); split; [|split; [auto|eapply shrunk_trans; eauto]].
      intros fuel Lf; destruct fuel; [lia|]; cbn [cut_link]; rewrite Hx; cbn [must rthen]; rewrite Ek, F; apply A; lia.
    + exists (upd h a None), 0; split; [|split; auto].
      intros fuel Lf; destruct fuel; [lia|]; cbn [cut_link]; rewrite Hx; cbn [must rthen]; rewrite Ek, F; auto.
  - set (h1 := upd h a (Some (mkCell (S n) (fwd x) (val x)))).
    assert (Sh : shrunk h h1).
    { split; [apply upd_len|]; intros p y'; unfold h1; rewrite getC_upd by auto.
      destruct (Nat.eqb_spec p a); [|eauto]; intros Q; inversion Q; subst; exists x; auto. }
    exists h1, 0; split; [|split; auto].
    + intros fuel Lf; destruct fuel; [lia|]; cbn [cut_link]; rewrite Hx; cbn [must rthen]; rewrite Ek; auto.
    + assert (Rv : forall v, refs h1 e k v = refs h e k v) by (intros; apply refs_keep; auto).
      constructor.
      * intros p y; unfold h1 at 1; rewrite getC_upd by auto; destruct (Nat.eqb_spec p a); intros Hy.
        -- inversion Hy; subst; cbn [lk]; rewrite Rv; lia.
        -- rewrite Rv, (g_cnt G _ Hy), refs_pend. destruct (Nat.eqb_spec a p); [congruence|lia].
      * intros p; rewrite Rv; intros P. unfold h1; rewrite getC_upd by auto; destruct (Nat.eqb_spec p a); eauto.
        apply (g_dng G); rewrite refs_pend; lia.
      * intros p y; unfold h1; rewrite getC_upd by auto; destruct (Nat.eqb_spec p a); intros Hy.
        -- inversion Hy; subst; cbn [lk]; lia.
        -- apply (g_pos G) with (1 := Hy).
      * eapply rank_shrunk; [exact Sh|apply (g_rank G)].
Qed.

Lemma bump_good : forall h e k e1 k1 p c, Good h e k -> getC h p = Some c ->
  (forall v, refs h e1 k1 v = refs h e k v + (if Nat.eqb p v then 1 else 0)) ->
  Good (upd h p (Some (mkCell (S (lk c)) (fwd c) (val c)))) e1 k1 /\
  shrunk h (upd h p (Some (mkCell (S (lk c)) (fwd c) (val c)))).
Proof.
  intros h e k e1 k1 p c G Hp Hv. pose proof (getC_lt Hp) as L.
  set (h1 := upd h p _).
  assert (Sh : shrunk h h1).
  { split; [apply upd_len|]; intros q y'; unfold h1; rewrite getC_upd by auto.
    destruct (Nat.eqb_spec q p); [|eauto]; intros Q; inversion Q; subst; exists c; auto. }
  split; auto.
  assert (Rv : forall v, refs h1 e1 k1 v = refs h e k v + (if Nat.eqb p v then 1 else 0)).
  { intros; rewrite <- Hv; apply refs_keep; auto. }
  constructor.
  - intros q y; unfold h1 at 1; rewrite getC_upd by auto; destruct (Nat.eqb_spec q p); intros Hy; rewrite Rv.
    + inversion Hy; subst; cbn [lk]; rewrite (g_cnt G _ Hp), Nat.eqb_refl; lia.
    + rewrite (g_cnt G _ Hy); destruct (Nat.eqb_spec p q); [congruence|lia].
  - intros q; rewrite Rv; intros P; unfold h1; rewrite getC_upd by auto; destruct (Nat.eqb_spec q p); eauto.
    apply (g_dng G); destruct (Nat.eqb_spec p q); [congruence|lia].
  - intros q y; unfold h1; rewrite getC_upd by auto; destruct (Nat.eqb_spec q p); intros Hy.
    + inversion Hy; subst; cbn [lk]; lia.
    + apply (g_pos G Hy).
  - eapply rank_shrunk; [exact Sh|apply (g_rank G)].
Qed.

Lemma reset_good : forall s x a p c, Good (cells s) (vars s) [] -> getV (vars s) x = Some a -> getC (cells s) p = Some c ->
  exists s' n, (forall fuel, n < fuel -> reset_ptr fuel s x p = Ok s') /\ Good (cells s') (vars s') [] /\
    shrunk (cells s) (cells s') /\ vars s' = upd (vars s) x (Some p).
Proof.
  intros s x a p c G Hx Hp.
  destruct (@bump_good (cells s) (vars s) [] (upd (vars s) x (Some p)) [a] p c G Hp) as [G1 S1].
  { intros; rewrite refs_pend. pose proof (refs_var (cells s) [] (Some p) v Hx) as Q; cbn [olist] in Q.
    rewrite !occ_one in Q; lia. }
  destruct (cut_good G1) as (h' & n & A & B & C).
  exists (mkPs h' (upd (vars s) x (Some p))), n; split; [|split; [auto|split; [eapply shrunk_trans; eauto|auto]]].
  intros fuel L; unfold reset_ptr, add_link; rewrite Hx, Hp; cbn [must rthen]. rewrite A; auto.
Qed.

Lemma good_alive : forall h e k x a, Good h e k -> getV e x = Some a -> exists c, getC h a = Some c.
Proof. intros; apply (g_dng H); eapply refs_var_pos; eauto. Qed.

Lemma get_good : forall s x a, Good (cells s) (vars s) [] -> getV (vars s) x = Some a ->
  exists s' r n, (forall fuel, n < fuel -> ptr_get fuel s x = Ok (s', r)) /\ Good (cells s') (vars s') [] /\
    shrunk (cells s) (cells s') /\ vars s' = upd (vars s) x (Some r) /\ root (cells s) a r.
Proof.
  intros s x a G Hx. destruct (good_alive G Hx) as [c Hc].
  destruct (good_root G Hc) as (r & n & R & Hn).
  destruct (fwd c) as [b|] eqn:F.
  - destruct (root_end R) as (y & Hy & Fy).
    destruct (reset_good G Hx Hy) as (s' & n' & A & B & C & D).
    exists s', r, (n + n'); split; [|auto].
    intros fuel L; unfold ptr_get; rewrite Hx; cbn [must rthen]; rewrite Hc; cbn [must rthen]; rewrite F, Hn by lia.
    cbn [rthen]; rewrite A by lia; auto.
  - exists s, a, 0; split; [|split; [auto|split; [apply shrunk_refl|split]]].
    + intros fuel L; unfold ptr_get; rewrite Hx; cbn [must rthen]; rewrite Hc; cbn [must rthen]; rewrite F; auto.
    + clear - Hx. apply getV_nth in Hx. revert x Hx; induction (vars s); destruct x; cbn; intros; try discriminate.
      * inversion Hx; auto.
      * rewrite <- IHl; auto.
    + eapply root_here; eauto.
Qed.

Lemma upd_upd : forall A (l : list A) n a b, upd (upd l n a) n b = upd l n b.
Proof. induction l; destruct n; cbn; intros; auto; f_equal; auto. Qed.
Lemma upd_comm : forall A (l : list A) n m a b, n <> m -> upd (upd l n a) m b = upd (upd l m b) n a.
Proof. induction l; destruct n, m; cbn; intros; auto; try lia; f_equal; auto. Qed.
Lemma upd_same : forall A (l : list A) n a, nth_error l n = Some a -> upd l n a = l.
Proof. induction l; destruct n; cbn; intros; try discriminate; [inversion H; auto|f_equal; auto]. Qed.

Lemma cut_dead : forall fuel h b h' a, cut_link fuel h b = Ok h' -> getC h a = None -> getC h' a = None.
Proof.
  induction fuel; cbn [cut_link]; intros h b h' a Q D; [discriminate|].
  destruct (getC h b) as [x|] eqn:E; cbn [must rthen] in Q; [|discriminate].
  pose proof (getC_lt E) as L.
  destruct (lk x) as [|[|n]]; [discriminate| |].
  - assert (D1 : getC (upd h b None) a = None) by (rewrite getC_upd by auto; destruct (Nat.eqb a b); auto).
    destruct (fwd x); [eauto|inversion Q; subst; auto].
  - inversion Q; subst; rewrite getC_upd by auto; destruct (Nat.eqb_spec a b); [congruence|auto].
Qed.

Lemma cut_other : forall fuel h b h' a y0 y' F, cut_link fuel h b = Ok h' -> getC h a = Some y0 -> fwd y0 = None ->
  getC h' a = Some y' ->
  cut_link fuel (upd h a (Some (mkCell (lk y0) F (val y0)))) b = Ok (upd h' a (Some (mkCell (lk y') F (val y')))).
Proof.
  induction fuel; cbn [cut_link]; intros h b h' a y0 y' F Q H0 N H1; [discriminate|].
  pose proof (getC_lt H0) as La.
  rewrite getC_upd by auto. destruct (Nat.eqb_spec b a).
  - subst b; rewrite H0 in Q; cbn [must rthen lk] in *. destruct (lk y0) as [|[|n]] eqn:E; [discriminate| |].
    + rewrite N in Q; inversion Q; subst. rewrite getC_upd, Nat.eqb_refl in H1 by auto; discriminate.
    + inversion Q; subst. rewrite getC_upd, Nat.eqb_refl in H1 by auto; inversion H1; subst; cbn [lk val fwd].
      rewrite !upd_upd; auto.
  - destruct (getC h b) as [x|] eqn:E; cbn [must rthen] in *; [|discriminate].
    pose proof (getC_lt E) as Lb.
    destruct (lk x) as [|[|m]]; [discriminate| |].
    + rewrite upd_comm by auto.
      assert (H0' : getC (upd h b None) a = Some y0).
      { rewrite getC_upd by auto; destruct (Nat.eqb_spec a b); [congruence|auto]. }
      destruct (fwd x) as [b'|].
      * eapply IHfuel; eauto.
      * inversion Q; subst; rewrite H0' in H1; inversion H1; subst; auto.
    + inversion Q; subst. rewrite getC_upd in H1 by auto; destruct (Nat.eqb_spec a b); [congruence|].
      rewrite H0 in H1; inversion H1; subst. rewrite upd_comm by auto; auto.
Qed.

(** What [be_replace_as] leaves: [a] forgets its old successor, which may
    destroy objects, then [a] is linked to [p]. *)
Definition cleared (h : list (option cell)) (a : nat) (x : cell) := upd h a (Some (mkCell (lk x) None (val x))).
Definition linked (g : list (option cell)) (a p : nat) (y c : cell) :=
  upd (upd g a (Some (mkCell (lk y) (Some p) (val y)))) p (Some (mkCell (S (lk c)) None (val c))).

Lemma cleared_good : forall h e a x b, Good h e [] -> getC h a = Some x -> fwd x = Some b -> Good (cleared h a x) e [b].
Proof.
  intros h e a x b G Hx F. pose proof (getC_lt Hx) as L. unfold cleared; set (h1 := upd h a _).
  assert (Rv : forall v, refs h1 e [b] v = refs h e [] v).
  { intros; rewrite refs_pend. pose proof (refs_cell e [] (Some (mkCell (lk x) None (val x))) v Hx) as Q.
    fold h1 in Q; rewrite F in Q; cbn [clist olist fwd] in Q; rewrite occ_one, occ_nil in Q; lia. }
  constructor.
  - intros q y; rewrite Rv; unfold h1; rewrite getC_upd by auto; destruct (Nat.eqb_spec q a); intros Hy.
    + inversion Hy; subst; apply (g_cnt G _ Hx).
    + apply (g_cnt G _ Hy).
  - intros q; rewrite Rv; intros P; unfold h1; rewrite getC_upd by auto; destruct (Nat.eqb_spec q a); eauto.
    apply (g_dng G); auto.
  - intros q y; unfold h1; rewrite getC_upd by auto; destruct (Nat.eqb_spec q a); intros Hy.
    + inversion Hy; subst; apply (g_pos G Hx).
    + apply (g_pos G Hy).
  - destruct (g_rank G) as [rk Hr]; exists rk; intros q y c; unfold h1; rewrite getC_upd by auto.
    destruct (Nat.eqb_spec q a); intros Hy Fy; [inversion Hy; subst; discriminate|eauto].
Qed.

Lemma linked_good : forall g e a p y c, Good g e [] -> getC g a = Some y -> fwd y = None -> getC g p = Some c -> fwd c = None ->
  a <> p -> Good (linked g a p y c) e [].
Proof.
  intros g e a p y c G Hy Fy Hp Fp N. unfold linked.
  pose proof (getC_lt Hy) as La. pose proof (getC_lt Hp) as Lp.
  set (g1 := upd g a _). assert (L1 : p < length g1) by (unfold g1; rewrite upd_len; auto).
  assert (Hp1 : getC g1 p = Some c) by (unfold g1; rewrite getC_upd by auto; destruct (Nat.eqb_spec p a); congruence).
  set (g2 := upd g1 p _).
  assert (Rv : forall v, refs g2 e [] v = refs g e [] v + (if Nat.eqb p v then 1 else 0)).
  { intros. pose proof (refs_cell e [] (Some (mkCell (lk y) (Some p) (val y))) v Hy) as Q1.
    pose proof (refs_cell e [] (Some (mkCell (S (lk c)) None (val c))) v Hp1) as Q2.
    fold g1 in Q1; fold g2 in Q2; rewrite Fy in Q1; rewrite Fp in Q2; cbn [clist olist fwd] in *.
    rewrite ?occ_one, ?occ_nil in *; lia. }
  assert (Gc : forall q, getC g2 q = if Nat.eqb q p then Some (mkCell (S (lk c)) None (val c))
                         else if Nat.eqb q a then Some (mkCell (lk y) (Some p) (val y)) else getC g q).
  { intros; unfold g2; rewrite getC_upd by auto; destruct (Nat.eqb q p); auto; unfold g1; rewrite getC_upd; auto. }
  constructor.
  - intros q z; rewrite Gc, Rv; destruct (Nat.eqb_spec q p) as [->|Nq]; [|destruct (Nat.eqb_spec q a) as [->|Nq']]; intros Hz.
    + inversion Hz; subst; cbn [lk]; rewrite (g_cnt G _ Hp), Nat.eqb_refl; lia.
    + inversion Hz; subst; cbn [lk]; rewrite (g_cnt G _ Hy); destruct (Nat.eqb_spec p a); [congruence|lia].
    + rewrite (g_cnt G _ Hz); destruct (Nat.eqb_spec p q); [congruence|lia].
  - intros q; rewrite Gc, Rv; intros P; destruct (Nat.eqb_spec q p); eauto; destruct (Nat.eqb_spec q a); eauto.
    apply (g_dng G); destruct (Nat.eqb_spec p q); [congruence|lia].
  - intros q z; rewrite Gc; destruct (Nat.eqb_spec q p) as [->|Nq]; [|destruct (Nat.eqb_spec q a) as [->|Nq']]; intros Hz.
    + inversion Hz; subst; cbn [lk]; lia.
    + inversion Hz; subst; apply (g_pos G Hy).
    + apply (g_pos G Hz).
  - destruct (g_rank G) as [rk Hr]. exists (fun q => if Nat.eqb q p then 0 else S (rk q)).
    intros q z b; rewrite Gc; destruct (Nat.eqb_spec q p) as [->|Nq]; [|destruct (Nat.eqb_spec q a) as [->|Nq']]; intros Hz Fz.
    + inversion Hz; subst; discriminate.
    + inversion Hz; subst; cbn [fwd] in Fz; inversion Fz; subst; rewrite Nat.eqb_refl; lia.
    + destruct (Nat.eqb b p); [lia|]. specialize (Hr q z b Hz Fz); lia.
Qed.

Lemma replace_good : forall h e a x p c v1 v2, Good h e [] -> getC h a = Some x -> getC h p = Some c -> fwd c = None ->
  getV e v1 = Some a -> getV e v2 = Some p ->
  exists g n h2, (forall fuel, n < fuel -> be_replace_as fuel h a p = Ok h2) /\ Good h2 e [] /\ length h2 = length h /\
    (fwd x = None -> g = h) /\ shrunk (cleared h a x) g /\
    (a = p -> h2 = h) /\
    (a <> p -> exists y c', getC g a = Some y /\ fwd y = None /\ getC g p = Some c' /\ fwd c' = None /\ h2 = linked g a p y c').
Proof.
  intros h e a x p c v1 v2 G Hx Hp Fp E1 E2. pose proof (getC_lt Hx) as La.
  assert (P1 : exists g n y, Good g e [] /\ (fwd x = None -> g = h) /\ shrunk (cleared h a x) g /\ getC g a = Some y /\ fwd y = None /\
    forall fuel, n < fuel -> rthen (match fwd x with Some b => cut_link fuel h b | None => Ok h end) (fun h1 => set_fwd h1 a p) =
      Ok (upd g a (Some (mkCell (lk y) (if Nat.eqb p a then None else Some p) (val y))))).
  { destruct (fwd x) as [b|] eqn:F.
    - pose proof (cleared_good G Hx F) as G1. destruct (cut_good G1) as (g & n & A & B & C).
      destruct (good_alive B E1) as [y Hy]. exists g, n, y.
      assert (H0 : getC (cleared h a x) a = Some (mkCell (lk x) None (val x))).
      { unfold cleared; rewrite getC_upd, Nat.eqb_refl by auto; auto. }
      assert (Fy : fwd y = None).
      { destruct C as [_ C]; destruct (C _ _ Hy) as (z & Z1 & Z2 & Z3); rewrite H0 in Z1; inversion Z1; subst; auto. }
      refine (conj B (conj _ (conj C (conj Hy (conj Fy _))))); [discriminate|].
      intros fuel L. specialize (A fuel L).
      pose proof (@cut_other fuel _ b g a _ y (fwd x) A H0 eq_refl Hy) as Q; cbn [lk val] in Q.
      unfold cleared in Q; rewrite upd_upd in Q.
      rewrite (@upd_same _ h a) in Q by (rewrite (getC_nth Hx); destruct x; auto).
      rewrite Q; cbn [rthen]; unfold set_fwd.
      assert (Lg : a < length g) by (eapply getC_lt; eauto).
      rewrite getC_upd, Nat.eqb_refl by auto; cbn [must rthen lk val]; rewrite upd_upd; auto.
    - exists h, 0, x; refine (conj G (conj (fun _ => eq_refl) (conj _ (conj Hx (conj F _))))).
      + split; [unfold cleared; rewrite upd_len; auto|].
        intros q y' Q; unfold cleared; rewrite getC_upd by auto; destruct (Nat.eqb_spec q a); [subst|eauto].
        rewrite Hx in Q; inversion Q; subst; eexists; split; [reflexivity|auto].
      + intros; cbn [rthen]; unfold set_fwd; rewrite Hx; cbn [must rthen]; auto. }
  destruct P1 as (g & n & y & Gg & Gn & Sh & Hy & Fy & P).
  destruct (good_alive Gg E2) as [c' Hc'].
  assert (Fc' : fwd c' = None).
  { destruct Sh as [_ Sh]; destruct (Sh _ _ Hc') as (z & Z1 & Z2 & Z3); unfold cleared in Z1; rewrite getC_upd in Z1 by auto.
    destruct (Nat.eqb_spec p a); [inversion Z1; subst; auto|congruence]. }
  assert (Lg : length g = length h) by (destruct Sh as [Q _]; rewrite Q; apply upd_len).
  destruct (Nat.eqb_spec p a).
  - subst p. rewrite Hx in Hp; inversion Hp; subst c.
    exists g, n, h; refine (conj _ (conj G (conj eq_refl (conj Gn (conj Sh (conj (fun _ => eq_refl) _)))))); [|congruence].
    intros fuel L; specialize (P fuel L); unfold be_replace_as; rewrite Hx; cbn [must rthen].
      rewrite Fp in *; cbn [rthen] in *; rewrite P; cbn [rthen]; rewrite Nat.eqb_refl.
      rewrite (Gn eq_refl) in *. rewrite Hx in Hy; inversion Hy; subst y.
      rewrite upd_same; auto. rewrite (getC_nth Hx); destruct x; cbn in *; subst; auto.
  - exists g, n, (linked g a p y c'); refine (conj _ (conj _ (conj _ (conj Gn (conj Sh (conj _ _)))))).
    + intros fuel L; specialize (P fuel L); unfold be_replace_as; rewrite Hx; cbn [must rthen].
      destruct (match fwd x with Some b => cut_link fuel h b | None => Ok h end) as [h1| |]; try discriminate.
      cbn [rthen] in *; rewrite P; cbn [rthen]. destruct (Nat.eqb_spec p a); [congruence|].
      assert (La' : a < length g) by lia.
      unfold add_link; rewrite getC_upd by auto. destruct (Nat.eqb_spec p a); [congruence|].
      rewrite Hc'; cbn [must rthen]. unfold linked; rewrite Fc'; auto.
    + apply linked_good; auto.
    + unfold linked; rewrite !upd_len; auto.
    + congruence.
    + intros; exists y, c'; auto.
Qed.

(** The variables in scope are those of the specification. *)
Definition scope (e d : list (option nat)) : Prop :=
  length e = length d /\ forall x, (exists a, getV e x = Some a) <-> (exists t, getV d x = Some t).
(** Each variable leads to the thing it denotes. *)
Record Rel (s : pstate) (w : world) (F : list nat) : Prop := mkRel {
  r_len : length (things w) = length (cells s);
  r_var : forall x a, getV (vars s) x = Some a -> exists t, thing w x = Some t /\ root (cells s) a t;
  r_val : forall r c, getC (cells s) r = Some c -> fwd c = None -> nth r (things w) 0%Z = val c;
  r_use : forall x a, In x F -> getV (vars s) x = Some a -> root (cells s) a a }.
Arguments r_var {s w F} _ {x a} _.
Arguments r_val {s w F} _ {r c} _ _.
Arguments r_use {s w F} _ {x a} _ _.

Lemma thing_getV : forall w x, thing w x = getV (denotes w) x. Proof. reflexivity. Qed.

Lemma scope_upd : forall e d x a t, scope e d -> getV e x <> None -> scope (upd e x (Some a)) (upd d x (Some t)).
Proof.
  intros e d x a t [L S] Hx. split; [rewrite !upd_len; auto|].
  destruct (getV e x) as [b|] eqn:E; [|congruence]. pose proof (getV_lt E) as L1.
  intros z; rewrite !getV_upd by lia. destruct (Nat.eqb z x); [split; eauto|apply S].
Qed.
Lemma scope_left : forall e d x a, scope e d -> getV e x <> None -> scope (upd e x (Some a)) d.
Proof.
  intros e d x a [L S] Hx. split; [rewrite !upd_len; auto|].
  destruct (getV e x) as [b|] eqn:E; [|congruence]. pose proof (getV_lt E) as L1.
  intros z; rewrite getV_upd by lia. destruct (Nat.eqb_spec z x); [subst; split; [intros _; apply S; eauto|eauto]|apply S].
Qed.
Lemma scope_none : forall e d x, scope e d -> getV e x <> None -> scope (upd e x None) (upd d x None).
Proof.
  intros e d x [L S] Hx. split; [rewrite !upd_len; auto|].
  destruct (getV e x) as [b|] eqn:E; [|congruence]. pose proof (getV_lt E) as L1.
  intros z; rewrite !getV_upd by lia. destruct (Nat.eqb z x); [split; intros [q Q]; discriminate|apply S].
Qed.
Lemma scope_app : forall e d a t, scope e d -> scope (e ++ [Some a]) (d ++ [Some t]).
Proof.
  intros e d a t [L S]; split; [rewrite !app_length; cbn; lia|].
  intros z; rewrite !getV_app, L. destruct (Nat.eqb z (length d)); [split; eauto|apply S].
Qed.
Lemma redirect_get : forall d t u x, getV (redirect t u d) x =
  match getV d x with Some v => Some (if Nat.eqb v t then u else v) | None => None end.
Proof.
  unfold getV, redirect; intros; rewrite nth_error_map. destruct (nth_error d x) as [[v|]|]; auto.
Qed.
Lemma scope_redirect : forall e d t u, scope e d -> scope e (redirect t u d).
Proof.
  intros e d t u [L S]; split; [unfold redirect; rewrite map_length; auto|].
  intros z; rewrite redirect_get, S. destruct (getV d z); split; intros [q Q]; eauto; discriminate.
Qed.

Lemma rel_shrunk : forall s w F s' w' F', Rel s w F -> Good (cells s') (vars s') [] -> shrunk (cells s) (cells s') ->
  things w' = things w ->
  (forall x a, getV (vars s') x = Some a -> exists t, thing w' x = Some t /\ root (cells s) a t) ->
  (forall x a, In x F' -> getV (vars s') x = Some a -> root (cells s) a a) -> Rel s' w' F'.
Proof.
  intros s w F s' w' F' R G Sh Ht Hv Hf. constructor.
  - rewrite Ht, (r_len R); symmetry; apply Sh.
  - intros x a Q. destruct (Hv x a Q) as (t & A & B); exists t; split; auto.
    destruct (good_alive G Q) as [c Hc]. eapply shrunk_root; eauto.
  - intros r c Q N. destruct Sh as [_ Sh]; destruct (Sh _ _ Q) as (y & A & B & C).
    rewrite Ht, C; apply (r_val R A); congruence.
  - intros x a I Q. destruct (good_alive G Q) as [c Hc]. eapply shrunk_root; eauto.
Qed.

Lemma rel_get : forall s w F x a s' r, Rel s w F -> getV (vars s) x = Some a ->
  Good (cells s') (vars s') [] -> shrunk (cells s) (cells s') -> vars s' = upd (vars s) x (Some r) -> root (cells s) a r ->
  Rel s' w (x :: F) /\ thing w x = Some r.
Proof.
  intros s w F x a s' r R Hx G Sh Hv Ra. pose proof (getV_lt Hx) as L.
  destruct (r_var R Hx) as (t & A & B). rewrite (root_fun B Ra) in A. split; auto.
  apply (rel_shrunk R G Sh eq_refl).
  - intros z b; rewrite Hv, getV_upd by auto; destruct (Nat.eqb_spec z x); intros Q; [|apply (r_var R Q)].
    inversion Q; subst. exists b; split; auto. eapply root_of_root; eauto.
  - intros z b I; rewrite Hv, getV_upd by auto; destruct (Nat.eqb_spec z x); intros Q.
    + inversion Q; subst; eapply root_of_root; eauto.
    + destruct I as [I|I]; [congruence|]. eapply (r_use R); eauto.
Qed.

Lemma linked_root : forall g a p y c, getC g a = Some y -> fwd y = None -> getC g p = Some c -> fwd c = None -> a <> p ->
  forall q r, root g q r -> root (linked g a p y c) q (if Nat.eqb r a then p else r).
Proof.
  intros g a p y c Hy Fy Hp Fp N q r R. pose proof (getC_lt Hy) as La; pose proof (getC_lt Hp) as Lp.
  assert (Gc : forall q, getC (linked g a p y c) q = if Nat.eqb q p then Some (mkCell (S (lk c)) None (val c))
                         else if Nat.eqb q a then Some (mkCell (lk y) (Some p) (val y)) else getC g q).
  { intros; unfold linked; rewrite getC_upd by (rewrite upd_len; auto); destruct (Nat.eqb q0 p); auto; rewrite getC_upd; auto. }
  assert (Rp : root (linked g a p y c) p p).
  { eapply root_here; [rewrite Gc, Nat.eqb_refl; reflexivity|auto]. }
  induction R.
  - destruct (Nat.eqb_spec a0 a).
    + subst. eapply root_next; [rewrite Gc; destruct (Nat.eqb_spec a p); [congruence|]; rewrite Nat.eqb_refl; reflexivity|reflexivity|auto].
    + destruct (Nat.eqb_spec a0 p); [subst; auto|].
      eapply root_here; [rewrite Gc; destruct (Nat.eqb_spec a0 p); [congruence|]; destruct (Nat.eqb_spec a0 a); [congruence|]; eauto|auto].
  - eapply root_next; [rewrite Gc; destruct (Nat.eqb_spec a0 p); [subst; congruence|]; destruct (Nat.eqb_spec a0 a); [subst; congruence|]; eauto|eauto|auto].
Qed.

Lemma rel_replace : forall s w F a p y c u w' x, Rel s w F -> Good (cells s) (vars s) [] ->
  Good (linked (cells s) a p y c) (vars s) [] ->
  getC (cells s) a = Some y -> fwd y = None -> getC (cells s) p = Some c -> fwd c = None -> a <> p ->
  getV (vars s) x = Some a -> getV (vars s) u = Some p -> thing w u = Some p ->
  w' = mkW (things w) (redirect a p (denotes w)) ->
  Rel (mkPs (linked (cells s) a p y c) (vars s)) w' [u].
Proof.
  intros s w F a p y c u w' x R G G2 Hy Fy Hp Fp N Hx Hu Tu ->.
  pose proof (getC_lt Hy) as La; pose proof (getC_lt Hp) as Lp.
  assert (Gc : forall q, getC (linked (cells s) a p y c) q = if Nat.eqb q p then Some (mkCell (S (lk c)) None (val c))
                         else if Nat.eqb q a then Some (mkCell (lk y) (Some p) (val y)) else getC (cells s) q).
  { intros; unfold linked; rewrite getC_upd by (rewrite upd_len; auto); destruct (Nat.eqb q p); auto; rewrite getC_upd; auto. }
  constructor; cbn [cells vars things].
  - unfold linked; rewrite !upd_len; apply (r_len R).
  - intros z b Q. destruct (r_var R Q) as (t & A & B). rewrite thing_getV in *; cbn [denotes]; rewrite redirect_get, A.
    eexists; split; [reflexivity|]. apply linked_root; auto.
  - intros r k; rewrite Gc. destruct (Nat.eqb_spec r p) as [->|Nr]; [|destruct (Nat.eqb_spec r a) as [->|Nr']]; intros Q Fk.
    + inversion Q; subst; cbn [val]; apply (r_val R Hp Fp).
    + inversion Q; subst; discriminate.
    + apply (r_val R Q Fk).
  - intros z b I Q. destruct I as [<-|[]]. rewrite Hu in Q; inversion Q; subst b.
    eapply root_here; [rewrite Gc, Nat.eqb_refl; reflexivity|auto].
Qed.

Lemma leads_end : forall h a b x c, leads h a b -> getC h b = Some x -> fwd x = Some c -> leads h a c.
Proof. induction 1; intros; [eapply leads_next; eauto; constructor|eapply leads_next; eauto]. Qed.
Lemma leads_root : forall h a b r, leads h a b -> root h b r -> root h a r.
Proof. induction 1; intros; auto. eapply root_next; eauto. Qed.

Lemma bounded : forall (rk : nat -> nat) n, exists m, forall a, a < n -> rk a <= m.
Proof.
  induction n; [exists 0; lia|]. destruct IHn as [m Hm]; exists (Nat.max m (rk n)); intros a L.
  destruct (Nat.eq_dec a n); [subst; lia|]. specialize (Hm a); lia.
Qed.
Lemma no_leak : forall h e, Good h e [] -> forall b y, getC h b = Some y -> exists x a, getV e x = Some a /\ leads h a b.
Proof.
  intros h e G. destruct (g_rank G) as [rk Hr]. destruct (bounded rk (length h)) as [m Hm].
  enough (forall k b y, m - rk b < k -> getC h b = Some y -> exists x a, getV e x = Some a /\ leads h a b) by (intros; eauto).
  induction k; intros b y L Hb; [lia|].
  pose proof (g_pos G Hb) as P; rewrite (g_cnt G _ Hb) in P.
  destruct (refs_pos P) as [[x Q]|[(b' & x & Q1 & Q2)|[]]].
  - exists x, b; split; auto; constructor.
  - specialize (Hr _ _ _ Q1 Q2). specialize (Hm b' (getC_lt Q1)).
    destruct (IHk b' x) as (z & a & A & B); [lia|auto|]. exists z, a; split; auto. eapply leads_end; eauto.
Qed.

Lemma users_occ : forall d t, users d t = occ (flat_map olist d) t.
Proof.
  unfold users; induction d as [|[v|] d IH]; intros; cbn [filter flat_map olist]; auto.
  rewrite occ_app, occ_one, <- IH. destruct (Nat.eqb v t); auto.
Qed.
Lemma occ_two : forall d x t, getV d x = Some t -> occ (flat_map olist d) t > 1 <-> exists z, z <> x /\ getV d z = Some t.
Proof.
  intros d x t Hx. pose proof (occ_upd olist None t (getV_nth Hx)) as Q; cbn [olist] in Q.
  rewrite occ_one, Nat.eqb_refl, occ_nil in Q. pose proof (getV_lt Hx) as L.
  transitivity (occ (flat_map olist (upd d x None)) t > 0); [lia|]. rewrite occ_in, in_flat_map. split.
  - intros ([v|] & A & B); cbn in B; [|contradiction]. destruct B as [->|[]].
    apply In_nth_error in A; destruct A as [z A]; exists z.
    rewrite nth_upd' in A. destruct (Nat.eqb_spec z x).
    + apply Nat.ltb_lt in L; rewrite L in A; discriminate.
    + split; auto. unfold getV; rewrite A; auto.
  - intros (z & N & A). exists (Some t); split; [|left; auto].
    apply nth_error_In with (n := z). rewrite nth_upd'. destruct (Nat.eqb_spec z x); [congruence|]. apply getV_nth; auto.
Qed.
Lemma root_pred : forall h a r, root h a r -> a = r \/ exists b y, getC h b = Some y /\ fwd y = Some r.
Proof. induction 1; auto. right; destruct IHroot as [->|Q]; eauto. Qed.
Lemma unique_right : forall s w F x r c, Rel s w F -> Good (cells s) (vars s) [] -> scope (vars s) (denotes w) ->
  getV (vars s) x = Some r -> thing w x = Some r -> getC (cells s) r = Some c -> fwd c = None ->
  Nat.eqb (lk c) 1 = Nat.eqb (users (denotes w) r) 1.
Proof.
  intros s w F x r c R G S Hx Tx Hc Fc. rewrite users_occ, (g_cnt G _ Hc). unfold refs; rewrite occ_nil, Nat.add_0_r.
  pose proof (occ_two Hx) as T1. pose proof (occ_two Tx) as T2.
  assert (P1 : occ (flat_map olist (vars s)) r > 0).
  { pose proof (refs_var_pos [] [] Hx) as Q; unfold refs in Q; cbn [flat_map] in Q; rewrite !occ_nil in Q; lia. }
  assert (P2 : occ (flat_map olist (denotes w)) r > 0).
  { pose proof (refs_var_pos [] [] Tx) as Q; unfold refs in Q; cbn [flat_map] in Q; rewrite !occ_nil in Q; lia. }
  enough (occ (flat_map clist (cells s)) r > 0 \/ occ (flat_map olist (vars s)) r > 1 <-> occ (flat_map olist (denotes w)) r > 1).
  { destruct (Nat.eqb_spec (occ (flat_map clist (cells s)) r + occ (flat_map olist (vars s)) r) 1);
    destruct (Nat.eqb_spec (occ (flat_map olist (denotes w)) r) 1); auto; lia. }
  rewrite T1, T2. split.
  - intros [Q|(z & N & Q)].
    + destruct (@refs_pos (cells s) [] [] r) as [[q Q1]|[(b & y & Q1 & Q2)|[]]].
      { unfold refs; lia. }
      { destruct q; discriminate. }
      destruct (no_leak G Q1) as (z & a & A & B).
      assert (Rz : root (cells s) a r).
      { eapply leads_root; [exact B|]. eapply root_next; eauto. eapply root_here; eauto. }
      exists z; split.
      * intros ->. rewrite Hx in A; inversion A; subst a. inversion B; subst.
        -- rewrite Hc in Q1; inversion Q1; congruence.
        -- congruence.
      * destruct (r_var R A) as (t & T & U). rewrite (root_fun U Rz) in T. auto.
    + exists z; split; auto. destruct (r_var R Q) as (t & T & U).
      rewrite (root_fun U (root_here Hc Fc)) in T; auto.
  - intros (z & N & Q). destruct S as [_ S]. destruct (proj2 (S z)) as [a A]; eauto.
    destruct (r_var R A) as (t & T & U). rewrite thing_getV in T; rewrite Q in T; inversion T; subst t.
    destruct (root_pred U) as [->|(b' & y & B & C)]; [right; eauto|left].
    pose proof (refs_cell_pos [] [] B C) as P; unfold refs in P; cbn [flat_map] in P; rewrite !occ_nil in P; lia.
Qed.

Definition guard (F : list nat) (o : pop) : bool :=
  match o with PReplace x _ => existsb (Nat.eqb x) F | _ => true end.
Lemma existsb_in : forall x F, existsb (Nat.eqb x) F = true <-> In x F.
Proof.
  intros; rewrite existsb_exists; split.
  - intros (y & A & B); apply Nat.eqb_eq in B; subst; auto.
  - intros; exists x; rewrite Nat.eqb_refl; auto.
Qed.
Lemma scope_get : forall e d x t, scope e d -> getV d x = Some t -> exists a, getV e x = Some a.
Proof. intros e d x t [_ S] H; apply S; eauto. Qed.
Lemma some_ne : forall e x a, getV e x = Some a -> getV e x <> None.
Proof. congruence. Qed.

Definition stepped (s : pstate) (w : world) (o : pop) (w' : world) (b : seen) : Prop :=
  exists s' b' n, (forall fuel, n < fuel -> pstep fuel s o = Ok (s', b')) /\ Good (cells s') (vars s') [] /\
    scope (vars s') (denotes w') /\ length (vars s') = declared (length (vars s)) o /\
    forall F, (forall x, In x F -> x < length (vars s)) -> Rel s w F -> guard F o = true -> b' = b /\ Rel s' w' (used_after (length (vars s)) F o).

Lemma step_new : forall s w v, Good (cells s) (vars s) [] -> scope (vars s) (denotes w) ->
  stepped s w (PNew v) (mkW (things w ++ [v]) (denotes w ++ [Some (length (things w))])) SawNothing.
Proof.
  intros s w v G S.
  set (h1 := cells s ++ [Some (mkCell 1 None v)]).
  assert (Gc : forall p, getC h1 p = if Nat.eqb p (length (cells s)) then Some (mkCell 1 None v) else getC (cells s) p).
  { intros; apply getC_app. }
  assert (Rt : forall a r, root (cells s) a r -> root h1 a r).
  { induction 1.
    - eapply root_here; [rewrite Gc; destruct (Nat.eqb_spec a (length (cells s))); [apply getC_lt in H; lia|eauto]|auto].
    - eapply root_next; [rewrite Gc; destruct (Nat.eqb_spec a (length (cells s))); [apply getC_lt in H; lia|eauto]|eauto|auto]. }
  exists (mkPs h1 (vars s ++ [Some (length (cells s))])), SawNothing, 0; cbn [cells vars denotes].
  assert (Rv : forall a, refs h1 (vars s ++ [Some (length (cells s))]) [] a =
     refs (cells s) (vars s) [] a + (if Nat.eqb (length (cells s)) a then 1 else 0)).
  { intros; unfold refs, h1; rewrite !flat_map_app, !occ_app; cbn [flat_map clist olist fwd app]; rewrite occ_one, occ_nil; lia. }
  assert (Z0 : refs (cells s) (vars s) [] (length (cells s)) = 0).
  { destruct (refs (cells s) (vars s) [] (length (cells s))) eqn:E; auto.
    destruct (g_dng G (length (cells s))) as [x X]; [lia|apply getC_lt in X; lia]. }
  refine (conj _ (conj _ (conj _ (conj _ _)))).
  - intros fuel _; cbn [pstep]; unfold add_link. rewrite getC_app, Nat.eqb_refl; cbn [must rthen lk fwd val].
    f_equal; f_equal; f_equal. unfold h1; clear. induction (cells s); cbn; auto; f_equal; auto.
  - constructor.
    + intros p x; rewrite Gc, Rv; destruct (Nat.eqb_spec p (length (cells s))); intros Q.
      * subst p; inversion Q; subst; cbn [lk]; rewrite Nat.eqb_refl; lia.
      * rewrite (g_cnt G _ Q); destruct (Nat.eqb_spec (length (cells s)) p); [congruence|lia].
    + intros p; rewrite Gc, Rv; destruct (Nat.eqb_spec p (length (cells s))); eauto; intros P.
      apply (g_dng G); destruct (Nat.eqb_spec (length (cells s)) p); [congruence|lia].
    + intros p x; rewrite Gc; destruct (Nat.eqb_spec p (length (cells s))); intros Q.
      * inversion Q; subst; cbn; lia.
      * apply (g_pos G Q).
    + destruct (g_rank G) as [rk Hr]; exists rk; intros p x c; rewrite Gc; destruct (Nat.eqb_spec p (length (cells s))); intros Q Fx.
      * inversion Q; subst; discriminate.
      * eauto.
  - apply scope_app; auto.
  - rewrite app_length; cbn; lia.
  - intros F Fb R _; split; auto. constructor; cbn [cells vars things].
    + unfold h1; rewrite !app_length, (r_len R); auto.
    + intros x a; rewrite getV_app, thing_getV; cbn [denotes]; rewrite getV_app. destruct S as [<- S].
      destruct (Nat.eqb x (length (vars s))); intros Q.
      * inversion Q; subst. exists (length (cells s)); split; [rewrite (r_len R); auto|].
        eapply root_here; [rewrite Gc, Nat.eqb_refl; reflexivity|auto].
      * destruct (r_var R Q) as (t & A & B). exists t; split; auto.
    + intros r c; rewrite Gc; destruct (Nat.eqb_spec r (length (cells s))); intros Q Fc.
      * subst r; inversion Q; subst; cbn [val]. rewrite <- (r_len R), app_nth2, Nat.sub_diag by lia; auto.
      * rewrite app_nth1 by (rewrite (r_len R); eapply getC_lt; eauto). apply (r_val R Q Fc).
    + intros x a I; rewrite getV_app. destruct (Nat.eqb_spec x (length (vars s))); intros Q.
      * inversion Q; subst. eapply root_here; [rewrite Gc, Nat.eqb_refl; reflexivity|auto].
      * destruct I as [I|I]; [congruence|]. apply Rt; eapply (r_use R); eauto.
Qed.

Lemma step_copy : forall s w x t, Good (cells s) (vars s) [] -> scope (vars s) (denotes w) -> thing w x = Some t ->
  stepped s w (PCopy x) (mkW (things w) (denotes w ++ [Some t])) SawNothing.
Proof.
  intros s w x t G Sc T. destruct (scope_get Sc T) as [a Ha]. destruct (good_alive G Ha) as [c Hc].
  destruct (@bump_good (cells s) (vars s) [] (vars s ++ [Some a]) [] a c G Hc) as [G1 Sh].
  { intros; unfold refs; rewrite flat_map_app, !occ_app; cbn [flat_map olist app]; rewrite occ_one; lia. }
  exists (mkPs (upd (cells s) a (Some (mkCell (S (lk c)) (fwd c) (val c)))) (vars s ++ [Some a])), SawNothing, 0.
  refine (conj _ (conj G1 (conj _ (conj _ _)))); cbn [vars denotes].
  - intros fuel _; cbn [pstep]; rewrite Ha; cbn [must rthen]; unfold add_link; rewrite Hc; auto.
  - apply scope_app; auto.
  - rewrite app_length; cbn; lia.
  - intros F Fb R _; split; auto. apply (@rel_shrunk _ _ _ (mkPs (upd (cells s) a (Some (mkCell (S (lk c)) (fwd c) (val c)))) (vars s ++ [Some a])) _ _ R G1 Sh); [reflexivity| |]; cbn [vars].
    + intros z b; rewrite thing_getV; cbn [denotes]; rewrite !getV_app. destruct Sc as [L Sc]; rewrite L.
      destruct (Nat.eqb z (length (denotes w))); intros Q; [|apply (r_var R Q)].
      inversion Q; subst. destruct (r_var R Ha) as (t' & A & B). exists t; split; auto. congruence.
    + intros z b I; rewrite getV_app. cbn [used_after] in I. destruct (existsb (Nat.eqb x) F) eqn:E.
      * apply existsb_in in E. destruct (Nat.eqb_spec z (length (vars s))); intros Q.
        -- inversion Q; subst. eapply (r_use R); eauto.
        -- destruct I as [I|I]; [congruence|]; eapply (r_use R); eauto.
      * destruct (Nat.eqb_spec z (length (vars s))); intros Q; [|eapply (r_use R); eauto].
        specialize (Fb z I); lia.
Qed.

Lemma upd_get : forall e x a y, getV e x = Some a -> y < length e -> getV (upd e y (Some a)) y = Some a.
Proof. intros; rewrite getV_upd, Nat.eqb_refl; auto. Qed.

(** [get] as used by the operations. *)
Lemma get_step : forall s w x t, Good (cells s) (vars s) [] -> scope (vars s) (denotes w) -> thing w x = Some t ->
  exists s1 p n c, (forall fuel, n < fuel -> ptr_get fuel s x = Ok (s1, p)) /\ Good (cells s1) (vars s1) [] /\
    scope (vars s1) (denotes w) /\ length (vars s1) = length (vars s) /\ getV (vars s1) x = Some p /\
    getC (cells s1) p = Some c /\ fwd c = None /\ (forall z, getV (vars s) z <> None -> getV (vars s1) z <> None) /\
    forall F, Rel s w F -> Rel s1 w (x :: F) /\ p = t.
Proof.
  intros s w x t G Sc T. destruct (scope_get Sc T) as [a Ha].
  destruct (get_good G Ha) as (s1 & p & n & A & B & C & D & E).
  pose proof (getV_lt Ha) as L.
  assert (Vx : getV (vars s1) x = Some p) by (rewrite D, getV_upd, Nat.eqb_refl by auto; auto).
  destruct (good_alive B Vx) as [c Hc]. exists s1, p, n, c.
  refine (conj A (conj B (conj _ (conj _ (conj Vx (conj Hc (conj _ (conj _ _)))))))).
  - rewrite D; apply scope_left; auto; congruence.
  - rewrite D, upd_len; auto.
  - destruct C as [_ C]; destruct (C _ _ Hc) as (y & Y1 & Y2 & Y3). destruct (root_end E) as (z & Z1 & Z2). congruence.
  - intros z Hz; rewrite D, getV_upd by auto; destruct (Nat.eqb z x); congruence.
  - intros F R. destruct (@rel_get s w F x a s1 p R Ha B C D E) as [R1 T1]. split; auto; congruence.
Qed.

Lemma step_read : forall s w x t, Good (cells s) (vars s) [] -> scope (vars s) (denotes w) -> thing w x = Some t ->
  stepped s w (PRead x) w (SawVal (nth t (things w) 0%Z)).
Proof.
  intros s w x t G Sc T. destruct (get_step G Sc T) as (s1 & p & n & c & A & G1 & S1 & L1 & V1 & C1 & F1 & _ & R1).
  exists s1, (SawVal (val c)), n. refine (conj _ (conj G1 (conj S1 (conj L1 _)))).
  - intros fuel L; cbn [pstep]; rewrite A by auto; cbn [rthen]; rewrite C1; auto.
  - intros F Fb R _; destruct (R1 F R) as [R2 ->]; split; auto. rewrite (r_val R2 C1 F1); auto.
Qed.
Lemma step_unique : forall s w x t, Good (cells s) (vars s) [] -> scope (vars s) (denotes w) -> thing w x = Some t ->
  stepped s w (PUnique x) w (SawBool (Nat.eqb (users (denotes w) t) 1)).
Proof.
  intros s w x t G Sc T. destruct (get_step G Sc T) as (s1 & p & n & c & A & G1 & S1 & L1 & V1 & C1 & F1 & _ & R1).
  exists s1, (SawBool (Nat.eqb (lk c) 1)), n. refine (conj _ (conj G1 (conj S1 (conj L1 _)))).
  - intros fuel L; cbn [pstep]; rewrite A by auto; cbn [rthen]; rewrite C1; auto.
  - intros F Fb R _; destruct (R1 F R) as [R2 ->]; split; auto. f_equal. eapply unique_right; eauto.
Qed.
Lemma step_eq : forall s w x y t u, Good (cells s) (vars s) [] -> scope (vars s) (denotes w) -> thing w x = Some t -> thing w y = Some u ->
  stepped s w (PEq x y) w (SawBool (Nat.eqb t u)).
Proof.
  intros s w x y t u G Sc T U. destruct (get_step G Sc T) as (s1 & p & n & c & A & G1 & S1 & L1 & V1 & C1 & F1 & _ & R1).
  destruct (get_step G1 S1 U) as (s2 & q & n' & c' & A' & G2 & S2 & L2 & V2 & C2 & F2 & _ & R2).
  exists s2, (SawBool (Nat.eqb p q)), (n + n'). refine (conj _ (conj G2 (conj S2 (conj _ _)))); [|cbn [declared]; congruence|].
  - intros fuel L; cbn [pstep]; rewrite A by lia; cbn [rthen]; rewrite A' by lia; auto.
  - intros F Fb R _; destruct (R1 F R) as [R3 ->]. destruct (R2 _ R3) as [R4 ->]; split; auto.
    destruct R4 as [X1 X2 X3 X4]; constructor; auto. intros z a I; apply X4. cbn in I |- *; tauto.
Qed.
Lemma step_write : forall s w x v t, Good (cells s) (vars s) [] -> scope (vars s) (denotes w) -> thing w x = Some t ->
  stepped s w (PWrite x v) (mkW (upd (things w) t v) (denotes w)) SawNothing.
Proof.
  intros s w x v t G Sc T. destruct (get_step G Sc T) as (s1 & p & n & c & A & G1 & S1 & L1 & V1 & C1 & F1 & _ & R1).
  set (h1 := upd (cells s1) p (Some (mkCell (lk c) (fwd c) v))). pose proof (getC_lt C1) as Lp.
  assert (Gc : forall q, getC h1 q = if Nat.eqb q p then Some (mkCell (lk c) (fwd c) v) else getC (cells s1) q) by (intros; apply getC_upd; auto).
  assert (Rv : forall a, refs h1 (vars s1) [] a = refs (cells s1) (vars s1) [] a) by (intros; apply refs_keep; auto).
  assert (Rt : forall a r, root (cells s1) a r -> root h1 a r).
  { induction 1; [|eapply root_next; [rewrite Gc; destruct (Nat.eqb_spec a p); [subst; congruence|eauto]|eauto|auto]].
    destruct (Nat.eqb_spec a p); [subst; eapply root_here; [rewrite Gc, Nat.eqb_refl; reflexivity|auto]|].
    eapply root_here; [rewrite Gc; destruct (Nat.eqb_spec a p); [congruence|eauto]|auto]. }
  exists (mkPs h1 (vars s1)), SawNothing, n. refine (conj _ (conj _ (conj S1 (conj L1 _)))).
  - intros fuel L; cbn [pstep]; rewrite A by auto; cbn [rthen]; rewrite C1; auto.
  - constructor; cbn [cells vars].
    + intros q y; rewrite Gc, Rv; destruct (Nat.eqb_spec q p); intros Q; [inversion Q; subst; apply (g_cnt G1 _ C1)|apply (g_cnt G1 _ Q)].
    + intros q; rewrite Gc, Rv; destruct (Nat.eqb_spec q p); eauto; apply (g_dng G1).
    + intros q y; rewrite Gc; destruct (Nat.eqb_spec q p); intros Q; [inversion Q; subst; apply (g_pos G1 C1)|apply (g_pos G1 Q)].
    + destruct (g_rank G1) as [rk Hr]; exists rk; intros q y b; rewrite Gc; destruct (Nat.eqb_spec q p); intros Q Fy;
        [inversion Q; subst; cbn [fwd] in Fy; congruence|eauto].
  - intros F Fb R _; destruct (R1 F R) as [R2 ->]; split; auto. constructor; cbn [cells vars things].
    + unfold h1; rewrite !upd_len; apply (r_len R2).
    + intros z a Q; destruct (r_var R2 Q) as (u & U1 & U2); exists u; split; auto.
    + intros r k; rewrite Gc; destruct (Nat.eqb_spec r t); intros Q Fk.
      * subst r; inversion Q; subst; cbn [val]. apply nth_error_nth. rewrite nth_upd', Nat.eqb_refl.
        assert (Lt : t < length (things w)) by (rewrite (r_len R2); auto). apply Nat.ltb_lt in Lt; rewrite Lt; auto.
      * rewrite <- (r_val R2 Q Fk). pose proof (getC_lt Q) as Lr; rewrite <- (r_len R2) in Lr.
        apply nth_error_nth. rewrite nth_upd'. destruct (Nat.eqb_spec r t); [congruence|]. apply nth_error_nth'; auto.
    + intros z a I Q; apply Rt; eapply (r_use R2); eauto.
Qed.
Lemma step_assign : forall s w x y t u, Good (cells s) (vars s) [] -> scope (vars s) (denotes w) -> thing w x = Some t -> thing w y = Some u ->
  stepped s w (PAssign x y) (mkW (things w) (upd (denotes w) x (Some u))) SawNothing.
Proof.
  intros s w x y t u G Sc T U. destruct (get_step G Sc U) as (s1 & p & n & c & A & G1 & S1 & L1 & V1 & C1 & F1 & _ & R1).
  destruct (scope_get S1 T) as [a Ha]. pose proof (getV_lt Ha) as La.
  destruct (reset_good G1 Ha C1) as (s2 & n' & A2 & G2 & Sh & E2).
  exists s2, SawNothing, (n + n'). refine (conj _ (conj G2 (conj _ (conj _ _)))).
  - intros fuel L; cbn [pstep]; rewrite A by lia; cbn [rthen]; rewrite A2 by lia; auto.
  - rewrite E2; apply scope_upd; auto; congruence.
  - rewrite E2, upd_len; auto.
  - intros F Fb R _; destruct (R1 F R) as [R2 ->]; split; auto.
    apply (@rel_shrunk _ _ _ s2 _ _ R2 G2 Sh); [reflexivity| |]; rewrite E2.
    + intros z b; rewrite thing_getV; cbn [denotes]. destruct S1 as [Ll S1]. rewrite !getV_upd by lia.
      destruct (Nat.eqb_spec z x); intros Q; [|apply (r_var R2 Q)].
      inversion Q; subst b. exists u; split; auto. eapply root_here; eauto.
    + intros z b I; rewrite getV_upd by lia. destruct (Nat.eqb_spec z x); intros Q; [inversion Q; subst; eapply root_here; eauto|].
      destruct I as [I|I]; [congruence|]. eapply (r_use R2); eauto.
Qed.
Lemma step_drop : forall s w x t, Good (cells s) (vars s) [] -> scope (vars s) (denotes w) -> thing w x = Some t ->
  stepped s w (PDrop x) (mkW (things w) (upd (denotes w) x None)) SawNothing.
Proof.
  intros s w x t G Sc T. destruct (scope_get Sc T) as [a Ha]. pose proof (getV_lt Ha) as La.
  assert (G0 : Good (cells s) (upd (vars s) x None) [a]).
  { assert (Rv : forall v, refs (cells s) (upd (vars s) x None) [a] v = refs (cells s) (vars s) [] v).
    { intros; rewrite refs_pend. pose proof (refs_var (cells s) [] None v Ha) as Q; cbn [olist] in Q; rewrite occ_one, occ_nil in Q; lia. }
    constructor; intros; rewrite ?Rv in *; [apply (g_cnt G)|apply (g_dng G)|apply (g_pos G H)|apply (g_rank G)]; auto. }
  destruct (cut_good G0) as (h' & n & A & B & C).
  exists (mkPs h' (upd (vars s) x None)), SawNothing, n. refine (conj _ (conj B (conj _ (conj _ _)))).
  - intros fuel L; cbn [pstep]; rewrite Ha; cbn [must rthen]; rewrite A; auto.
  - apply scope_none; auto; congruence.
  - cbn [vars]; rewrite upd_len; auto.
  - intros F Fb R _; split; auto. apply (@rel_shrunk _ _ _ (mkPs h' (upd (vars s) x None)) _ _ R B C); [reflexivity| |]; cbn [vars].
    + intros z b; rewrite thing_getV; cbn [denotes]. destruct Sc as [Ll Sc]. rewrite !getV_upd by lia.
      destruct (Nat.eqb_spec z x); intros Q; [discriminate|apply (r_var R Q)].
    + intros z b I; rewrite getV_upd by lia. destruct (Nat.eqb_spec z x); intros Q; [discriminate|eapply (r_use R); eauto].
Qed.
Lemma step_move : forall s w x y t u, Good (cells s) (vars s) [] -> scope (vars s) (denotes w) -> thing w x = Some t -> thing w y = Some u ->
  stepped s w (PMove x y) (mkW (things w) (upd (upd (denotes w) x (Some u)) y (Some t))) SawNothing.
Proof.
  intros s w x y t u G Sc T U. destruct (scope_get Sc T) as [a Ha]. destruct (scope_get Sc U) as [b Hb].
  pose proof (getV_lt Ha) as La. pose proof (getV_lt Hb) as Lb.
  set (e1 := upd (upd (vars s) x (Some b)) y (Some a)).
  assert (Ge : forall z, getV e1 z = if Nat.eqb z y then Some a else if Nat.eqb z x then Some b else getV (vars s) z).
  { intros; unfold e1; rewrite getV_upd by (rewrite upd_len; auto). destruct (Nat.eqb z y); auto. apply getV_upd; auto. }
  assert (Hy1 : getV (upd (vars s) x (Some b)) y = Some b).
  { rewrite getV_upd by auto; destruct (Nat.eqb y x); auto. }
  assert (Rv : forall v, refs (cells s) e1 [] v = refs (cells s) (vars s) [] v).
  { intros. pose proof (refs_var (cells s) [] (Some b) v Ha) as Q1. pose proof (refs_var (cells s) [] (Some a) v Hy1) as Q2.
    fold e1 in Q2; cbn [olist] in *; lia. }
  exists (mkPs (cells s) e1), SawNothing, 0.
  assert (G1 : Good (cells s) e1 []).
  { constructor; intros; rewrite ?Rv in *; [apply (g_cnt G)|apply (g_dng G)|apply (g_pos G H)|apply (g_rank G)]; auto. }
  refine (conj _ (conj G1 (conj _ (conj _ _)))); cbn [vars denotes].
  - intros fuel _; cbn [pstep]; rewrite Ha, Hb; auto.
  - unfold e1; apply scope_upd; [apply scope_upd; [auto|congruence]|congruence].
  - unfold e1; rewrite !upd_len; auto.
  - intros F Fb R _; split; auto.
    assert (Ll : length (vars s) = length (denotes w)) by apply Sc.
    destruct (r_var R Ha) as (t' & T1 & T2). destruct (r_var R Hb) as (u' & U1 & U2).
    rewrite T in T1; inversion T1; subst t'. rewrite U in U1; inversion U1; subst u'.
    apply (@rel_shrunk _ _ _ (mkPs (cells s) e1) _ _ R G1 (shrunk_refl _)); [reflexivity| |]; cbn [vars].
    + intros z q; rewrite Ge, thing_getV; cbn [denotes]. rewrite getV_upd by (rewrite upd_len; lia). rewrite getV_upd by lia.
      destruct (Nat.eqb z y); intros Q; [inversion Q; subst; eauto|].
      destruct (Nat.eqb z x); [inversion Q; subst; eauto|]. apply (r_var R Q).
    + intros z q I; rewrite Ge. cbn [used_after] in I. rewrite !in_app_iff, filter_In in I.
      destruct (Nat.eqb_spec z y); [|destruct (Nat.eqb_spec z x)]; intros Q.
      * subst z; inversion Q; subst q. destruct I as [I|[I|[_ I]]].
        -- destruct (existsb (Nat.eqb y) F) eqn:E; [destruct I as [I|[]]|destruct I]. subst y.
           apply existsb_in in E. rewrite Ha in Hb; inversion Hb; subst. eapply (r_use R); eauto.
        -- destruct (existsb (Nat.eqb x) F) eqn:E; [|destruct I]. apply existsb_in in E. eapply (r_use R); eauto.
        -- cbn [negb] in I; rewrite andb_false_r in I; discriminate.
      * subst z; inversion Q; subst q. destruct I as [I|[I|[_ I]]].
        -- destruct (existsb (Nat.eqb y) F) eqn:E; [|destruct I]. apply existsb_in in E. eapply (r_use R); eauto.
        -- destruct (existsb (Nat.eqb x) F) eqn:E; [|destruct I]. destruct I as [I|[]]; congruence.
        -- discriminate.
      * destruct I as [I|[I|[I _]]]; [destruct (existsb (Nat.eqb y) F) | destruct (existsb (Nat.eqb x) F) | eapply (r_use R); eauto];
          try (destruct I; fail); destruct I as [I|[]]; congruence.
Qed.

Lemma redirect_same : forall t d, redirect t t d = d.
Proof.
  unfold redirect; induction d as [|[v|] d IH]; cbn; auto; rewrite IH; auto.
  destruct (Nat.eqb_spec v t); subst; auto.
Qed.
Lemma step_replace : forall s w x y t u, Good (cells s) (vars s) [] -> scope (vars s) (denotes w) -> thing w x = Some t -> thing w y = Some u ->
  stepped s w (PReplace x y) (mkW (things w) (redirect t u (denotes w))) SawNothing.
Proof.
  intros s w x y t u G Sc T U. destruct (get_step G Sc U) as (s1 & p & n & c & A & G1 & S1 & L1 & V1 & C1 & F1 & _ & R1).
  destruct (scope_get S1 T) as [a Ha]. pose proof (getV_lt Ha) as La. destruct (good_alive G1 Ha) as [k Hk].
  destruct (replace_good G1 Hk C1 F1 Ha V1) as (g & n2 & h2 & A2 & G2 & L2 & Eg & Sg & Ea & Eb).
  assert (Hp2 : exists c2, getC h2 p = Some c2) by (apply (g_dng G2); eapply refs_var_pos; eauto).
  destruct Hp2 as [c2 Hp2].
  destruct (@reset_good (mkPs h2 (vars s1)) x a p c2 G2 Ha Hp2) as (s3 & n3 & A3 & G3 & Sh & E3). cbn [vars cells] in *.
  exists s3, SawNothing, (n + n2 + n3). refine (conj _ (conj G3 (conj _ (conj _ _)))).
  - intros fuel L; cbn [pstep]; rewrite A by lia; cbn [rthen]; unfold do_replace; rewrite Ha; cbn [must rthen].
    rewrite A2 by lia; cbn [rthen]; rewrite A3 by lia; auto.
  - rewrite E3; apply scope_left; [apply scope_redirect; auto|congruence].
  - rewrite E3, upd_len; auto.
  - intros F Fb R Gd; split; auto. cbn [guard] in Gd. apply existsb_in in Gd.
    destruct (R1 F R) as [R2 Ep]. subst u.
    assert (Rx : root (cells s1) a a) by (apply (@r_use _ _ _ R2 x a); cbn; auto).
    destruct (r_var R2 Ha) as (t' & T1 & T2). rewrite T in T1; inversion T1; subst t'. pose proof (root_fun T2 Rx) as Et; subst t.
    assert (Fk : fwd k = None) by (destruct (root_end Rx) as (q & Q1 & Q2); congruence).
    destruct (Nat.eq_dec a p).
    + subst p. rewrite (Ea eq_refl) in *. rewrite redirect_same.
      apply (@rel_shrunk s1 w (y :: F) s3 _ _ R2 G3 Sh); [reflexivity| |]; rewrite E3.
      * intros z b; rewrite thing_getV; cbn [denotes]. rewrite getV_upd by auto. destruct (Nat.eqb_spec z x); intros Q.
        -- inversion Q; subst; eauto.
        -- apply (r_var R2 Q).
      * intros z b I; rewrite getV_upd by auto. destruct (Nat.eqb_spec z x); intros Q; [inversion Q; subst; auto|].
        cbn [used_after] in I. destruct I as [I|[I|[]]]; [congruence|]. subst z. eapply (r_use R2); [left; reflexivity|eauto].
    + destruct (Eb n0) as (y' & c' & Y1 & Y2 & Y3 & Y4 & Y5). rewrite (Eg Fk) in *. subst h2.
      rewrite Hk in Y1; inversion Y1; subst y'. rewrite C1 in Y3; inversion Y3; subst c'.
      pose proof (@rel_replace s1 w (y :: F) a p k c y _ x R2 G1 G2 Hk Y2 C1 Y4 n0 Ha V1 U eq_refl) as R3.
      apply (@rel_shrunk _ _ _ s3 _ _ R3 G3 Sh); [reflexivity| |]; rewrite E3; cbn [cells].
      * intros z b; rewrite thing_getV; cbn [denotes]. rewrite getV_upd by auto. destruct (Nat.eqb_spec z x); intros Q.
        -- inversion Q; subst. rewrite redirect_get. rewrite thing_getV in T; rewrite T, Nat.eqb_refl.
           exists b; split; auto. eapply (r_use R3); [left; reflexivity|eauto].
        -- apply (r_var R3 Q).
      * intros z b I; rewrite getV_upd by auto. destruct (Nat.eqb_spec z x); intros Q.
        -- inversion Q; subst. eapply (r_use R3); [left; reflexivity|eauto].
        -- cbn [used_after] in I. destruct I as [I|[I|[]]]; [congruence|]. subst z. eapply (r_use R3); [left; reflexivity|eauto].
Qed.

Lemma step_stepped : forall s w o w' b, Good (cells s) (vars s) [] -> scope (vars s) (denotes w) ->
  meant w o = Some (w', b) -> stepped s w o w' b.
Proof.
  intros s w o w' b G Sc M; destruct o; cbn [meant] in M;
    repeat match type of M with context [match thing w ?x with _ => _ end] => let T := fresh "T" in destruct (thing w x) eqn:T; [|discriminate] end;
    inversion M; subst; clear M.
  - apply step_new; auto.
  - apply step_copy; auto.
  - eapply step_assign; eauto.
  - eapply step_move; eauto.
  - eapply step_drop; eauto.
  - apply step_read; auto.
  - apply step_write; auto.
  - apply step_eq; auto.
  - apply step_unique; auto.
  - apply step_replace; auto.
Qed.

Lemma used_bound : forall w o w' b F n, meant w o = Some (w', b) -> n = length (denotes w) ->
  (forall x, In x F -> x < n) -> forall x, In x (used_after n F o) -> x < declared n o.
Proof.
  intros w o w' b F n M En Fb z I; destruct o; cbn [meant] in M;
    repeat match type of M with context [match thing w ?x with _ => _ end] => let T := fresh "T" in destruct (thing w x) eqn:T; [|discriminate] end;
    repeat match goal with T : thing w ?x = Some _ |- _ => apply getV_lt in T; rewrite <- En in T end; cbn [used_after declared] in *.
  - destruct I as [<-|I]; [lia|]. specialize (Fb _ I); lia.
  - destruct (existsb (Nat.eqb x) F); [destruct I as [<-|I]; [lia|]|]; specialize (Fb _ I); lia.
  - destruct I as [<-|[<-|I]]; auto.
  - rewrite !in_app_iff, filter_In in I. destruct I as [I|[I|[I _]]]; auto;
      [destruct (existsb (Nat.eqb y) F)|destruct (existsb (Nat.eqb x) F)]; try (destruct I; fail); destruct I as [<-|[]]; auto.
  - auto.
  - destruct I as [<-|I]; auto.
  - destruct I as [<-|I]; auto.
  - destruct I as [<-|[<-|I]]; auto.
  - destruct I as [<-|I]; auto.
  - destruct I as [<-|[<-|[]]]; auto.
  - discriminate.
Qed.

Lemma run_sound : forall l s w w' bs, Good (cells s) (vars s) [] -> scope (vars s) (denotes w) -> meaning w l = Some (w', bs) ->
  exists s' bs' n, (forall fuel, n < fuel -> prun fuel s l = Ok (s', bs')) /\ Good (cells s') (vars s') [] /\
    scope (vars s') (denotes w') /\
    forall F, (forall x, In x F -> x < length (vars s)) -> Rel s w F -> careful (length (vars s)) F l = true ->
      bs' = bs /\ exists F', Rel s' w' F'.
Proof.
  induction l; intros s w w' bs G Sc M; cbn [meaning] in M.
  - inversion M; subst. exists s, [], 0; repeat (split; eauto).
  - destruct (meant w a) as [[w1 b]|] eqn:Ma; [|discriminate]. destruct (meaning w1 l) as [[w2 bs2]|] eqn:Ml; [|discriminate].
    inversion M; subst. destruct (step_stepped G Sc Ma) as (s1 & b' & n & A & G1 & S1 & L1 & R1).
    destruct (IHl s1 w1 w' bs2 G1 S1 Ml) as (s2 & bs' & n2 & A2 & G2 & S2 & R2).
    exists s2, (b' :: bs'), (n + n2). refine (conj _ (conj G2 (conj S2 _))).
    + intros fuel L; cbn [prun]; rewrite A by lia; cbn [rthen]; rewrite A2 by lia; auto.
    + intros F Fb R C; cbn [careful] in C. apply andb_true_iff in C; destruct C as [C1 C2].
      destruct (R1 F Fb R C1) as [-> R3]. rewrite <- L1 in C2.
      destruct (R2 _ (fun x I => eq_ind_r (fun m => x < m) (@used_bound _ _ _ _ F _ Ma (proj1 Sc) Fb x I) L1) R3 C2) as [-> R4]; auto.
Qed.

Lemma init_good : Good (cells pinit) (vars pinit) [].
Proof.
  constructor; cbn; intros.
  - destruct a; discriminate.
  - unfold refs in H; cbn in H; lia.
  - destruct a; discriminate.
  - exists (fun _ => 0); intros [|a] x b Q; discriminate.
Qed.
Lemma init_scope : scope (vars pinit) (denotes empty_world).
Proof. split; auto. intros [|x]; cbn; split; intros [a A]; discriminate. Qed.
Lemma init_rel : Rel pinit empty_world [].
Proof. constructor; cbn; auto; intros [|x]; discriminate. Qed.

Theorem programs_safe : forall l, well_formed l ->
  exists s bs n, (forall fuel, n < fuel -> prun fuel pinit l = Ok (s, bs)) /\
    forall b, alive s b <-> exists x a, getV (vars s) x = Some a /\ leads (cells s) a b.
Proof.
  intros l (w & bs & M). destruct (run_sound init_good init_scope M) as (s & bs' & n & A & G & _).
  exists s, bs', n; split; auto. intros b; split.
  - intros [y Y]; eapply no_leak; eauto.
  - intros (x & a & X & L). destruct (good_alive G X) as [c C]. clear X. revert c C; induction L; intros c' C'.
    + exists c'; auto.
    + destruct (g_dng G b) as [z Q]; [exact (refs_cell_pos (vars s) [] H H0)|]. eapply IHL; eauto.
Qed.
Theorem all_freed : forall l w bs, meaning empty_world l = Some (w, bs) -> (forall x, thing w x = None) ->
  exists s bs' n, (forall fuel, n < fuel -> prun fuel pinit l = Ok (s, bs')) /\ forall b, ~ alive s b.
Proof.
  intros l w bs M N. destruct (run_sound init_good init_scope M) as (s & bs' & n & A & G & Sc & _).
  exists s, bs', n; split; auto. intros b [y Y]. destruct (no_leak G Y) as (x & a & X & _).
  destruct Sc as [_ Sc]. destruct (proj1 (Sc x)) as [t T]; eauto. specialize (N x); rewrite thing_getV in N; congruence.
Qed.
Theorem programs_right : forall l w bs, meaning empty_world l = Some (w, bs) -> careful 0 [] l = true ->
  exists s n, forall fuel, n < fuel -> prun fuel pinit l = Ok (s, bs).
Proof.
  intros l w bs M C. destruct (run_sound init_good init_scope M) as (s & bs' & n & A & _ & _ & R).
  destruct (R [] (fun x I => match I with end) init_rel C) as [-> _]; eauto.
Qed.

(** A ring of two objects: [get_ptr] never comes to an end. *)
Lemma ring_diverges : forall h a b x y, getC h a = Some x -> fwd x = Some b -> getC h b = Some y -> fwd y = Some a ->
  forall fuel, get_ptr fuel h a = Out /\ get_ptr fuel h b = Out.
Proof.
  induction fuel; cbn [get_ptr]; auto. rewrite H, H1; cbn [must rthen]; rewrite H0, H2; tauto.
Qed.

Lemma address_diverges : exists l s bs, prun 50 pinit l = Ok (s, bs) /\ forall fuel, ptr_get fuel s 0 = Out.
Proof.
  exists [PNew 1; PNew 2; PCopy 0; PReplace 0 1; PReplaceAddr 1 0]%Z.
  eexists; eexists; split; [vm_compute; reflexivity|]. intros fuel. unfold ptr_get; cbn -[get_ptr].
  match goal with |- context [get_ptr fuel ?h 1] => rewrite (proj2 (@ring_diverges h 0 1 _ _ eq_refl eq_refl eq_refl eq_refl fuel)) end; auto.
Qed.
Lemma same_again : exists l x s bs, prun 50 pinit l = Ok (s, bs) /\ alive s 1 /\
  forall fuel, 1 < fuel -> pstep fuel s (PReplaceAddr x 1) = Ub.
Proof.
  exists [PNew 1; PNew 2; PCopy 0; PReplace 0 1; PDrop 0; PDrop 1]%Z, 2.
  eexists; eexists; split; [vm_compute; reflexivity|]. split; [eexists; vm_compute; reflexivity|].
  intros [|[|fuel]] L; [lia|lia|]. reflexivity.
Qed.
