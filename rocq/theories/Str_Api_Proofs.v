(** Every string operation keeps the invariant and returns the specified result. *)
From Verif Require Import Base Bits_Model Bits_Spec Bits_Proofs Ref_Model Ref_Proofs List_Model Str_Model Str_Heap Str_Own Str_Read Str_Apply Str_Ctx Str_Edit Str_Cut Str_Uniq Str_Cmp_Model Str_Api_Model Str_Obs Str_Cmp Str_Merge Str_Spec Str_Guard Str_Api_Inv.
Local Open Scope res_scope.
Local Open Scope nat_scope.

Lemma allk_reach : forall (P : kind -> Prop) H o q, allk P H o -> reach H o q -> allk P H q.
Proof. intros P H o q A R p k c R1. apply A. eapply reach_trans; eauto. Qed.
Lemma allk_leaf : forall (P : kind -> Prop) H o k c, nth_error H o = Some (k, c) -> children k = [] -> P k -> allk P H o.
Proof.
  intros P H o k c N Ch Pk q k' c' R N'. inversion R; subst; [congruence|]. destruct H0 as (k1 & h & N1 & I). rewrite N in N1. injection N1 as <- <-.
  rewrite Ch in I. destruct I.
Qed.
Lemma plain_ext : forall hv H l o v, Vok hv H o v -> plain H o -> plain (H ++ l) o.
Proof.
  intros hv H l o v V P q k c R N. assert (R' := reach_ext V R). apply (P q k c R').
  rewrite ext_old in N; auto. eapply Vok_reach_lt; eauto.
Qed.
Lemma whole_ext : forall hv H l o, whole H o -> forall v, Vok hv H o v -> whole (H ++ l) o.
Proof.
  intros hv H l o W. induction W; intros v V.
  - apply w_plain. eapply plain_ext; eauto.
  - assert (N' := H0). rewrite <- (@ext_old H l) in N' by (apply nth_error_Some; congruence).
    destruct (Vok_inv V) as (k & c1 & ws & N & _ & F & _). rewrite H0 in N. injection N as <- <-. inversion F; subst. eapply w_head; eauto.
  - assert (N' := H0). rewrite <- (@ext_old H l) in N' by (apply nth_error_Some; congruence).
    destruct (Vok_inv V) as (k & c1 & ws & N & _ & F & _). rewrite H0 in N. injection N as <- <-. inversion F; subst. eapply w_end; eauto.
  - assert (N' := H0). rewrite <- (@ext_old H l) in N' by (apply nth_error_Some; congruence).
    destruct (Vok_inv V) as (k & c1 & ws & N & _ & F & _). rewrite H0 in N. injection N as <- <-. inversion F; subst. inversion H5; subst. eapply w_sum; eauto.
  - assert (N' := H0). rewrite <- (@ext_old H l) in N' by (apply nth_error_Some; congruence).
    destruct (Vok_inv V) as (k & c1 & ws & N & _ & F & _). rewrite H0 in N. injection N as <- <-. inversion F; subst. eapply w_sub; eauto.
  - assert (N' := H0). rewrite <- (@ext_old H l) in N' by (apply nth_error_Some; congruence).
    destruct (Vok_inv V) as (k & c1 & ws & N & _ & F & _). rewrite H0 in N. injection N as <- <-. inversion F; subst. inversion H6; subst.
    eapply w_ins; eauto. eapply plain_ext; eauto.
  - assert (N' := H0). rewrite <- (@ext_old H l) in N' by (apply nth_error_Some; congruence).
    destruct (Vok_inv V) as (k & c1 & ws & N & _ & F & _). rewrite H0 in N. injection N as <- <-. inversion F; subst. eapply w_fwd; eauto.
Qed.
Lemma runs_lift : forall A (r : A) (gg : nat -> res A) (Q : A -> Prop), (forall f, gg f = Ok r) -> Q r -> Runs gg Q.
Proof. intros A r gg Q E q. exists 0, r. split; auto. Qed.

(** The order of contents, as a function. *)
Definition ordz (v w : list Z) : comparison := match Nat.compare (length v) (length w) with Eq => lexz v w | c => c end.
Definition cmp_ok (q : bool) (v w : list Z) (c : comparison) : Prop := c = ordz v w \/ (q = true /\ c <> Eq /\ v <> w).
Lemma lexz_opp : forall v w, lexz w v = CompOpp (lexz v w).
Proof.
  induction v as [|x v IH]; intros [|y w]; cbn [lexz]; auto. rewrite Z.compare_antisym. destruct (Z.compare x y); cbn; auto.
Qed.
Lemma cmp_ok_opp : forall q v w c, cmp_ok q v w c -> cmp_ok q w v (CompOpp c).
Proof.
  intros q v w c [->|(Q & N & D)].
  - left. unfold ordz. rewrite (Nat.compare_antisym (length v) (length w)), (lexz_opp v w). destruct (Nat.compare (length v) (length w)); auto.
  - right. repeat split; auto. destruct c; cbn; congruence.
Qed.
Lemma lexz_lt : forall v w, length v = length w -> lexz v w = Lt -> exists p x y a b, v = p ++ x :: a /\ w = p ++ y :: b /\ (x < y)%Z.
Proof.
  induction v as [|x v IH]; intros [|y w] L E; cbn [lexz] in E; try discriminate. destruct (Z.compare_spec x y) as [->|X|X]; try discriminate.
  - injection L as L. destruct (IH w L E) as (p & x' & y' & a & b & -> & -> & X). exists (y :: p), x', y', a, b. auto.
  - exists [], x, y, v, w. auto.
Qed.
Lemma ordz_ord : forall v w, is_ord v w (ordz v w).
Proof.
  intros v w. unfold ordz. destruct (Nat.compare_spec (length v) (length w)) as [L|L|L]; cbn [is_ord]; try (left; exact L).
  destruct (lexz v w) eqn:E; cbn [is_ord].
  - apply lexz_eq. auto.
  - right. split; auto. apply lexz_lt; auto.
  - right. split; auto. apply lexz_lt; auto. rewrite (lexz_opp v w), E. auto.
Qed.
Lemma ordz_eq : forall v w, ordz v w = Eq <-> v = w.
Proof.
  intros v w. unfold ordz. split.
  - destruct (Nat.compare_spec (length v) (length w)); try discriminate. apply lexz_eq.
  - intros ->. rewrite Nat.compare_refl. apply lexz_refl.
Qed.
Lemma cmp_ok_eq : forall q v w, cmp_ok q v w Eq -> v = w.
Proof. intros q v w [E|(_ & N & _)]; [apply ordz_eq; auto|congruence]. Qed.
Lemma cmp_ok_out : forall hd hc q v w c, cmp_ok q v w c -> out_ok hd hc (if q then SEq v w else SOrd v w) (cmp_out q c).
Proof.
  intros hd hc q v w c C. destruct q; unfold cmp_out; cbn [out_ok].
  - split.
    + intros E. destruct c; try discriminate. eapply cmp_ok_eq; eauto.
    + intros E. destruct C as [->|(_ & _ & N)]; [|contradiction]. apply ordz_eq in E. rewrite E. auto.
  - destruct C as [->|(Q & _)]; [apply ordz_ord|discriminate].
Qed.
Lemma cmp_ptr_diff : forall k a b x y, nth_error a k = Some x -> nth_error b k = Some y -> x <> y -> exists c, cmp_ptr a b = Ok c /\ c <> Eq.
Proof.
  induction k as [|k IH]; intros [|u a] [|w b] x y A B D; try discriminate; cbn [nth_error] in A, B; cbn [cmp_ptr].
  - injection A as ->. injection B as ->. destruct (Z.compare_spec x y); [contradiction| |]; eexists; (split; [reflexivity|discriminate]).
  - destruct (Z.compare u w); [eapply IH; eauto| |]; eexists; (split; [reflexivity|discriminate]).
Qed.
Lemma small_cmp_run : forall q v d, small_cmp q v d -> exists c, cmp_ptr (cso_data v) d = Ok c /\ cmp_ok q (cso_data v) d c.
Proof.
  intros q v d [L|(Q & k & x & y & A & B & D)].
  - exists (lexz (cso_data v) d). split; [apply cmp_ptr_run; auto|]. left. unfold ordz. rewrite L, Nat.compare_refl. auto.
  - destruct (cmp_ptr_diff A B D) as (c & E & N). exists c. split; auto. right. repeat split; auto. intros X. rewrite X in A. congruence.
Qed.
Section Api.
Variable hd : Z.
Variable hc : Z -> Z.
Hypothesis hd_pos : (0 < hd)%Z.
Hypothesis hd_div : (hd | 2 ^ hd)%Z.
Hypothesis hc_word : forall c, word hd (hc c).
Notation hv := (hv hd hc).
Notation Val := (Val hv).
Notation Vok := (Vok hv).
Notation Pre := (Pre hv).
Notation Post := (Post hv).
Notation nullok := (nullok hv).
Notation Fresh := (Fresh hv).
Notation Keep := (Keep hv).
Notation Inv := (Inv hv).
Notation varok := (varok hv).

Record Owned (s : st) (l : sst) (i : nat) (d : list Z) (r : st * nat) : Prop := {
  ow_inv : Inv (fst r) l;
  ow_vs : vs (fst r) = upd (vs s) i (Some (VPtr (snd r)));
  ow_val : Vok (hp (fst r)) (snd r) d;
  ow_res : resolved (hp (fst r)) (snd r);
  ow_keep : Keep (hp s) (hp (fst r));
  ow_rep : (exists o, nth_error (vs s) i = Some (Some (VPtr o)) /\ hp (fst r) = hp s /\ tgt (hp s) o (snd r)) \/
           (exists v k c, nth_error (vs s) i = Some (Some v) /\ is_cso v = true /\ hp (fst r) = hp s ++ [(k, c)] /\ snd r = length (hp s) /\ (k = KConst d \/ k = KComn d)) }.

Lemma own_run : forall w s l i d, Inv s l -> sget l i = Some d -> Runs (fun f => own hd hc w f s i) (Owned s l i d).
Proof.
  intros w s l i d I E. destruct (inv_get I E) as (v & N & G & V). unfold own. rewrite G. cbn [rb].
  destruct (@fin_ok hv hd hc w (hp s) v d (fun x => eq_refl) V) as (V1 & K & Rp).
  destruct (fin hd hc w (hp s) v) as [H1 o] eqn:Ef. cbn [fst snd] in *.
  destruct V1 as [n V1]. eapply Runs_bind; [apply Runs_eqn, (deref_run V1)|].
  intros o1 [(R & V2 & Rs) [f Ed]]. destruct (deref_fwds Ed) as [Fw _].
  apply Runs_ret. split; cbn [fst snd hp vs]; auto.
  - eapply inv_same; eauto. exists n; exact V2.
  - exists n; auto.
  - destruct v as [x|x|p].
    + right. destruct Rp as (k & c & E1 & E2 & Kk). exists (VStr x), k, c. subst. repeat split; auto.
      inversion Fw; subst; auto. rewrite ext_new in H. destruct Kk; subst; discriminate.
    + right. destruct Rp as (k & c & E1 & E2 & Kk). exists (VChr x), k, c. subst. repeat split; auto.
      inversion Fw; subst; auto. rewrite ext_new in H. destruct Kk; subst; discriminate.
    + left. destruct Rp as [-> ->]. exists p. repeat split; auto.
Qed.
Lemma owned_nth : forall s l i d r, Owned s l i d r -> sget l i = Some d -> nth_error (vs (fst r)) i = Some (Some (VPtr (snd r))).
Proof.
  intros s l i d r O E. rewrite (ow_vs O), nth_upd, Nat.eqb_refl. destruct (sget_in E) as [_ L].
  assert (X := inv_len (ow_inv O)). rewrite (ow_vs O), upd_length in X. rewrite X. destruct (Nat.ltb_spec i (length l)); [auto|lia].
Qed.
Lemma owned_others : forall s l i d r, Owned s l i d r -> others i (vs (fst r)) = others i (vs s).
Proof. intros s l i d r O. rewrite (ow_vs O). apply others_upd. Qed.
Lemma owned_at : forall s l i d r (P : nat -> Prop), Owned s l i d r -> at_node s i P ->
  (hp (fst r) = hp s /\ P (snd r)) \/ (exists k c, nth_error (hp (fst r)) (snd r) = Some (k, c) /\ (k = KConst d \/ k = KComn d)).
Proof.
  intros s l i d r P O A. destruct (ow_rep O) as [(o & N & Eh & T)|(v & k & c & N & Sm & Eh & Eo & Kk)].
  - left. split; auto. eapply A; eauto.
  - right. exists k, c. rewrite Eh, Eo. split; auto. apply ext_new.
Qed.
Lemma owned_pre : forall s l i d r, Owned s l i d r -> Pre (hp (fst r)) (snd r :: others i (vs (fst r))) (snd r) d.
Proof.
  intros s l i d r O. eapply inv_pre; [apply O|apply O|]. intros q J. eapply inv_other; [apply O|exact J].
Qed.

Variable g : orc.
Hypothesis sound : Sound g.
Lemma uq_ok : forall H rts o, uq g H rts o = true -> single H rts o.
Proof. apply sound. Qed.
Lemma gold_ok : forall n, n <= gold g n.
Proof. apply sound. Qed.

(** An operation on the node of variable [i]. *)
Lemma op_run : forall w s l i d (F : nat -> heap -> list nat -> nat -> res (heap * nat)) d', Inv s l -> sget l i = Some d ->
  (forall r, Owned s l i d r -> Runs (fun f => F f (hp (fst r)) (snd r :: others i (vs (fst r))) (snd r))
     (fun x => Post (hp (fst r)) (snd r :: others i (vs (fst r))) [] (snd r) (fst x) [snd x] [d'])) ->
  Runs (fun f => '(s1, o) <- own hd hc w f s i ;; '(H2, o') <- F f (hp s1) (o :: others i (vs s1)) o ;;
                 Ok (St H2 (upd (vs s1) i (Some (VPtr o'))))) (fun s' => Inv s' (sset l i (Some d'))).
Proof.
  intros w s l i d F d' I E X. eapply Runs_bind; [apply (own_run w I E)|]. intros [s1 o] O.
  eapply Runs_bind; [apply (X _ O)|]. intros [H2 o'] P. cbn [fst snd] in *. apply Runs_ret.
  eapply inv_post; [apply (ow_inv O)|apply (owned_nth O E)|apply (owned_pre O)| |exact P|apply (sget_in E)].
  intros r J. apply beside_cons; auto.
Qed.

Lemma push_view_run : forall e s l i d u, Inv s l -> sget l i = Some d ->
  Runs (fun f => push_view hd hc g e f s i u) (fun s' => Inv s' (sset l i (Some (app e d u)))).
Proof.
  intros e s l i d u I E. unfold push_view.
  apply (@op_run false s l i d (fun f H rts o => apply_v (uq g) (gold g) f H rts e o u)); auto.
  intros r O. destruct (ow_val O) as [n V]. cbv beta. eapply apply_v_run; eauto; [apply uq_ok|apply gold_ok|apply (owned_pre O)|apply O].
Qed.

(** Conversion of a small string to a node. *)
Lemma full_copy_run : forall s l i d, Inv s l -> sget l i = Some d -> exists s', full_copy hd hc g s i = Ok s' /\ Inv s' l /\
  ((s' = s /\ exists v, nth_error (vs s) i = Some (Some v) /\ (is_cso v = true -> worth g (length (cso_data v)) = false)) \/
   (exists v k c, nth_error (vs s) i = Some (Some v) /\ is_cso v = true /\ worth g (length (cso_data v)) = true /\
      hp s' = hp s ++ [(k, c)] /\ vs s' = upd (vs s) i (Some (VPtr (length (hp s)))) /\ (k = KConst d \/ k = KComn d))).
Proof.
  intros s l i d I E. destruct (inv_get I E) as (v & N & G & V). unfold full_copy. rewrite G. cbn [rb].
  destruct (andb (is_cso v) (worth g (length (cso_data v)))) eqn:B.
  - apply andb_prop in B. destruct B as [Sm Wo].
    destruct (@fin_ok hv hd hc false (hp s) v d (fun x => eq_refl) V) as (V1 & K & Rp).
    destruct (fin hd hc false (hp s) v) as [H1 o] eqn:Ef. cbn [fst snd] in *. eexists. split; [reflexivity|]. split.
    + eapply inv_same; eauto.
    + right. destruct v as [x|x|p]; [| |discriminate]; destruct Rp as (k & c & E1 & E2 & Kk); subst; do 3 eexists; repeat split; eauto.
  - exists s. split; auto. split; auto. left. split; auto. exists v. split; auto. intros Sm. rewrite Sm in B. exact B.
Qed.

Lemma rb_ok : forall A B (x : res A) (k : A -> res B) b, rb x k = Ok b -> exists a, x = Ok a /\ k a = Ok b.
Proof. intros A B [a| |] k b E; cbn in E; try discriminate. eauto. Qed.
Lemma apply_v_empty : forall f H rts e o r k c, apply_v (uq g) (gold g) f H rts e o [] = Ok r -> nth_error H o = Some (k, c) -> k <> KNull -> snd r = o.
Proof.
  intros [|f] H rts e o r k c E N NK; [discriminate|]. cbn [apply_v] in E. rewrite (kd_eq N) in E. cbn [rb] in E.
  destruct (uq g H rts o).
  - apply rb_ok in E. destruct E as ([H0 k0] & Es & E).
    assert (N0 : k0 <> KNull).
    { unfold settle in Es. rewrite (kd_eq N) in Es. cbn [rb] in Es. destruct (children k) as [|a t]; [congruence|].
      apply rb_ok in Es. destruct Es as (l' & _ & Es). injection Es as _ <-. destruct k, l' as [|? [|? [|]]]; cbn; congruence. }
    destruct k0; try congruence; cbn [apply_base] in E;
      repeat (match goal with
      | X : Ok _ = Ok _ |- _ => injection X as <-
      | X : rb _ _ = Ok _ |- _ => apply rb_ok in X; let a := fresh "a" in destruct X as (a & _ & X)
      | X : (let '(_, _) := ?a in _) = Ok _ |- _ => destruct a
      | X : (if ?b then _ else _) = Ok _ |- _ => destruct b
      end); try discriminate; auto.
  - destruct k; try discriminate; try congruence; cbn [apply_base] in E; injection E as <-; auto.
Qed.
(** Pushing onto another node leaves the node as it is in these cases. *)
Lemma apply_v_old : forall n H rts e o v s, Val n H o v -> Pre H rts o v -> resolved H o ->
  leafk H o leafy \/ uq g H rts o = false \/ s = [] ->
  Runs (fun f => apply_v (uq g) (gold g) f H rts e o s) (fun r => Vok (fst r) o v).
Proof.
  intros n H rts e o v s V P Rs G.
  assert (A := @apply_v_run hv (uq g) (gold g) uq_ok gold_ok n H rts e o v s V P Rs).
  destruct n as [|n]; [contradiction|].
  destruct (Val_cell V) as (k & c & E).
  assert (B0 : forall H1, Vok H1 o v -> Runs (fun f => apply_base (gold g) f H1 e o s) (fun r => Vok (fst r) o v)).
  { intros H1 V1. eapply Runs_mono; [eapply (@apply_base_run hv (uq g) (gold g) uq_ok gold_ok H1 [] e o v s V1)|].
    intros r Fr. destruct (fr_ext Fr) as [l El]. rewrite El. apply Vok_ext; auto. }
  assert (V0 : Vok H o v) by (exists (S n); auto).
  destruct (uq g H rts o) eqn:U.
  2:{ apply Runs_S. cbn [apply_v]. rewrite (kd_eq E), U. cbn [rb].
      assert (Rk := Rs _ _ E). destruct k; auto; [|contradiction].
      apply Runs_ret. cbn [mk fst]. apply Vok_ext; auto. }
  assert (GL : leafy k -> Runs (fun f => apply_v (uq g) (gold g) f H rts e o s) (fun r => Vok (fst r) o v)).
  { intros L.
    apply Runs_S. cbn [apply_v]. rewrite (kd_eq E), U. cbn [rb].
    eapply Runs_bind; [apply (settle_run V P (uq_ok U) E)|]. intros [H0 k0] (SK & L0 & Oth & E0 & V1 & _).
    assert (Vo : Vok H0 o v) by (exists (S n); exact V1).
    destruct SK as (ls & Ls & ->). destruct k; try contradiction; destruct ls; try discriminate; cbn [with_children]; auto.
    apply Runs_ret. cbn [mk fst]. apply Vok_ext; auto. }
  destruct G as [G|[G|G]]; [|discriminate|].
  - destruct G as (k1 & c1 & E1 & L). rewrite E in E1. injection E1 as <- <-. auto.
  - subst s. destruct k as [| | | | | | | | | |]; try (apply GL; exact I); try (exact (False_ind _ (Rs _ _ E)));
      (eapply Runs_mono; [apply Runs_eqn, A|]; intros r [Po [f Ef]];
       assert (Eo : snd r = o) by (eapply apply_v_empty; eauto; discriminate);
       assert (F := po_val Po); rewrite Eo in F; inversion F; subst;
       match goal with X : Str_Heap.Vok _ _ _ (app _ _ _) |- _ => rename X into Q end; unfold app in Q; destruct e; rewrite ?app_nil_r in Q; exact Q).
Qed.
Lemma full_get : forall s l i d s1, Inv s l -> sget l i = Some d -> full_copy hd hc g s i = Ok s1 -> forall v, nth_error (vs s1) i = Some (Some v) -> is_cso v = true ->
  s1 = s /\ worth g (length (cso_data v)) = false.
Proof.
  intros s l i d s1 I E F v N Sm. destruct (full_copy_run I E) as (s' & F' & _ & [(-> & v0 & N0 & W)|(v0 & k & c & N0 & _ & _ & _ & Ev & _)]); rewrite F in F'; injection F' as ->.
  - rewrite N in N0. injection N0 as <-. auto.
  - rewrite Ev, nth_upd, Nat.eqb_refl in N. destruct (Nat.ltb _ _); [|discriminate]. injection N as <-. discriminate.
Qed.
Lemma full_other : forall s l i d s1, Inv s l -> sget l i = Some d -> full_copy hd hc g s i = Ok s1 -> forall j, j <> i -> nth_error (vs s1) j = nth_error (vs s) j.
Proof.
  intros s l i d s1 I E F j N. destruct (full_copy_run I E) as (s' & F' & _ & [(-> & _)|(v0 & k & c & N0 & _ & _ & _ & Ev & _)]); rewrite F in F'; injection F' as ->; auto.
  rewrite Ev, nth_upd. destruct (Nat.eqb_spec j i); [contradiction|auto].
Qed.
Lemma fwds_leaf : forall H o q k c, nth_error H o = Some (k, c) -> children k = [] -> fwds H o q -> q = o.
Proof. intros H o q k c N Ch Fw. inversion Fw; subst; auto. rewrite N in H0. injection H0 as -> ->. discriminate. Qed.

Lemma push_run : forall e s l i j d u, Inv s l -> sget l i = Some d -> sget l j = Some u -> guard g s (OPush e i j) ->
  Runs (fun f => push hd hc g e f s i j) (fun s' => Inv s' (sset l i (Some (app e d u)))).
Proof.
  intros e s l i j d u I Ei Ej [G1 G2]. unfold push.
  destruct (full_copy_run I Ei) as (s1 & F1 & I1 & C1). rewrite F1. cbn [rb].
  destruct (full_copy_run I1 Ej) as (s2 & F2 & I2 & C2). rewrite F2. cbn [rb].
  destruct (inv_get I2 Ei) as (v & Nv & Gv & Vv). rewrite Gv. cbn [rb].
  destruct (inv_get I2 Ej) as (w & Nw & Gw & Vw). rewrite Gw. cbn [rb].
  assert (Li := proj2 (sget_in Ei)).
  assert (A1 : is_cso v = true -> s1 = s /\ worth g (length (cso_data v)) = false).
  { intros Sm. destruct (Nat.eq_dec i j) as [<-|Nij].
    - destruct (full_get I1 Ei F2 Nv Sm) as [E12 W]. split; [|exact W]. subst s2. exact (proj1 (full_get I Ei F1 Nv Sm)).
    - rewrite (full_other I1 Ej F2 Nij) in Nv. exact (full_get I Ei F1 Nv Sm). }
  assert (PV : forall x, u = x -> Runs (fun f => push_view hd hc g e f s2 i x) (fun s' => Inv s' (sset l i (Some (app e d u))))).
  { intros x <-. apply push_view_run; auto. }
  destruct w as [x|c|p0]; cbn [varok cso_data] in Vw.
  - apply PV. auto.
  - destruct (Nat.eqb_spec i j) as [Eij|Nij]; [|apply PV; auto]. exfalso. subst j.
    destruct (full_get I1 Ei F2 Nw eq_refl) as [-> W]. destruct (full_get I Ei F1 Nw eq_refl) as [-> W'].
    cbn [cso_data length] in W'. rewrite (G1 eq_refl c Nw) in W'. discriminate.
  - destruct (is_cso v) eqn:Sm.
    + destruct (A1 eq_refl) as [-> Wo].
      assert (Nij : i <> j) by (intros <-; rewrite Nv in Nw; injection Nw as ->; discriminate).
      assert (Nv0 : nth_error (vs s) i = Some (Some v)) by (rewrite <- (full_other I1 Ej F2 Nij); auto).
      assert (Dv : cso_data v = d) by (destruct v; auto; discriminate).
      eapply Runs_bind; [apply (own_run false I2 Ej)|]. intros [s3 p] O.
      assert (Old : leafk (hp s3) p leafy \/ uq g (hp s3) (p :: others j (vs s3)) p = false \/ cso_data v = []).
      { assert (Oo := owned_others O). cbn [fst] in Oo. rewrite Oo.
        assert (LE : cso_data v = [] \/ cso_data v <> []) by (destruct (cso_data v); [left|right]; auto; discriminate).
        destruct LE as [LE|NE]; auto. specialize (G2 v Nv0 Sm Wo NE).
        destruct C2 as [[-> _]|(v0 & k & c & N0 & Sm0 & _ & Eh & Ev & Kk)].
        - destruct (owned_at O G2) as [[Eh [P|P]]|(k & c & Nk & Kk)]; cbn [fst snd] in *.
          + left. rewrite Eh. auto.
          + right. left. rewrite Eh. auto.
          + left. exists k, c. split; auto. destruct Kk as [->| ->]; exact Logic.I.
        - left. assert (NN : nth_error (hp s2) (length (hp s)) = Some (k, c)) by (rewrite Eh; apply ext_new).
          assert (Nw2 := Nw). rewrite Ev, nth_upd, Nat.eqb_refl in Nw2. destruct (Nat.ltb _ _); [|discriminate]. injection Nw2 as Ep0.
          destruct (ow_rep O) as [(o & N & Eh2 & T)|(v1 & k1 & c1 & N & Sm1 & _)]; cbn [fst snd] in *.
          + rewrite Nw in N. injection N as <-. destruct T as [Fw _].
            assert (E := fwds_leaf (q := p) NN). rewrite Ep0 in E. rewrite E; auto; [|destruct Kk as [->| ->]; auto].
            exists k, c. rewrite Eh2, <- Ep0. split; auto. destruct Kk as [->| ->]; exact Logic.I.
          + rewrite Nw in N. injection N as <-. discriminate. }
      destruct (ow_val O) as [n V]. cbn [fst snd] in V.
      assert (P := owned_pre O). cbn [fst snd] in P.
      eapply Runs_bind; [apply Runs_det; [apply (@apply_v_run hv (uq g) (gold g) uq_ok gold_ok n _ _ (negb e) _ _ (cso_data v) V P (ow_res O))|
                                         apply (apply_v_old (negb e) V P (ow_res O) Old)]|].
      intros [H4 o'] [Po Vo]. cbn [fst snd] in *. apply Runs_ret.
      apply inv_set; auto.
      * apply O.
      * eapply null_keep; [apply Po|]. apply O.
      * intros r x J Vr. apply in_others in J. destruct J as (k & Nk & Ek).
        assert (Nj := owned_nth O Ej). cbn [fst snd] in Nj.
        destruct (Nat.eq_dec k j) as [->|Nkj].
        -- rewrite Nj in Ek. injection Ek as <-. assert (Vp := ow_val O). cbn [fst snd] in Vp. rewrite (Vok_det Vr Vp). exact Vo.
        -- eapply post_beside; [exact Po| |apply P|exact Vr]. apply beside_cons. apply in_others. eauto.
      * assert (F := po_val Po). inversion F; subst. cbn. 
        match goal with X : Str_Heap.Vok _ _ o' _ |- _ => rename X into Q end. unfold app in *. destruct e; exact Q.
    + eapply Runs_bind; [apply (own_run false I2 Ej)|]. intros [s3 p] O3.
      eapply Runs_bind; [apply (own_run false (ow_inv O3) Ei)|]. intros [s4 o] O4.
      destruct (ow_val O4) as [n V]. cbn [fst snd] in V.
      assert (Vp : Vok (hp s4) p u). { apply (ow_keep O4). apply (ow_val O3). }
      assert (P : Pre (hp s4) (o :: p :: others i (vs s4)) o d).
      { eapply inv_pre; [apply (ow_inv O4)|apply (ow_val O4)|]. intros r [<-|J]; [eauto|]. eapply inv_other; [apply (ow_inv O4)|exact J]. }
      eapply Runs_bind; [apply (@apply_p_run hv (uq g) (gold g) uq_ok gold_ok n _ _ e o p d u V P (ow_res O4)); [apply arg_ok; left; auto|exact Vp]|].
      intros [H5 o'] Po. cbn [fst snd] in *. apply Runs_ret.
      eapply inv_post; [apply (ow_inv O4)|apply (owned_nth O4 Ei)|apply P| |exact Po|exact Li].
      intros r J. apply beside_cons. right. exact J.
Qed.

Lemma same_val : forall H n c, Vok (H ++ [(KSame n c, None)]) (length H) (repeat c n).
Proof. intros. eapply Vok_intro; [apply ext_new|exact Logic.I|constructor|reflexivity]. Qed.
Lemma push_rep_run : forall e s l i d c n, Inv s l -> sget l i = Some d ->
  Runs (fun f => push_rep hd hc g e f s i c n) (fun s' => Inv s' (sset l i (Some (app e d (repeat c n))))).
Proof.
  intros e s l i d c n I Ei. unfold push_rep. destruct (Nat.eqb_spec n 0) as [->|N0].
  - apply Runs_ret. replace (app e d (repeat c 0)) with d by (unfold app; destruct e; cbn; rewrite ?app_nil_r; auto).
    destruct (sget_in Ei) as [N L]. rewrite sset_upd by auto. rewrite (@upd_id _ l i (Some d) N). auto.
  - eapply Runs_bind; [apply (own_run false I Ei)|]. intros [s1 o] O. cbn [mk].
    assert (I1 : Inv (St (hp s1 ++ [(KSame n c, None)]) (vs s1)) l) by (apply inv_keep; [apply O|apply keep_ext]).
    assert (Vo := Vok_ext [(KSame n c, None)] (ow_val O)). cbn [fst snd] in Vo.
    assert (Vp := same_val (hp s1) n c).
    assert (P : Pre (hp s1 ++ [(KSame n c, None)]) (o :: length (hp s1) :: length (hp s1) :: others i (vs s1)) o d).
    { eapply (@inv_pre _ (St _ _)); [apply I1|exact Vo|]. intros r [<-|[<-|J]]; [eauto|eauto|]. eapply (@inv_other _ (St _ _)); [exact I1|exact J]. }
    assert (Rs : resolved (hp s1 ++ [(KSame n c, None)]) o).
    { intros k h Nk. rewrite ext_old in Nk by (eapply Vok_lt; apply (ow_val O)). apply (ow_res O Nk). }
    destruct Vo as [m V].
    eapply Runs_bind; [apply (@apply_p_run hv (uq g) (gold g) uq_ok gold_ok m _ _ e o _ d (repeat c n) V P Rs); [apply arg_ok; left; auto|exact Vp]|].
    intros [H5 o'] Po. cbn [fst snd] in *. apply Runs_ret.
    eapply (@inv_post _ (St _ _)); [exact I1|apply (owned_nth O Ei)|apply P| |exact Po|apply (sget_in Ei)].
    intros r J. apply beside_cons. right. right. exact J.
Qed.

Lemma plus_view_run : forall e s l i d u, Inv s l -> sget l i = Some d ->
  Runs (fun f => plus_view hd hc g e f s i u) (fun s' => Inv s' (l ++ [Some (app e d u)])).
Proof.
  intros e s l i d u I Ei. unfold plus_view.
  eapply Runs_bind; [apply (own_run false I Ei)|]. intros [s1 o] O.
  destruct (ow_val O) as [n V]. cbn [fst snd] in V.
  assert (P : Pre (hp s1) (o :: roots (vs s1)) o d).
  { eapply inv_pre; [apply (ow_inv O)|apply (ow_val O)|]. intros r J. eapply inv_root; [apply (ow_inv O)|exact J]. }
  eapply Runs_bind; [apply (@apply_v_run hv (uq g) (gold g) uq_ok gold_ok n _ _ e _ _ u V P (ow_res O))|].
  intros [H5 o'] Po. cbn [fst snd] in *. apply Runs_ret. apply inv_add.
  - apply inv_heap; [apply (ow_inv O)|eapply null_keep; [apply Po|apply (ow_inv O)]|].
    intros r x J Vr. eapply post_beside; [exact Po| |apply P|exact Vr]. apply beside_cons. exact J.
  - assert (F := po_val Po). inversion F; subst. auto.
Qed.
Lemma plus_run : forall s l i j d u, Inv s l -> sget l i = Some d -> sget l j = Some u -> guard g s (OPlus i j) ->
  Runs (fun f => plus hd hc g f s i j) (fun s' => Inv s' (l ++ [Some (d ++ u)])).
Proof.
  intros s l i j d u I Ei Ej G. unfold plus.
  destruct (full_copy_run I Ej) as (s1 & F1 & I1 & C1). rewrite F1. cbn [rb].
  destruct (inv_get I1 Ej) as (w & Nw & Gw & Vw). rewrite Gw. cbn [rb].
  destruct w as [x|c|p0]; cbn [varok cso_data] in Vw.
  - subst. apply (plus_view_run true u I1 Ei).
  - destruct (Nat.eqb_spec i j) as [Eij|Nij]; [|subst; apply (plus_view_run true _ I1 Ei)]. exfalso. subst j.
    destruct (full_get I Ei F1 Nw eq_refl) as [-> W']. cbn [cso_data length] in W'. rewrite (G eq_refl c Nw) in W'. discriminate.
  - eapply Runs_bind; [apply (own_run false I1 Ei)|]. intros [s2 o] O2.
    eapply Runs_bind; [apply (own_run false (ow_inv O2) Ej)|]. intros [s3 p] O3.
    assert (Vo : Vok (hp s3) o d). { apply (ow_keep O3). apply (ow_val O2). }
    assert (Vp := ow_val O3). cbn [fst snd] in Vp.
    assert (Rs : resolved (hp s3) o).
    { intros k h Nk. destruct (ow_rep O3) as [(o3 & _ & Eh & _)|(v3 & k3 & c3 & _ & _ & Eh & _)]; cbn [fst snd] in Eh; rewrite Eh in Nk.
      - apply (ow_res O2 Nk).
      - rewrite ext_old in Nk by (eapply Vok_lt; apply (ow_val O2)). apply (ow_res O2 Nk). }
    assert (P : Pre (hp s3) (o :: p :: roots (vs s3)) o d).
    { eapply inv_pre; [apply (ow_inv O3)|exact Vo|]. intros r [<-|J]; [eauto|]. eapply inv_root; [apply (ow_inv O3)|exact J]. }
    destruct Vo as [n V].
    eapply Runs_bind; [apply (@apply_p_run hv (uq g) (gold g) uq_ok gold_ok n _ _ true o p d u V P Rs); [apply arg_ok; left; auto|exact Vp]|].
    intros [H5 o'] Po. cbn [fst snd] in *. apply Runs_ret. apply inv_add.
    + apply inv_heap; [apply (ow_inv O3)|eapply null_keep; [apply Po|apply (ow_inv O3)]|].
      intros r x J Vr. eapply post_beside; [exact Po| |apply P|exact Vr]. apply beside_cons. right. exact J.
    + assert (F := po_val Po). inversion F; subst. auto.
Qed.

Lemma sizev_run : forall s l i d, Inv s l -> sget l i = Some d -> Runs (fun f => sizev f s i) (fun n => n = length d).
Proof.
  intros s l i d I E. destruct (inv_get I E) as (v & N & G & V). unfold sizev. rewrite G. cbn [rb].
  destruct v; cbn [varok cso_data] in *; subst; try (apply Runs_ret; reflexivity). apply (size_run V).
Qed.
Lemma substr_run : forall s l i b n d, Inv s l -> sget l i = Some d -> b <= length d ->
  Runs (fun f => substr hd hc f s i b n) (fun r => Inv (fst r) l /\ varok (hp (fst r)) (snd r) (firstn n (skipn b d))).
Proof.
  intros s l i b n d I E Lb. unfold substr.
  eapply Runs_bind; [apply (sizev_run I E)|]. intros t ->. rewrite sub_chk_ok by exact Lb. cbn [rb].
  assert (Em : forall m, m = Nat.min n (length d - b) -> firstn n (skipn b d) = firstn m (skipn b d)).
  { intros m ->. rewrite <- (firstn_skipn b d) at 1. rewrite firstn_skipn. rewrite <- (firstn_firstn (skipn b d)).
    f_equal. symmetry. apply firstn_all2. rewrite skipn_length. lia. }
  destruct (Nat.eqb_spec (Nat.min n (length d - b)) 0) as [Z0|N0].
  - apply Runs_ret. cbn [fst snd varok cso_data]. split; auto. rewrite (Em 0); auto.
  - eapply Runs_bind; [apply (own_run false I E)|]. intros [s1 o] O. destruct (ow_val O) as [m V]. cbn [fst snd] in V.
    eapply Runs_bind; [apply (@get_sub_run hv m (hp s1) o d b (Nat.min n (length d - b)) V); [apply O|lia]|].
    intros [H2 o'] Fr. cbn [fst snd] in *. apply Runs_ret. cbn [fst snd hp]. destruct (fr_ext Fr) as [lx Ex]. subst H2. split.
    + apply inv_keep; [apply (ow_inv O)|apply keep_ext].
    + assert (F := fr_val Fr). inversion F; subst. cbn. rewrite (Em _ eq_refl). auto.
Qed.
Lemma fwds_resolved : forall H o q, resolved H o -> fwds H o q -> q = o.
Proof. intros H o q R Fw. inversion Fw; subst; auto. exfalso. apply (R _ _ H0). Qed.
Lemma leaf_cell : forall d k, k = KConst d \/ k = KComn d -> children k = [] /\ arr_leaf k /\ leafy k /\ k <> KNull /\
  match k with KIns _ _ _ _ _ | KHead _ _ _ _ | KEnd _ _ _ _ => False | _ => True end.
Proof. intros d k [->| ->]; repeat split; discriminate. Qed.

Definition insq (k : kind) : Prop := match k with KIns _ _ _ _ _ | KHead _ _ _ _ | KEnd _ _ _ _ => False | _ => True end.
Lemma insert_var_run : forall s l i p j d u, Inv s l -> sget l i = Some d -> sget l j = Some u -> p <= length d -> guard g s (OInsert i p j) ->
  Runs (fun f => insert_var hd hc g f s i p j) (fun s' => Inv s' (sset l i (Some (inserted d p u)))).
Proof.
  intros s l i p j d u I Ei Ej Lp [GW GN]. unfold insert_var.
  destruct (inv_get I Ej) as (w0 & Nw0 & Gw0 & Vw0).
  eapply Runs_bind; [apply (own_run false I Ei)|]. intros [s1 o] O.
  assert (I1 := ow_inv O). assert (Ni := owned_nth O Ei). assert (Vo := ow_val O). assert (Ro := ow_res O). cbn [fst snd] in *.
  assert (KQ : leafk (hp s1) o insq).
  { destruct (owned_at O GN) as [[Eh [Q _]]|(k & c & Nk & Kk)]; cbn [fst snd] in *.
    - rewrite Eh. exact Q.
    - exists k, c. split; auto. apply (leaf_cell Kk). }
  destruct (full_copy_run I1 Ej) as (s2 & F2 & I2 & C2). rewrite F2. cbn [rb].
  destruct (inv_get I2 Ej) as (w & Nw & Gw & Vw). rewrite Gw. cbn [rb].
  (* the argument stays small *)
  assert (SM : is_cso w = true -> Runs (fun f => insert_view hd hc g f s2 i p (cso_data w)) (fun s' => Inv s' (sset l i (Some (inserted d p u))))).
  { intros Sm. destruct (full_get I1 Ej F2 Nw Sm) as [-> _]. unfold insert_view.
    apply (@op_run false s1 l i d (fun f H rts o => do_insert (uq g) (gold g) f H rts o p (cso_data w))); auto.
    intros r O2. destruct (ow_rep O2) as [(o2 & N2 & Eh2 & T2)|(v2 & k2 & c2 & N2 & Sm2 & _)].
    2:{ rewrite Ni in N2. injection N2 as <-. discriminate. }
    rewrite Ni in N2. injection N2 as <-. assert (Eo := fwds_resolved Ro (proj1 T2)).
    destruct (ow_val O2) as [n V]. assert (Du : cso_data w = u) by (destruct w; auto; discriminate). rewrite Du.
    eapply (@do_insert_run hv (uq g) (gold g) uq_ok gold_ok); [exact V|apply (owned_pre O2)|apply (ow_res O2)|exact Lp|].
    right. rewrite Eo, Eh2. destruct KQ as (k & c & Nk & Kq). exists k, c. split; auto. destruct k; auto; contradiction. }
  destruct w as [x|x|q0]; try (apply SM; reflexivity). clear SM.
  (* the argument is a node *)
  unfold observe. rewrite Gw. cbn [rb].
  assert (Lj := proj2 (sget_in Ej)). assert (Li := proj2 (sget_in Ei)).
  assert (X : Runs (fun f => '(s3, d0) <- ('(s3, q) <- own hd hc false f s2 j ;; '(H3, q', d0) <- flat g MData f (hp s3) q ;;
                   Ok (St H3 (upd (vs s3) j (Some (VPtr q'))), d0)) ;; Ok (s3, d0))
      (fun r => snd r = u /\ Inv (fst r) l /\ nth_error (vs (fst r)) i = Some (Some (VPtr o)) /\ nth_error (hp (fst r)) o = nth_error (hp s1) o)).
  2:{ assert (Y : forall f A (k : st * list Z -> res A), rb ('(s3, q) <- own hd hc false f s2 j ;; '(H3, q', d0) <- flat g MData f (hp s3) q ;;
                   Ok (St H3 (upd (vs s3) j (Some (VPtr q'))), d0)) k = rb ('(s3, d0) <- ('(s3, q) <- own hd hc false f s2 j ;; '(H3, q', d0) <- flat g MData f (hp s3) q ;;
                   Ok (St H3 (upd (vs s3) j (Some (VPtr q'))), d0)) ;; Ok (s3, d0)) k).
      { intros f A k. destruct (rb (own hd hc false f s2 j) _) as [[a b]| |]; reflexivity. }
      eapply Runs_ext; [intros f; symmetry; apply Y|]. clear Y.
      eapply Runs_bind; [exact X|]. clear X. intros [s3 d0] (Ed & I3 & N3 & Eo). cbn [fst snd] in *. subst d0.
      assert (V3 : Vok (hp s3) o d).
      { destruct (inv_get I3 Ei) as (v3 & N3' & _ & V3). rewrite N3 in N3'. injection N3' as <-. exact V3. }
      assert (Ex : existsb (fun r => reachb (length (hp s3)) (hp s3) r o) (roots (vs s3)) = true).
      { apply existsb_exists. exists o. split; [apply in_roots; eauto|]. apply reachb_ok. apply r_refl. }
      rewrite Ex.
      assert (R3 : resolved (hp s3) o). { intros k c Nk. rewrite Eo in Nk. apply (Ro _ _ Nk). }
      assert (P3 : Pre (hp s3) (if Nat.eqb i j then roots (vs s3) else o :: others i (vs s3)) o d).
      { destruct (Nat.eqb i j).
        - split; auto; [exists o; split; [apply in_roots; eauto|apply r_refl]| |apply I3].
          apply closed_all with (hv := hv). intros r J. eapply inv_root; eauto.
        - eapply inv_pre; eauto. intros r J. eapply inv_other; eauto. }
      destruct V3 as [n V3].
      eapply Runs_bind; [eapply (@do_insert_run hv (uq g) (gold g) uq_ok gold_ok) with (s := u); [exact V3|exact P3|exact R3|exact Lp|]|].
      { right. destruct KQ as (k & c & Nk & Kq). exists k, c. rewrite Eo. split; auto. destruct k; auto; contradiction. }
      intros [H4 o'] Po. cbn [fst snd] in Po. apply Runs_ret.
      eapply inv_post; [exact I3|exact N3|apply P3| |exact Po|exact Li].
      intros r J. destruct (Nat.eqb i j); [eapply beside_roots; eauto|apply beside_cons; auto]. }
  eapply Runs_ext with (g := fun f => '(s3, q) <- own hd hc false f s2 j ;; '(H3, q', d0) <- flat g MData f (hp s3) q ;;
                   Ok (St H3 (upd (vs s3) j (Some (VPtr q'))), d0)).
  { intros f. destruct (rb (own hd hc false f s2 j) _) as [[a b]| |]; reflexivity. }
  assert (N2 : nth_error (vs s2) i = Some (Some (VPtr o)) \/ i = j).
  { destruct (Nat.eq_dec i j) as [->|Nij]; auto. left. rewrite (full_other I1 Ej F2 Nij). auto. }
  eapply Runs_bind; [apply (own_run false I2 Ej)|]. intros [s3 q] O3.
  assert (I3 := ow_inv O3). assert (V3 := ow_val O3). assert (R3 := ow_res O3). assert (Ev3 := ow_vs O3).
  assert (T3 : hp s3 = hp s2 /\ tgt (hp s2) q0 q).
  { destruct (ow_rep O3) as [(q1 & Nq & Eh & T)|(v3 & k3 & c3 & Nv & Sm & _)]; cbn [fst snd] in *.
    - rewrite Nw in Nq. injection Nq as <-. auto.
    - rewrite Nw in Nv. injection Nv as <-. discriminate. }
  destruct T3 as [Eh3 T3]. cbn [fst snd] in *. rewrite Eh3 in *.
  assert (Lo : o < length (hp s1)) by (eapply Vok_lt; eauto).
  assert (CASES : (leafk (hp s2) q arr_leaf /\ (i = j -> q = o) /\ nth_error (hp s2) o = nth_error (hp s1) o) \/
                  (i <> j /\ s2 = s1 /\ whole (hp s2) q /\ ~ reach (hp s2) q o)).
  { destruct C2 as [[-> _]|(v2 & k2 & c2 & Nv2 & Sm2 & _ & Eh2 & Evs2 & Kk2)].
    - destruct (Nat.eq_dec i j) as [<-|Nij].
      + rewrite Ni in Nw. injection Nw as <-. assert (Eq : q = o) by (apply (fwds_resolved Ro (proj1 T3))). subst q.
        left. split; [|auto]. destruct (ow_rep O) as [(oj & Nj & Eh & T)|(v & k & c & Nv & Sm & Eh & Eo & Kk)]; cbn [fst snd] in *.
        * rewrite Eh. destruct (GN _ _ Nj T) as [_ [Far|Lf]].
          -- exfalso. apply (Far _ Nj). apply fwds_reach, T.
          -- apply (Lf _ _ Nj T).
        * exists k, c. rewrite Eh, Eo. split; [apply ext_new|]. apply (leaf_cell Kk).
      + assert (Nj : nth_error (vs s) j = Some (Some (VPtr q0))).
        { rewrite <- Nw. assert (Evs := ow_vs O). cbn [fst] in Evs. rewrite Evs, nth_upd. destruct (Nat.eqb_spec j i); [congruence|auto]. }
        assert (W0 := GW _ Nj). rewrite Nj in Nw0. injection Nw0 as <-. cbn in Vw0.
        destruct (ow_rep O) as [(oi & Noi & Eh & T)|(v & k & c & Nv & Sm & Eh & Eo & Kk)]; cbn [fst snd] in *.
        * rewrite Eh in *. destruct (GN _ _ Noi T) as [_ [Far|Lf]].
          -- right. split; [exact Nij|split; [auto|split]].
             ++ eapply whole_fwds; [apply T3|exact W0].
             ++ intros R. apply (Far _ Nj). eapply reach_trans; [apply fwds_reach, T3|exact R].
          -- left. split; [apply (Lf _ _ Nj T3)|split; [congruence|auto]].
        * right. split; [exact Nij|split; [auto|split]].
          -- eapply whole_fwds; [apply T3|]. rewrite Eh. eapply whole_ext; eauto.
          -- intros R. rewrite Eh in R, T3. assert (R' : reach (hp s) q0 o). { eapply reach_ext; [exact Vw0|]. eapply reach_trans; [apply fwds_reach, T3|exact R]. }
             assert (L := Vok_reach_lt Vw0 R'). subst o. lia.
    - left. assert (NN : nth_error (hp s2) (length (hp s1)) = Some (k2, c2)) by (rewrite Eh2; apply ext_new).
      rewrite Evs2, nth_upd, Nat.eqb_refl in Nw. destruct (Nat.ltb _ _); [|discriminate]. injection Nw as <-.
      assert (Eq : q = length (hp s1)). { eapply fwds_leaf; [exact NN| |apply T3]. apply (leaf_cell Kk2). }
      split; [|split].
      + exists k2, c2. rewrite Eq. split; auto. apply (leaf_cell Kk2).
      + intros <-. rewrite Ni in Nv2. injection Nv2 as <-. discriminate.
      + rewrite Eh2. apply ext_old. exact Lo. }
  destruct CASES as [((kq & cq & Nq & Lq) & Eq & Eo)|(Nij & -> & Wq & Far)].
  - eapply Runs_bind; [apply (@flat_leaf hv g MData (hp s2) q u kq cq V3 Nq Lq eq_refl)|]. intros r ->. apply Runs_ret. cbn [fst snd].
    split; [auto|]. split; [|split; [|exact Eo]].
    + assert (X := @inv_same hv s3 l (hp s2) j (VPtr q) u I3). rewrite Eh3 in X. apply X; auto. apply keep_refl.
    + cbn [vs]. rewrite Ev3, upd_upd, nth_upd. destruct (Nat.eqb_spec i j) as [Eij|Nij].
      * rewrite (Eq Eij). rewrite (inv_len I2). destruct (Nat.ltb_spec j (length l)); [auto|lia].
      * destruct N2 as [N2|N2]; [exact N2|contradiction].
  - destruct V3 as [n V3]. eapply Runs_bind; [apply (@flat_run hv g n MData (hp s1) q u V3 Wq R3)|]. intros [[H3 q'] d0] Fl. apply Runs_ret. cbn [fst snd].
    split; [apply (fl_data Fl)|]. split; [|split].
    + eapply inv_same; [exact I3| |exact Ej|apply (fl_val Fl)]. rewrite Eh3. apply (fl_keep Fl).
    + cbn [vs]. rewrite Ev3, upd_upd, nth_upd. destruct (Nat.eqb_spec i j) as [Eij|_]; [contradiction|]. exact Ni.
    + cbn [hp]. apply (fl_same Fl (q := o)); auto.
Qed.
Lemma observe_run : forall md s l i d, Inv s l -> sget l i = Some d -> wholev s i ->
  Runs (fun f => observe hd hc g md f s i) (fun r => Inv (fst r) l /\ snd r = d).
Proof.
  intros md s l i d I E W. destruct (inv_get I E) as (v & N & G & V). unfold observe. rewrite G. cbn [rb].
  destruct v as [x|x|o0]; cbn [varok cso_data] in V; try (apply Runs_ret; auto).
  eapply Runs_bind; [apply (own_run false I E)|]. intros [s1 o] O.
  assert (X : hp s1 = hp s /\ tgt (hp s) o0 o).
  { destruct (ow_rep O) as [(o1 & N1 & Eh & T)|(v1 & k1 & c1 & N1 & Sm & _)]; cbn [fst snd] in *; rewrite N in N1; injection N1 as <-; [auto|discriminate]. }
  destruct X as [Eh T]. destruct (ow_val O) as [n Vn]. cbn [fst snd] in Vn.
  eapply Runs_bind; [apply (@flat_run hv g n md (hp s1) o d Vn); [rewrite Eh; eapply whole_fwds; [apply T|apply (W _ N)]|apply O]|].
  intros [[H2 o'] d'] Fl. apply Runs_ret. cbn [fst snd]. split; [|apply (fl_data Fl)].
  eapply inv_same; [apply (ow_inv O)|apply (fl_keep Fl)|exact E|apply (fl_val Fl)].
Qed.
Lemma hash_ok : forall v, is_seq_hash hd (map hc v) (hv v).
Proof. intros v. apply hash_seq_spec; auto. apply Forall_forall. intros x J. apply in_map_iff in J. destruct J as (c & <- & _). auto. Qed.

Lemma done_run : forall (gg : nat -> res st) l', Runs gg (fun s' => Inv s' l') ->
  Runs (fun f => rb (gg f) (fun t => Ok (t, RNone))) (fun r => Inv (fst r) l' /\ out_ok hd hc SNone (snd r)).
Proof. intros gg l' R. eapply Runs_bind; [exact R|]. intros s' I. apply Runs_ret. cbn. auto. Qed.

Lemma set_small : forall s l i d v, Inv s l -> sget l i = Some d -> is_cso v = true -> Inv (setv s i (Some v)) (sset l i (Some (cso_data v))).
Proof.
  intros s l i d v I E Sm. apply inv_keep_set; [auto|apply keep_refl|apply (sget_in E)|]. destruct v; cbn; auto. discriminate.
Qed.
Lemma sset_get : forall (l : sst) i d x j, sget l i = Some d -> sget (sset l i x) j = if Nat.eqb j i then x else sget l j.
Proof.
  intros l i d x j E. destruct (sget_in E) as [_ L]. unfold sget. rewrite sset_upd by auto. rewrite nth_upd.
  destruct (Nat.eqb j i); auto. destruct (Nat.ltb_spec i (length l)); [auto|lia].
Qed.

Lemma cmp_v_run : forall q s l i v d, Inv s l -> sget l i = Some v -> view_cmp q s i d -> Runs (fun f => cmp_v f s i d) (cmp_ok q v d).
Proof.
  intros q s l i v d I E G. unfold cmp_v. destruct (inv_get I E) as (x & N & Gv & V). rewrite Gv. cbn [rb]. assert (A := G x N).
  destruct x as [u|u|o]; cbn [varok] in V.
  - destruct (small_cmp_run A) as (c & Ec & C). rewrite Ec. rewrite <- V. apply Runs_ret. auto.
  - destruct (small_cmp_run A) as (c & Ec & C). rewrite Ec. rewrite <- V. apply Runs_ret. auto.
  - eapply Runs_mono; [eapply (@cmp_view_run hv (dear g)); eauto|]. intros r ->. left. auto.
Qed.
Lemma cmp_l_run : forall q s l i v d, Inv s l -> sget l i = Some v -> view_cmp q s i d ->
  Runs (fun f => cmp_l f s i d) (fun r => Inv (fst r) l /\ cmp_ok q v d (snd r)).
Proof.
  intros q s l i v d I E G. unfold cmp_l. eapply Runs_bind; [apply (cmp_v_run I E G)|]. intros c C. apply Runs_ret. cbn [fst snd]. split; auto.
  destruct c; auto. apply cmp_ok_eq in C. subst d. apply (@inv_same hv s l (hp s) i (VStr v) v I); auto; [apply keep_refl|reflexivity].
Qed.
Lemma node_good : forall q H o p v w, nullok H -> Vok H o v -> Vok H p w -> node_cmp g q H o p -> Good hv (dear g) q H (fun r => reach H o r \/ reach H p r).
Proof.
  intros q H o p v w NK Vo Vp (K & Sb & D). constructor; auto.
  - intros r R. destruct Vo as [no Vo]. destruct Vp as [np Vp]. destruct R as [R|R]; [destruct (Val_reach R Vo) as (m & u & _ & W)|destruct (Val_reach R Vp) as (m & u & _ & W)]; exists u, m; exact W.
  - intros r c [R|R] E; [left|right]; eapply reach_snoc; eauto.
  - intros Q p1 p2 t1 t2 b n c1 c2 w1 w2 R1 R2 N1 N2 V1 V2.
    destruct (size_run V1) as (f1 & n1 & E1 & X1). destruct (size_run V2) as (f2 & n2 & E2 & X2). subst n1 n2.
    apply (Sb Q p1 p2 t1 t2 b n c1 c2 (f1 + f2) _ _ R1 R2 N1 N2); [apply E1; lia|apply E2; lia].
Qed.
Lemma cmp_s_run : forall q s l i j v w, Inv s l -> sget l i = Some v -> sget l j = Some w -> guard g s (OCmp q i j) ->
  Runs (fun f => cmp_s g q f s i j) (fun r => Inv (fst r) l /\ cmp_ok q v w (snd r)).
Proof.
  intros q s l i j v w I Ei Ej G. unfold cmp_s. destruct (inv_get I Ei) as (x & Nx & Gx & Vx). destruct (inv_get I Ej) as (y & Ny & Gy & Vy).
  rewrite Gx, Gy. cbn [rb]. assert (A := G x y Nx Ny).
  assert (One : forall i d v u, nth_error (vs s) i = Some (Some u) -> sget l i = Some v -> match u with VPtr o => allk blkk (hp s) o | _ => small_cmp q u d end -> view_cmp q s i d).
  { intros k d u z Nz _ B z' Nz'. rewrite Nz in Nz'. injection Nz' as <-. auto. }
  destruct y as [e|e|p].
  - cbn [varok cso_data] in Vy. subst w. apply cmp_l_run; auto. apply (One i e v x Nx Ei). destruct x; auto.
  - cbn [varok cso_data] in Vy. subst w. eapply Runs_bind; [apply (@cmp_v_run q s l i v [e]); auto|].
    + apply (One i [e] v x Nx Ei). destruct x; auto.
    + intros r C. apply Runs_ret. cbn. auto.
  - destruct x as [d|d|o].
    + cbn [varok cso_data] in Vx. subst v. eapply Runs_bind; [apply (@cmp_l_run q s l j w d I Ej); apply (One j d w _ Ny Ej); auto|].
      intros [s1 r] [I1 C]. apply Runs_ret. cbn [fst snd] in *. split; auto. apply cmp_ok_opp. auto.
    + cbn [varok cso_data] in Vx. subst v. eapply Runs_bind; [apply (@cmp_v_run q s l j w [d] I Ej); apply (One j [d] w _ Ny Ej); auto|].
      intros r C. apply Runs_ret. cbn [fst snd] in *. split; auto. apply cmp_ok_opp. auto.
    + cbn [varok] in Vx, Vy. assert (NK : nullok (hp s)) by apply I. assert (Gd := node_good NK Vx Vy A).
      eapply Runs_bind; [apply (cmp_top_run Gd (or_introl (r_refl _ _)) (or_intror (r_refl _ _)) Vx Vy)|].
      intros [H1 r] (K & _ & C). apply Runs_ret. cbn [fst snd] in *. split; auto. apply inv_keep; auto.
Qed.

Lemma step_run : forall s l x l' so, Inv s l -> sstep l x = Some (l', so) -> guard g s x ->
  Runs (fun f => step hd hc g f s x) (fun r => Inv (fst r) l' /\ out_ok hd hc so (snd r)).
Proof.
  intros s l x l' so I E G.
  destruct x as [d|d|c|n c|j|j|i j|i j|i d|i c|i|i|e i j|e i d|e i c n|i j|e i d|i p c|i b n|i n c|i p n|i p j|i p d|e i n|e i n|i|i p|i|i|i|q i j|q i d|q i d]; cbn [sstep] in E;
    unfold sbind, sif in E; cbn [step];
    repeat (match type of E with context[sget l ?i] => let d := fresh "d" in let Ei := fresh "Ei" in destruct (sget l i) as [d|] eqn:Ei; [|discriminate E] end);
    repeat (match type of E with context[if ?b then _ else None] => let B := fresh "B" in destruct b eqn:B; [|discriminate E] end);
    try (injection E as <- <-).
  - apply Runs_ret. cbn [fst snd mk]. split; [|exact Logic.I]. apply (@inv_add hv (St _ _)); [apply inv_keep; [auto|apply keep_ext]|].
    eapply Vok_intro; [apply ext_new|exact Logic.I|constructor|reflexivity].
  - apply Runs_ret. cbn [fst snd]. split; [|exact Logic.I]. apply inv_add; auto. reflexivity.
  - apply Runs_ret. cbn [fst snd]. split; [|exact Logic.I]. apply inv_add; auto. reflexivity.
  - apply Runs_ret. cbn [fst snd mk]. split; [|exact Logic.I]. apply (@inv_add hv (St _ _)); [apply inv_keep; [auto|apply keep_ext]|]. apply same_val.
  - destruct (inv_get I Ei) as (v & N & Gv & V). rewrite Gv. apply Runs_ret. cbn [fst snd]. split; [|exact Logic.I]. apply inv_add; auto.
  - destruct (inv_get I Ei) as (v & N & Gv & V). rewrite Gv. apply Runs_ret. cbn [fst snd]. split; [|exact Logic.I].
    apply inv_add; [|exact V]. apply (@set_small s l j d (VStr [])); auto.
  - destruct (inv_get I Ei) as (v & N & Gv & V). rewrite Gv. cbn [rb]. destruct (inv_get I Ei0) as (u & Nu & Gu & Vu). rewrite Gu. cbn [rb].
    destruct (andb (Nat.eqb i j) (negb (is_cso v))) eqn:B.
    + exfalso. apply andb_prop in B. destruct B as [B1 B2]. apply Nat.eqb_eq in B1. destruct v; try discriminate. apply (G B1 o N).
    + apply Runs_ret. cbn [fst snd]. split; [|exact Logic.I]. apply inv_keep_set; [auto|apply keep_refl|apply (sget_in Ei)|exact Vu].
  - destruct (inv_get I Ei) as (v & N & Gv & V). rewrite Gv. cbn [rb]. destruct (inv_get I Ei0) as (u & Nu & Gu & Vu). rewrite Gu. cbn [rb].
    apply Runs_ret. cbn [fst snd]. split; [|exact Logic.I].
    assert (I1 : Inv (setv s i (Some u)) (sset l i (Some d0))) by (apply inv_keep_set; [auto|apply keep_refl|apply (sget_in Ei)|exact Vu]).
    apply (@inv_keep_set hv (setv s i (Some u))); [exact I1|apply keep_refl| |exact V].
    rewrite sset_upd by apply (sget_in Ei). rewrite upd_length. apply (sget_in Ei0).
  - destruct (inv_get I Ei) as (v & N & Gv & V). rewrite Gv. apply Runs_ret. cbn [fst snd]. split; [|exact Logic.I]. apply (@set_small s l i d0 (VStr d)); auto.
  - destruct (inv_get I Ei) as (v & N & Gv & V). rewrite Gv. apply Runs_ret. cbn [fst snd]. split; [|exact Logic.I]. apply (@set_small s l i d (VChr c)); auto.
  - destruct (inv_get I Ei) as (v & N & Gv & V). rewrite Gv. apply Runs_ret. cbn [fst snd]. split; [|exact Logic.I]. apply (@set_small s l i d (VStr [])); auto.
  - destruct (inv_get I Ei) as (v & N & Gv & V). rewrite Gv. apply Runs_ret. cbn [fst snd]. split; [|exact Logic.I].
    apply inv_keep_set; [auto|apply keep_refl|apply (sget_in Ei)|exact Logic.I].
  - apply done_run. apply push_run; auto.
  - apply done_run. apply push_view_run; auto.
  - destruct (inv_get I Ei) as (v & N & Gv & V). rewrite Gv. cbn [rb]. apply done_run. apply push_rep_run; auto.
  - apply done_run. apply plus_run; auto.
  - apply done_run. apply plus_view_run; auto.
  - apply done_run. apply Nat.ltb_lt in B.
    match goal with |- Runs _ (fun s' => Str_Api_Inv.Inv _ s' (sset l i (Some ?x))) => replace x with (upd d p c) by (clear -B; revert p B; induction d as [|a d IH]; intros [|p] B; cbn in *; try lia; auto; f_equal; apply IH; lia) end.
    apply (@op_run true s l i d (fun f H rts o => arec_set (uq g) (gold g) f H rts o p c)); auto.
    intros r O. destruct (ow_val O) as [n V]. cbv beta. eapply (@arec_set_run hv (uq g) (gold g) uq_ok gold_ok); [exact V|apply (owned_pre O)|apply O| |exact B].
    destruct (owned_at O G) as [[Eh A]|(k & h & Nk & Kk)].
    + rewrite Eh. exact A.
    + eapply allk_leaf; [exact Nk|apply (leaf_cell Kk)|]. destruct Kk as [->| ->]; exact Logic.I.
  - apply Nat.leb_le in B. eapply Runs_bind; [apply (substr_run n I Ei B)|]. intros [s1 v] [I1 V1]. apply Runs_ret. cbn [fst snd] in *. split; [|exact Logic.I].
    apply inv_add; auto.
  - eapply Runs_bind; [apply (sizev_run I Ei)|]. intros t ->.
    destruct (Nat.ltb_spec n (length d)) as [Ln|Ln].
    + eapply Runs_bind; [apply (substr_run n I Ei (Nat.le_0_l _))|]. intros [s1 v] [I1 V1]. apply Runs_ret. cbn [fst snd skipn] in *. split; [|exact Logic.I].
      apply inv_keep_set; [auto|apply keep_refl|apply (sget_in Ei)|]. replace (n - length d) with 0 by lia. cbn. rewrite app_nil_r. exact V1.
    + rewrite (firstn_all2 (n := n)) by lia. destruct (Nat.eqb_spec (length d) n) as [En|Nn].
      * apply Runs_ret. cbn [fst snd]. split; [|exact Logic.I]. replace (n - length d) with 0 by lia. cbn. rewrite app_nil_r.
        destruct (sget_in Ei) as [N L]. rewrite sset_upd by auto. rewrite (@upd_id _ l i (Some d) N). auto.
      * destruct (Nat.eqb_spec (length d) 0) as [E0|N0].
        -- apply Runs_ret. cbn [fst snd mk]. split; [|exact Logic.I]. destruct d; [|discriminate]. cbn [length List.app]. rewrite Nat.sub_0_r.
           apply inv_keep_set; [auto|apply keep_ext|apply (sget_in Ei)|]. apply same_val.
        -- eapply Runs_bind; [apply (own_run false I Ei)|]. intros [s1 o] O. apply Runs_ret. cbn [fst snd mk]. split; [|exact Logic.I].
           apply inv_keep_set; [apply O|apply keep_ext|apply (sget_in Ei)|].
           eapply Vok_intro; [apply ext_new|exact Logic.I| |].
           ++ cbn [children]. constructor; [|constructor]. apply Vok_ext. apply (ow_val O).
           ++ cbn [shape]. repeat split. rewrite repeat_length. etransitivity; [|apply gold_ok]. lia.
  - apply done_run. apply Nat.leb_le in B. change (firstn p d ++ skipn (p + n) d) with (erased d p n).
    apply (@op_run false s l i d (fun f H rts o => do_erase (uq g) f H rts o p n)); auto.
    intros r O. destruct (ow_val O) as [m V]. cbv beta. eapply (@do_erase_run hv (uq g) (gold g) uq_ok); [exact V|apply (owned_pre O)|apply O|exact B].
  - apply done_run. apply Nat.leb_le in B. apply insert_var_run; auto.
  - apply done_run. apply Nat.leb_le in B. change (firstn p d0 ++ d ++ skipn p d0) with (inserted d0 p d).
    apply (@op_run false s l i d0 (fun f H rts o => do_insert (uq g) (gold g) f H rts o p d)); auto.
    intros r O. destruct (ow_val O) as [m V]. cbv beta. eapply (@do_insert_run hv (uq g) (gold g) uq_ok gold_ok); [exact V|apply (owned_pre O)|apply O|exact B|].
    destruct (owned_at O G) as [[Eh [A|(k & h & Nk & A)]]|(k & h & Nk & Kk)].
    + left. rewrite Eh. exact A.
    + right. exists k, h. rewrite Eh. split; [exact Nk|]. rewrite (owned_others O).
      assert (KS : match k with KHead _ _ _ _ | KEnd _ _ _ _ => ksize k = Ok p -> p = length d0 | _ => True end).
      { rewrite <- Eh in Nk. destruct m as [|m]; [contradiction|]. destruct (Val1 V Nk) as (ws & F & Sh & _). destruct k; auto;
          (intros KK; rewrite (@ksize_val hv _ _ _ Sh Logic.I) in KK; injection KK as <-; reflexivity). }
      destruct k; auto; destruct A as [A|[A|A]]; auto.
    + right. exists k, h. split; [exact Nk|]. destruct Kk as [->| ->]; exact Logic.I.
  - apply done_run. apply Nat.leb_le in B. change (if e then firstn (length d - n) d else skipn n d) with (cut e d n).
    apply (@op_run false s l i d (fun f H rts o => do_remove (uq g) (gold g) f H rts e o n)); auto.
    intros r O. destruct (ow_val O) as [m V]. cbv beta.
    assert (RM : rmok e (hp (fst r)) (snd r :: others i (vs (fst r))) (snd r) \/ allk viewk (hp (fst r)) (snd r)).
    2:{ destruct RM as [RM|RM]; [eapply (@do_remove_run hv (uq g) (gold g) uq_ok gold_ok)|eapply (@do_remove_view_run hv (uq g) (gold g) uq_ok gold_ok)]; eauto; try apply (owned_pre O). apply O. }
    destruct (owned_at O G) as [[Eh A]|(k & h & Nk & Kk)].
    + rewrite Eh, (owned_others O). exact A.
    + left. intros q k' c' R N'. assert (q = snd r). { eapply leaf_reach; [| |exact R]; [congruence|]. intros k1 c1 N1. rewrite Nk in N1. injection N1 as <- <-. apply (leaf_cell Kk). }
      subst q. rewrite Nk in N'. injection N' as <- <-. destruct (leaf_cell Kk) as (Ch & _). split; [|rewrite Ch; congruence]. destruct Kk as [->| ->]; exact Logic.I.
  - apply Nat.leb_le in B.
    apply done_run. change (if e then firstn (length d - n) d else skipn n d) with (cut e d n). change (if e then skipn (length d - n) d else firstn n d) with (taken e d n).
    eapply Runs_bind; [apply (own_run false I Ei)|]. intros [s1 o] O. assert (P := owned_pre O). assert (V := ow_val O). destruct V as [m V]. cbn [fst snd] in *.
    eapply Runs_bind; [eapply (@do_pop_run hv (uq g) (gold g) uq_ok gold_ok) with (e := e) (m := n); [exact V|exact P|apply O| | |exact B]|].
    + destruct (owned_at O G) as [[Eh [A1 A2]]|(k & h & Nk & Kk)]; cbn [fst snd] in *.
      * rewrite Eh. exact A1.
      * eapply allk_leaf; [exact Nk|apply (leaf_cell Kk)|]. destruct Kk as [->| ->]; exact Logic.I.
    + destruct (owned_at O G) as [[Eh [A1 A2]]|(k & h & Nk & Kk)]; cbn [fst snd] in *.
      * rewrite Eh. exact A2.
      * left. intros q k1 c1 p k2 c2 R N1 S1. assert (q = o). { eapply leaf_reach; [| |exact R]; [congruence|]. intros k3 c3 N3. rewrite Nk in N3. injection N3 as <- <-. apply (leaf_cell Kk). }
        subst q. rewrite Nk in N1. injection N1 as <- <-. destruct Kk as [->| ->]; destruct S1.
    + intros [[H2 o'] a] Po. cbn [fst snd] in Po. apply Runs_ret. assert (F := po_val Po). inversion F; subst. inversion H5; subst.
      apply (@inv_add hv (St _ _)); [|assumption].
      eapply inv_post; [apply (ow_inv O)|apply (owned_nth O Ei)|apply P| |exact Po|apply (sget_in Ei)].
      intros r J. apply beside_cons; auto.
  - eapply Runs_bind; [apply (sizev_run I Ei)|]. intros t ->. apply Runs_ret. cbn. auto.
  - destruct (nth_error d p) as [c|] eqn:Np; [|discriminate]. injection E as <- <-.
    destruct (inv_get I Ei) as (v & N & Gv & V). rewrite Gv. cbn [rb].
    destruct v as [x|x|o]; cbn [varok cso_data] in *; try (subst; rewrite Np; apply Runs_ret; cbn; auto).
    destruct V as [n V]. eapply Runs_bind; [apply (arec_run V (i := p)); apply nth_error_Some; congruence|]. intros a Ea. apply Runs_ret. cbn. split; auto. congruence.
  - eapply Runs_bind; [apply (observe_run MData I Ei G)|]. intros [s1 d1] [I1 Ed]. cbn [fst snd] in *. subst d1. apply Runs_ret. cbn. auto.
  - eapply Runs_bind; [apply (observe_run MConst I Ei G)|]. intros [s1 d1] [I1 Ed]. cbn [fst snd] in *. subst d1. apply Runs_ret. cbn. auto.
  - destruct (inv_get I Ei) as (v & N & Gv & V). rewrite Gv. cbn [rb]. destruct G as [W NC].
    destruct v as [x|x|o]; cbn [varok cso_data] in V.
    + apply Runs_ret. subst. cbn [fst snd out_ok]. split; auto. apply hash_ok.
    + exfalso. apply (NC x N).
    + eapply Runs_bind; [apply (@get_hash_run hd hc hd_pos hd_div hc_word (hp s) o d V (W _ N))|]. intros [H1 a] [Ea C]. cbn [fst snd] in *. apply Runs_ret. cbn [fst snd out_ok]. split.
      * apply inv_keep; auto. apply cch_keep; auto.
      * subst. apply hash_ok.
  - eapply Runs_bind; [apply (cmp_s_run I Ei Ei0 G)|]. intros [s1 c] [I1 C]. apply Runs_ret. cbn [fst snd] in *. split; auto. apply cmp_ok_out; auto.
  - eapply Runs_bind; [apply (cmp_v_run I Ei G)|]. intros c C. apply Runs_ret. cbn [fst snd] in *. split; auto. apply cmp_ok_out; auto.
  - eapply Runs_bind; [apply (cmp_l_run I Ei G)|]. intros [s1 c] [I1 C]. apply Runs_ret. cbn [fst snd] in *. split; auto. apply cmp_ok_out; auto.
Qed.
End Api.

Section History.
Variable hd : Z.
Variable hc : Z -> Z.
Hypothesis hd_pos : (0 < hd)%Z.
Hypothesis hd_div : (hd | 2 ^ hd)%Z.
Hypothesis hc_word : forall c, word hd (hc c).
Notation Inv := (Inv (Str_Api_Model.hv hd hc)).

Lemma history_run : forall xs s l l' os, Inv s l -> sruns l (map snd xs) = Some (l', os) -> Forall (fun x => Sound (fst x)) xs -> Safe hd hc s xs ->
  Runs (fun f => run hd hc f s xs) (fun r => Inv (fst r) l' /\ Forall2 (out_ok hd hc) os (snd r)).
Proof.
  induction xs as [|[g x] t IH]; intros s l l' os I E F S; cbn [map snd sruns run] in *.
  - injection E as <- <-. apply Runs_ret. cbn. auto.
  - unfold sbind in E. destruct (sstep l x) as [[l1 o]|] eqn:E1; [|discriminate]. destruct (sruns l1 (map snd t)) as [[l2 os']|] eqn:E2; [|discriminate].
    injection E as <- <-. inversion F as [|? ? Sg F']; subst. inversion S as [|? ? ? ? Gd Nx]; subst.
    destruct (@step_run hd hc hd_pos hd_div hc_word g Sg s l x l1 o I E1 Gd) as (f0 & [s1 o1] & Q & I1 & O1). cbn [fst snd] in *.
    assert (R : Runs (fun f => step hd hc g f s x) (fun r => r = (s1, o1))) by (exists f0, (s1, o1); auto).
    eapply Runs_bind; [exact R|]. intros r ->.
    eapply Runs_bind; [eapply (IH s1 l1 l2 os' I1 E2 F'); apply (Nx s1 o1); exists f0; auto|].
    intros [s2 os2] [I2 O2]. apply Runs_ret. cbn in *. auto.
Qed.
Lemma inv_start : Inv st0 [].
Proof. split; [exists None; split; [reflexivity|exact Logic.I]|constructor]. Qed.
(** The results of any program, from the start. *)
Lemma program_run : forall xs l' os, sruns [] (map snd xs) = Some (l', os) -> Forall (fun x => Sound (fst x)) xs -> Safe hd hc st0 xs ->
  exists f0 s' outs, (forall f, f0 <= f -> run hd hc f st0 xs = Ok (s', outs)) /\ Forall2 (out_ok hd hc) os outs.
Proof.
  intros xs l' os E F S. destruct (history_run inv_start E F S) as (f0 & [s' outs] & Q & _ & O). exists f0, s', outs. auto.
Qed.
End History.
