(** The situation inside a method of a node that has one handle, after its own
    handles have been redirected; appending and prepending of strings. *)
From Verif Require Import Base Ref_Model Ref_Proofs List_Model Str_Model Str_Heap Str_Own Str_Read Str_Apply.
Local Open Scope res_scope.
Local Open Scope nat_scope.

Section Ctx.
Variable hv : list Z -> Z.
Variable uq : heap -> list nat -> nat -> bool.
Variable gold : nat -> nat.
Hypothesis uq_ok : forall H roots o, uq H roots o = true -> single H roots o.
Hypothesis gold_ok : forall n, n <= gold n.
Notation Val := (Val hv).
Notation Vok := (Vok hv).
Notation Pre := (Pre hv).
Notation Post := (Post hv).
Notation nullok := (nullok hv).
Notation Fresh := (Fresh hv).

Record Ctx (n : nat) (H : heap) (roots args : list nat) (o : nat) (v : list Z) (H0 : heap) (k0 : kind) (h : option Z) (ws : list (list Z)) : Prop := {
  cx_pre : Pre H roots o v;
  cx_sg : single H roots o;
  cx_arg : Argok H roots o args;
  cx_post : Post H roots [] o H0 [o] [v];
  cx_pre0 : Pre H0 roots o v;
  cx_sg0 : single H0 roots o;
  cx_arg0 : Argok H0 roots o args;
  cx_oth : forall q, q <> o -> nth_error H0 q = nth_error H q;
  cx_cell : nth_error H0 o = Some (k0, h);
  cx_val : Val (S n) H0 o v;
  cx_F : Forall2 (Val n H0) (children k0) ws;
  cx_sh : shape k0 ws v;
  cx_res : Forall (resolved H0) (children k0) }.

(** Every node reached is of a certain kind. *)
Definition allk (P : kind -> Prop) (H : heap) (o : nat) : Prop :=
  forall q k c, reach H o q -> nth_error H q = Some (k, c) -> P k.

Lemma ctx_enter : forall n H roots args o v k h, Val (S n) H o v -> Pre H roots o v -> single H roots o -> Argok H roots o args ->
  nth_error H o = Some (k, h) ->
  Runs (fun f => settle f H o) (fun r => sameK k (snd r) /\ exists ws, Ctx n H roots args o v (fst r) (snd r) h ws).
Proof.
  intros n H roots args o v k h V P S A E.
  eapply Runs_mono; [apply (settle_run V P S E)|]. intros [H0 k0] (SK & L0 & Oth & E0 & V0 & (ws & F & Sh) & Rs0 & P0 & Pr0 & S0).
  cbn [fst snd]. split; auto. exists ws. constructor; auto.
  assert (Po : Post H roots args o H0 [o] [v]).
  { destruct P0 as [a b c d]. constructor; auto. rewrite Forall_forall in *. intros x I. eapply newr_mono; [|apply d; auto]. intros y []. }
  exact (post_arg P S A Po).
Qed.
Section In.
Variables (n : nat) (H : heap) (roots args : list nat) (o : nat) (v : list Z) (H0 : heap) (k0 : kind) (h : option Z) (ws : list (list Z)).
Hypothesis X : Ctx n H roots args o v H0 k0 h ws.
Lemma ctx_edge : forall c, In c (children k0) -> edge H0 o c.
Proof. intros c I. exists k0, h. split; auto. apply X. Qed.
Lemma ctx_child : forall c w, In c (children k0) -> Val n H0 c w -> Pre H0 roots c w /\ resolved H0 c /\ Argok H0 roots c args.
Proof.
  intros c w I V. split; [|split].
  - eapply child_pre; [apply (cx_pre0 X)|apply ctx_edge; auto|exists n; auto].
  - assert (R := cx_res X). rewrite Forall_forall in R. auto.
  - eapply child_arg; [apply (pre_live (cx_pre0 X))|apply ctx_edge; auto|apply (cx_sg0 X)|apply (cx_arg0 X)].
Qed.
Lemma ctx_below : forall c q, In c (children k0) -> reach H0 c q -> q <> o /\ nth_error H0 q = nth_error H q /\ (q <> 0 -> reach H o q).
Proof.
  intros c q I R.
  assert (Nq : q <> o).
  { intros ->. exact (acyc_self (pre_val (cx_pre0 X)) (ctx_edge I) R). }
  split; auto. split; [apply (cx_oth X); auto|]. intros N0.
  destruct (cx_post X) as [Le _ _ N]. inversion N as [|? ? N' _]; subst.
  assert (Lq : q < length H0).
  { eapply Vok_reach_lt; [apply (cx_pre0 X)|]. eapply r_step; [apply ctx_edge; exact I|exact R]. }
  destruct (N' q) as [Y|(a & [] & _)]; auto.
  - assert (E := cx_oth X Nq). apply nth_error_Some. rewrite <- E. apply nth_error_Some. auto.
  - eapply r_step; [apply ctx_edge; exact I|exact R].
Qed.
Lemma ctx_allk : forall (P : kind -> Prop) c, P KNull -> allk P H o -> In c (children k0) -> allk P H0 c.
Proof.
  intros P c PN A I q k c1 R E. destruct (ctx_below I R) as (Nq & Eq & Rq).
  destruct (Nat.eq_dec q 0) as [->|N0].
  - destruct (pre_null (cx_pre0 X)) as (c0 & E0 & _). rewrite E in E0. inversion E0; subst. auto.
  - rewrite Eq in E. eapply A; eauto.
Qed.
Lemma ctx_allk0 : forall (P : kind -> Prop) k c, P KNull -> (forall k l, P k -> P (with_children k l)) -> nth_error H o = Some (k, c) -> sameK k k0 ->
  allk P H o -> allk P H0 o.
Proof.
  intros P k c PN PI E (l & _ & Ek) A q k1 c1 R E1.
  inversion R as [|? d ? (k2 & c2 & E2 & I) R']; subst q.
  - rewrite (cx_cell X) in E1. injection E1 as Y1 Y2. rewrite <- Y1, Ek. apply PI. eapply A; [apply r_refl|exact E].
  - rewrite (cx_cell X) in E2. injection E2 as Y1 Y2. rewrite <- Y1 in I. eapply (ctx_allk PN A I); eauto.
Qed.
Lemma ctx_up : forall H' outs vals, Post H0 roots args o H' outs vals -> Post H roots args o H' outs vals.
Proof. intros H' outs vals P. eapply post_of_settle; [apply (cx_pre X)|apply (cx_sg X)|apply (cx_arg X)|apply (cx_post X)|exact P]. Qed.
Lemma ctx_fresh : forall H' outs vals, Fresh H0 args o H' outs vals -> Post H roots args o H' outs vals.
Proof. intros. apply ctx_up, fresh_post. auto. Qed.
Lemma ctx_lt : o < length H0.
Proof. apply nth_error_Some. rewrite (cx_cell X). discriminate. Qed.
Lemma ctx_nn : k0 <> KNull -> o <> 0.
Proof. intros N. eapply not_null; [apply (pre_null (cx_pre0 X))|apply (cx_cell X)|auto]. Qed.
Lemma ctx_FV : Forall2 (Vok H0) (children k0) ws.
Proof. eapply Forall2_Val_Vok. apply X. Qed.
Lemma ctx_in : forall l1 c1 l2 ws1 w1 ws2 H1 c1' w1' k' v' outs vals, k0 <> KNull -> children k0 = l1 ++ c1 :: l2 -> length l1 = length ws1 ->
  ws = ws1 ++ w1 :: ws2 -> Post H0 roots args c1 H1 (c1' :: outs) (w1' :: vals) -> children k' = l1 ++ c1' :: l2 -> shape k' (ws1 ++ w1' :: ws2) v' ->
  Post H0 roots args o (put H1 o k') (o :: outs) (v' :: vals).
Proof.
  intros l1 c1 l2 ws1 w1 ws2 H1 c1' w1' k' v' outs vals N El Ll E Pc Ek Sh'.
  assert (FV := ctx_FV). rewrite E in FV.
  exact (step_in (cx_pre0 X) (cx_sg0 X) (cx_arg0 X) (ctx_nn N) (cx_cell X) El Ll FV Pc Ek Sh').
Qed.
Lemma ctx_here : forall k' v', k0 <> KNull -> children k' = children k0 -> shape k' ws v' -> Post H0 roots args o (put H0 o k') [o] [v'].
Proof.
  intros k' v' N Ek Sh'.
  apply (step_here args (k':=k') (ws':=ws) (cx_pre0 X) (cx_sg0 X) (ctx_nn N) (cx_cell X) ctx_FV); auto; rewrite Ek; auto.
  exact ctx_FV.
Qed.
Lemma ctx_null : forall v', k0 <> KNull -> v' = [] -> Post H0 roots args o (put H0 o (KFwd 0)) [o] [v'].
Proof.
  intros v' N ->.
  apply (step_here args (k':=KFwd 0) (ws':=[[]]) (cx_pre0 X) (cx_sg0 X) (ctx_nn N) (cx_cell X) ctx_FV); cbn [children shape]; auto.
  - intros c [<-|[]]; auto.
  - constructor; auto. apply null_val. apply X.
Qed.
Lemma ctx_merge : forall H1 k' v', Post H0 roots args o (put H1 o k') [o] [v'] -> (exists e, isHE e k') ->
  Runs (fun f => H2 <- merge uq gold f (put H1 o k') roots o ;; Ok (H2, o)) (fun r => Post H roots args o (fst r) [snd r] [v']).
Proof.
  intros H1 k' v' Po [e Y].
  assert (L : length H0 <= length (put H1 o k')) by apply Po. rewrite put_len in L. assert (L' := ctx_lt).
  eapply Runs_mono; [apply (put_merge uq_ok gold_ok (cx_pre0 X) (cx_sg0 X) (cx_arg0 X) Po (@put_at H1 o k' ltac:(lia)) Y)|].
  intros r. apply ctx_up.
Qed.
(** The value of an argument is kept by a change of a child. *)
Lemma ctx_argval : forall c1 H1 outs vals a u, In c1 (children k0) -> Post H0 roots args c1 H1 outs vals -> In a args -> Vok H0 a u -> Vok H1 a u.
Proof.
  intros c1 H1 outs vals a u I P Ia V. eapply Vok_agree; [exact V|].
  eapply arg_same; [apply (pre_live (cx_pre0 X))|apply ctx_edge; exact I|apply (cx_sg0 X)|apply (cx_arg0 X)|apply P|apply (pre_closed (cx_pre0 X))|exact Ia].
Qed.
Lemma ctx_argval0 : forall a u, In a args -> Vok H a u -> Vok H0 a u.
Proof.
  intros a u Ia V. eapply Vok_agree; [exact V|]. intros q R.
  destruct (cx_arg X Ia) as [Ir Na]. specialize (Na (cx_sg X)).
  eapply chg_rav; [apply (cx_post X)|apply (cx_pre X)|exact Ir|].
  destruct (reach_split o R) as [|[Y _]]; auto. contradiction.
Qed.
End In.

Lemma sameK_fwd : forall k to, sameK k (KFwd to) -> match k with KFwd _ => False | _ => True end -> False.
Proof.
  intros k to (l & Ll & Ek) Rk. destruct k; try contradiction; destruct l as [|l0 [|l1 [|]]]; cbn in Ek; discriminate.
Qed.

(** ** [ptr_t] arguments *)
Lemma mk_sum_run : forall H args o x y v u, Vok H x v -> Vok H y u -> newr H args o H x -> newr H args o H y ->
  Runs (fun f => mk_sum f H x y) (fun r => Fresh H args o (fst r) [snd r] [v ++ u]).
Proof.
  intros H args o x y v u Vx Vy Nx Ny. unfold mk_sum.
  eapply Runs_bind; [eapply size_run; eauto|]. intros xn ->.
  eapply Runs_bind; [eapply size_run; eauto|]. intros yn ->. apply Runs_ret.
  destruct (Nat.eqb_spec (length v) 0) as [E|N].
  { destruct v; [|discriminate]. cbn [mk fst snd List.app]. eapply fresh_one; eauto; reflexivity. }
  destruct (Nat.eqb_spec (length u) 0) as [E|N'].
  { destruct u; [|discriminate]. cbn [mk fst snd]. rewrite app_nil_r. eapply fresh_one with (c := x); eauto; reflexivity. }
  cbn [mk fst snd]. eapply alloc_fresh with (ws := [v; u]); [exists []; rewrite app_nil_r; auto| | | |constructor|constructor]; cbn [children shape]; auto.
Qed.

Lemma apply_p_run : forall n H roots e o s v u, Val n H o v -> Pre H roots o v -> resolved H o ->
  Argok H roots o [s] -> Vok H s u ->
  Runs (fun f => apply_p uq gold f H roots e o s) (fun r => Post H roots [s] o (fst r) [snd r] [app e v u]).
Proof.
  induction n as [|n IH]; intros H roots e o s v u V P Rs A Vs; [contradiction|].
  destruct (Val_cell V) as (k & c & E). apply Runs_S. cbn [apply_p]. rewrite (kd_eq E). cbn [rb].
  assert (Rk := Rs _ _ E).
  assert (Base : forall H, Vok H o v -> Vok H s u ->
    Runs (fun f => if e then mk_sum f H o s else mk_sum f H s o) (fun r => Fresh H [s] o (fst r) [snd r] [app e v u])).
  { intros H' V' Vs'. assert (I : newr H' [s] o H' s) by (apply newr_arg; left; auto).
    destruct e; unfold app; apply mk_sum_run; auto; apply newr_self. }
  destruct (uq H roots o) eqn:U.
  2:{ assert (B : Runs (fun f => if e then mk_sum f H o s else mk_sum f H s o) (fun r => Post H roots [s] o (fst r) [snd r] [app e v u])).
      { eapply Runs_mono; [apply Base; auto; apply P|]. intros r Fr. apply fresh_post. exact Fr. }
      destruct k; auto; [|contradiction].
      destruct (Val1 V E) as (ws & F & Sh & _). shp. subst. apply Runs_ret. cbn [fst snd].
      replace (app e [] u) with u by (destruct e; cbn; rewrite ?app_nil_r; auto).
      apply id_post; constructor; auto. apply newr_arg. left; auto. }
  assert (Sg := uq_ok U).
  eapply Runs_bind; [apply (ctx_enter V P Sg A E)|]. intros [H0 k0] (SK & ws & X). cbn [fst snd] in *.
  assert (Vs0 : Vok H0 s u) by (eapply ctx_argval0; eauto; left; auto).
  assert (B : Runs (fun f => if e then mk_sum f H0 o s else mk_sum f H0 s o) (fun r => Post H roots [s] o (fst r) [snd r] [app e v u])).
  { eapply Runs_mono; [apply Base; auto; apply X|]. intros r Fr. eapply ctx_fresh; eauto. }
  assert (C : forall e c w, In c (children k0) -> Val n H0 c w ->
     Runs (fun f => apply_p uq gold f H0 roots e c s) (fun r => Post H0 roots [s] c (fst r) [snd r] [app e w u])).
  { intros e' c' w I Vc. destruct (ctx_child X I Vc) as (Pc & Rc & Ac). apply IH; auto. }
  clear IH.
  assert (Sz : forall c1 G1 c1' w1', In c1 (children k0) -> Post H0 roots [s] c1 G1 [c1'] [w1'] -> Runs (fun f => size f G1 s) (fun m => m = length u)).
  { intros c1 G1 c1' w1' I Pc. eapply size_run. eapply (ctx_argval X I Pc); eauto. left; auto. }
  assert (D := ctx_in X). assert (UP := ctx_up X). assert (MG := ctx_merge X). assert (F := cx_F X). assert (Sh := cx_sh X).
  clear X.
  destruct k0; cbn [children] in *; shp; subst; auto.
  - apply Runs_ret. cbn [fst snd]. replace (app e [] u) with u by (destruct e; cbn; rewrite ?app_nil_r; auto).
    apply UP. apply id_post; constructor; auto. apply newr_arg. left; auto.
  - (* substr *)
    eapply Runs_bind; [eapply size_run; eexists; eauto|]. intros t ->.
    destruct (if e then _ else _) eqn:Cond; auto.
    eapply Runs_bind; [apply C with (e := e); [left; reflexivity|eassumption]|]. intros [G1 to'] Pc. cbn [fst snd] in Pc.
    eapply Runs_bind; [eapply Sz; [|exact Pc]; left; auto|]. intros m ->.
    apply Runs_ret. apply UP. cbn [fst snd].
    eapply (D [] to [] [] _ []); [discriminate|reflexivity|reflexivity|reflexivity|exact Pc|reflexivity|cbn [List.app shape]].
    unfold app in *. destruct e; llen; (split; [lia|]); lsolve.
  - (* head *)
    destruct e; auto.
    eapply Runs_bind; [apply C with (e := true); [left; reflexivity|eassumption]|]. intros [G1 to'] Pc. cbn [fst snd] in Pc.
    eapply Runs_bind; [eapply Sz; [|exact Pc]; left; auto|]. intros m ->.
    eapply MG; [eapply (D [] to [] [] _ []); [discriminate|reflexivity|reflexivity|reflexivity|exact Pc|reflexivity|cbn [List.app shape]]|exists false; reflexivity].
    unfold app. llen. repeat split; auto. rewrite app_assoc. auto.
  - (* end *)
    destruct e; auto.
    eapply Runs_bind; [apply C with (e := false); [left; reflexivity|eassumption]|]. intros [G1 to'] Pc. cbn [fst snd] in Pc.
    eapply Runs_bind; [eapply Sz; [|exact Pc]; left; auto|]. intros m ->.
    eapply MG; [eapply (D [] to [] [] _ []); [discriminate|reflexivity|reflexivity|reflexivity|exact Pc|reflexivity|cbn [List.app shape]]|exists true; reflexivity].
    unfold app. llen. repeat split; auto; [lia|]. rewrite app_assoc. auto.
  - (* sum *)
    destruct e.
    + eapply Runs_bind; [apply C with (e := true); [right; left; reflexivity|eassumption]|]. intros [G1 y'] Pc. cbn [fst snd] in Pc.
      eapply Runs_bind; [eapply Sz; [|exact Pc]; right; left; auto|]. intros m ->. apply Runs_ret. apply UP. cbn [fst snd].
      eapply (D [x] y [] [_] _ []); [discriminate|reflexivity|reflexivity|reflexivity|exact Pc|reflexivity|cbn [List.app shape]].
      unfold app. llen. repeat split; auto. rewrite app_assoc. auto.
    + eapply Runs_bind; [apply C with (e := false); [left; reflexivity|eassumption]|]. intros [G1 x'] Pc. cbn [fst snd] in Pc.
      eapply Runs_bind; [eapply Sz; [|exact Pc]; left; auto|]. intros m ->. apply Runs_ret. apply UP. cbn [fst snd].
      eapply (D [] x [y] [] _ [_]); [discriminate|reflexivity|reflexivity|reflexivity|exact Pc|reflexivity|cbn [List.app shape]].
      unfold app. llen. repeat split; auto; [lia|]. rewrite app_assoc. auto.
  - (* erased *)
    eapply Runs_bind; [apply C with (e := e); [left; reflexivity|eassumption]|]. intros [G1 to'] Pc. cbn [fst snd] in Pc.
    eapply Runs_bind; [eapply Sz; [|exact Pc]; left; auto|]. intros m ->. apply Runs_ret. apply UP. cbn [fst snd].
    eapply (D [] to [] [] _ []); [discriminate|reflexivity|reflexivity|reflexivity|exact Pc|reflexivity|cbn [List.app shape]].
    unfold app in *. destruct e; llen; (split; [lia|split; [lia|]]); lsolve.
  - (* inserted *)
    eapply Runs_bind; [eapply size_run; eauto|]. intros m ->.
    destruct (if e then _ else _) eqn:Cond.
    + eapply Runs_bind; [apply C with (e := e); [right; left; reflexivity|eassumption]|]. intros [G1 x'] Pc. cbn [fst snd] in Pc. apply Runs_ret. apply UP. cbn [fst snd].
      eapply (D [to] x [] [_] _ []); [discriminate|reflexivity|reflexivity|reflexivity|exact Pc|reflexivity|cbn [List.app shape]].
      unfold app in *. destruct e; llen; (split; [lia|split; [lia|split; [lia|]]]); lsolve.
    + eapply Runs_bind; [apply C with (e := e); [left; reflexivity|eassumption]|]. intros [G1 to'] Pc. cbn [fst snd] in Pc. apply Runs_ret. apply UP. cbn [fst snd].
      eapply (D [] to [x] [] _ [_]); [discriminate|reflexivity|reflexivity|reflexivity|exact Pc|reflexivity|cbn [List.app shape]].
      unfold app in *. destruct e; llen; (split; [lia|split; [lia|split; [lia|]]]); lsolve.
  - exfalso. eapply sameK_fwd; eauto.
Qed.
End Ctx.
