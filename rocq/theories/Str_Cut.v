(** Removing and popping characters at either end. *)
From Verif Require Import Base Ref_Model Ref_Proofs List_Model Str_Model Str_Heap Str_Own Str_Read Str_Apply Str_Ctx Str_Edit.
Local Open Scope res_scope.
Local Open Scope nat_scope.

Section Cut.
Variable hv : list Z -> Z.
Variable uq : heap -> list nat -> nat -> bool.
Variable gold : nat -> nat.
Hypothesis uq_ok : forall H roots o, uq H roots o = true -> single H roots o.
Hypothesis gold_ok : forall n, n <= gold n.
Notation Val := (Val hv).
Notation Vok := (Vok hv).
Notation Pre := (Pre hv).
Notation Post := (Post hv).
Notation nullok := (nullok hv).
Notation Fresh := (Fresh hv).
Notation Ctx := (Ctx hv).

(** ** More ways to change a node *)
Section In.
Variables (n : nat) (H : heap) (roots : list nat) (o : nat) (v : list Z) (H0 : heap) (k0 : kind) (h : option Z) (ws : list (list Z)).
Hypothesis X : Ctx n H roots [] o v H0 k0 h ws.
(** Children other than [c] keep their values when [c] is changed. *)
Lemma ctx_sib : forall l1 c l2 H1 outs vals s w, children k0 = l1 ++ c :: l2 -> In s (l1 ++ l2) -> Post H0 roots [] c H1 outs vals ->
  Vok H0 s w -> Vok H1 s w /\ ~ reach H1 s o /\ newr H0 [] o H1 s.
Proof.
  intros l1 c l2 H1 outs vals s w El Is Pc V.
  assert (Sm : forall q, reach H0 s q -> nth_error H1 q = nth_error H0 q).
  { eapply sib_same; [apply (pre_live (cx_pre0 X))|apply (cx_cell X)|exact El|exact Is|apply (pre_val (cx_pre0 X))|apply Pc|apply (pre_closed (cx_pre0 X))]. }
  assert (E : edge H0 o s).
  { eapply ctx_edge; eauto. rewrite El. apply in_app_or in Is. apply in_or_app. destruct Is; auto. right; right; auto. }
  split; [eapply Vok_agree; eauto|]. split.
  - intros R. eapply acyc_self; [apply (pre_val (cx_pre0 X))|exact E|]. eapply reach_agree2; eauto.
  - intros q Lq Nq R. left. eapply r_step; [exact E|]. eapply reach_agree2; eauto.
Qed.
(** The node is replaced by null or by a child after another child has changed. *)
Lemma ctx_fwd : forall l1 c l2 H1 outs vals s w, k0 <> KNull -> children k0 = l1 ++ c :: l2 ->
  (s = 0 /\ w = []) \/ (In s (l1 ++ l2) /\ Vok H0 s w) -> Post H0 roots [] c H1 outs vals ->
  Post H0 roots [] o (put H1 o (KFwd s)) (o :: outs) (w :: vals).
Proof.
  intros l1 c l2 H1 outs vals s w N El Cs Pc.
  assert (Ec : edge H0 o c). { eapply ctx_edge; eauto. rewrite El. apply in_or_app. right; left; auto. }
  assert (NK : nullok H1) by (exact (null_keep (po_chg Pc) (pre_null (cx_pre0 X)))).
  assert (S1 : Vok H1 s w /\ ~ reach H1 s o /\ newr H0 [] o H1 s).
  { destruct Cs as [[-> ->]|[Is Vs]]; [|eapply ctx_sib; eauto].
    split; [apply null_val; auto|]. split; [|eapply newr_null; exact NK].
    intros R. apply (ctx_nn X N). exact (null_reach NK R). }
  destruct S1 as (V1 & R1 & N1).
  assert (CO : forall c', In c' outs -> ~ reach H1 c' o /\ newr H0 [] o H1 c').
  { intros c' I. eapply child_out; [apply (cx_pre0 X)|apply (cx_sg0 X)|apply Argok_nil|exact Ec|apply (ctx_nn X N)|].
    assert (Q := po_new Pc). rewrite Forall_forall in Q. auto. }
  eapply put_post with (ws := [w]); [apply (cx_sg0 X)|apply (ctx_nn X N)|apply (ctx_lt X)|apply Pc| | | | | | | | ].
  - eapply child_chg; [apply (pre_live (cx_pre0 X))|exact Ec|apply (cx_sg0 X)|apply Pc].
  - cbn [children]. auto.
  - reflexivity.
  - cbn [children]. auto.
  - cbn [children]. auto.
  - apply Pc.
  - rewrite Forall_forall. intros c' I. apply CO; auto.
  - rewrite Forall_forall. intros c' I. apply CO; auto.
Qed.
(** The result of an operation on a child is the result of the operation. *)
Lemma ctx_forward : forall c H1 outs vals, In c (children k0) -> Post H0 roots [] c H1 outs vals -> Post H roots [] o H1 outs vals.
Proof.
  intros c H1 outs vals I Pc. apply (ctx_up X).
  assert (Ec := ctx_edge X I). constructor; try apply Pc.
  - eapply child_chg; [apply (pre_live (cx_pre0 X))|exact Ec|apply (cx_sg0 X)|apply Pc].
  - assert (Q := po_new Pc). rewrite Forall_forall in *. intros c' Ic q Lq Nq R. destruct (Q c' Ic q Lq Nq R) as [Y|]; auto. left. eapply r_step; eauto.
Qed.
Lemma ctx_child_val : forall c w, In c (children k0) -> Vok H0 c w -> Post H roots [] o H0 [c] [w].
Proof.
  intros c w I V. apply (ctx_up X), id_post; constructor; auto. apply newr_below. apply reach_edge. apply (ctx_edge X). auto.
Qed.
End In.

Lemma wc_id : forall k, with_children k (children k) = k.
Proof. destruct k; reflexivity. Qed.
Lemma put_keep_id : forall H o k c, nth_error H o = Some (k, c) -> put_keep H o k = H.
Proof.
  intros H o k c E. apply nth_ext_err. intros i. destruct (Nat.eq_dec i o) as [->|N].
  - rewrite (put_keep_at k E). auto.
  - apply put_keep_other. auto.
Qed.
Lemma deref_same : forall H o k c, nth_error H o = Some (k, c) -> resolved H o -> Runs (fun f => deref f H o) (fun r => r = o).
Proof.
  intros H o k c E R. specialize (R _ _ E). apply Runs_S. cbn [deref]. rewrite (kd_eq E). cbn [rb]. destruct k; try contradiction; apply Runs_ret; auto.
Qed.
Lemma derefs_same : forall n H l ws, Forall2 (Val n H) l ws -> Forall (resolved H) l -> Runs (fun f => derefs f H l) (fun r => r = l).
Proof.
  intros n H l ws F. induction F as [|c w l ws V F IH]; intros R; cbn [derefs].
  - apply Runs_ret. auto.
  - inversion R; subst. destruct n as [|n]; [contradiction|]. destruct (Val_cell V) as (k & h & E).
    eapply Runs_bind; [eapply deref_same; eauto|]. intros c' ->. eapply Runs_bind; [apply IH; auto|]. intros l' ->. apply Runs_ret. auto.
Qed.
Lemma settle_same : forall n H o v k c, Val (S n) H o v -> nth_error H o = Some (k, c) -> Forall (resolved H) (children k) ->
  Runs (fun f => settle f H o) (fun r => r = (H, k)).
Proof.
  intros n H o v k c V E R. destruct (Val1 V E) as (ws & F & _ & _). unfold settle. rewrite (kd_eq E). cbn [rb].
  assert (D := derefs_same F R). destruct (children k) eqn:K; [apply Runs_ret; auto|].
  eapply Runs_bind; [exact D|]. intros l' ->. apply Runs_ret. rewrite <- K, wc_id, (put_keep_id E). auto.
Qed.
Lemma ctx_same : forall n H roots o v k h, Val (S n) H o v -> Pre H roots o v -> single H roots o -> nth_error H o = Some (k, h) ->
  Forall (resolved H) (children k) -> exists ws, Ctx n H roots [] o v H k h ws.
Proof.
  intros n H roots o v k h V P S E R.
  destruct (Runs_det (settle_same V E R) (ctx_enter V P S (@Argok_nil H roots o) E)) as (f0 & r & _ & -> & _ & ws & X).
  exists ws. exact X.
Qed.

Lemma post_tail : forall H roots args o H' a outs b vals, Post H roots args o H' (a :: outs) (b :: vals) -> Post H roots args o H' [a] [b].
Proof. intros H roots args o H' a outs b vals [L C V N]. inversion V; inversion N; subst. constructor; auto. Qed.
(** ** Removing *)
(** Nodes from which characters are removed rightly: no replaced node, every
    node that refers to others has one handle only or is a substring, and no
    insertion when removing at the end. *)
Definition rmok (e : bool) (H : heap) (roots : list nat) (o : nat) : Prop :=
  forall q k c, reach H o q -> nth_error H q = Some (k, c) ->
    match k with KFwd _ => False | KIns _ _ _ _ _ => e = false | _ => True end /\
    (children k <> [] -> match k with KSub _ _ _ => True | _ => single H roots q end).
Definition cut (e : bool) (v : list Z) (n : nat) : list Z := if e then firstn (length v - n) v else skipn n v.
Lemma remove_base_run : forall n H e o v m, Val n H o v -> nullok H -> m <= length v ->
  Runs (fun f => remove_base f H e o m) (fun r => Fresh H [] o (fst r) [snd r] [cut e v m]).
Proof.
  clear uq_ok gold_ok. intros n H e o v m V NZ L. unfold remove_base. assert (VV : Vok H o v) by (exists n; auto).
  destruct (Nat.eqb_spec m 0) as [->|].
  { apply Runs_ret. cbn [fst snd]. replace (cut e v 0) with v; [apply fresh_same; auto|]. unfold cut. destruct e; auto. rewrite Nat.sub_0_r, firstn_all. auto. }
  eapply Runs_bind; [eapply size_run; eauto|]. intros sz ->.
  rewrite sub_chk_ok by auto. cbn [rb]. unfold cut. destruct e.
  - eapply (get_sub_run (b := 0)); eauto. lia.
  - eapply Runs_mono; [apply (get_sub_run (b := m) (m := length v - m) V NZ); lia|]. intros r Fr.
    rewrite (firstn_all2 (skipn m v)) in Fr; auto. rewrite skipn_length. lia.
Qed.
Lemma rmok_child : forall e H roots o k c q, nth_error H o = Some (k, c) -> In q (children k) -> rmok e H roots o -> rmok e H roots q.
Proof. intros e H roots o k c q E I R p k1 c1 Rp E1. eapply R; [|exact E1]. eapply r_step; [exists k, c; eauto|]. auto. Qed.

Lemma do_remove_run : forall n H roots e o v m, Val n H o v -> Pre H roots o v -> rmok e H roots o -> m <= length v ->
  Runs (fun f => do_remove uq gold f H roots e o m) (fun r => Post H roots [] o (fst r) [snd r] [cut e v m]).
Proof.
  induction n as [|n IH]; intros H roots e o v m V P A L; [contradiction|].
  destruct (Val_cell V) as (k & c & E). apply Runs_S. cbn [do_remove].
  assert (B : Runs (fun f => remove_base f H e o m) (fun r => Post H roots [] o (fst r) [snd r] [cut e v m])).
  { eapply Runs_mono; [apply (remove_base_run (m:=m) e V); auto; apply P|]. intros r Fr. apply fresh_post. auto. }
  assert (Ak := A _ _ _ (r_refl H o) E). destruct Ak as [Ak Sg].
  assert (RC : Forall (resolved H) (children k)).
  { rewrite Forall_forall. intros q I k1 c1 E1. destruct (A q k1 c1) as [Y _]; auto; [apply reach_edge; exists k, c; auto|]. destruct k1; auto. }
  rewrite (kd_eq E). cbn [rb].
  apply Runs_bind with (Q := fun r => r = (H, k)).
  { destruct k; try exact (settle_same V E RC). destruct (uq H roots o); [exact (settle_same V E RC)|apply Runs_ret; auto]. }
  intros ? ->.
  destruct (match children k with [] => true | _ => false end) eqn:K.
  { destruct (Val1 V E) as (ws & F & Sh & _). destruct k; try discriminate K; auto; shp; subst.
    - apply Runs_ret. cbn [fst snd]. apply fresh_post. replace (cut e [] m) with (@nil Z) by (unfold cut; destruct e; cbn; auto; rewrite skipn_nil; auto).
      apply fresh_same. apply P.
    - llen. rewrite sub_chk_ok by lia. cbn [rb].
      assert (EV : cut e (repeat c0 n0) m = repeat c0 (n0 - m)). { unfold cut. destruct e; lsolve. }
      rewrite EV. destruct (uq H roots o) eqn:U.
      + apply Runs_ret. cbn [fst snd]. assert (Sg1 := uq_ok U).
        assert (O0 : o <> 0). { eapply not_null; [apply P|exact E|discriminate]. }
        apply (step_here [] (k':=KSame (n0 - m) c0) (ws:=[]) (ws':=[]) P Sg1 O0 E); cbn [children shape]; auto.
      + apply Runs_ret. apply fresh_post. destruct (Nat.eqb_spec (n0 - m) n0) as [Y|].
        * rewrite Y. apply fresh_same. apply P.
        * destruct (Nat.eqb_spec (n0 - m) 0) as [Y|]; cbn [mk fst snd].
          -- rewrite Y. cbn [repeat]. apply fresh_null. apply P.
          -- apply fresh_leaf; reflexivity. }
  destruct (andb (negb (uq H roots o)) (match k with KSub _ _ _ => true | _ => false end)) eqn:SU.
  { destruct k; try (rewrite andb_false_r in SU; discriminate). destruct (uq H roots o); [discriminate|]. exact B. }
  assert (SG : single H roots o).
  { assert (NK : children k <> []). { intros Y. rewrite Y in K. discriminate. } specialize (Sg NK).
    destruct k; auto. destruct (uq H roots o) eqn:U; [apply uq_ok; auto|discriminate]. }
  clear Sg SU. destruct (ctx_same V P SG E RC) as (ws & X).
  assert (C : forall e0 c w j, (e0 = e \/ e0 = false) -> In c (children k) -> Val n H c w -> j <= length w ->
     Runs (fun f => do_remove uq gold f H roots e0 c j) (fun r => Post H roots [] c (fst r) [snd r] [cut e0 w j])).
  { intros e0 c' w j Ee I Vc Lj. destruct (ctx_child X I Vc) as (Pc & Rc & Ac). apply IH; auto.
    assert (Y := rmok_child E I A). destruct Ee as [->| ->]; auto. intros q k1 c1 Rq Eq. destruct (Y q k1 c1 Rq Eq). split; auto. destruct k1; auto. }
  clear IH.
  assert (D := ctx_in X). assert (UP := ctx_up X). assert (MG := ctx_merge uq_ok gold_ok X). assert (F := cx_F X). assert (Sh := cx_sh X).
  assert (HR := ctx_here X). assert (NU := ctx_null X). assert (FW := ctx_fwd X). assert (FO := ctx_forward X). assert (CV := ctx_child_val X).
  assert (VK := ctx_FV X).
  assert (SZ : forall c w, Val n H c w -> Runs (fun f => size f H c) (fun r => r = length w)).
  { intros c' w Vc. eapply size_run. exists n; eauto. }
  clear X.
  destruct k; try discriminate; try contradiction; cbn [children] in *; shp; subst; llen.
  - destruct (uq H roots o); auto.
    eapply Runs_bind; [apply SZ; eassumption|]. intros t ->. rewrite sub_chk_ok by lia. cbn [rb].
    match goal with |- context[if (if e then ?x else ?y) then _ else _] => destruct (if e then x else y) eqn:Be end.
    + eapply Runs_bind; [apply C; [left; reflexivity|left; reflexivity|eassumption|destruct e; lia]|]. intros [G1 to'] Pc. cbn [fst snd] in Pc. apply Runs_ret. apply UP. cbn [fst snd].
      destruct (Nat.eqb_spec (n0 - m) 0).
      * replace (cut e (firstn n0 (skipn b y)) m) with (@nil Z) by (unfold cut; destruct e; lsolve).
        eapply post_tail, (FW [] to []); [discriminate|reflexivity|left; auto|exact Pc].
      * eapply (D [] to [] [] _ []); [discriminate|reflexivity|reflexivity|reflexivity|exact Pc|reflexivity|cbn [List.app shape]].
        unfold cut. destruct e; llen; (split; [lia|lsolve]).
    + apply Runs_ret. apply UP. cbn [fst snd]. destruct (Nat.eqb_spec (n0 - m) 0).
      * apply NU; [discriminate|]. unfold cut. destruct e; lsolve.
      * apply HR; [discriminate|reflexivity|]. cbn [shape]. unfold cut. destruct e; llen; (split; [lia|lsolve]).
  - destruct e.
    + destruct (uq H roots o); cbn [andb]; auto. match goal with |- context[Nat.ltb m ?a] => destruct (Nat.ltb_spec m a); auto end.
      eapply Runs_bind; [apply C; [left; reflexivity|left; reflexivity|eassumption|lia]|]. intros [G1 to'] Pc. cbn [fst snd] in Pc.
      eapply MG; [eapply (D [] to [] [] _ []); [discriminate|reflexivity|reflexivity|reflexivity|exact Pc|reflexivity|cbn [List.app shape]]|exists false; reflexivity].
      unfold cut. llen. repeat split; auto; [lia|lsolve].
    + destruct (Nat.leb_spec (length d) m).
      * replace (cut false (d ++ y) m) with (cut false y (m - length d)) by (unfold cut; lsolve).
        eapply Runs_mono; [apply C; [left; reflexivity|left; reflexivity|eassumption|lia]|]. intros r Pc. eapply FO; [left; reflexivity|exact Pc].
      * destruct (uq H roots o); auto. eapply MG; [apply HR; [discriminate|reflexivity|]|exists false; reflexivity].
        cbn [shape]. unfold cut. llen. repeat split; auto; [lia|lsolve].
  - destruct e.
    + destruct (Nat.leb_spec (length d) m).
      * replace (cut true (y ++ d) m) with (cut true y (m - length d)) by (unfold cut; llen; lsolve).
        eapply Runs_mono; [apply C; [left; reflexivity|left; reflexivity|eassumption|lia]|]. intros r Pc. eapply FO; [left; reflexivity|exact Pc].
      * destruct (uq H roots o); auto. eapply MG; [apply HR; [discriminate|reflexivity|]|exists true; reflexivity].
        cbn [shape]. unfold cut. llen. repeat split; auto; [lia|lsolve].
    + destruct (uq H roots o); cbn [andb]; auto. match goal with |- context[Nat.ltb m ?a] => destruct (Nat.ltb_spec m a); auto end.
      eapply Runs_bind; [apply C; [left; reflexivity|left; reflexivity|eassumption|lia]|]. intros [G1 to'] Pc. cbn [fst snd] in Pc.
      eapply MG; [eapply (D [] to [] [] _ []); [discriminate|reflexivity|reflexivity|reflexivity|exact Pc|reflexivity|cbn [List.app shape]]|exists true; reflexivity].
      unfold cut. llen. repeat split; auto; lsolve.
  - destruct e.
    + match goal with |- context[Nat.eqb ?a m] => destruct (Nat.eqb_spec a m) as [Em|Em] end.
      { apply Runs_ret. cbn [fst snd]. match goal with V1 : Val n H x ?w |- _ => replace (cut true _ m) with w; [apply CV; [left; reflexivity|exists n; exact V1]|] end.
        unfold cut. llen. lsolve. }
      match goal with |- context[Nat.ltb ?a m] => destruct (Nat.ltb_spec a m) end.
      { match goal with V1 : Val n H x ?w, V2 : Val n H y ?u |- _ => replace (cut true _ m) with (cut true w (m - length u)) by (unfold cut; llen; lsolve) end.
        eapply Runs_mono; [apply C; [left; reflexivity|left; reflexivity|eassumption|lia]|]. intros r Pc. eapply FO; [left; reflexivity|exact Pc]. }
      destruct (uq H roots o); auto.
      eapply Runs_bind; [apply C; [left; reflexivity|right; left; reflexivity|eassumption|lia]|]. intros [G1 to'] Pc. cbn [fst snd] in Pc. apply Runs_ret. apply UP. cbn [fst snd].
      eapply (D [x] y [] [_] _ []); [discriminate|reflexivity|reflexivity|reflexivity|exact Pc|reflexivity|cbn [List.app shape]].
      unfold cut. llen. repeat split; auto; [lia|lsolve].
    + match goal with |- context[Nat.eqb ?a m] => destruct (Nat.eqb_spec a m) as [Em|Em] end.
      { apply Runs_ret. cbn [fst snd]. match goal with V1 : Val n H y ?w |- _ => replace (cut false _ m) with w; [apply CV; [right; left; reflexivity|exists n; exact V1]|] end.
        unfold cut. llen. lsolve. }
      match goal with |- context[Nat.ltb ?a m] => destruct (Nat.ltb_spec a m) end.
      { match goal with V1 : Val n H x ?w, V2 : Val n H y ?u |- _ => replace (cut false _ m) with (cut false u (m - length w)) by (unfold cut; llen; lsolve) end.
        eapply Runs_mono; [apply C; [left; reflexivity|right; left; reflexivity|eassumption|lia]|]. intros r Pc. eapply FO; [right; left; reflexivity|exact Pc]. }
      destruct (uq H roots o); auto.
      eapply Runs_bind; [apply C; [left; reflexivity|left; reflexivity|eassumption|lia]|]. intros [G1 to'] Pc. cbn [fst snd] in Pc. apply Runs_ret. apply UP. cbn [fst snd].
      eapply (D [] x [y] [] _ [_]); [discriminate|reflexivity|reflexivity|reflexivity|exact Pc|reflexivity|cbn [List.app shape]].
      unfold cut. llen. repeat split; auto; lsolve.
  - destruct e.
    + rewrite sub_chk_ok by lia. cbn [rb]. match goal with |- context[Nat.leb ?a m] => destruct (Nat.leb_spec a m) end.
      { replace (cut true (firstn p y ++ skipn (p + n0) y) m) with (cut true y (m + n0)) by (unfold cut; llen; lsolve).
        eapply Runs_mono; [apply C; [left; reflexivity|left; reflexivity|eassumption|lia]|]. intros r Pc. eapply FO; [left; reflexivity|exact Pc]. }
      destruct (uq H roots o); auto.
      eapply Runs_bind; [apply C; [left; reflexivity|left; reflexivity|eassumption|lia]|]. intros [G1 to'] Pc. cbn [fst snd] in Pc. apply Runs_ret. apply UP. cbn [fst snd].
      eapply (D [] to [] [] _ []); [discriminate|reflexivity|reflexivity|reflexivity|exact Pc|reflexivity|cbn [List.app shape]].
      unfold cut. llen. split; [lia|split; [lia|lsolve]].
    + match goal with |- context[Nat.leb ?a m] => destruct (Nat.leb_spec a m) end.
      { replace (cut false (firstn p y ++ skipn (p + n0) y) m) with (cut false y (m + n0)) by (unfold cut; llen; lsolve).
        eapply Runs_mono; [apply C; [left; reflexivity|left; reflexivity|eassumption|lia]|]. intros r Pc. eapply FO; [left; reflexivity|exact Pc]. }
      destruct (uq H roots o); auto.
      eapply Runs_bind; [apply C; [left; reflexivity|left; reflexivity|eassumption|lia]|]. intros [G1 to'] Pc. cbn [fst snd] in Pc. apply Runs_ret. apply UP. cbn [fst snd].
      eapply (D [] to [] [] _ []); [discriminate|reflexivity|reflexivity|reflexivity|exact Pc|reflexivity|cbn [List.app shape]].
      unfold cut. llen. split; [lia|split; [lia|lsolve]].
  - match goal with |- context[Nat.leb ?a m] => destruct (Nat.leb_spec a m) end.
    { match goal with V1 : Val n H to ?w, V2 : Val n H x ?u |- _ => replace (cut false _ m) with (cut false w (m - length u)) by (unfold cut; llen; lsolve) end.
      eapply Runs_mono; [apply C; [left; reflexivity|left; reflexivity|eassumption|lia]|]. intros r Pc. eapply FO; [left; reflexivity|exact Pc]. }
    destruct (uq H roots o); auto. destruct (Nat.ltb_spec m p).
    + eapply Runs_bind; [apply C; [left; reflexivity|left; reflexivity|eassumption|lia]|]. intros [G1 to'] Pc. cbn [fst snd] in Pc. apply Runs_ret. apply UP. cbn [fst snd].
      eapply (D [] to [x] [] _ [_]); [discriminate|reflexivity|reflexivity|reflexivity|exact Pc|reflexivity|cbn [List.app shape]].
      unfold cut. llen. split; [lia|split; [lia|split; [lia|lsolve]]].
    + match goal with |- context[andb ?a ?b] => destruct (andb a b) eqn:Be; auto end. assert (p = 0) by lia. subst p.
      eapply Runs_bind; [apply C; [left; reflexivity|right; left; reflexivity|eassumption|lia]|]. intros [G1 to'] Pc. cbn [fst snd] in Pc. apply Runs_ret. apply UP. cbn [fst snd].
      eapply (D [to] x [] [_] _ []); [discriminate|reflexivity|reflexivity|reflexivity|exact Pc|reflexivity|cbn [List.app shape]].
      unfold cut. llen. split; [lia|split; [lia|split; [lia|lsolve]]].
Qed.
(** Substrings of substrings and so on: nothing else is required. *)
Definition viewk (k : kind) : Prop :=
  match k with KNull | KConst _ | KComn _ | KSub _ _ _ | KSame _ _ | KFwd _ => True | _ => False end.
Lemma do_remove_view_run : forall n H roots e o v m, Val n H o v -> Pre H roots o v -> resolved H o -> allk viewk H o -> m <= length v ->
  Runs (fun f => do_remove uq gold f H roots e o m) (fun r => Post H roots [] o (fst r) [snd r] [cut e v m]).
Proof.
  induction n as [|n IH]; intros H roots e o v m V P Rs A L; [contradiction|].
  destruct (Val_cell V) as (k & c & E). assert (Ak := A _ _ _ (r_refl H o) E). assert (Rk := Rs _ _ E).
  destruct (match k with KSub _ _ _ => true | _ => false end) eqn:K.
  2:{ eapply do_remove_run; eauto. intros q k1 c1 Rq Eq. inversion Rq as [|? d ? (k2 & c2 & E2 & I) R']; subst.
      - rewrite E in Eq. injection Eq as <- <-. destruct k; try contradiction; try discriminate K; split; auto; intros Y; destruct (Y eq_refl).
      - rewrite E in E2. injection E2 as <- <-. destruct k; try contradiction; try discriminate K; destruct I. }
  destruct k as [| | |to b n0| | | | | | |]; try discriminate K. clear K Ak Rk.
  apply Runs_S. cbn [do_remove]. rewrite (kd_eq E). cbn [rb].
  assert (B : Runs (fun f => remove_base f H e o m) (fun r => Post H roots [] o (fst r) [snd r] [cut e v m])).
  { eapply Runs_mono; [apply (remove_base_run (m:=m) e V); auto; apply P|]. intros r Fr. apply fresh_post. auto. }
  destruct (uq H roots o) eqn:U; [|exact B].
  eapply Runs_bind; [apply (ctx_enter V P (uq_ok U) (@Argok_nil H roots o) E)|]. intros [H0 k0] (SK & ws & X). cbn [fst snd] in *.
  destruct SK as (l & Ll & Ek). destruct l as [|to0 [|]]; try discriminate Ll. cbn in Ek. subst k0.
  assert (C : forall w j, Val n H0 to0 w -> j <= length w ->
     Runs (fun f => do_remove uq gold f H0 roots e to0 j) (fun r => Post H0 roots [] to0 (fst r) [snd r] [cut e w j])).
  { intros w j Vc Lj. assert (I : In to0 (children (KSub to0 b n0))) by (left; auto). destruct (ctx_child X I Vc) as (Pc & Rc & _). apply IH; auto.
    eapply (ctx_allk X); eauto. exact Logic.I. }
  clear IH.
  assert (D := ctx_in X). assert (UP := ctx_up X). assert (F := cx_F X). assert (Sh := cx_sh X).
  assert (HR := ctx_here X). assert (NU := ctx_null X). assert (FW := ctx_fwd X).
  assert (SZ : forall w, Val n H0 to0 w -> Runs (fun f => size f H0 to0) (fun r => r = length w)).
  { intros w Vc. eapply size_run. exists n; eauto. }
  clear X. cbn [children] in *. shp. subst. llen.
  eapply Runs_bind; [apply SZ; eassumption|]. intros t ->. rewrite sub_chk_ok by lia. cbn [rb].
  match goal with |- context[if (if e then ?x else ?y) then _ else _] => destruct (if e then x else y) eqn:Be end.
  + eapply Runs_bind; [apply C; [eassumption|destruct e; lia]|]. intros [G1 to'] Pc. cbn [fst snd] in Pc. apply Runs_ret. apply UP. cbn [fst snd].
    destruct (Nat.eqb_spec (n0 - m) 0).
    * replace (cut e (firstn n0 (skipn b y)) m) with (@nil Z) by (unfold cut; destruct e; lsolve).
      eapply post_tail, (FW [] to0 []); [discriminate|reflexivity|left; auto|exact Pc].
    * eapply (D [] to0 [] [] _ []); [discriminate|reflexivity|reflexivity|reflexivity|exact Pc|reflexivity|cbn [List.app shape]].
      unfold cut. destruct e; llen; (split; [lia|lsolve]).
  + apply Runs_ret. apply UP. cbn [fst snd]. destruct (Nat.eqb_spec (n0 - m) 0).
    * apply NU; [discriminate|]. unfold cut. destruct e; lsolve.
    * apply HR; [discriminate|reflexivity|]. cbn [shape]. unfold cut. destruct e; llen; (split; [lia|lsolve]).
Qed.
(** ** Popping *)
Definition taken (e : bool) (v : list Z) (n : nat) : list Z := if e then skipn (length v - n) v else firstn n v.
Lemma cut_0 : forall e v, cut e v 0 = v.
Proof. intros e v. unfold cut. destruct e; auto. rewrite Nat.sub_0_r, firstn_all. auto. Qed.
Lemma taken_0 : forall e v, taken e v 0 = [].
Proof. intros e v. unfold taken. destruct e; auto. rewrite Nat.sub_0_r, skipn_all. auto. Qed.
Lemma fresh_two : forall H o H1 b vb H2 a va, Fresh H [] o H1 [b] [vb] -> Fresh H1 [] o H2 [a] [va] ->
  (forall q, q < length H -> reach H1 o q -> reach H o q) -> Fresh H [] o H2 [b; a] [vb; va].
Proof.
  clear uq_ok gold_ok. intros H o H1 b vb H2 a va [(l1 & ->) V1 N1] [(l2 & ->) V2 N2] RO. inversion V1; inversion V2; inversion N1; inversion N2; subst.
  constructor.
  - exists (l1 ++ l2). rewrite app_assoc. auto.
  - constructor; [apply Vok_ext; auto|constructor; auto].
  - constructor; [eapply newr_ext; eauto|]. constructor; [|constructor].
    intros q Lq Nq R. match goal with N : newr (H ++ l1) _ _ _ a |- _ => destruct (N q) as [Y|(a' & [] & _)]; auto end.
    rewrite app_length. lia.
Qed.
Lemma pop_base_run : forall n H e o v m, Val n H o v -> nullok H -> m <= length v ->
  Runs (fun f => pop_base f H e o m) (fun r => Fresh H [] o (fst (fst r)) [snd (fst r); snd r] [cut e v m; taken e v m]).
Proof.
  clear uq_ok gold_ok. intros n H e o v m V NZ L. unfold pop_base. assert (VV : Vok H o v) by (exists n; auto).
  destruct (Nat.eqb_spec m 0) as [->|].
  { apply Runs_ret. cbn [fst snd]. rewrite cut_0, taken_0. apply fresh_id.
    - constructor; auto. constructor; auto. apply null_val; auto.
    - constructor; [apply newr_self|constructor; [eapply newr_null; exact NZ|constructor]]. }
  eapply Runs_bind; [eapply size_run; eauto|]. intros sz ->.
  rewrite sub_chk_ok by auto. cbn [rb].
  assert (Two : forall b1 m1 b2 m2, b1 + m1 <= length v -> b2 + m2 <= length v ->
    Runs (fun f => '(H1, b) <- get_sub f H o b1 m1 ;; '(H2, a) <- get_sub f H1 o b2 m2 ;; Ok (H2, b, a))
      (fun r => Fresh H [] o (fst (fst r)) [snd (fst r); snd r] [firstn m1 (skipn b1 v); firstn m2 (skipn b2 v)])).
  { intros b1 m1 b2 m2 L1 L2.
    eapply Runs_bind; [apply (get_sub_run V NZ L1)|]. intros [G1 b] F1. cbn [fst snd] in F1.
    destruct (fr_ext F1) as (l1 & El).
    assert (V1 : Val n G1 o v). { rewrite El. eapply Val_agree; [exact V|]. intros q R. apply ext_old. destruct VV as [n' VV]. eapply Vok_reach_lt; [exists n'; exact VV|exact R]. }
    assert (N1 : nullok G1). { destruct NZ as (c & E & O). exists c. split; auto. rewrite El, ext_old; auto. apply nth_error_Some. congruence. }
    eapply Runs_bind; [apply (get_sub_run V1 N1 L2)|]. intros [G2 a] F2. cbn [fst snd] in F2. apply Runs_ret. cbn [fst snd].
    eapply fresh_two; eauto. intros q Lq R. rewrite El in R. eapply reach_ext; eauto. }
  destruct e.
  - eapply Runs_mono; [apply (Two 0 (length v - m) (length v - m) m); lia|]. intros r Fr. cbn [skipn] in Fr. unfold cut, taken.
    rewrite (firstn_all2 (skipn (length v - m) v)) in Fr by (rewrite skipn_length; lia). exact Fr.
  - eapply Runs_ext with (g := fun f => '(H2, b, a) <- ('(H1, b) <- get_sub f H o 0 m ;; '(H2, a) <- get_sub f H1 o m (length v - m) ;; Ok (H2, b, a)) ;; Ok (H2, a, b)).
    { intros f. destruct (get_sub f H o 0 m) as [[? ?]| |]; cbn [rb]; auto. destruct (get_sub f h o m (length v - m)) as [[? ?]| |]; cbn [rb]; auto. }
    eapply Runs_bind; [apply (Two 0 m m (length v - m)); lia|]. intros [[G b] a] Fr. cbn [fst snd] in *. apply Runs_ret. cbn [fst snd].
    unfold cut, taken. cbn [skipn] in Fr. rewrite (firstn_all2 (skipn m v)) in Fr by (rewrite skipn_length; lia).
    destruct Fr as [X1 X2 X3]. inversion X2 as [|? ? ? ? Y1 Y2]; inversion Y2; inversion X3 as [|? ? Y3 Y4]; inversion Y4; subst. constructor; auto.
Qed.

(** Nodes from which [n] characters are popped rightly. *)
Definition popk (e : bool) (n : nat) (k : kind) : Prop :=
  match k with
  | KHead _ tn _ _ => e = true -> n <= tn
  | KSum _ _ xn yn => e = true -> xn <> n \/ yn = n
  | KIns _ _ tn p _ => e = true -> p < tn /\ n <= tn
  | _ => True
  end.
Definition same_end (e : bool) (k : kind) : Prop :=
  match k with KHead _ _ _ _ => e = false | KEnd _ _ _ _ => e = true | _ => False end.
(** No node with a buffer at the popped end lies below another one. *)
Definition one_level (e : bool) (H : heap) (o : nat) : Prop :=
  forall q k c p k' c', reach H o q -> nth_error H q = Some (k, c) -> same_end e k ->
    reach H q p -> nth_error H p = Some (k', c') -> same_end e k' -> p = q.
Lemma popk_with : forall e n k l, popk e n k -> popk e n (with_children k l).
Proof. intros e n k l. destruct k; destruct l as [|l0 [|l1 [|]]]; cbn; auto. Qed.
Lemma end_with : forall e k l, same_end e (with_children k l) -> same_end e k.
Proof. intros e k l. destruct k; destruct l as [|l0 [|l1 [|]]]; cbn; auto. Qed.
Lemma ctx_level : forall n H roots o v H0 k0 h ws e c, Ctx n H roots [] o v H0 k0 h ws -> In c (children k0) -> one_level e H o -> one_level e H0 c.
Proof.
  intros n H roots o v H0 k0 h ws e c X I O q k h1 p k' h' Rq Eq Sq Rp Ep Sp.
  destruct (ctx_below X I Rq) as (_ & Eq' & Lq). destruct (ctx_below X I (reach_trans Rq Rp)) as (_ & Ep' & Lp).
  rewrite Eq' in Eq. rewrite Ep' in Ep.
  assert (NN : forall j kk hh, nth_error H0 j = Some (kk, hh) -> same_end e kk -> j <> 0).
  { intros j kk hh Ej Sj ->. destruct (pre_null (cx_pre0 X)) as (c0 & E0 & _). rewrite E0 in Ej. inversion Ej; subst. contradiction. }
  assert (q <> 0) by (eapply NN; [rewrite Eq'; eauto|auto]).
  eapply (O q); eauto.
  assert (Ag : forall j, reach H0 q j -> nth_error H0 j = nth_error H j).
  { intros j Rj. apply (ctx_below X I (reach_trans Rq Rj)). }
  eapply reach_agree1; [|exact Rp]. intros j Rj. symmetry. apply Ag. auto.
Qed.
(** [merge] while the popped string is held. *)
Lemma single_mono : forall H roots a o, single H (a :: roots) o -> single H roots o.
Proof.
  intros H roots a o [R M O C].
  assert (LL : forall p, live H roots p -> live H (a :: roots) p). { intros p (r & I & Rp). exists r. split; auto. right; auto. }
  constructor; eauto.
  - cbn [count_occ] in R. destruct (Nat.eq_dec a o); lia.
  - intros I p Lp. apply M; auto. right; auto.
Qed.
Lemma chg_mono : forall H roots a o H', chg H (a :: roots) o H' -> chg H roots o H'.
Proof.
  intros H roots a o H' C q L. destruct (C q L) as [|[N P]]; auto. right. split; auto.
  constructor; [eapply single_mono; apply P|apply P|]. intros r I. apply (pv_av P). right; auto.
Qed.
Lemma single_more : forall H roots a o, single H roots o -> ~ reach H a o -> single H (a :: roots) o.
Proof.
  intros H roots a o [R M O C] N.
  assert (a <> o) by (intros ->; apply N; apply r_refl).
  assert (LL : forall p, live H (a :: roots) p -> edge H p o -> live H roots p).
  { intros p (r & [<-|I] & Rp) E; [exfalso; apply N; eapply reach_snoc; eauto|]. exists r. auto. }
  constructor.
  - cbn [count_occ]. destruct (Nat.eq_dec a o); [congruence|auto].
  - intros [<-|I] p Lp E; [congruence|]. eapply M; eauto.
  - intros p p' Lp Lp' E E'. eapply O; eauto.
  - intros p k h Lp E. destruct (in_dec Nat.eq_dec o (children k)) as [I|I].
    + apply (C p k h); auto. apply LL; auto. exists k, h. auto.
    + apply (count_occ_not_In Nat.eq_dec) in I. lia.
Qed.
Lemma ctx_merge2 : forall n H roots o v H0 k0 h ws c H1 outs vals a va k' v', Ctx n H roots [] o v H0 k0 h ws -> k0 <> KNull ->
  In c (children k0) -> Post H0 roots [] c H1 outs vals -> In a outs ->
  Post H0 roots [] o (put H1 o k') [o; a] [v'; va] -> (exists e, isHE e k') ->
  Runs (fun f => H2 <- merge uq gold f (put H1 o k') (a :: roots) o ;; Ok (H2, o, a))
    (fun r => Post H roots [] o (fst (fst r)) [snd (fst r); snd r] [v'; va]).
Proof.
  intros n H roots o v H0 k0 h ws c H1 outs vals a va k' v' X NN Ic Pc Ia Po [e Y].
  assert (L : length H0 <= length (put H1 o k')) by apply Po. rewrite put_len in L. assert (L' := ctx_lt X).
  assert (Ra : ~ reach H1 a o).
  { eapply child_out; [apply (cx_pre0 X)|apply (cx_sg0 X)|apply Argok_nil|apply (ctx_edge X Ic)|apply (ctx_nn X NN)|].
    assert (Q := po_new Pc). rewrite Forall_forall in Q. auto. }
  set (Hm := put H1 o k') in *.
  assert (Rm : ~ reach Hm a o).
  { intros R. apply Ra. eapply reach_agree2; [|exact R]. intros q Rq. unfold Hm. apply put_other. intros ->. auto. }
  assert (Pm := post_pre (cx_pre0 X) Po). assert (Sm := post_single (cx_pre0 X) (cx_sg0 X) Po).
  assert (Sm' := single_more Sm Rm).
  assert (Va : Vok Hm a va). { assert (Q := po_val Po). inversion Q as [|? ? ? ? _ Q2]; inversion Q2; auto. }
  assert (Na : newr H0 [] o Hm a). { assert (Q := po_new Po). inversion Q as [|? ? _ Q2]; inversion Q2; auto. }
  assert (No : newr H0 [] o Hm o). { assert (Q := po_new Po). inversion Q; auto. }
  assert (Pm' : Pre Hm (a :: roots) o v').
  { constructor; try apply Pm.
    - destruct (pre_live Pm) as (r & I & R). exists r. split; auto. right; auto.
    - intros q (r & [<-|I] & R); [eapply Vok_reach_lt; eauto|]. apply (pre_closed Pm). exists r; auto. }
  destruct (pre_val Pm') as [m Vm].
  eapply Runs_bind; [apply (merge_ok uq_ok gold_ok Vm Pm' Sm' (@put_at H1 o k' ltac:(lia)) Y)|]. intros H2 (P2 & _ & _). apply Runs_ret. cbn [fst snd].
  apply (ctx_up X).
  assert (Ag : forall q, reach Hm a q -> nth_error H2 q = nth_error Hm q).
  { intros q R. eapply chg_rav; [apply (po_chg P2)|apply (pre_closed Pm')|left; reflexivity|].
    destruct (reach_split o R) as [|[Z1 _]]; auto. contradiction. }
  constructor.
  - assert (Q := po_len P2). assert (Q2 := po_len Po). lia.
  - eapply (chg_trans (po_chg Po) (pre_closed (cx_pre0 X)) (po_len Po) (pre_val Pm) No); [intros ? []|apply (cx_sg0 X)|]. eapply chg_mono. apply P2.
  - assert (Q := po_val P2). inversion Q; subst. constructor; auto. constructor; auto. eapply Vok_agree; eauto.
  - assert (Q := po_new P2). inversion Q; subst. constructor.
    + eapply newr_trans; [apply (po_len Po)|exact No|]. assumption.
    + constructor; [|constructor]. intros q Lq Nq R. apply Na; auto. eapply reach_agree2; [exact Ag|exact R].
Qed.
Lemma post_swap : forall H roots args o H' a b va vb, Post H roots args o H' [a; b] [va; vb] -> Post H roots args o H' [b; a] [vb; va].
Proof.
  intros H roots args o H' a b va vb [L C V N]. inversion V as [|? ? ? ? V1 V2]; inversion V2; inversion N as [|? ? N1 N2]; inversion N2; subst.
  constructor; auto.
Qed.
Lemma post_drop : forall H roots args o H' a b va vb, Post H roots args o H' [a; b] [va; vb] -> Post H roots args o H' [b] [vb].
Proof.
  intros H roots args o H' a b va vb [L C V N]. inversion V as [|? ? ? ? V1 V2]; inversion N as [|? ? N1 N2]; subst. constructor; auto.
Qed.
Lemma post_leaf : forall H roots o H1 v k w, Post H roots [] o H1 [o] [v] -> children k = [] -> shape k [] w ->
  Post H roots [] o (H1 ++ [(k, None)]) [o; length H1] [v; w].
Proof.
  intros H roots o H1 v k w Po K Sh. apply post_swap.
  eapply alloc_post with (ws := []); try apply Po; rewrite ?K; auto.
Qed.
Lemma post_more : forall H roots o H1 v a w, Post H roots [] o H1 [o] [v] -> Vok H1 a w -> newr H [] o H1 a -> Post H roots [] o H1 [o; a] [v; w].
Proof.
  intros H roots o H1 v a w [L C V N] Va Na. inversion V; inversion N; subst. constructor; auto.
Qed.
Lemma Runs_pair : forall A B (g : nat -> res A) (b : B) (Q : A * B -> Prop), Runs (fun f => x <- g f ;; Ok (x, b)) Q -> Runs g (fun x => Q (x, b)).
Proof.
  intros A B g b Q (f0 & r & X & Y). exists f0, (fst r).
  assert (Z1 : forall f, f0 <= f -> g f = Ok (fst r) /\ r = (fst r, b)).
  { intros f L. specialize (X f L). destruct (g f); cbn [rb] in X; try discriminate. inversion X; subst. auto. }
  split; [intros f L; apply Z1; auto|]. destruct (Z1 f0 (le_n _)) as [_ <-]. auto.
Qed.
Definition same_part (H : heap) (o n q : nat) (c : Z) : heap * nat :=
  if Nat.eqb q n then (H, o) else if Nat.eqb q 0 then (H, 0) else mk H (KSame q c).
Lemma same_part_fresh : forall H o n q c, Vok H o (repeat c n) -> nullok H -> Fresh H [] o (fst (same_part H o n q c)) [snd (same_part H o n q c)] [repeat c q].
Proof.
  clear uq_ok gold_ok. intros H o n q c V NZ. unfold same_part. destruct (Nat.eqb_spec q n) as [->|]; [|destruct (Nat.eqb_spec q 0) as [->|]]; cbn [mk fst snd].
  - apply fresh_same. auto.
  - apply fresh_null. auto.
  - apply fresh_leaf; reflexivity.
Qed.
Lemma do_pop_run : forall n H roots e o v m, Val n H o v -> Pre H roots o v -> resolved H o -> allk (popk e m) H o -> one_level e H o \/ m = 0 -> m <= length v ->
  Runs (fun f => do_pop uq gold f H roots e o m) (fun r => Post H roots [] o (fst (fst r)) [snd (fst r); snd r] [cut e v m; taken e v m]).
Proof.
  induction n as [|n IH]; intros H roots e o v m V P Rs A O L; [contradiction|].
  destruct (Val_cell V) as (k & c & E). apply Runs_S. cbn [do_pop]. rewrite (kd_eq E). cbn [rb].
  assert (Rk := Rs _ _ E). assert (Ak := A _ _ _ (r_refl H o) E).
  assert (B0 : Runs (fun f => pop_base f H e o m) (fun r => Post H roots [] o (fst (fst r)) [snd (fst r); snd r] [cut e v m; taken e v m])).
  { eapply Runs_mono; [apply (pop_base_run (m:=m) e V); auto; apply P|]. intros r Fr. apply fresh_post. auto. }
  destruct (match k with KNull | KSame _ _ => true | _ => false end) eqn:K.
  { destruct (Val1 V E) as (ws & F & Sh & _). destruct k; try discriminate; shp; subst.
    - apply Runs_ret. cbn [fst snd]. cbn [length] in L. replace m with 0 by lia. rewrite cut_0, taken_0.
      apply id_post; constructor; auto; try apply P; try apply newr_self. constructor; auto. apply P. constructor; auto. apply newr_self.
    - llen. rewrite sub_chk_ok by lia. cbn [rb].
      assert (EV : cut e (repeat c0 n0) m = repeat c0 (n0 - m)) by (unfold cut; destruct e; lsolve).
      assert (ET : taken e (repeat c0 n0) m = repeat c0 m) by (unfold taken; destruct e; lsolve).
      rewrite EV, ET. destruct (uq H roots o) eqn:U.
      + assert (Sg1 := uq_ok U).
        assert (O0 : o <> 0). { eapply not_null; [apply P|exact E|discriminate]. }
        assert (P1 : Post H roots [] o (put H o (KSame (n0 - m) c0)) [o] [repeat c0 (n0 - m)]).
        { apply (step_here [] (k':=KSame (n0 - m) c0) (ws:=[]) (ws':=[]) P Sg1 O0 E); cbn [children shape]; auto. }
        destruct (Nat.eqb_spec m (n0 - m)) as [Em|]; [|destruct (Nat.eqb_spec m 0) as [->|]]; apply Runs_ret; cbn [mk fst snd].
        * rewrite <- Em in *. assert (Q := po_val P1). assert (Q2 := po_new P1). inversion Q; inversion Q2; subst. apply post_more; auto.
        * cbn [repeat]. assert (NK := null_keep (po_chg P1) (pre_null P)). apply post_more; auto; [apply null_val; auto|eapply newr_null; exact NK].
        * apply post_leaf; auto. reflexivity.
      + eapply Runs_ext with (g := fun _ => let '(H1, a) := same_part H o n0 m c0 in let '(H2, b) := same_part H1 o n0 (n0 - m) c0 in Ok (H2, b, a)); [reflexivity|].
        assert (VV := pre_val P). assert (NZ := pre_null P).
        assert (F1 := same_part_fresh m VV NZ). destruct (same_part H o n0 m c0) as [H1 a]. cbn [fst snd] in F1.
        destruct (fr_ext F1) as (l1 & El).
        assert (V1 : Vok H1 o (repeat c0 n0)) by (rewrite El; apply Vok_ext; auto).
        assert (N1 : nullok H1). { destruct NZ as (h & E0 & Oh). exists h. split; auto. rewrite El, ext_old; auto. apply nth_error_Some. congruence. }
        assert (F2 := same_part_fresh (n0 - m) V1 N1). destruct (same_part H1 o n0 (n0 - m) c0) as [H2 b]. cbn [fst snd] in F2.
        apply Runs_ret. cbn [fst snd]. apply post_swap, fresh_post. eapply fresh_two; eauto.
        intros q Lq R. rewrite El in R. eapply reach_ext; eauto. }
  destruct (uq H roots o) eqn:U.
  2:{ destruct k; try discriminate; auto; contradiction. }
  assert (Sg := uq_ok U).
  eapply Runs_ext with (g := fun f => '(H0, k0) <- settle f H o;; _); [intros f; destruct k; try discriminate; try contradiction; reflexivity|].
  eapply Runs_bind; [apply (ctx_enter V P Sg (@Argok_nil H roots o) E)|]. intros [H0 k0] (SK & ws & X). cbn [fst snd] in *.
  assert (Ak0 : popk e m k0) by (destruct SK as (l & _ & ->); apply popk_with; auto).
  assert (B : Runs (fun f => pop_base f H0 e o m) (fun r => Post H roots [] o (fst (fst r)) [snd (fst r); snd r] [cut e v m; taken e v m])).
  { eapply Runs_mono; [apply (pop_base_run (m:=m) e (cx_val X)); auto; apply (cx_pre0 X)|]. intros r Fr. apply (ctx_up X), fresh_post. auto. }
  assert (C : forall c w, In c (children k0) -> Val n H0 c w -> m <= length w ->
     Runs (fun f => do_pop uq gold f H0 roots e c m) (fun r => Post H0 roots [] c (fst (fst r)) [snd (fst r); snd r] [cut e w m; taken e w m])).
  { intros c' w I Vc Lj. destruct (ctx_child X I Vc) as (Pc & Rc & Ac). apply IH; auto.
    - eapply ctx_allk; eauto. exact Logic.I.
    - destruct O as [O|O]; auto. left. eapply ctx_level; eauto. }
  clear IH.
  assert (W : forall to k', children k0 = [to] -> same_end e k0 -> Runs (fun _ => will_merge uq (put H0 o k') roots to e) (fun w => andb w (Nat.ltb 0 m) = false)).
  { intros to k' Ek Se. unfold will_merge.
    assert (It : In to (children k0)) by (rewrite Ek; left; auto).
    destruct (ctx_below X It (r_refl H0 to)) as (Nt & Et & Rt).
    assert (Vt : exists kt ht, nth_error H0 to = Some (kt, ht)).
    { assert (F := cx_F X). rewrite Ek in F. inversion F as [|? ? ? ? F1 _]; subst. destruct n; [contradiction|]. destruct (Val_cell F1) as (kt & ht & Ekt). eauto. }
    destruct Vt as (kt & ht & Ekt). rewrite (@kd_eq (put H0 o k') to kt ht) by (rewrite put_other; auto). cbn [rb]. apply Runs_ret.
    destruct O as [O|O]; [|subst m; apply andb_false_r].
    destruct (match kt with KHead _ _ _ _ => negb e | KEnd _ _ _ _ => e | _ => false end) eqn:Bk.
    - exfalso. apply Nt. apply (O o k c to kt ht); auto; try apply r_refl.
      + destruct SK as (l & _ & Ek0). rewrite Ek0 in Se. eapply end_with; eauto.
      + apply Rt. intros ->. destruct (pre_null (cx_pre0 X)) as (c0 & E0 & _). rewrite E0 in Ekt. inversion Ekt; subst kt. discriminate.
      + rewrite <- Et. auto.
      + destruct kt, e; try discriminate Bk; reflexivity.
    - destruct kt; auto; cbn [negb] in Bk; rewrite Bk; auto. }
  assert (M2 : forall c H1 to' a w wa k' v', k0 <> KNull -> In c (children k0) -> Post H0 roots [] c H1 [to'; a] [w; wa] ->
     Post H0 roots [] o (put H1 o k') [o; a] [v'; wa] -> (exists e, isHE e k') ->
     Runs (fun f => H2 <- merge uq gold f (put H1 o k') (a :: roots) o ;; Ok (H2, o, a)) (fun r => Post H roots [] o (fst (fst r)) [snd (fst r); snd r] [v'; wa])).
  { intros c' H1 to' a w wa k' v' NN Ic Pc Po Y. eapply ctx_merge2; eauto. right; left; auto. }
  assert (D := ctx_in X). assert (UP := ctx_up X). assert (MG := ctx_merge uq_ok gold_ok X). assert (F := cx_F X). assert (Sh := cx_sh X).
  assert (HR := ctx_here X). assert (FW := ctx_fwd X).
  assert (NB : forall c w, In c (children k0) -> Vok H0 c w -> Post H0 roots [] c H0 [c] [w]).
  { intros c' w _ Vc. apply id_post; constructor; auto. apply newr_self. }
  assert (VK := ctx_FV X).
  assert (SZ : forall c w, Val n H0 c w -> Runs (fun f => size f H0 c) (fun r => r = length w)).
  { intros c' w Vc. eapply size_run. exists n; eauto. }
  clear X O A.
  destruct k0; cbn [children same_end popk] in *; shp; subst; llen; auto.
  - (* substring *)
    eapply Runs_bind; [apply SZ; eassumption|]. intros t ->.
    match goal with |- context[if (if e then ?x else ?y) then _ else _] => destruct (if e then x else y) eqn:Be; auto end.
    eapply Runs_bind; [apply C; [left; reflexivity|eassumption|destruct e; lia]|]. intros [[G1 to'] a] Pc. cbn [fst snd] in Pc.
    rewrite sub_chk_ok by lia. apply Runs_ret. apply UP. cbn [fst snd].
    replace (taken e (firstn n0 (skipn b y)) m) with (taken e y m) by (unfold taken; destruct e; llen; lsolve).
    destruct (Nat.eqb_spec (n0 - m) 0).
    + replace (cut e (firstn n0 (skipn b y)) m) with (@nil Z) by (unfold cut; destruct e; lsolve).
      eapply (FW [] to []); [discriminate|reflexivity|left; auto|]. eapply post_drop; exact Pc.
    + eapply (D [] to [] [] _ []); [discriminate|reflexivity|reflexivity|reflexivity|exact Pc|reflexivity|cbn [List.app shape]].
      unfold cut. destruct e; llen; (split; [lia|lsolve]).
  - destruct e.
    + eapply Runs_bind; [apply C; [left; reflexivity|eassumption|auto]|]. intros [[G1 to'] a] Pc. cbn [fst snd] in Pc. 
      rewrite sub_chk_ok by auto. cbn [rb].
      replace (taken true (d ++ y) m) with (taken true y m) by (specialize (Ak0 eq_refl); unfold taken; llen; lsolve).
      eapply M2; [discriminate|left; reflexivity|exact Pc| |exists false; reflexivity].
      eapply (D [] to [] [] _ []); [discriminate|reflexivity|reflexivity|reflexivity|exact Pc|reflexivity|cbn [List.app shape]].
      specialize (Ak0 eq_refl). unfold cut. llen. split; [lia|split; [lia|lsolve]].
    + destruct (Nat.leb_spec m (length d)); auto.
      eapply Runs_bind; [apply W; reflexivity|]. intros w Ew. cbn beta.
      eapply Runs_bind; [eapply Runs_pair, MG; [apply HR; [discriminate|reflexivity|]|exists false; reflexivity]|].
      { cbn [shape]. llen. split; [reflexivity|split; [lia|reflexivity]]. }
      intros G2 Po. cbn [fst snd] in Po. rewrite Ew. cbn [mk]. apply Runs_ret. cbn [fst snd].
      replace (cut false (d ++ y) m) with (skipn m d ++ y) by (unfold cut; lsolve).
      apply post_leaf; auto. cbn [shape]. unfold taken. lsolve.
  - destruct e.
    + destruct (Nat.leb_spec m (length d)); auto.
      eapply Runs_bind; [apply W; reflexivity|]. intros w Ew. cbn beta.
      eapply Runs_bind; [eapply Runs_pair, MG; [apply HR; [discriminate|reflexivity|]|exists true; reflexivity]|].
      { cbn [shape]. llen. split; [reflexivity|split; [lia|reflexivity]]. }
      intros G2 Po. cbn [fst snd] in Po. rewrite Ew. cbn [mk]. apply Runs_ret. cbn [fst snd].
      replace (cut true (y ++ d) m) with (y ++ firstn (length d - m) d) by (unfold cut; llen; lsolve).
      apply post_leaf; auto. cbn [shape]. unfold taken. llen. lsolve.
    + match goal with |- context[Nat.ltb m ?a] => destruct (Nat.ltb_spec m a); auto end.
      eapply Runs_bind; [apply C; [left; reflexivity|eassumption|lia]|]. intros [[G1 to'] a] Pc. cbn [fst snd] in Pc.
      replace (taken false (y ++ d) m) with (taken false y m) by (unfold taken; llen; lsolve).
      eapply M2; [discriminate|left; reflexivity|exact Pc| |exists true; reflexivity].
      eapply (D [] to [] [] _ []); [discriminate|reflexivity|reflexivity|reflexivity|exact Pc|reflexivity|cbn [List.app shape]].
      unfold cut. llen. split; [lia|split; [lia|lsolve]].
  - match goal with V1 : Vok H0 x ?w, V2 : Vok H0 y ?u |- _ => rename w into wx; rename u into wy; rename V1 into VX; rename V2 into VY end.
    destruct e.
    + specialize (Ak0 eq_refl). destruct (Nat.leb_spec m (length wy)); auto.
      destruct (Nat.eqb_spec (length wx) m) as [Em|Em].
      * cbn [rb]. apply Runs_ret. apply UP. cbn [fst snd]. assert (Ey : length wy = m) by lia.
        replace (Nat.eqb (length wy - m) 0) with true by lia.
        replace (cut true (wx ++ wy) m) with wx by (unfold cut; llen; lsolve).
        replace (taken true (wx ++ wy) m) with wy by (unfold taken; llen; lsolve).
        eapply (FW [x] y []); [discriminate|reflexivity|right; split; [left; reflexivity|exact VX]|apply NB; [right; left; reflexivity|exact VY]].
      * eapply Runs_bind; [apply C; [right; left; reflexivity|eassumption|lia]|]. intros [[G1 y'] a] Pc. cbn [fst snd] in Pc. apply Runs_ret. apply UP. cbn [fst snd].
        replace (taken true (wx ++ wy) m) with (taken true wy m) by (unfold taken; llen; lsolve).
        destruct (Nat.eqb_spec (length wy - m) 0).
        -- replace (cut true (wx ++ wy) m) with wx by (unfold cut; llen; lsolve).
           eapply (FW [x] y []); [discriminate|reflexivity|right; split; [left; reflexivity|exact VX]|]. eapply post_drop; exact Pc.
        -- eapply (D [x] y [] [_] _ []); [discriminate|reflexivity|reflexivity|reflexivity|exact Pc|reflexivity|cbn [List.app shape]].
           unfold cut. llen. split; [reflexivity|split; [lia|lsolve]].
    + destruct (Nat.leb_spec m (length wx)); auto.
      destruct (Nat.eqb_spec (length wx) m) as [Em|Em].
      * cbn [rb]. apply Runs_ret. apply UP. cbn [fst snd].
        replace (Nat.eqb (length wx - m) 0) with true by lia.
        replace (cut false (wx ++ wy) m) with wy by (unfold cut; llen; lsolve).
        replace (taken false (wx ++ wy) m) with wx by (unfold taken; llen; lsolve).
        eapply (FW [] x [y]); [discriminate|reflexivity|right; split; [left; reflexivity|exact VY]|apply NB; [left; reflexivity|exact VX]].
      * eapply Runs_bind; [apply C; [left; reflexivity|eassumption|lia]|]. intros [[G1 y'] a] Pc. cbn [fst snd] in Pc. apply Runs_ret. apply UP. cbn [fst snd].
        replace (taken false (wx ++ wy) m) with (taken false wx m) by (unfold taken; llen; lsolve).
        replace (Nat.eqb (length wx - m) 0) with false by lia.
        eapply (D [] x [y] [] _ [_]); [discriminate|reflexivity|reflexivity|reflexivity|exact Pc|reflexivity|cbn [List.app shape]].
        unfold cut. llen. split; [lia|split; [lia|lsolve]].
  - destruct e.
    + rewrite sub_chk_ok by lia. cbn [rb]. match goal with |- context[Nat.leb (p + n0) ?a] => destruct (Nat.leb_spec (p + n0) a); auto end.
      eapply Runs_bind; [apply C; [left; reflexivity|eassumption|lia]|]. intros [[G1 to'] a] Pc. cbn [fst snd] in Pc. apply Runs_ret. apply UP. cbn [fst snd].
      replace (taken true (firstn p y ++ skipn (p + n0) y) m) with (taken true y m) by (unfold taken; llen; lsolve).
      match goal with |- context[if ?b then _ else _] => destruct b eqn:Bt end.
      * replace (cut true (firstn p y ++ skipn (p + n0) y) m) with (@nil Z) by (unfold cut; llen; lsolve).
        eapply (FW [] to []); [discriminate|reflexivity|left; auto|]. eapply post_drop; exact Pc.
      * eapply (D [] to [] [] _ []); [discriminate|reflexivity|reflexivity|reflexivity|exact Pc|reflexivity|cbn [List.app shape]].
        unfold cut. llen. split; [lia|split; [lia|lsolve]].
    + destruct (Nat.ltb_spec m p); auto.
      eapply Runs_bind; [apply C; [left; reflexivity|eassumption|lia]|]. intros [[G1 to'] a] Pc. cbn [fst snd] in Pc. rewrite sub_chk_ok by lia. apply Runs_ret. apply UP. cbn [fst snd].
      replace (taken false (firstn p y ++ skipn (p + n0) y) m) with (taken false y m) by (unfold taken; llen; lsolve).
      match goal with |- context[if ?b then _ else _] => replace b with false by lia end.
      eapply (D [] to [] [] _ []); [discriminate|reflexivity|reflexivity|reflexivity|exact Pc|reflexivity|cbn [List.app shape]].
      unfold cut. llen. split; [lia|split; [lia|lsolve]].
  - match goal with V1 : Vok H0 to ?w, V2 : Vok H0 x ?u |- _ => rename w into wt; rename u into wx; rename V1 into VX; rename V2 into VY end.
    destruct e.
    + destruct (Ak0 eq_refl) as [A1 A2]. rewrite sub_chk_ok by lia. cbn [rb]. match goal with |- context[Nat.leb (p + ?z) ?a] => destruct (Nat.leb_spec (p + z) a) end.
      * eapply Runs_bind; [apply C; [left; reflexivity|eassumption|lia]|]. intros [[G1 to'] a] Pc. cbn [fst snd] in Pc. apply Runs_ret. apply UP. cbn [fst snd].
        replace (taken true (firstn p wt ++ wx ++ skipn p wt) m) with (taken true wt m) by (unfold taken; llen; lsolve).
        eapply (D [] to [x] [] _ [_]); [discriminate|reflexivity|reflexivity|reflexivity|exact Pc|reflexivity|cbn [List.app shape]].
        unfold cut. llen. split; [lia|split; [lia|split; [lia|lsolve]]].
      * match goal with |- context[Nat.eqb p ?a] => replace (Nat.eqb p a) with false by lia end. cbn [andb]. auto.
    + destruct (Nat.ltb_spec m p).
      * eapply Runs_bind; [apply C; [left; reflexivity|eassumption|lia]|]. intros [[G1 to'] a] Pc. cbn [fst snd] in Pc. rewrite sub_chk_ok by lia. apply Runs_ret. apply UP. cbn [fst snd].
        replace (taken false (firstn p wt ++ wx ++ skipn p wt) m) with (taken false wt m) by (unfold taken; llen; lsolve).
        eapply (D [] to [x] [] _ [_]); [discriminate|reflexivity|reflexivity|reflexivity|exact Pc|reflexivity|cbn [List.app shape]].
        unfold cut. llen. split; [lia|split; [lia|split; [lia|lsolve]]].
      * match goal with |- context[andb ?a ?b] => destruct (andb a b) eqn:Be; auto end. assert (p = 0) by lia. subst p.
        eapply Runs_bind; [apply C; [right; left; reflexivity|eassumption|lia]|]. intros [[G1 to'] a] Pc. cbn [fst snd] in Pc. apply Runs_ret. apply UP. cbn [fst snd].
        replace (taken false (firstn 0 wt ++ wx ++ skipn 0 wt) m) with (taken false wx m) by (unfold taken; llen; lsolve).
        eapply (D [to] x [] [_] _ []); [discriminate|reflexivity|reflexivity|reflexivity|exact Pc|reflexivity|cbn [List.app shape]].
        unfold cut. llen. split; [lia|split; [lia|split; [lia|lsolve]]].
Qed.
End Cut.
