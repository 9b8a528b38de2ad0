(** Comparing string nodes with merging: the result is that of the contents, and
    no content changes. *)
From Verif Require Import Base Ref_Model Ref_Proofs List_Model Str_Model Str_Cmp_Model Str_Heap Str_Own Str_Read Str_Ctx Str_Api_Model Str_Obs Str_Cmp.
Local Open Scope res_scope.
Local Open Scope nat_scope.

(** The nodes for which the comparison is right; [q = true] for equality,
    [q = false] for the order.  No part of a node is empty. *)
Definition cmpk (q : bool) (k : kind) : Prop :=
  match k with
  | KErase _ _ _ _ => False
  | KIns _ _ tn _ n => q = true /\ 0 < tn /\ 0 < n
  | KHead _ _ d _ | KEnd _ _ d _ => d <> []
  | KSum _ _ xn yn => 0 < xn /\ 0 < yn
  | KSame n _ => 0 < n
  | _ => True
  end.
(** No cycle is reached from [x] or [y]. *)
Definition acyclic (H : heap) (x y : nat) : Prop :=
  forall p c, reach H x p \/ reach H y p -> edge H p c -> ~ reach H c p.
(** The memory costs never favour replacing a node by one that contains it. *)
Definition Acyc (dear : heap -> nat -> nat -> bool) : Prop :=
  forall H x y, x <> y -> acyclic H x y -> (dear H x y = true -> ~ reach H y x) /\ (dear H x y = false -> ~ reach H x y).
Definition nosub (k : kind) : Prop := match k with KSub _ _ _ => False | _ => True end.

Lemma fwds_res : forall H x z p, fwds H x z -> fwds H x p -> resolved H p -> fwds H z p.
Proof.
  intros H x z p F. induction F as [o|o to c z N F IH]; intros G R; auto. apply IH; auto.
  inversion G as [o'|o' to' c' p' N' G']; subst.
  - exfalso. exact (R _ _ N).
  - rewrite N in N'. injection N' as <- <-. auto.
Qed.
Lemma fwds_self : forall H x p, fwds H x p -> resolved H x -> p = x.
Proof. intros H x p F R. inversion F; subst; auto. exfalso. exact (R _ _ H0). Qed.
Lemma fwds_trans : forall H a b c, fwds H a b -> fwds H b c -> fwds H a c.
Proof. intros H a b c F G. induction F; auto. econstructor; eauto. Qed.
Lemma app_inv_len : forall (a b c d : list Z), length a = length b -> a ++ c = b ++ d -> a = b /\ c = d.
Proof.
  induction a as [|x a IH]; intros [|y b] c d L E; try discriminate; auto.
  injection E as -> E. injection L as L. destruct (IH b c d L E) as [-> ->]. auto.
Qed.
Definition joined (H : heap) (x y : nat) : Prop := exists z, fwds H x z /\ fwds H y z.

Section Merge.
Variable hv : list Z -> Z.
Notation Val := (Val hv).
Notation Vok := (Vok hv).
Notation nullok := (nullok hv).
Notation Keep := (Keep hv).
Variable dear : heap -> nat -> nat -> bool.
Variable q : bool.

Lemma derefv_run : forall H o v, Vok H o v ->
  Runs (fun f => deref f H o) (fun o1 => fwds H o o1 /\ resolved H o1 /\ Vok H o1 v).
Proof.
  intros H o v [n V]. eapply Runs_mono; [apply (Runs_eqn (deref_run V))|]. intros o1 ((R & V1 & Rs) & f & E). split; [|split; auto]; [|exists n; auto].
  apply (deref_fwds E).
Qed.
Lemma join_deref : forall H x y x1 y1, joined H x y -> fwds H x x1 -> fwds H y y1 -> resolved H x1 -> resolved H y1 -> x1 = y1.
Proof.
  intros H x y x1 y1 (z & Fx & Fy) Gx Gy Rx Ry. assert (A := fwds_res Fx Gx Rx). assert (B := fwds_res Fy Gy Ry).
  assert (C := fwds_res A B Ry). symmetry. eapply fwds_self; eauto.
Qed.
Lemma opt_ptr_join : forall H x y v w, joined H x y -> Vok H x v -> Vok H y w -> Runs (fun f => opt_ptr dear f H x y) (fun H' => H' = H).
Proof.
  intros H x y v w J Vx Vy. unfold opt_ptr.
  eapply Runs_bind; [apply (derefv_run Vx)|]. intros x1 (Fx & Rx & _).
  eapply Runs_bind; [apply (derefv_run Vy)|]. intros y1 (Fy & Ry & _).
  rewrite (join_deref J Fx Fy Rx Ry), Nat.eqb_refl. apply runs_ret. auto.
Qed.

Record Good (H : heap) (R : nat -> Prop) : Prop := {
  gd_null : nullok H;
  gd_val : forall p, R p -> exists v, Vok H p v;
  gd_edge : forall p c, R p -> edge H p c -> R c;
  gd_kind : forall p k c, R p -> nth_error H p = Some (k, c) -> cmpk q k;
  gd_sub : q = false -> forall p1 p2 t1 t2 b n c1 c2 w1 w2, R p1 -> R p2 -> nth_error H p1 = Some (KSub t1 b n, c1) -> nth_error H p2 = Some (KSub t2 b n, c2) ->
    Vok H t1 w1 -> Vok H t2 w2 -> (length w1 = b + n <-> length w2 = b + n);
  gd_dir : (forall p k c, R p -> nth_error H p = Some (k, c) -> nosub k) \/ Acyc dear }.
Record Mrg (R : nat -> Prop) (n : nat) (H H' : heap) : Prop := {
  mg_keep : Keep H H';
  mg_len : length H' = length H;
  mg_cell : forall p, nth_error H' p = nth_error H p \/
    (R p /\ resolved H p /\ (exists v, Vok H p v /\ length v < n) /\ exists t c, R t /\ nth_error H' p = Some (KFwd t, c)) }.
Lemma mrg_refl : forall R n H, Mrg R n H H.
Proof. intros. constructor; auto. apply keep_refl. Qed.
Lemma mrg_mono : forall R n m H H', n <= m -> Mrg R n H H' -> Mrg R m H H'.
Proof.
  intros R n m H H' L [K E C]. constructor; auto. intros p. destruct (C p) as [X|(A & B & (v & V & Lv) & D)]; auto. right.
  repeat split; auto. exists v. split; auto. lia.
Qed.
Lemma mrg_trans : forall R n H H1 H2, Mrg R n H H1 -> Mrg R n H1 H2 -> (forall p, R p -> exists v, Vok H p v) -> Mrg R n H H2.
Proof.
  intros R n H H1 H2 [K1 L1 C1] [K2 L2 C2] GV. constructor; [eapply keep_trans; eauto|lia|].
  intros p. destruct (C2 p) as [X|(A & B & (v & V & Lv) & t & c & Rt & N)].
  - rewrite X. apply C1.
  - right. split; auto. destruct (C1 p) as [Y|(_ & _ & _ & t1 & c1 & _ & N1)].
    + split; [|split; [|exists t, c; auto]].
      * intros k h E. apply (B k h). rewrite Y. auto.
      * destruct (GV p A) as (v' & V'). exists v'. split; auto. replace v' with v; auto. eapply Vok_det; [exact V|]. apply K1. auto.
    + exfalso. exact (B _ _ N1).
Qed.
Lemma good_mrg : forall R n H H', Good H R -> Mrg R n H H' -> Good H' R.
Proof.
  intros R n H H' G M. assert (C := mg_cell M). constructor.
  - apply (kp_null (mg_keep M)). apply G.
  - intros p Rp. destruct (gd_val G Rp) as (v & V). exists v. apply (kp_val (mg_keep M)). auto.
  - intros p c Rp (k & h & N & I). destruct (C p) as [E|(_ & _ & _ & t & c' & Rt & E)].
    + rewrite E in N. apply (gd_edge G Rp). exists k, h. auto.
    + rewrite N in E. injection E as -> ->. destruct I as [<-|[]]. auto.
  - intros p k c Rp N. destruct (C p) as [E|(_ & _ & _ & t & c' & Rt & E)].
    + rewrite E in N. exact (gd_kind G Rp N).
    + rewrite N in E. injection E as -> ->. exact Logic.I.
  - intros Q p1 p2 t1 t2 b m c1 c2 w1 w2 R1 R2 N1 N2 V1 V2.
    assert (Old : forall p t c w, R p -> nth_error H' p = Some (KSub t b m, c) -> Vok H' t w -> nth_error H p = Some (KSub t b m, c) /\ Vok H t w).
    { intros p t c w Rp N V. destruct (C p) as [E|(_ & _ & _ & t' & c' & Rt & E)]; [|congruence]. rewrite E in N. split; auto.
      destruct (gd_val G (gd_edge G Rp (ex_intro _ _ (ex_intro _ _ (conj N (or_introl eq_refl)))))) as (w' & V').
      replace w with w'; auto. eapply Vok_det; [apply (kp_val (mg_keep M)); exact V'|exact V]. }
    destruct (Old _ _ _ _ R1 N1 V1) as [A1 B1]. destruct (Old _ _ _ _ R2 N2 V2) as [A2 B2].
    exact (gd_sub G Q R1 R2 A1 A2 B1 B2).
  - destruct (gd_dir G) as [S|S]; auto. left. intros p k c Rp N. destruct (C p) as [E|(_ & _ & _ & t & c' & Rt & E)].
    + rewrite E in N. eapply S; eauto.
    + rewrite N in E. injection E as -> ->. exact Logic.I.
Qed.
Lemma fwds_mrg : forall R n H H' x z, Mrg R n H H' -> fwds H x z -> fwds H' x z.
Proof.
  intros R n H H' x z M F. induction F as [o|o to c z N F IH]; [constructor|]. destruct (mg_cell M o) as [E|(_ & Rs & _)].
  - eapply fw_step; [rewrite E; eauto|auto].
  - exfalso. exact (Rs _ _ N).
Qed.
Lemma join_mrg : forall R n H H' x y, Mrg R n H H' -> joined H x y -> joined H' x y.
Proof. intros R n H H' x y M (z & A & B). exists z. split; eapply fwds_mrg; eauto. Qed.
Lemma good_reach : forall H R x p, Good H R -> R x -> reach H x p -> R p.
Proof. intros H R x p G Rx P. induction P as [o|o c p E P IH]; auto. apply IH. eapply G; eauto. Qed.
Lemma good_blk : forall H R x, Good H R -> R x -> allk blkk H x.
Proof. intros H R x G Rx p k c P N. assert (K := gd_kind G (good_reach G Rx P) N). destruct k; auto; exact Logic.I. Qed.
Lemma good_acyclic : forall H R x y, Good H R -> R x -> R y -> acyclic H x y.
Proof.
  intros H R x y G Rx Ry p c P E. assert (Rp : R p) by (destruct P as [P|P]; [exact (good_reach G Rx P)|exact (good_reach G Ry P)]).
  destruct (gd_val G Rp) as (v & V). eapply acyc_self; eauto.
Qed.
(** Without substrings a node is longer than the nodes it contains. *)
Lemma edge_short : forall H R p c v w k h, Good H R -> (forall p k c, R p -> nth_error H p = Some (k, c) -> nosub k) -> R p ->
  nth_error H p = Some (k, h) -> In c (children k) -> Vok H p v -> Vok H c w ->
  length w <= length v /\ (match k with KFwd _ => True | _ => length w < length v end).
Proof.
  intros H R p c v w k h G NS Rp N I V W. assert (K := gd_kind G Rp N). assert (Ks := NS _ _ _ Rp N).
  destruct (Vok_inv V) as (k' & c' & ws & N' & _ & F & S). rewrite N in N'. injection N' as <- <-.
  destruct k; cbn [children In nosub cmpk] in *; try contradiction; shp; repeat match goal with X : _ \/ _ |- _ => destruct X as [X|X] | X : False |- _ => destruct X end; subst;
    match goal with X : Vok H c ?y |- _ => rewrite (Vok_det W X) in * end; llen;
    repeat match goal with X : ?d <> [] |- _ => assert (0 < length d) by (destruct d; [congruence|cbn; lia]); clear X end; try lia.
Qed.
Lemma reach_short : forall H R p x, Good H R -> (forall p k c, R p -> nth_error H p = Some (k, c) -> nosub k) -> reach H p x -> R p ->
  forall v w, Vok H p v -> Vok H x w -> length w <= length v /\ (resolved H p -> p <> x -> length w < length v).
Proof.
  intros H R p x G NS P. induction P as [o|o c x E P IH]; intros Ro v w V W.
  - rewrite (Vok_det V W). split; [lia|congruence].
  - assert (Rc : R c) by (eapply G; eauto). destruct (gd_val G Rc) as (u & U). destruct (IH Rc _ _ U W) as [A _].
    destruct E as (k & h & N & I). destruct (edge_short G NS Ro N I V U) as [B C]. split; [lia|]. intros Rs _.
    assert (X := Rs _ _ N). destruct k; try contradiction; lia.
Qed.
Lemma dir_ok : forall H R x y v, Good H R -> R x -> R y -> Vok H x v -> Vok H y v -> resolved H x -> resolved H y -> x <> y ->
  if opt_dir dear H x y then x <> 0 /\ ~ reach H y x else y <> 0 /\ ~ reach H x y.
Proof.
  intros H R x y v G Rx Ry Vx Vy Rsx Rsy D. unfold opt_dir.
  destruct (Nat.eqb_spec x 0) as [->|X0]; [split; auto; intros P; apply D; symmetry; eapply null_reach; eauto; apply G|].
  destruct (Nat.eqb_spec y 0) as [->|Y0]; [split; auto; intros P; apply D; eapply null_reach; eauto; apply G|].
  destruct (gd_dir G) as [NS|A].
  - assert (~ reach H y x). { intros P. destruct (reach_short G NS P Ry Vy Vx) as [_ L]. assert (length v < length v) by auto. lia. }
    assert (~ reach H x y). { intros P. destruct (reach_short G NS P Rx Vx Vy) as [_ L]. assert (length v < length v) by auto. lia. }
    destruct (dear H x y); auto.
  - destruct (A H x y D (good_acyclic G Rx Ry)) as [A1 A2]. destruct (dear H x y); auto.
Qed.
Lemma merge_one : forall H R n x y v, Good H R -> R x -> R y -> Vok H x v -> Vok H y v -> length v < n -> resolved H x -> x <> 0 -> ~ reach H y x ->
  Mrg R n H (put_keep H x (KFwd y)) /\ joined (put_keep H x (KFwd y)) x y.
Proof.
  intros H R n x y v G Rx Ry Vx Vy L Rs X0 NR. destruct (Vok_inv Vx) as (k & c & ws & N & C & _).
  assert (Vo : Vok (put_keep H x (KFwd y)) x v).
  { eapply Vok_intro with (ws := [v]); [eapply put_keep_at; eauto|exact C| |reflexivity]. constructor; [|constructor].
    eapply Vok_agree; eauto. intros p P. apply put_keep_other. intros ->. contradiction. }
  split.
  - constructor; [constructor| |].
    + rewrite put_keep_len. lia.
    + intros (c1 & E & O). exists c1. split; auto. rewrite put_keep_other; auto.
    + assert (X : forall m p w, Val m H p w -> Vok (put_keep H x (KFwd y)) p w).
      { induction m as [|m IH]; intros p w Vp; [contradiction|]. destruct (Nat.eq_dec p x) as [->|D].
        - replace w with v; auto. eapply Vok_det; [exact Vx|exists (S m); exact Vp].
        - destruct Vp as (kq & cq & wq & Nq & Cq & Fq & Sq).
          eapply Vok_intro; [rewrite put_keep_other; eauto|exact Cq| |exact Sq].
          clear - IH Fq. induction Fq; constructor; eauto. }
      intros p w [m Vp]. eauto.
    + apply put_keep_len.
    + intros p. destruct (Nat.eq_dec p x) as [->|D].
      * right. split; auto. split; auto. split; [exists v; auto|]. exists y, c. split; auto. eapply put_keep_at; eauto.
      * left. apply put_keep_other. auto.
  - exists y. split; [|constructor]. eapply fw_step; [eapply put_keep_at; eauto|constructor].
Qed.

(** What [be_replace_as] finds when the parts have been merged already. *)
Definition parts_joined (H : heap) (kx ky : kind) : Prop :=
  match kx, ky with
  | KHead t _ d _, KHead u _ e _ | KEnd t _ d _, KEnd u _ e _ => length d = length e -> joined H t u
  | KSum a b an _, KSum a' b' an' _ => an = an' -> joined H a a' /\ joined H b b'
  | KIns t a _ p n, KIns u b _ p' n' => p = p' -> n = n' -> joined H t u /\ joined H a b
  | KErase _ _ _ _, KErase _ _ _ _ => False
  | _, _ => True
  end.
Lemma child_val : forall H R p k h c, Good H R -> R p -> nth_error H p = Some (k, h) -> In c (children k) -> R c /\ exists w, Vok H c w.
Proof. intros H R p k h c G Rp N I. assert (Rc : R c) by (eapply G; eauto; exists k, h; auto). split; auto. apply (gd_val G Rc). Qed.
Lemma be_replace_run : forall H R x y kx ky cx cy, Good H R -> R x -> R y -> nth_error H x = Some (kx, cx) -> nth_error H y = Some (ky, cy) -> parts_joined H kx ky ->
  Runs (fun f => be_replace_as dear f H x y) (fun H' => H' = put_keep H x (KFwd y)).
Proof.
  intros H R x y kx ky cx cy G Rx Ry Nx Ny J. unfold be_replace_as. rewrite (kd_eq Nx), (kd_eq Ny). cbn [rb].
  assert (Cx := fun c => @child_val H R x kx cx c G Rx Nx). assert (Cy := fun c => @child_val H R y ky cy c G Ry Ny).
  apply Runs_bind with (Q := fun H1 => H1 = H); [|intros r ->; apply runs_ret; auto].
  assert (OP : forall t u, In t (children kx) -> In u (children ky) -> joined H t u -> Runs (fun f => opt_ptr dear f H t u) (fun H' => H' = H)).
  { intros t u It Iu Jn. destruct (Cx t It) as (_ & w & Vt). destruct (Cy u Iu) as (_ & w' & Vu). eapply opt_ptr_join; eauto. }
  destruct kx, ky; try (apply runs_ret; reflexivity); cbn [parts_joined children In] in *; try contradiction.
  - destruct (Nat.eqb_spec (length d) (length d0)); [|apply runs_ret; auto]. apply OP; auto.
  - destruct (Nat.eqb_spec (length d) (length d0)); [|apply runs_ret; auto]. apply OP; auto.
  - destruct (Nat.eqb_spec xn xn0); [|apply runs_ret; auto]. destruct J as [J1 J2]; auto.
    eapply Runs_bind; [apply OP; auto|]. intros r ->. apply OP; auto.
  - destruct (Nat.eqb_spec p p0); cbn [andb]; [|apply runs_ret; auto]. destruct (Nat.eqb_spec n n0); [|apply runs_ret; auto]. destruct J as [J1 J2]; auto.
    eapply Runs_bind; [apply OP; auto|]. intros r ->. apply OP; auto.
Qed.
Lemma opt_this_run : forall H R x y v kx ky cx cy, Good H R -> R x -> R y -> nth_error H x = Some (kx, cx) -> nth_error H y = Some (ky, cy) ->
  Vok H x v -> Vok H y v -> resolved H x -> resolved H y -> x <> y -> parts_joined H kx ky ->
  Runs (fun f => opt_this dear f H x y) (fun H' => Mrg R (S (length v)) H H' /\ joined H' x y).
Proof.
  intros H R x y v kx ky cx cy G Rx Ry Nx Ny Vx Vy Rsx Rsy D J. unfold opt_this.
  eapply Runs_bind; [apply (derefv_run Vy)|]. intros y1 (Fy & _). assert (y1 = y) by (eapply fwds_self; eauto). subst y1.
  destruct (Nat.eqb_spec x y); [contradiction|]. assert (DO := dir_ok G Rx Ry Vx Vy Rsx Rsy D). destruct (opt_dir dear H x y).
  - eapply Runs_mono; [eapply be_replace_run; eauto|]. intros H' ->. eapply merge_one; eauto; apply DO.
  - apply Runs_ret. destruct DO as [Y0 NR]. destruct (@merge_one H R (S (length v)) y x v) as [M (z & A & B)]; auto. split; auto. exists z. auto.
Qed.

(** A merge of shorter nodes leaves a node as it is. *)
Lemma mrg_same : forall R n H H' p v, Mrg R n H H' -> Vok H p v -> n <= length v -> nth_error H' p = nth_error H p.
Proof.
  intros R n H H' p v M V L. destruct (mg_cell M p) as [E|(_ & _ & (u & U & Lu) & _)]; auto. rewrite (Vok_det U V) in Lu. lia.
Qed.
Definition res_ok (v w : list Z) (c : comparison) : Prop := c = lexz v w \/ (q = true /\ c <> Eq /\ v <> w).
Lemma res_eq : forall v w, res_ok v w Eq -> v = w.
Proof. intros v w [E|(_ & X & _)]; [apply lexz_eq; auto|congruence]. Qed.
Lemma res_app : forall a b c d r, length a = length b -> res_ok a b r -> r <> Eq -> res_ok (a ++ c) (b ++ d) r.
Proof.
  intros a b c d r L [E|(Q & N & X)] NE.
  - left. rewrite lexz_app by auto. destruct (lexz a b); congruence.
  - right. repeat split; auto. intros Y. apply X. apply app_inv_len in Y; tauto.
Qed.
Lemma res_app2 : forall a c d r, res_ok c d r -> res_ok (a ++ c) (a ++ d) r.
Proof.
  intros a c d r [E|(Q & N & X)].
  - left. rewrite lexz_app, lexz_refl by auto. auto.
  - right. repeat split; auto. intros Y. apply app_inv_head in Y. auto.
Qed.
(** What comparing the parts of two nodes gives. *)
Record Part (R : nat -> Prop) (H : heap) (kx ky : kind) (v w : list Z) (r : heap * comparison) : Prop := {
  pt_mrg : Mrg R (length v) H (fst r);
  pt_res : res_ok v w (snd r);
  pt_join : snd r = Eq -> parts_joined (fst r) kx ky }.
Record Same (R : nat -> Prop) (H : heap) (x y : nat) (v w : list Z) (r : heap * comparison) : Prop := {
  sm_mrg : Mrg R (S (length v)) H (fst r);
  sm_res : res_ok v w (snd r);
  sm_join : snd r = Eq -> joined (fst r) x y }.

Lemma part_of : forall R H kx ky v w c, res_ok v w c -> (c = Eq -> parts_joined H kx ky) -> Part R H kx ky v w (H, c).
Proof. intros R H kx ky v w c E J. constructor; auto. apply mrg_refl. Qed.
Section Step.
Variables (R : nat -> Prop) (H : heap) (x y : nat) (v w : list Z).
Hypothesis IH : forall H t u a b, Good H R -> R t -> R u -> Vok H t a -> Vok H u b -> length a = length b -> length a < length v ->
  Runs (fun f => cmp_same dear q f H t u) (Same R H t u a b).
Variables (kx ky : kind) (cx cy : option Z).
Hypotheses (G : Good H R) (Rx : R x) (Ry : R y) (Nx : nth_error H x = Some (kx, cx)) (Ny : nth_error H y = Some (ky, cy))
  (Vx : Vok H x v) (Vy : Vok H y w) (L : length v = length w).

Lemma dflt_run : match kx with KFwd _ => False | _ => True end -> parts_joined H kx ky ->
  Runs (fun f => n <- ksize kx ;; c <- cmp_part q f H x y 0 n ;; Ok (H, c)) (Part R H kx ky v w).
Proof.
  intros NF J. destruct (Vok_inv Vx) as (k & c & ws & N & _ & _ & Sh). rewrite Nx in N. injection N as <- <-.
  rewrite (ksize_val hv Sh NF). cbn [rb].
  eapply Runs_bind; [eapply (@cmp_part_run hv dear q H x y v w 0 (length v)); eauto; try (eapply good_blk; eauto); lia|].
  intros r E. apply Runs_ret. apply part_of; auto. left. rewrite E. cbn [skipn]. rewrite L at 2. rewrite !firstn_all. auto.
Qed.
(** Two children one after the other. *)
Lemma two_run : forall a b a' b' u1 u2 w1 w2, R a -> R b -> R a' -> R b' -> Vok H a u1 -> Vok H b u2 -> Vok H a' w1 -> Vok H b' w2 ->
  length u1 = length w1 -> length u2 = length w2 -> length u1 < length v -> length u2 < length v ->
  Runs (fun f => andthen (cmp_same dear q f H a a') (fun H1 => cmp_same dear q f H1 b b'))
    (fun r => Mrg R (length v) H (fst r) /\ (snd r = Eq -> u1 = w1 /\ u2 = w2 /\ joined (fst r) a a' /\ joined (fst r) b b') /\
              ((snd r <> Eq /\ res_ok u1 w1 (snd r)) \/ (u1 = w1 /\ res_ok u2 w2 (snd r)))).
Proof.
  intros a b a' b' u1 u2 w1 w2 Ra Rb Ra' Rb' Va Vb Va' Vb' L1 L2 S1 S2. unfold andthen.
  eapply Runs_bind; [apply (IH G Ra Ra' Va Va' L1 S1)|]. intros [H1 c] [M1 E1 J1]. cbn [fst snd] in *.
  assert (M1' : Mrg R (length v) H H1) by (eapply mrg_mono; [|exact M1]; lia).
  assert (X : c <> Eq -> Runs (fun _ => Ok (H1, c)) (fun r => Mrg R (length v) H (fst r) /\ (snd r = Eq -> u1 = w1 /\ u2 = w2 /\ joined (fst r) a a' /\ joined (fst r) b b') /\
              ((snd r <> Eq /\ res_ok u1 w1 (snd r)) \/ (u1 = w1 /\ res_ok u2 w2 (snd r))))).
  { intros N. apply Runs_ret. cbn [fst snd]. split; auto. split; [congruence|]. left. auto. }
  destruct c; try (apply X; discriminate). clear X. assert (E := res_eq E1).
  assert (K := kp_val (mg_keep M1)).
  eapply Runs_mono; [apply (IH (good_mrg G M1) Rb Rb' (K _ _ Vb) (K _ _ Vb') L2 S2)|]. intros [H2 c] [M2 E2 J2]. cbn [fst snd] in *.
  split; [|split].
  - eapply mrg_trans; [exact M1'|eapply mrg_mono; [|exact M2]; lia|apply G].
  - intros ->. split; auto. split; [apply res_eq; auto|]. split; auto. eapply join_mrg; [exact M2|auto].
  - right. auto.
Qed.

Lemma struct_run : resolved H x -> resolved H y -> Runs (fun f =>
      let arr d e := c <- cmp_ptr d e ;; Ok (H, c) in
      let part t u p n := fun H' => c <- cmp_part q f H' t u p n ;; Ok (H', c) in
      let dflt := n <- ksize kx ;; part x y 0 n H in
        match kx, ky with
        | KConst d, KConst e => arr d e
        | KComn d, KComn e => arr d e
        | KSub t b n, KSub u b' _ => if Nat.eqb b b' then part t u b n H else dflt
        | KHead t _ d _, KHead u _ e _ =>
          if Nat.eqb (length d) (length e) then andthen (arr d e) (fun H1 => cmp_same dear q f H1 t u) else dflt
        | KEnd t _ d _, KEnd u _ e _ =>
          if Nat.eqb (length d) (length e) then
            andthen (cmp_same dear q f H t u) (fun H1 => c <- cmp_ptr d e ;; Ok (H1, c))
          else dflt
        | KSum a b an _, KSum a' b' an' _ =>
          if Nat.eqb an an' then andthen (cmp_same dear q f H a a') (fun H1 => cmp_same dear q f H1 b b') else dflt
        | KErase t tn p n, KErase u _ p' n' =>
          if andb (Nat.eqb p p') (Nat.eqb n n') then andthen (part t u 0 p H) (part t u (p + n) tn) else dflt
        | KIns t a tn p n, KIns u b _ p' n' =>
          if andb (Nat.eqb p p') (Nat.eqb n n') then
            if q then andthen (cmp_same dear q f H a b) (fun H1 => cmp_same dear q f H1 t u)
            else andthen (part t u 0 p H) (fun H1 => andthen (cmp_same dear q f H1 a b)
                   (part t u p (if Nat.leb (p + n) tn then tn - (p + n) else S tn)))
          else dflt
        | KSame _ c, KSame _ d => Ok (H, Z.compare c d)
        | _, _ => dflt
        end) (Part R H kx ky v w).
Proof.
  intros Rsx Rsy. cbv zeta. assert (Kx := gd_kind G Rx Nx). assert (Ky := gd_kind G Ry Ny).
  assert (Fx := Rsx _ _ Nx). assert (Fy := Rsy _ _ Ny).
  destruct (Vok_inv Vx) as (k & c & ws & N & _ & Fs & Sh). rewrite Nx in N. injection N as <- <-.
  destruct (Vok_inv Vy) as (k & c & ws' & N & _ & Fs' & Sh'). rewrite Ny in N. injection N as <- <-.
  assert (Cx := fun c => @child_val H R x kx cx c G Rx Nx). assert (Cy := fun c => @child_val H R y ky cy c G Ry Ny).
  assert (DF := dflt_run). assert (TR := two_run).
  destruct kx as [|d|d|t b n|t tn d cap|t tn d cap|a b an bn|t tn p n|t a tn p n|n ch|t],
           ky as [|e|e|u b' n'|u tn' e cap'|u tn' e cap'|a' b' an' bn'|u tn' p' n'|u a' tn' p' n'|n' ch'|u];
    cbn [cmpk] in Kx, Ky; try (apply DF; exact Logic.I); try contradiction; cbn [children In parts_joined] in *; shp; subst.
  - rewrite cmp_ptr_run by auto. apply Runs_ret. apply part_of; [left; auto|auto].
  - rewrite cmp_ptr_run by auto. apply Runs_ret. apply part_of; [left; auto|auto].
  - destruct (Nat.eqb_spec b b') as [->|]; [|apply DF; auto]. clear DF.
    match goal with X : Vok H t ?p, Y : Vok H u ?r |- _ => rename X into Vt; rename Y into Vu; set (p0 := p) in *; set (r0 := r) in * end.
    assert (n' = n) as -> by (revert L; llen; lia).
    eapply Runs_bind; [eapply (@cmp_part_run hv dear q H t u p0 r0 b' n); eauto|].
    + eapply good_blk; [exact G|]. apply Cx. auto.
    + eapply good_blk; [exact G|]. apply Cy. auto.
    + intros Q. exact (gd_sub G Q Rx Ry Nx Ny Vt Vu).
    + intros r ->. apply Runs_ret. apply part_of; [left; auto|intros _; exact Logic.I].
  - destruct (Nat.eqb_spec (length d) (length e)) as [Ld|]; [|apply DF; auto; intros; contradiction]. clear DF.
    match goal with X : Vok H t ?p, Y : Vok H u ?r |- _ => rename X into Vt; rename Y into Vu; set (p0 := p) in *; set (r0 := r) in * end.
    rewrite cmp_ptr_run by auto. cbn [rb andthen].
    assert (X : lexz d e <> Eq -> Runs (fun _ => Ok (H, lexz d e)) (Part R H (KHead t (length p0) d cap) (KHead u (length r0) e cap') (d ++ p0) (e ++ r0))).
    { intros NE. apply Runs_ret. apply part_of; [|congruence]. apply res_app; auto. left; auto. }
    destruct (lexz d e) eqn:Ed; try (apply X; discriminate). clear X. apply lexz_eq in Ed. subst e.
    assert (Dp : 0 < length d) by (destruct d; [congruence|cbn; lia]).
    eapply Runs_mono; [apply (@IH H t u p0 r0); auto; [apply Cx; auto|apply Cy; auto| |]; revert L; llen; lia|].
    intros r [M E J]. constructor.
    + eapply mrg_mono; [|exact M]. llen. lia.
    + apply res_app2. auto.
    + cbn [parts_joined]. auto.
  - destruct (Nat.eqb_spec (length d) (length e)) as [Ld|]; [|apply DF; auto; intros; contradiction]. clear DF.
    match goal with X : Vok H t ?p, Y : Vok H u ?r |- _ => rename X into Vt; rename Y into Vu; set (p0 := p) in *; set (r0 := r) in * end.
    assert (Dp : 0 < length d) by (destruct d; [congruence|cbn; lia]).
    assert (L0 : length p0 = length r0) by (revert L; llen; lia). unfold andthen.
    eapply Runs_bind; [apply (@IH H t u p0 r0); auto; [apply Cx; auto|apply Cy; auto|]; llen; lia|].
    intros [HA c] [M E J]. cbn [fst snd] in *. assert (M' : Mrg R (length (p0 ++ d)) H HA) by (eapply mrg_mono; [|exact M]; llen; lia).
    assert (X : c <> Eq -> Runs (fun _ => Ok (HA, c)) (Part R H (KEnd t (length p0) d cap) (KEnd u (length r0) e cap') (p0 ++ d) (r0 ++ e))).
    { intros NE. apply Runs_ret. constructor; cbn [fst snd]; auto; [|congruence]. apply res_app; auto. }
    destruct c; try (apply X; discriminate). clear X. apply res_eq in E. rewrite cmp_ptr_run by auto. cbn [rb]. apply Runs_ret. constructor; cbn [fst snd]; auto.
    + rewrite E. apply res_app2. left; auto.
    + cbn [parts_joined]. auto.
  - match goal with X : Vok H a ?p, Y : Vok H a' ?r |- _ => rename X into Va; rename Y into Va'; set (p0 := p) in *; set (r0 := r) in * end.
    match goal with X : Vok H b ?p, Y : Vok H b' ?r |- _ => rename X into Vb; rename Y into Vb'; set (p1 := p) in *; set (r1 := r) in * end.
    destruct (Nat.eqb_spec (length p0) (length r0)) as [Ld|]; [|apply DF; auto; intros; contradiction]. clear DF.
    assert (L1 : length p1 = length r1) by (revert L; llen; lia).
    eapply Runs_mono; [apply (TR a b a' b' p0 p1 r0 r1); auto; try solve [apply Cx; auto]; try solve [apply Cy; auto]; llen; lia|].
    intros r (M & J & E). constructor; auto.
    + destruct E as [[NE E]|[<- E]]; [apply res_app; auto|apply res_app2; auto].
    + cbn [parts_joined]. intros Er _. apply J in Er. tauto.
  - match goal with X : Vok H t ?p, Y : Vok H u ?r |- _ => rename X into Vt; rename Y into Vu; set (p0 := p) in *; set (r0 := r) in * end.
    match goal with X : Vok H a ?p, Y : Vok H a' ?r |- _ => rename X into Va; rename Y into Va'; set (p1 := p) in *; set (r1 := r) in * end.
    destruct (Nat.eqb_spec p p') as [<-|]; cbn [andb]; [|apply DF; auto; intros; contradiction].
    destruct (Nat.eqb_spec (length p1) (length r1)) as [Ld|]; [|apply DF; auto; intros; contradiction]. clear DF.
    assert (L1 : length p0 = length r0) by (revert L; llen; lia).
    match goal with X : q = true |- _ => rename X into Q end.
    assert (Wr : forall c, c <> Eq -> p0 <> r0 \/ p1 <> r1 -> res_ok (firstn p p0 ++ p1 ++ skipn p p0) (firstn p r0 ++ r1 ++ skipn p r0) c).
    { intros c NE D. right. repeat split; auto. intros Y. apply app_inv_len in Y; [|llen; lia]. destruct Y as [Y1 Y]. apply app_inv_len in Y; auto.
      destruct Y as [Y2 Y3]. destruct D as [D|D]; auto. apply D. rewrite <- (firstn_skipn p p0), Y1, Y3. apply firstn_skipn. }
    eapply Runs_ext with (g := fun f => andthen (cmp_same dear q f H a a') (fun H1 => cmp_same dear q f H1 t u)); [intros f; rewrite !Q; reflexivity|].
    eapply Runs_mono; [apply (TR a t a' u p1 p0 r1 r0); auto; try solve [apply Cx; auto]; try solve [apply Cy; auto]; llen; lia|].
    intros r (M & J & E). constructor; auto.
    + destruct E as [[NE E]|[Ea E]].
      * apply Wr; auto. right. destruct E as [E|(_ & _ & E)]; auto. intros Y. apply lexz_eq in Y. congruence.
      * destruct (snd r) eqn:Er; [left; symmetry; apply lexz_eq; apply res_eq in E; rewrite Ea, E; auto| |];
          apply Wr; try discriminate; left; (destruct E as [E|(_ & _ & E)]; auto; intros Y; apply lexz_eq in Y; congruence).
    + cbn [parts_joined]. intros Er _ _. apply J in Er. tauto.
  - rewrite !repeat_length in L. subst n'. apply Runs_ret. apply part_of; auto. left. rewrite lexz_rep; auto.
Qed.
End Step.

Lemma cmp_same_run : forall n H R x y v w, Good H R -> R x -> R y -> Vok H x v -> Vok H y w -> length v = length w -> length v < n ->
  Runs (fun f => cmp_same dear q f H x y) (Same R H x y v w).
Proof.
  induction n as [|n IH]; intros H R x y v w G Rx Ry Vx Vy L Ln; [lia|]. apply Runs_S. cbn [cmp_same].
  eapply Runs_bind; [apply (derefv_run Vx)|]. intros x1 (Fx & Rsx & Vx1).
  eapply Runs_bind; [apply (derefv_run Vy)|]. intros y1 (Fy & Rsy & Vy1).
  destruct (Nat.eqb_spec x1 y1) as [<-|D].
  { apply Runs_ret. rewrite (Vok_det Vx1 Vy1). constructor; cbn [fst snd]; [apply mrg_refl|left; symmetry; apply lexz_refl|]. intros _. exists x1. auto. }
  destruct (Vok_inv Vx1) as (kx & cx & wx & Nx & Cx & _). destruct (Vok_inv Vy1) as (ky & cy & wy & Ny & Cy & _).
  destruct (andb q (hash_diff H x1 y1)) eqn:B.
  { apply andb_true_iff in B. destruct B as [Q B]. unfold hash_diff in B. rewrite Nx, Ny in B. destruct cx as [a|], cy as [b|]; try discriminate.
    apply Runs_ret. constructor; cbn [fst snd]; [apply mrg_refl| |discriminate]. right. split; auto. split; [discriminate|]. intros ->.
    cbn [cok] in Cx, Cy. subst. rewrite Z.eqb_refl in B. discriminate. }
  rewrite (kd_eq Nx), (kd_eq Ny). cbn [rb].
  assert (Rx1 : R x1) by exact (good_reach G Rx (fwds_reach Fx)). assert (Ry1 : R y1) by exact (good_reach G Ry (fwds_reach Fy)).
  eapply Runs_bind; [eapply (@struct_run R H x1 y1 v w); eauto|].
  { intros. apply IH; auto. lia. }
  intros [H1 c] [M E J]. cbn [fst snd] in *.
  assert (X : c <> Eq -> Runs (fun _ => Ok (H1, c)) (Same R H x y v w)).
  { intros NE. apply Runs_ret. constructor; cbn [fst snd]; auto; [|congruence]. eapply mrg_mono; [|exact M]. lia. }
  destruct c; try (apply X; discriminate). clear X. assert (W := res_eq E). subst w.
  assert (Nx1 := mrg_same M Vx1 (le_n _)). assert (Ny1 := mrg_same M Vy1 (le_n _)).
  assert (K := kp_val (mg_keep M)). assert (G1 := good_mrg G M).
  eapply Runs_bind; [eapply (@opt_this_run H1 R x1 y1 v); eauto; try congruence|].
  - rewrite Nx1. exact Nx.
  - rewrite Ny1. exact Ny.
  - intros a b. rewrite Nx1. apply Rsx.
  - intros a b. rewrite Ny1. apply Rsy.
  - intros H2 (M2 & z & Zx & Zy). apply Runs_ret.
    assert (M3 : Mrg R (S (length v)) H H2) by (eapply mrg_trans; [eapply mrg_mono; [|exact M]; lia|exact M2|apply G]).
    constructor; cbn [fst snd]; auto. intros _. exists z. split; [exact (fwds_trans (fwds_mrg M3 Fx) Zx)|exact (fwds_trans (fwds_mrg M3 Fy) Zy)].
Qed.
Lemma cmp_top_run : forall H R x y v w, Good H R -> R x -> R y -> Vok H x v -> Vok H y w ->
  Runs (fun f => cmp_top dear q f H x y) (fun r => Keep H (fst r) /\ (exists n, Mrg R n H (fst r)) /\
    ((snd r = match Nat.compare (length v) (length w) with Eq => lexz v w | c => c end) \/ (q = true /\ snd r <> Eq /\ v <> w))).
Proof.
  intros H R x y v w G Rx Ry Vx Vy. unfold cmp_top.
  eapply Runs_bind; [apply (derefv_run Vx)|]. intros x1 (Fx & Rsx & Vx1).
  eapply Runs_bind; [apply (derefv_run Vy)|]. intros y1 (Fy & Rsy & Vy1).
  assert (K0 : forall c, (c = match Nat.compare (length v) (length w) with Eq => lexz v w | c => c end) \/ (q = true /\ c <> Eq /\ v <> w) ->
    Runs (fun _ => Ok (H, c)) (fun r => Keep H (fst r) /\ (exists n, Mrg R n H (fst r)) /\
    ((snd r = match Nat.compare (length v) (length w) with Eq => lexz v w | c => c end) \/ (q = true /\ snd r <> Eq /\ v <> w)))).
  { intros c E. apply Runs_ret. split; [apply keep_refl|]. split; auto. exists 0. apply mrg_refl. }
  destruct (Nat.eqb_spec x1 y1) as [<-|D].
  { apply K0. left. rewrite (Vok_det Vx1 Vy1), Nat.compare_refl, lexz_refl. auto. }
  destruct (Vok_inv Vx1) as (kx & cx & wx & Nx & Cx & _). destruct (Vok_inv Vy1) as (ky & cy & wy & Ny & Cy & _).
  destruct (andb q (hash_diff H x1 y1)) eqn:B.
  { apply andb_true_iff in B. destruct B as [Q B]. unfold hash_diff in B. rewrite Nx, Ny in B. destruct cx as [a|], cy as [b|]; try discriminate.
    apply K0. right. split; auto. split; [discriminate|]. intros ->.
    cbn [cok] in Cx, Cy. subst. rewrite Z.eqb_refl in B. discriminate. }
  assert (Rx1 : R x1) by exact (good_reach G Rx (fwds_reach Fx)). assert (Ry1 : R y1) by exact (good_reach G Ry (fwds_reach Fy)).
  eapply Runs_bind; [apply (size_run Vx1)|]. intros n ->.
  eapply Runs_bind; [apply (size_run Vy1)|]. intros m ->.
  destruct (Nat.compare_spec (length v) (length w)) as [L|L|L]; [|apply K0; auto|apply K0; auto].
  eapply Runs_mono; [eapply (@cmp_same_run (S (length v)) H R x1 y1 v w); eauto|].
  intros [H1 c] [M E J]. cbn [fst snd] in *. split; [apply M|]. split; [eexists; eauto|]. exact E.
Qed.
End Merge.
