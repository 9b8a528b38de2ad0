(** Reading strings as arrays and hashing them: results, and that no string
    changes. *)
From Verif Require Import Base Bits_Model Bits_Spec Bits_Proofs Ref_Model Ref_Proofs List_Model Str_Model Str_Heap Str_Own Str_Read Str_Apply Str_Edit Str_Cut Str_Api_Model.
Local Open Scope res_scope.
Local Open Scope nat_scope.

(** Following replacements only. *)
Inductive fwds (H : heap) : nat -> nat -> Prop :=
| fw_refl : forall o, fwds H o o
| fw_step : forall o to c q, nth_error H o = Some (KFwd to, c) -> fwds H to q -> fwds H o q.
Lemma fwds_reach : forall H o q, fwds H o q -> reach H o q.
Proof. induction 1; [apply r_refl|]. eapply r_step; eauto. exists (KFwd to), c. split; auto. left; auto. Qed.
Lemma deref_fwds : forall f H o q, deref f H o = Ok q -> fwds H o q /\ resolved H q.
Proof.
  induction f as [|f IH]; intros H o q E; [discriminate|]. cbn [deref] in E. unfold kd in E.
  destruct (nth_error H o) as [[k c]|] eqn:N; [|discriminate]. cbn [rb] in E.
  destruct k; try (injection E as <-; split; [apply fw_refl|intros k' c' N'; rewrite N in N'; injection N' as <- <-; exact Logic.I]).
  destruct (IH _ _ _ E) as [A B]. split; auto. eapply fw_step; eauto.
Qed.
Lemma Runs_eqn : forall A (g : nat -> res A) Q, Runs g Q -> Runs g (fun r => Q r /\ exists f, g f = Ok r).
Proof. intros A g Q (f0 & r & E & q). exists f0, r. split; auto. split; auto. exists f0. auto. Qed.

Lemma Runs_pred : forall A (g : nat -> res A) Q, Runs g Q -> Runs (fun f => g (S f)) Q.
Proof. intros A g Q (f0 & r & E & q). exists f0, r. split; auto. Qed.

(** ** What can be read from the front *)
Inductive whole (H : heap) : nat -> Prop :=
| w_plain : forall o, plain H o -> whole H o
| w_head : forall o to tn d cap c, nth_error H o = Some (KHead to tn d cap, c) -> whole H to -> whole H o
| w_end : forall o to tn d cap c, nth_error H o = Some (KEnd to tn d cap, c) -> whole H to -> whole H o
| w_sum : forall o x y xn yn c, nth_error H o = Some (KSum x y xn yn, c) -> whole H x -> whole H y -> whole H o
| w_sub : forall o to n c, nth_error H o = Some (KSub to 0 n, c) -> whole H to -> whole H o
| w_ins : forall o to x tn p n c, nth_error H o = Some (KIns to x tn p n, c) -> plain H to -> whole H x -> whole H o
| w_fwd : forall o to c, nth_error H o = Some (KFwd to, c) -> whole H to -> whole H o.
(** The same, by the node. *)
Definition wholek (H : heap) (o : nat) (k : kind) : Prop :=
  match k with
  | KHead to _ _ _ | KEnd to _ _ _ | KFwd to => whole H to
  | KSum x y _ _ => whole H x /\ whole H y
  | KSub to b _ => whole H to /\ (b = 0 \/ plain H to)
  | KIns to x _ _ _ => plain H to /\ whole H x
  | KErase to _ _ _ => plain H to
  | _ => True
  end.
Lemma plain_child : forall H o k c q, nth_error H o = Some (k, c) -> In q (children k) -> plain H o -> plain H q.
Proof. intros. eapply plain_edge; eauto. exists k, c. auto. Qed.
Lemma whole_inv : forall H o k c, whole H o -> nth_error H o = Some (k, c) -> wholek H o k.
Proof.
  intros H o k c W N. destruct W as [o P|o to tn d cap h E A|o to tn d cap h E A|o x y xn yn h E A B|o to n h E A|o to x tn p n h E A B|o to h E A];
    try (rewrite N in E; injection E as -> ->; cbn; auto; fail).
  assert (C := fun q I => plain_child (q := q) N I P).
  destruct k; cbn in *; auto; try (split; [apply w_plain|]; auto); try (apply w_plain; auto).
  all: try (exfalso; exact (P o _ c (r_refl H o) N)).
Qed.
Lemma whole_fwds : forall H o q, fwds H o q -> whole H o -> whole H q.
Proof.
  induction 1; auto. intros W. apply IHfwds. exact (whole_inv W H0).
Qed.
Lemma plain_fwds : forall H o q, fwds H o q -> plain H o -> plain H q.
Proof. induction 1; auto. intros W. apply IHfwds. eapply plain_child; eauto. left; auto. Qed.

Lemma slice_ok : forall (d : list Z) p n, p + n <= length d -> slice d p n = Ok (firstn n (skipn p d)).
Proof. intros d p n L. unfold slice. destruct (Nat.leb_spec (p + n) (length d)); [reflexivity|lia]. Qed.

Section Obs.
Variable hv : list Z -> Z.
Notation Val := (Val hv).
Notation Vok := (Vok hv).
Notation nullok := (nullok hv).
Notation Fresh := (Fresh hv).

Lemma copy_whole_run : forall n H o v m, Val n H o v -> whole H o -> m <= length v ->
  Runs (fun f => copy_part f H o 0 m) (fun l => l = firstn m v).
Proof.
  induction n as [|n IH]; intros H o v m V W L; [contradiction|].
  destruct (Val_cell V) as (k & c & N).
  destruct (Val1 V N) as (ws & F & S & _).
  assert (K := whole_inv W N).
  assert (PE : match k with KErase _ _ _ _ => True | _ => False end -> Runs (fun f => copy_part f H o 0 m) (fun l => l = firstn m v)).
  { intros E. destruct k; try contradiction. eapply runs_eq; [apply (copy_run (p := 0) (m := m) V)|reflexivity]; [|lia].
    (* an erased node over a plain one is plain *)
    intros q k' c' R N'. inversion R as [|? z ? (k2 & c2 & N2 & I2) R2]; subst.
    - rewrite N in N'. injection N' as <- <-. exact Logic.I.
    - rewrite N in N2. injection N2 as <- <-. cbn in I2. destruct I2 as [<-|[]]. exact (K q k' c' R2 N'). }
  apply Runs_S. cbn [copy_part]. rewrite (kd_eq N). cbn [rb].
  destruct k as [|d|d|to b k|to tn d cap|to tn d cap|x y xn yn|to tn p k|to x tn p k|k ch|to]; cbn [wholek] in K; shp; subst.
  - cbn in L. assert (m = 0) by lia. subst. apply runs_ret. reflexivity.
  - rewrite slice_ok by lia. apply runs_ret. reflexivity.
  - rewrite slice_ok by lia. apply runs_ret. reflexivity.
  - match goal with V : Val n H to ?y |- _ => rename y into w; rename V into Vt end.
    destruct H1 as [->|P].
    + cbn [Nat.add]. rewrite firstn_length in L. eapply runs_eq; [apply (IH H to w m Vt)|]; auto; [rewrite skipn_length in L; lia|].
      cbn [skipn]. rewrite firstn_firstn. f_equal. lia.
    + rewrite firstn_length, skipn_length in L. eapply runs_eq; [apply (copy_run (p := 0 + b) (m := m) Vt P)|]; [lia|].
      cbn [Nat.add]. rewrite firstn_firstn. f_equal. lia.
  - match goal with V : Val n H to ?y |- _ => rename y into w; rename V into Vt end.
    rewrite app_length in L.
    destruct (Nat.ltb_spec 0 (length d)) as [G|G].
    + rewrite slice_ok by lia. cbn [rb]. destruct (Nat.eqb_spec m (Nat.min (length d - 0) m)) as [E|E].
      * apply runs_ret. rewrite <- E. cbn [skipn]. rewrite firstn_app. replace (m - length d) with 0 by lia. rewrite firstn_O, app_nil_r. reflexivity.
      * eapply Runs_bind; [apply (IH H to w _ Vt K); lia|]. intros r ->. apply runs_ret. cbn [skipn].
        replace (Nat.min (length d - 0) m) with (length d) by lia. rewrite firstn_app, !(firstn_all2 d) by lia. reflexivity.
    + destruct d; [|cbn in G; lia]. cbn [length Nat.sub app]. eapply runs_eq; [apply (IH H to w m Vt K)|reflexivity]. cbn in L. lia.
  - match goal with V : Val n H to ?y |- _ => rename y into w; rename V into Vt end.
    rewrite app_length in L. cbn [Nat.add].
    destruct (Nat.leb_spec m (length w)) as [G|G].
    + eapply runs_eq; [apply (IH H to w m Vt K); lia|]. rewrite firstn_app. replace (m - length w) with 0 by lia. rewrite firstn_O, app_nil_r. reflexivity.
    + destruct (Nat.ltb_spec 0 (length w)) as [G'|G'].
      * eapply Runs_bind; [apply (IH H to w _ Vt K); lia|]. intros r ->. rewrite slice_ok by lia. cbn [rb]. apply runs_ret.
        cbn [skipn]. rewrite Nat.sub_0_r, firstn_app, (firstn_all2 (n := m)) by lia. rewrite firstn_all. reflexivity.
      * destruct w; [|cbn in G'; lia]. cbn [length Nat.sub app] in *. rewrite slice_ok by lia. apply runs_ret. reflexivity.
  - match goal with V : Val n H x ?y1, V2 : Val n H y ?y2 |- _ => rename y1 into w; rename y2 into u; rename V into Vx; rename V2 into Vy end.
    rewrite app_length in L.
    destruct (Nat.ltb_spec 0 (length w)) as [G|G].
    + cbn [Nat.add]. rewrite Nat.sub_0_r. eapply Runs_bind; [apply (IH H x w _ Vx); auto; lia|]. intros r ->.
      destruct (Nat.eqb_spec m (Nat.min m (length w))) as [E|E].
      * apply runs_ret. rewrite <- E. rewrite firstn_app. replace (m - length w) with 0 by lia. rewrite firstn_O, app_nil_r. reflexivity.
      * eapply Runs_bind; [apply (IH H y u _ Vy); auto; lia|]. intros r ->. apply runs_ret.
        replace (Nat.min m (length w)) with (length w) by lia. rewrite firstn_app, !(firstn_all2 w) by lia. reflexivity.
    + destruct w; [|cbn in G; lia]. cbn [length Nat.sub app]. eapply runs_eq; [apply (IH H y u m Vy); auto|reflexivity].
  - assert (X := Runs_pred (PE Logic.I)). cbn [copy_part] in X. rewrite (kd_eq N) in X. exact X.
  - eapply runs_eq; [|reflexivity].
    match goal with V : Val n H to ?y1, V2 : Val n H x ?y2 |- _ => rename y1 into w; rename y2 into u; rename V into Vt; rename V2 into Vx end.
    rewrite !app_length, firstn_length, skipn_length in L. cbn [Nat.add].
    destruct (Nat.ltb_spec m p) as [G|G].
    + eapply runs_eq; [apply (copy_run (p := 0) (m := m) Vt)|]; auto; [lia|]. cbn [skipn]. rewrite firstn_app, firstn_firstn, firstn_length.
      replace (Nat.min m p) with m by lia. replace (m - Nat.min p (length w)) with 0 by lia. rewrite firstn_O, app_nil_r. reflexivity.
    + destruct (Nat.ltb_spec (p + length u) 0) as [?|_]; [lia|].
      assert (A : Runs (fun f => if Nat.ltb 0 p then copy_part f H to 0 (p - 0) else Ok []) (fun l => l = firstn p w)).
      { destruct (Nat.ltb_spec 0 p); [eapply runs_eq; [apply (copy_run (p := 0) (m := p - 0) Vt)|]; auto; [lia|]; rewrite Nat.sub_0_r; reflexivity|].
        replace p with 0 by lia. apply runs_ret. reflexivity. }
      eapply Runs_bind; [exact A|]. intros r ->. rewrite firstn_length. replace (Nat.min p (length w)) with p by lia.
      eapply Runs_bind; [apply (IH H x u _ Vx); auto; lia|]. intros r ->.
      destruct (Nat.eqb_spec (m - p - Nat.min (m - p) (length u)) 0) as [E|E].
      * apply runs_ret. rewrite firstn_app, firstn_firstn, firstn_length. replace (Nat.min m p) with p by lia.
        replace (m - Nat.min p (length w)) with (m - p) by lia. rewrite firstn_app. replace (m - p - length u) with 0 by lia.
        rewrite firstn_O, app_nil_r. replace (Nat.min (m - p) (length u)) with (m - p) by lia. reflexivity.
      * eapply Runs_bind; [apply (copy_run (p := p) (m := m - p - Nat.min (m - p) (length u)) Vt)|]; auto; [lia|]. intros r ->. apply runs_ret.
        rewrite firstn_app, firstn_firstn, firstn_length. replace (Nat.min m p) with p by lia.
        replace (m - Nat.min p (length w)) with (m - p) by lia. rewrite firstn_app.
        rewrite (firstn_all2 (n := m - p)) by lia. rewrite (firstn_all2 (n := Nat.min (m - p) (length u))) by lia.
        replace (Nat.min (m - p) (length u)) with (length u) by lia. reflexivity.
  - rewrite repeat_length in L. apply runs_ret. rewrite <- (firstn_all (repeat ch m)) at 1. rewrite repeat_length.
    clear - L. revert k L. induction m; intros [|k] L; cbn; auto; try lia. f_equal. apply IHm. lia.
  - match goal with V : Val n H to ?y |- _ => rename V into Vt end. apply (IH H to _ m Vt K L).
Qed.
Lemma whole_copy : forall n H o v, Val n H o v -> whole H o -> Runs (fun f => copy_part f H o 0 (length v)) (fun l => l = v).
Proof. intros. eapply runs_eq; [eapply copy_whole_run; eauto|apply firstn_all]. Qed.

(** ** Changes that keep every value *)
Record Keep (H H' : heap) : Prop := {
  kp_len : length H <= length H';
  kp_null : nullok H -> nullok H';
  kp_val : forall q w, Vok H q w -> Vok H' q w }.
Lemma keep_refl : forall H, Keep H H.
Proof. intros H. constructor; auto. Qed.
Lemma keep_trans : forall H H1 H2, Keep H H1 -> Keep H1 H2 -> Keep H H2.
Proof. intros H H1 H2 A B. constructor; [destruct A, B; lia|intros; apply B, A; auto|intros; apply B, A; auto]. Qed.
Lemma keep_ext : forall H l, Keep H (H ++ l).
Proof.
  intros H l. constructor; [rewrite app_length; lia| |intros; apply Vok_ext; auto].
  intros (c & E & O). exists c. split; auto. rewrite ext_old; auto. apply nth_error_Some. congruence.
Qed.
Lemma repl_keep : forall H o k c k' ws' v, nth_error H o = Some (k, c) -> Vok H o v -> k <> KNull ->
  Forall2 (Vok H) (children k') ws' -> shape k' ws' v -> Forall (fun x => ~ reach H x o) (children k') ->
  Keep H (put_keep H o k') /\ Vok (put_keep H o k') o v.
Proof.
  intros H o k c k' ws' v N V NK F S NR.
  assert (Vo : Vok (put_keep H o k') o v).
  { destruct (Vok_inv V) as (k0 & c0 & ws0 & N0 & C0 & _). rewrite N in N0. injection N0 as <- <-.
    eapply Vok_intro; [eapply put_keep_at; eauto|exact C0| |exact S].
    clear - F NR. revert NR. induction F; intros NR; constructor; inversion NR; subst; auto.
    eapply Vok_agree; eauto. intros q R. apply put_keep_other. intros ->. contradiction. }
  split; auto. constructor.
  - rewrite put_keep_len. lia.
  - intros (c1 & E & O). exists c1. split; auto. rewrite put_keep_other; auto. intros <-. congruence.
  - assert (X : forall n q w, Val n H q w -> Vok (put_keep H o k') q w).
    { induction n as [|n IH]; intros q w Vq; [contradiction|].
      destruct (Nat.eq_dec q o) as [->|D].
      - replace w with v; auto. eapply Vok_det; [exact V|exists (Datatypes.S n); exact Vq].
      - destruct Vq as (kq & cq & wq & Nq & Cq & Fq & Sq).
        eapply Vok_intro; [rewrite put_keep_other; eauto|exact Cq| |exact Sq].
        clear - IH Fq. induction Fq; constructor; eauto. }
    intros q w [n Vq]. eauto.
Qed.

Definition arr_leaf (k : kind) : Prop := match k with KNull | KConst _ | KComn _ => True | _ => False end.
Record Flat (H : heap) (o : nat) (v : list Z) (r : heap * nat * list Z) : Prop := {
  fl_data : snd r = v;
  fl_keep : Keep H (fst (fst r));
  fl_val : Vok (fst (fst r)) (snd (fst r)) v;
  fl_reach : forall q, q < length H -> reach (fst (fst r)) (snd (fst r)) q -> reach H o q;
  fl_same : forall q, q < length H -> ~ reach H o q -> nth_error (fst (fst r)) q = nth_error H q }.
Variable g : orc.
Lemma flat_id : forall H o v, Vok H o v -> Flat H o v (H, o, v).
Proof. intros H o v V. constructor; cbn; auto. apply keep_refl. Qed.
Lemma leaf_reach : forall H l q, nth_error H l <> None -> (forall k c, nth_error H l = Some (k, c) -> children k = []) -> reach H l q -> q = l.
Proof.
  intros H l q E C R. inversion R as [|? x ? (k & c & N & I) _]; subst; auto.
  rewrite (C _ _ N) in I. destruct I.
Qed.
Lemma flat_base_run : forall n H o v k c, Val n H o v -> whole H o -> nth_error H o = Some (k, c) -> k <> KNull ->
  Runs (fun f => flat_base g f H o) (Flat H o v).
Proof.
  intros n H o v k c V W N NK. unfold flat_base.
  eapply Runs_bind; [apply (@size_run hv); exists n; exact V|]. intros m ->.
  eapply Runs_bind; [apply (whole_copy V W)|]. intros d ->. cbn [mk].
  assert (Lo : o < length H) by (eapply Val_lt; eauto).
  assert (Vc : Vok (H ++ [(KComn v, None)]) (length H) v).
  { eapply Vok_intro; [apply ext_new|exact Logic.I|constructor|reflexivity]. }
  assert (Rc : forall q, reach (H ++ [(KComn v, None)]) (length H) q -> q = length H).
  { intros q R. eapply leaf_reach; [| |exact R]; [rewrite ext_new; discriminate|].
    intros k' c'. rewrite ext_new. intros E. injection E as <- <-. reflexivity. }
  assert (No : nth_error (H ++ [(KComn v, None)]) o = Some (k, c)) by (rewrite ext_old; auto).
  assert (P : Keep (H ++ [(KComn v, None)]) (put_keep (H ++ [(KComn v, None)]) o (KFwd (length H))) /\
              Vok (put_keep (H ++ [(KComn v, None)]) o (KFwd (length H))) o v).
  { apply (@repl_keep _ o k c (KFwd (length H)) [v] v No); auto.
    - apply Vok_ext. exists n. exact V.
    - constructor; auto.
    - reflexivity.
    - constructor; auto. intros R. apply Rc in R. lia. }
  apply Runs_ret. destruct (profit g H o); constructor; cbn [fst snd]; auto.
  - eapply keep_trans; [apply keep_ext|apply P].
  - apply P. auto.
  - intros q Lq R. exfalso.
    assert (q = length H); [|lia]. eapply leaf_reach; [| |exact R].
    + rewrite put_keep_other by lia. rewrite ext_new. discriminate.
    + intros k' c'. rewrite put_keep_other by lia. rewrite ext_new. intros E. injection E as <- <-. reflexivity.
  - intros q Lq R. rewrite put_keep_other; [apply ext_old; auto|]. intros ->. apply R, r_refl.
  - apply keep_ext.
  - intros q Lq R. apply Rc in R. lia.
  - intros q Lq R. apply ext_old; auto.
Qed.
(** Redirecting the handle of a node to an array of the same characters. *)
Lemma flat_redirect : forall H o v k c to to1 w H1 to' d' k', Vok H o v -> nth_error H o = Some (k, c) -> children k = [to] -> reach H to to1 ->
  Flat H to1 w (H1, to', d') -> children k' = [to'] -> shape k' [w] v -> k <> KNull ->
  Flat H o v (put_keep H1 o k', o, v).
Proof.
  intros H o v k c to to1 w H1 to' d' k' V N C R F C' S NK. destruct F as [F1 F2 F3 F4 F5]. cbn [fst snd] in *.
  assert (E : edge H o to) by (exists k, c; rewrite C; split; [auto|left; auto]).
  assert (NR : ~ reach H to1 o) by (intros X; eapply acyc_self; [exact V|exact E|eapply reach_trans; eauto]).
  assert (Lo : o < length H) by (eapply Vok_lt; eauto).
  assert (NR1 : ~ reach H1 to' o) by (intros X; apply NR; apply F4; auto).
  assert (N1 : nth_error H1 o = Some (k, c)) by (rewrite F5; auto).
  destruct (@repl_keep H1 o k c k' [w] v N1) as [K K']; auto.
  - apply F2; auto.
  - rewrite C'. constructor; auto.
  - rewrite C'. constructor; auto.
  - constructor; cbn [fst snd]; auto.
    + eapply keep_trans; eauto.
    + intros q Lq Rq. inversion Rq as [|? x ? (k2 & c2 & N2 & I2) R2]; subst; [apply r_refl|].
      rewrite (put_keep_at k' N1) in N2. injection N2 as <- <-. rewrite C' in I2. destruct I2 as [<-|[]].
      eapply r_step; [exact E|]. eapply reach_trans; [exact R|]. apply F4; auto.
      eapply reach_agree2; [|exact R2]. intros z Rz. apply put_keep_other. intros ->. contradiction.
    + intros q Lq Rq. rewrite put_keep_other by (intros ->; apply Rq, r_refl). apply F5; auto.
      intros X. apply Rq. eapply r_step; [exact E|]. eapply reach_trans; eauto.
Qed.
Lemma flat_run : forall n md H o v, Val n H o v -> whole H o -> resolved H o ->
  Runs (fun f => flat g md f H o) (Flat H o v).
Proof.
  induction n as [|n IH]; intros md H o v V W Rs; [contradiction|].
  destruct (Val_cell V) as (k & c & N). destruct (Val1 V N) as (ws & F & S & _).
  assert (K := whole_inv W N). assert (Vo : Vok H o v) by (exists (Datatypes.S n); exact V).
  apply Runs_S. cbn [flat]. rewrite (kd_eq N). cbn [rb].
  assert (B : k <> KNull -> Runs (fun f => flat_base g f H o) (Flat H o v)).
  { intros NK. eapply flat_base_run; eauto. }
  assert (D : forall md' to w, In to (children k) -> Val n H to w -> whole H to -> forall (kk : nat -> nat -> heap * nat * list Z -> res (heap * nat * list Z)) Q,
     (forall to1 H1 to' d', reach H to to1 -> Flat H to1 w (H1, to', d') -> Runs (fun f => kk f to1 (H1, to', d')) Q) ->
     Runs (fun f => to1 <- deref f H to ;; r <- flat g md' f H to1 ;; kk f to1 r) Q).
  { intros md' to w I Vt Wt kk Q C.
    eapply Runs_bind; [apply Runs_eqn, (deref_run Vt)|]. intros to1 [(R & V1 & Rs1) [f1 E1]].
    destruct (deref_fwds E1) as [Fw _].
    eapply Runs_bind; [apply (IH md' H to1 w V1); [eapply whole_fwds; eauto|auto]|].
    intros [[H1 to'] d'] Fl. apply C; auto. }
  destruct k as [|d|d|to b k|to tn [|z d] cap|to tn [|z d] cap|x y xn yn|to tn p k|to x tn p k|k ch|to]; cbn [wholek] in K;
    try (apply B; discriminate).
  - shp. subst. apply Runs_ret. apply flat_id; auto.
  - shp. subst. destruct md; [apply B; discriminate| |apply Runs_ret, flat_id; auto].
    destruct (ztail g H o); [apply Runs_ret, flat_id; auto|apply B; discriminate].
  - shp. subst. apply Runs_ret. apply flat_id; auto.
  - destruct K as [K _]. inversion F as [|? w ? ? Vt F0]; subst. inversion F0; subst. cbn [shape] in S. destruct S as [L ->].
    eapply Runs_bind; [apply Runs_eqn, (deref_run Vt)|]. intros to1 [(R & V1 & Rs1) [f1 E1]].
    destruct (deref_fwds E1) as [Fw _].
    eapply Runs_bind; [apply (@size_run hv); exists n; exact V1|]. intros t ->.
    destruct (match md with MC => _ | MConst => _ | MData => _ end); [|apply B; discriminate].
    eapply Runs_bind; [apply (IH md H to1 w V1); [eapply whole_fwds; eauto|auto]|].
    intros [[H1 to'] d'] Fl. assert (d' = w) by (apply (fl_data Fl)). subst d'.
    rewrite slice_ok by lia. cbn [rb]. apply Runs_ret.
    eapply flat_redirect; eauto; try reflexivity; try discriminate. split; auto.
  - inversion F as [|? w ? ? Vt F0]; subst. inversion F0; subst. cbn [shape] in S. destruct S as (L1 & L2 & ->).
    eapply (D MC to w); [left; auto|exact Vt|exact K|]. intros to1 H1 to' d' R Fl. assert (d' = w) by (apply (fl_data Fl)). subst d'.
    apply Runs_ret. eapply flat_redirect; eauto; try reflexivity; try discriminate. cbn. auto.
  - inversion F as [|? w ? ? Vt F0]; subst. inversion F0; subst. cbn [shape] in S. destruct S as (L1 & L2 & ->).
    eapply (D MC to w); [left; auto|exact Vt|exact K|]. intros to1 H1 to' d' R Fl. assert (d' = w) by (apply (fl_data Fl)). subst d'.
    apply Runs_ret. rewrite app_nil_r in *. eapply flat_redirect; eauto; try reflexivity; try discriminate. cbn. rewrite app_nil_r. auto.
  - exfalso. exact (Rs _ _ N).
Qed.
Lemma flat_leaf : forall md H o v k c, Vok H o v -> nth_error H o = Some (k, c) -> arr_leaf k -> md = MData ->
  Runs (fun f => flat g md f H o) (fun r => r = (H, o, v)).
Proof.
  intros md H o v k c V N A ->. destruct (Vok_inv V) as (k0 & c0 & ws & N0 & _ & F & S). rewrite N in N0. injection N0 as <- <-.
  apply Runs_S. cbn [flat]. rewrite (kd_eq N). cbn [rb].
  destruct k; try contradiction; shp; subst; apply runs_ret; reflexivity.
Qed.
End Obs.

(** ** Hashing *)
Section Hashing.
Variable hd : Z.
Variable hc : Z -> Z.
Hypothesis hd_pos : (0 < hd)%Z.
Hypothesis hd_div : (hd | 2 ^ hd)%Z.
Hypothesis hc_word : forall c, word hd (hc c).
Notation hv := (hv hd hc).
Notation Val := (Val hv).
Notation Vok := (Vok hv).
Lemma words : forall v, Forall (word hd) (map hc v).
Proof. intros v. induction v; constructor; auto. Qed.
Lemma hv_merge : forall a b, hmerge hd (hv a) (length a) (hv b) = hv (a ++ b).
Proof.
  intros a b. unfold hmerge, Str_Api_Model.hv. rewrite <- (map_length hc a). rewrite map_app.
  apply hash_compositional; auto using words.
Qed.
Lemma hv_wcb : forall a b, hwcb hd hc (hv a) (length a) b = hv (a ++ b).
Proof.
  intros a b. unfold hwcb, Str_Api_Model.hv. rewrite <- (map_length hc a). rewrite map_app.
  apply hash_compositional; auto using words.
Qed.
Lemma hv_rep : forall c n, hrep hd hc c n = hv (repeat c n).
Proof.
  intros c n. unfold hrep, Str_Api_Model.hv. rewrite repeat_times_nat; auto.
  f_equal. induction n; cbn; f_equal; auto.
Qed.
Lemma hv_nil : hv [] = 0%Z.
Proof. reflexivity. Qed.

(** Only caches change, to the right values. *)
Record Cch (H H' : heap) : Prop := {
  cc_len : length H' = length H;
  cc_cell : forall q k c, nth_error H q = Some (k, c) -> exists c', nth_error H' q = Some (k, c') /\ (forall v, Vok H q v -> cok hv c' v) }.
Lemma cch_refl : forall H, Cch H H.
Proof.
  intros H. constructor; auto. intros q k c N. exists c. split; auto. intros v V.
  destruct (Vok_inv V) as (k0 & c0 & ws & N0 & C & _). rewrite N in N0. injection N0 as <- <-. exact C.
Qed.
Lemma Val_cch : forall H H', Cch H H' -> forall n o v, Val n H o v -> Val n H' o v.
Proof.
  intros H H' C. induction n as [|n IH]; intros o v V; [contradiction|].
  assert (Vo : Vok H o v) by (exists (S n); exact V).
  destruct V as (k & c & ws & N & Ck & F & S). destruct (cc_cell C N) as (c' & N' & Ck').
  exists k, c', ws. split; [auto|split; [auto|split; [|auto]]].
  clear - IH F. induction F; constructor; auto.
Qed.
Lemma Vok_cch : forall H H' o v, Cch H H' -> Vok H o v -> Vok H' o v.
Proof. intros H H' o v C [n V]. exists n. eapply Val_cch; eauto. Qed.
Lemma cch_trans : forall H H1 H2, Cch H H1 -> Cch H1 H2 -> Cch H H2.
Proof.
  intros H H1 H2 A B. constructor; [rewrite (cc_len B); apply A|].
  intros q k c N. destruct (cc_cell A N) as (c1 & N1 & K1). destruct (cc_cell B N1) as (c2 & N2 & K2).
  exists c2. split; auto. intros v V. apply K2. eapply Vok_cch; eauto.
Qed.
Lemma cch_keep : forall H H', Cch H H' -> Keep hv H H'.
Proof.
  intros H H' C. constructor; [rewrite (cc_len C); lia| |intros; eapply Vok_cch; eauto].
  intros (c & E & O). destruct (cc_cell C E) as (c' & E' & K). exists c'. split; auto. apply K.
  apply null_val. exists c. auto.
Qed.
Lemma cch_back : forall H H' q k c, Cch H H' -> nth_error H' q = Some (k, c) -> exists c', nth_error H q = Some (k, c').
Proof.
  intros H H' q k c C N. destruct (nth_error H q) as [[k0 c0]|] eqn:E.
  - destruct (cc_cell C E) as (c' & N' & _). rewrite N in N'. injection N' as -> _. eauto.
  - exfalso. apply nth_error_None in E. rewrite <- (cc_len C) in E. apply nth_error_None in E. congruence.
Qed.
Lemma cch_reach : forall H H' o q, Cch H H' -> reach H' o q -> reach H o q.
Proof.
  intros H H' o q C R. induction R as [|o x q (k & c & N & I) R IH]; [apply r_refl|].
  destruct (cch_back C N) as [c' N']. eapply r_step; [exists k, c'; eauto|exact IH].
Qed.
Lemma plain_cch : forall H H' o, Cch H H' -> plain H o -> plain H' o.
Proof.
  intros H H' o C P q k c R N. destruct (cch_back C N) as [c' N']. exact (P q k c' (cch_reach C R) N').
Qed.
Lemma whole_cch : forall H H' o, Cch H H' -> whole H o -> whole H' o.
Proof.
  intros H H' o C W. induction W as [o P|o to tn d cap h E A IA|o to tn d cap h E A IA|o x y xn yn h E A IA B IB|o to n h E A IA|o to x tn p n h E A B IB|o to h E A IA];
    [apply w_plain; eapply plain_cch; eauto|..]; destruct (cc_cell C E) as (c' & N' & _).
  - eapply w_head; eauto. - eapply w_end; eauto. - eapply w_sum; eauto. - eapply w_sub; eauto.
  - eapply w_ins; eauto using plain_cch. - eapply w_fwd; eauto.
Qed.
Lemma cch_set : forall H o k c v, nth_error H o = Some (k, c) -> Vok H o v -> Cch H (upd H o (k, Some (hv v))).
Proof.
  intros H o k c v N V. constructor; [apply upd_length|].
  intros q k' c' N'. rewrite nth_upd'. destruct (Nat.eqb_spec q o) as [->|D].
  - destruct (Nat.ltb_spec o (length H)) as [L|L]; [|exfalso; apply Vok_lt in V; lia].
    rewrite N in N'. injection N' as <- <-. eexists. split; [reflexivity|]. intros w W. cbn. f_equal. eapply Vok_det; eauto.
  - destruct (cc_cell (cch_refl H) N') as (c2 & N2 & K2). rewrite N'. rewrite N' in N2. injection N2 as <-. eauto.
Qed.

Definition GH (n : nat) : Prop := forall H o v, Val n H o v -> whole H o ->
  Runs (fun f => get_hash hd hc f H o) (fun r => snd r = hv v /\ Cch H (fst r)).
Definition OH (n : nat) : Prop := forall H o v p m a, Val n H o v -> plain H o \/ (whole H o /\ p = 0) -> p + m <= length v ->
  Runs (fun f => others_hash hd hc f H (hv a) (length a) o p m) (fun r => snd r = hv (a ++ firstn m (skipn p v)) /\ Cch H (fst r)).
(** The same with the prefix given by its hash and its length. *)
Lemma OH' : forall n, OH n -> forall H o v p m a b an, Val n H o v -> plain H o \/ (whole H o /\ p = 0) -> p + m <= length v ->
  b = hv a -> an = length a ->
  Runs (fun f => others_hash hd hc f H b an o p m) (fun r => snd r = hv (a ++ firstn m (skipn p v)) /\ Cch H (fst r)).
Proof. intros n O H o v p m a b an V P L -> ->. apply O; auto. Qed.
Lemma runs_done : forall (H : heap) (x y : Z), x = y -> Runs (fun _ : nat => Ok (H, x)) (fun r => snd r = y /\ Cch H (fst r)).
Proof. intros. apply Runs_ret. split; auto. apply cch_refl. Qed.
Lemma runs_cch : forall (H H1 : heap) (x : Z) (gg : nat -> res (heap * Z)), Cch H H1 -> Runs gg (fun r => snd r = x /\ Cch H1 (fst r)) ->
  Runs gg (fun r => snd r = x /\ Cch H (fst r)).
Proof. intros. eapply Runs_mono; [eassumption|]. cbn. intros r [A B]. split; auto. eapply cch_trans; eauto. Qed.
Lemma runs_hv : forall (H : heap) (x y : list Z) (gg : nat -> res (heap * Z)), Runs gg (fun r => snd r = hv x /\ Cch H (fst r)) -> x = y ->
  Runs gg (fun r => snd r = hv y /\ Cch H (fst r)).
Proof. intros. subst. auto. Qed.

Lemma hash_step : forall n, GH n -> OH n -> GH (S n) /\ (GH (S n) -> OH (S n)).
Proof.
  intros n IG IO. split.
  - intros H o v V W. apply Runs_S. cbn [get_hash].
    eapply Runs_bind; [apply Runs_eqn, (deref_run V)|]. intros o1 [(R & V1 & Rs) [f1 E1]].
    destruct (deref_fwds E1) as [Fw _]. assert (W1 := whole_fwds Fw W). clear E1 f1 V W R Fw o.
    rename o1 into o.
    destruct (Val_cell V1) as (k & c & N). destruct (Val1 V1 N) as (ws & F & S & Ck). assert (K := whole_inv W1 N). rewrite N.
    assert (Vo : Vok H o v) by (exists (Datatypes.S n); exact V1).
    destruct c as [h|]; [apply Runs_ret; split; [exact Ck|apply cch_refl]|].
    match goal with |- Runs (fun f => rb (@?gg f) _) _ => assert (D : Runs gg (fun r => snd r = hv v /\ Cch H (fst r))) end.
    2:{ eapply Runs_bind; [exact D|]. intros [H1 h] [A B]. cbn [fst snd] in A, B. subst h.
        destruct (cc_cell B N) as (c' & N1 & _). unfold set_cache. rewrite (kd_eq N1). cbn [rb]. apply Runs_ret. split; auto.
        cbn [fst]. eapply cch_trans; [exact B|]. eapply cch_set; eauto. eapply Vok_cch; eauto. }
    destruct k as [|d|d|to b k|to tn d cap|to tn d cap|x y xn yn|to tn p k|to x tn p k|k ch|to]; cbn [wholek] in K.
    + shp. subst. apply runs_done. reflexivity.
    + shp. subst. apply runs_done. reflexivity.
    + shp. subst. apply runs_done. reflexivity.
    + inversion F as [|? w ? ? Vt F0]; subst. inversion F0; subst. cbn [shape] in S. destruct S as [L ->].
      eapply runs_hv; [apply (@OH' n IO H to w b k []); auto|reflexivity].
      destruct K as [K [->|K']]; auto.
    + inversion F as [|? w ? ? Vt F0]; subst. inversion F0; subst. cbn [shape] in S. destruct S as (L1 & L2 & ->).
      destruct (Nat.eqb_spec (length d) 0) as [E|E].
      * destruct d; [|discriminate]. apply IG; auto.
      * destruct (Nat.eqb_spec tn 0) as [E'|E'].
        -- destruct w; [|cbn in *; lia]. rewrite app_nil_r. apply runs_done. reflexivity.
        -- eapply Runs_bind; [apply (IG H to w Vt K)|]. intros [H1 a] [A B]. cbn [fst snd] in *. subst a.
           eapply runs_cch; [exact B|]. apply runs_done. apply hv_merge.
    + inversion F as [|? w ? ? Vt F0]; subst. inversion F0; subst. cbn [shape] in S. destruct S as (L1 & L2 & ->).
      eapply Runs_bind; [apply (IG H to w Vt K)|]. intros [H1 a] [A B]. cbn [fst snd] in *. subst a tn.
      eapply runs_cch; [exact B|]. apply runs_done. apply hv_wcb.
    + inversion F as [|? w ? ? Vx F0]; subst. inversion F0 as [|? u ? ? Vy F1]; subst. inversion F1; subst. cbn [shape] in S. destruct S as (L1 & L2 & ->).
      destruct K as [Kx Ky].
      destruct (Nat.eqb_spec xn 0) as [E|E].
      * destruct w; [|cbn in *; lia]. apply IG; auto.
      * eapply Runs_bind; [apply (IG H x w Vx Kx)|]. intros [H1 a] [A B]. cbn [fst snd] in *. subst a.
        eapply runs_cch; [exact B|]. destruct (Nat.eqb_spec yn 0) as [E'|E'].
        -- destruct u; [|cbn in *; lia]. rewrite app_nil_r. apply runs_done. reflexivity.
        -- eapply Runs_bind; [apply (IG H1 y u (Val_cch B Vy) (whole_cch B Ky))|]. intros [H2 a] [A' B']. cbn [fst snd] in *. subst a xn.
           eapply runs_cch; [exact B'|]. apply runs_done. apply hv_merge.
    + inversion F as [|? w ? ? Vt F0]; subst. inversion F0; subst. cbn [shape] in S. destruct S as (L1 & L2 & ->).
      rewrite Str_Edit.sub_chk_ok by lia. cbn [rb]. rewrite Str_Edit.sub_chk_ok by lia. cbn [rb].
      eapply Runs_bind; [apply (@OH' n IO H to w 0 p []); auto; lia|]. intros [H1 a] [A B]. cbn [fst snd app] in *.
      eapply runs_cch; [exact B|]. eapply runs_hv; [eapply (@OH' n IO H1 to w (p + k) (tn - k - p) (firstn p w)); eauto using Val_cch, plain_cch|].
      * lia. * rewrite firstn_length. lia.
      * f_equal. apply firstn_all2. rewrite skipn_length. lia.
    + inversion F as [|? w ? ? Vt F0]; subst. inversion F0 as [|? u ? ? Vx F1]; subst. inversion F1; subst. cbn [shape] in S. destruct S as (L1 & L2 & L3 & ->).
      destruct K as [Kt Kx].
      assert (A : Runs (fun f => if Nat.eqb p 0 then Ok (H, 0%Z) else others_hash hd hc f H 0%Z 0 to 0 p) (fun r => snd r = hv (firstn p w) /\ Cch H (fst r))).
      { destruct (Nat.eqb_spec p 0) as [->|E]; [apply runs_done; reflexivity|].
        apply (@OH' n IO H to w 0 p []); auto; lia. }
      eapply Runs_bind; [exact A|]. clear A. intros [H1 a] [A B]. cbn [fst snd] in *. subst a. eapply runs_cch; [exact B|].
      eapply Runs_bind; [apply (IG H1 x u (Val_cch B Vx) (whole_cch B Kx))|]. intros [H2 a] [A' B']. cbn [fst snd] in *. subst a.
      eapply runs_cch; [exact B'|]. assert (B2 := cch_trans B B').
      rewrite Str_Edit.sub_chk_ok by lia. cbn [rb].
      assert (E : hmerge hd (hv (firstn p w)) p (hv u) = hv (firstn p w ++ u)).
      { rewrite <- hv_merge. f_equal. rewrite firstn_length. lia. }
      rewrite E. destruct (Nat.eqb_spec (tn - p) 0) as [Z0|Z0].
      * apply runs_done. rewrite (skipn_all2 (n := p)) by lia. rewrite app_nil_r. reflexivity.
      * eapply runs_hv; [eapply (@OH' n IO H2 to w p (tn - p) (firstn p w ++ u)); eauto using Val_cch, plain_cch|].
        -- lia. -- rewrite app_length, firstn_length. lia.
        -- rewrite <- app_assoc. do 2 f_equal. apply firstn_all2. rewrite skipn_length. lia.
    + shp. subst. apply runs_done. apply hv_rep.
    + exfalso. exact (Rs _ _ N).
  - intros G H o v p m a V P L. apply Runs_S. cbn [others_hash].
    eapply Runs_bind; [apply Runs_eqn, (deref_run V)|]. intros o1 [(R & V1 & Rs) [f1 E1]].
    destruct (deref_fwds E1) as [Fw _].
    assert (P1 : plain H o1 \/ (whole H o1 /\ p = 0)).
    { destruct P as [P|[P E]]; [left; eapply plain_fwds; eauto|right; split; auto; eapply whole_fwds; eauto]. }
    assert (W1 : whole H o1) by (destruct P1 as [X|[X _]]; [apply w_plain|]; auto).
    clear E1 f1 V P R Fw o. rename o1 into o.
    destruct (Val_cell V1) as (k & c & N). destruct (Val1 V1 N) as (ws & F & S & Ck). assert (K := whole_inv W1 N). rewrite (kd_eq N). cbn [rb].
    assert (KS : match k with KFwd _ => False | _ => True end) by (exact (Rs _ _ N)).
    rewrite (ksize_val hv S KS). cbn [rb].
    destruct (andb (Nat.eqb p 0) (Nat.eqb m (length v))) eqn:EE.
    { apply andb_prop in EE. destruct EE as [E0 Em]. apply Nat.eqb_eq in E0, Em.
      eapply Runs_bind; [apply (G H o v V1 W1)|]. intros [H1 b] [A B]. cbn [fst snd] in *. subst. eapply runs_cch; [exact B|].
      apply runs_done. cbn [skipn]. rewrite firstn_all. apply hv_merge. }
    clear EE.
    assert (CP : forall q, In q (children k) -> plain H o -> plain H q) by (intros q I; apply (plain_child N I)).
    assert (PC : forall to w j l b an aa, In to (children k) -> Val n H to w -> (plain H o \/ (whole H to /\ j = 0) \/ plain H to) -> j + l <= length w -> b = hv aa -> an = length aa ->
        forall H1, Cch H H1 -> Runs (fun f => others_hash hd hc f H1 b an to j l) (fun r => snd r = hv (aa ++ firstn l (skipn j w)) /\ Cch H1 (fst r))).
    { intros to w j l b an aa I Vt X Lw Eb Ea H1 C. apply (@OH' n IO H1 to w j l aa); auto; [eapply Val_cch; eauto|].
      destruct X as [X|[(X2 & X3)|X]]; [left; eapply plain_cch; eauto|right; split; auto; eapply whole_cch; eauto|left; eapply plain_cch; eauto]. }
    assert (CR := cch_refl H).
    assert (TT : plain H o \/ p = 0) by (destruct P1 as [P1|[P1 P0]]; auto).
    destruct k as [|d|d|to b k|to tn d cap|to tn d cap|x y xn yn|to tn q k|to x tn q k|k ch|to]; cbn [wholek] in K.
    + shp; subst; cbn [length] in L. assert (p = 0) by lia. assert (m = 0) by lia. subst. apply runs_done. cbn. rewrite app_nil_r. reflexivity.
    + shp; subst; rewrite slice_ok by lia; cbn [rb]; apply runs_done; apply hv_wcb.
    + shp; subst; rewrite slice_ok by lia; cbn [rb]; apply runs_done; apply hv_wcb.
    + inversion F as [|? w ? ? Vt F0]; subst; inversion F0; subst; cbn [shape] in S; destruct S as [L1 ->].
      rewrite firstn_length, skipn_length in L.
      eapply runs_hv; [eapply PC; eauto; [left; auto| |lia]|].
      * destruct K as [Kw [->|K']]; [|auto]. destruct TT as [T|T]; [auto|]. right; left; split; auto; lia.
      * f_equal. lsolve.
    + inversion F as [|? w ? ? Vt F0]; subst; inversion F0; subst; cbn [shape] in S; destruct S as (L1 & L2 & ->); rewrite app_length in L.
      destruct (Nat.ltb_spec p (length d)) as [G1|G1].
      * rewrite slice_ok by lia; cbn [rb]; rewrite hv_wcb. destruct (Nat.eqb_spec m (Nat.min (length d - p) m)) as [G2|G2].
        -- apply runs_done. do 2 f_equal. rewrite <- G2. lsolve.
        -- eapply runs_hv; [eapply PC; eauto; [left; auto|lia|rewrite app_length, firstn_length, skipn_length; lia]|].
           rewrite <- app_assoc. f_equal. lsolve.
      * eapply runs_hv; [eapply PC; eauto; [left; auto| |lia]|].
        -- destruct TT as [T|T]; [auto|]. right; left; split; auto; lia.
        -- f_equal. lsolve.
    + inversion F as [|? w ? ? Vt F0]; subst; inversion F0; subst; cbn [shape] in S; destruct S as (L1 & L2 & ->); rewrite app_length in L; subst tn.
      destruct (Nat.leb_spec (p + m) (length w)) as [G1|G1].
      * eapply runs_hv; [eapply PC; eauto; [left; auto|destruct TT as [T|T]; auto]|]. f_equal. lsolve.
      * destruct (Nat.ltb_spec p (length w)) as [G2|G2].
        -- eapply Runs_bind; [eapply PC with (aa := a); eauto; [left; auto|destruct TT as [T|T]; auto|lia]|].
           intros [H1 a1] [A B]; cbn [fst snd] in *; subst a1; rewrite slice_ok by lia; cbn [rb]; eapply runs_cch; [exact B|]; apply runs_done.
           rewrite (firstn_all2 (skipn p w)) by (rewrite skipn_length; lia).
           replace (length a + (length w - p)) with (length (a ++ skipn p w)) by (rewrite app_length, skipn_length; lia). rewrite hv_wcb; f_equal.
           rewrite <- app_assoc; f_equal. lsolve.
        -- rewrite slice_ok by lia; cbn [rb]; apply runs_done; rewrite hv_wcb; do 2 f_equal. lsolve.
    + inversion F as [|? w ? ? Vx F0]; subst; inversion F0 as [|? u ? ? Vy F1]; subst; inversion F1; subst; cbn [shape] in S; destruct S as (L1 & L2 & ->).
      rewrite app_length in L; subst xn yn; destruct K as [Kx Ky].
      destruct (Nat.ltb_spec p (length w)) as [G1|G1].
      * eapply Runs_bind; [eapply PC with (aa := a); eauto; [left; auto|destruct TT as [T|T]; auto|lia]|].
        intros [H1 a1] [A B]; cbn [fst snd] in *; subst a1; eapply runs_cch; [exact B|].
        destruct (Nat.eqb_spec m (Nat.min (p + m) (length w) - p)) as [G2|G2].
        -- apply runs_done; do 2 f_equal; rewrite <- G2. lsolve.
        -- eapply runs_hv; [eapply PC; eauto; [right; left; auto|lia|rewrite app_length, firstn_length, skipn_length; lia]|].
           rewrite <- app_assoc; f_equal. lsolve.
      * eapply runs_hv; [eapply PC; eauto; [right; left; auto| |lia]|].
        -- destruct TT as [T|T]; [auto|]. right; left; split; auto; lia.
        -- f_equal. lsolve.
    + inversion F as [|? w ? ? Vt F0]; subst; inversion F0; subst; cbn [shape] in S; destruct S as (L1 & L2 & ->).
      rewrite app_length, firstn_length, skipn_length in L; subst tn.
      destruct (Nat.ltb_spec (p + m) q) as [G1|G1].
      * eapply runs_hv; [eapply PC; eauto; [left; auto|lia]|]. f_equal. lsolve.
      * destruct (Nat.leb_spec q p) as [G2|G2].
        -- eapply runs_hv; [eapply PC; eauto; [left; auto|lia]|]. f_equal. lsolve.
        -- eapply Runs_bind; [eapply PC with (aa := a); eauto; [left; auto|lia]|].
           intros [H1 a1] [A B]; cbn [fst snd] in *; subst a1; eapply runs_cch; [exact B|].
           eapply runs_hv; [eapply PC; eauto; [left; auto|lia|rewrite app_length, firstn_length, skipn_length; lia]|].
           rewrite <- app_assoc; f_equal. lsolve.
    + destruct P1 as [P1|[P1 P0]]; [exfalso; exact (P1 o _ _ (r_refl H o) N)|]. subst p.
      inversion F as [|? w ? ? Vt F0]; subst. inversion F0 as [|? u ? ? Vx F1]; subst. inversion F1; subst. cbn [shape] in S. destruct S as (L1 & L2 & L3 & ->).
      rewrite !app_length, firstn_length, skipn_length in L. subst tn k. destruct K as [Kt Kx]. cbn [Nat.add] in *.
      destruct (Nat.ltb_spec m q) as [G1|G1].
      * eapply runs_hv; [eapply PC; eauto; [left; auto|cbn; lia]|]. f_equal. cbn [skipn]. rewrite firstn_app, firstn_firstn, firstn_length.
        replace (Nat.min m q) with m by lia. replace (m - Nat.min q (length w)) with 0 by lia. rewrite firstn_O, app_nil_r. reflexivity.
      * destruct (Nat.ltb_spec (q + length u) 0) as [?|_]; [lia|]. rewrite Nat.sub_0_r.
        assert (A : Runs (fun f => if Nat.ltb 0 q then others_hash hd hc f H (hv a) (length a) to 0 q else Ok (H, hv a)) (fun r => snd r = hv (a ++ firstn q w) /\ Cch H (fst r))).
        { destruct (Nat.ltb_spec 0 q) as [G2|G2]; [apply (PC to w 0 q (hv a) (length a) a); auto; left; auto|].
          replace q with 0 by lia. apply runs_done. cbn. rewrite app_nil_r. reflexivity. }
        eapply Runs_bind; [exact A|]. clear A. intros [H1 a1] [A B]. cbn [fst snd] in *. subst a1. eapply runs_cch; [exact B|].
        eapply Runs_bind; [eapply PC with (aa := a ++ firstn q w); eauto; [right; left; auto|cbn; lia|rewrite app_length, firstn_length; lia]|].
        intros [H2 a1] [A2 B2]. cbn [fst snd skipn] in *. subst a1. eapply runs_cch; [exact B2|].
        destruct (Nat.eqb_spec (m - q - Nat.min (m - q) (length u)) 0) as [G2|G2].
        -- apply runs_done. rewrite <- app_assoc. do 2 f_equal. rewrite firstn_app, firstn_firstn, firstn_length. replace (Nat.min m q) with q by lia.
          replace (m - Nat.min q (length w)) with (m - q) by lia. rewrite firstn_app. replace (m - q - length u) with 0 by lia.
          rewrite firstn_O, app_nil_r. replace (Nat.min (m - q) (length u)) with (m - q) by lia. reflexivity.
        -- eapply runs_hv; [eapply PC; eauto using cch_trans; [left; auto|lia|rewrite !app_length, !firstn_length; lia]|].
          rewrite <- !app_assoc. f_equal. rewrite firstn_app, firstn_firstn, firstn_length. replace (Nat.min m q) with q by lia.
          replace (m - Nat.min q (length w)) with (m - q) by lia. rewrite firstn_app.
          rewrite (firstn_all2 (n := m - q)) by lia. rewrite (firstn_all2 (n := Nat.min (m - q) (length u))) by lia.
          replace (Nat.min (m - q) (length u)) with (length u) by lia. reflexivity.
    + shp; subst. apply runs_done. rewrite hv_rep, hv_merge; do 2 f_equal; rewrite repeat_length in L. lsolve.
    + exfalso. exact KS.
Qed.
Lemma hash_all : forall n, GH n /\ OH n.
Proof.
  induction n as [|n [A B]]; [split; intros H o v; [|intros p m a]; intros []|].
  destruct (hash_step A B) as [C D]. split; auto.
Qed.
Lemma get_hash_run : forall H o v, Vok H o v -> whole H o ->
  Runs (fun f => get_hash hd hc f H o) (fun r => snd r = hv v /\ Cch H (fst r)).
Proof. intros H o v [n V] W. apply (proj1 (hash_all n)); auto. Qed.
End Hashing.
