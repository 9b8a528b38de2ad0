(** Comparing string nodes: the result is that of the contents, and no content
    changes. *)
From Verif Require Import Base Ref_Model Ref_Proofs List_Model Str_Model Str_Cmp_Model Str_Heap Str_Own Str_Read Str_Ctx Str_Api_Model Str_Obs.
Local Open Scope res_scope.
Local Open Scope nat_scope.

(** ** Comparing arrays *)
Fixpoint lexz (a b : list Z) : comparison :=
  match a, b with
  | [], [] => Eq
  | [], _ => Lt
  | _, [] => Gt
  | x :: a', y :: b' => match Z.compare x y with Eq => lexz a' b' | c => c end
  end.
Lemma lexz_eq : forall a b, lexz a b = Eq <-> a = b.
Proof.
  induction a as [|x a IH]; intros [|y b]; cbn; split; intros E; try discriminate; auto.
  - destruct (Z.compare_spec x y); try discriminate. subst. f_equal. apply IH. auto.
  - injection E as -> ->. rewrite Z.compare_refl. apply IH. auto.
Qed.
Lemma lexz_refl : forall a, lexz a a = Eq.
Proof. intros. apply lexz_eq. auto. Qed.
Lemma cmp_ptr_run : forall a b, length a = length b -> cmp_ptr a b = Ok (lexz a b).
Proof.
  induction a as [|x a IH]; intros [|y b] L; cbn in *; try discriminate; auto. destruct (Z.compare x y); auto.
Qed.
Lemma lexz_app : forall a b c d, length a = length b -> lexz (a ++ c) (b ++ d) = match lexz a b with Eq => lexz c d | r => r end.
Proof.
  induction a as [|x a IH]; intros [|y b] c d L; cbn in *; try discriminate; auto. destruct (Z.compare x y); auto.
Qed.
Lemma lexz_rep : forall c d n, 0 < n -> lexz (repeat c n) (repeat d n) = Z.compare c d.
Proof.
  intros c d n L. destruct n as [|n]; [lia|]. clear L. cbn. destruct (Z.compare_spec c d) as [->|E|E]; auto. apply lexz_refl.
Qed.
Lemma split_seg : forall (v : list Z) i m n, m <= n -> firstn n (skipn i v) = firstn m (skipn i v) ++ firstn (n - m) (skipn (i + m) v).
Proof.
  intros v i m n L. replace (skipn (i + m) v) with (skipn m (skipn i v)) by lsolve. generalize (skipn i v). clear v i. revert n L.
  induction m as [|m IH]; intros n L s; cbn [firstn skipn]; [rewrite Nat.sub_0_r; auto|]. destruct n as [|n]; [lia|]. destruct s as [|c s]; cbn [firstn skipn List.app].
  - rewrite firstn_nil. auto.
  - f_equal. apply IH. lia.
Qed.

(** ** Blocks *)
Definition Blk (v : list Z) (i : nat) (a : list Z) : Prop := exists r, skipn i v = a ++ r /\ (a = [] -> r = []).
Lemma blk_len : forall v i a, Blk v i a -> length a <= length v - i.
Proof. intros v i a (r & E & _). apply (f_equal (@length Z)) in E. llen. lia. Qed.
Lemma blk_pos : forall v i a, Blk v i a -> i < length v -> 0 < length a.
Proof.
  intros v i a (r & E & N) L. destruct a; cbn; [|lia]. rewrite N in E by auto. apply (f_equal (@length Z)) in E. llen. lia.
Qed.
Lemma blk_first : forall v i a m, Blk v i a -> m <= length a -> firstn m a = firstn m (skipn i v).
Proof. intros v i a m (r & E & _) L. rewrite E. rewrite firstn_app. replace (m - length a) with 0 by lia. cbn. rewrite app_nil_r. auto. Qed.
Lemma blk_skip : forall v i a m, Blk v i a -> m < length a -> Blk v (i + m) (skipn m a).
Proof.
  intros v i a m (r & E & N) L. exists r. split.
  - replace (skipn (i + m) v) with (skipn m (skipn i v)) by lsolve. rewrite E. rewrite skipn_app. replace (m - length a) with 0 by lia. auto.
  - intros E0. apply (f_equal (@length Z)) in E0. llen. lia.
Qed.
Lemma blk_empty : forall v i a, Blk v i a -> length a = 0 -> length v <= i.
Proof.
  intros v i a (r & E & N) L. destruct a; [|discriminate]. rewrite N in E by auto. apply (f_equal (@length Z)) in E. llen. lia.
Qed.
Definition blkk (k : kind) : Prop := match k with KErase _ _ _ _ => False | _ => True end.
Lemma allk_edge : forall P H o c, allk P H o -> edge H o c -> allk P H c.
Proof. intros P H o c A E q k h R N. eapply A; [eapply r_step; eauto|eauto]. Qed.
Lemma allk_reach : forall P H o c, allk P H o -> reach H o c -> allk P H c.
Proof. intros P H o c A E q k h R N. eapply A; [eapply reach_trans; eauto|eauto]. Qed.

Ltac shp := repeat match goal with
  | X : Forall2 _ (children _) _ |- _ => cbn [children] in X
  | X : Forall2 _ (_ :: _) _ |- _ => inversion X; subst; clear X
  | X : Forall2 _ [] _ |- _ => inversion X; subst; clear X
  | X : shape _ _ _ |- _ => cbn [shape] in X
  | X : _ /\ _ |- _ => destruct X
  end.
Section Cmp.
Variable hv : list Z -> Z.
Notation Val := (Val hv).
Notation Vok := (Vok hv).
Notation nullok := (nullok hv).
Notation Keep := (Keep hv).

Lemma runs_blk : forall (g : nat -> res (list Z)) (Q Q' : list Z -> Prop), Runs g Q -> (forall a, Q a -> Q' a) -> Runs g Q'.
Proof. intros. eapply Runs_mono; eauto. Qed.
Lemma block_run : forall n H o v i, Val n H o v -> allk blkk H o -> i <= length v -> Runs (fun f => block f H o i) (Blk v i).
Proof.
  induction n as [|n IH]; intros H o v i V A L; [contradiction|].
  destruct (Val_cell V) as (k & c & E). destruct (Val1 V E) as (ws & F & S & O). clear V.
  assert (B := A o k c (r_refl H o) E).
  apply Runs_S. cbn [block]. rewrite (kd_eq E). cbn [rb].
  assert (R : forall to w i', Val n H to w -> In to (children k) -> i' <= length w -> Runs (fun f => block f H to i') (Blk w i')).
  { intros to w i' Vw Ic Li. apply IH; auto. eapply allk_edge; eauto. exists k, c. auto. }
  clear IH A.
  assert (Leaf : forall d i, i <= length d -> Runs (fun _ => slice d i (length d - i)) (Blk d i)).
  { clear. intros d i Ld. rewrite slice_ok by lia. apply Runs_ret. exists []. rewrite firstn_all2 by (llen; lia). rewrite app_nil_r. auto. }
  destruct k as [|d|d|to b m|to tn d cap|to tn d cap|x y xn yn|to tn p m|to x tn p m|m ch|to]; shp; subst; cbn [In children] in R; llen; try contradiction.
  - apply Runs_ret. exists []. destruct i; [|lia]. auto.
  - apply Leaf; auto.
  - apply Leaf; auto.
  - eapply Runs_bind; [eapply R; eauto; lia|]. intros a (r & Ea & N). unfold sub_chk.
    destruct (Nat.leb_spec i m); [|lia]. cbn [rb]. apply Runs_ret.
    match goal with X : skipn _ ?w = a ++ r |- _ => set (w0 := w) in * end.
    exists (firstn (m - i - Nat.min (length a) (m - i)) (skipn (Nat.min (length a) (m - i)) (a ++ r))). split.
    + rewrite <- Ea. replace (firstn (Nat.min (length a) (m - i)) a) with (firstn (Nat.min (length a) (m - i)) (skipn (b + i) w0)).
      * assert (Ll := f_equal (@length Z) Ea). llen. lsolve.
      * rewrite Ea, firstn_app. replace (Nat.min (length a) (m - i) - length a) with 0 by lia. cbn. rewrite app_nil_r. auto.
    + intros E0. apply (f_equal (@length Z)) in E0. llen. destruct (Nat.eq_dec (m - i) 0) as [->|]; [reflexivity|].
      assert (La : length a = 0) by lia. destruct a; [|discriminate]. rewrite N by auto. cbn. rewrite firstn_nil. auto.
  - destruct (Nat.leb_spec (length d) i).
    + eapply runs_blk; [eapply R; eauto; lia|]. intros a (r & Ea & N). exists r. split; auto. rewrite <- Ea. lsolve.
    + apply Runs_ret. match goal with |- Blk (d ++ ?w) _ _ => exists w end. split; [lsolve|]. intros E0. apply (f_equal (@length Z)) in E0. llen. lia.
  - match goal with |- context[Nat.ltb i ?t] => destruct (Nat.ltb_spec i t) end.
    + eapply runs_blk; [eapply R; eauto; lia|]. intros a (r & Ea & N). exists (r ++ d). split.
      * rewrite (app_assoc a), <- Ea. lsolve.
      * intros ->. exfalso. rewrite N in Ea by auto. apply (f_equal (@length Z)) in Ea. llen. lia.
    + eapply runs_blk; [eapply Leaf; llen; lia|]. intros a (r & Ea & N). exists r. split; auto. rewrite <- Ea. lsolve.
  - match goal with |- context[Nat.ltb i ?t] => destruct (Nat.ltb_spec i t) end.
    + eapply runs_blk; [eapply R; eauto; lia|]. intros a (r & Ea & N). match goal with |- Blk (_ ++ ?u) _ _ => exists (r ++ u) end. split.
      * rewrite (app_assoc a), <- Ea. lsolve.
      * intros ->. exfalso. rewrite N in Ea by auto. apply (f_equal (@length Z)) in Ea. llen. lia.
    + eapply runs_blk; [eapply R; eauto; lia|]. intros a (r & Ea & N). exists r. split; auto. rewrite <- Ea. lsolve.
  - match goal with |- Runs _ (Blk (firstn p ?w ++ ?u ++ _) _) => set (w0 := w) in *; set (u0 := u) in * end.
    destruct (Nat.leb_spec p i); cbn [andb].
    + destruct (Nat.ltb_spec i (p + length u0)).
      * eapply runs_blk; [eapply R; eauto; lia|]. intros a (r & Ea & N). exists (r ++ skipn p w0). split.
        -- rewrite (app_assoc a), <- Ea. lsolve.
        -- intros ->. exfalso. rewrite N in Ea by auto. apply (f_equal (@length Z)) in Ea. llen. lia.
      * destruct (Nat.leb_spec (p + length u0) i); [|lia]. eapply runs_blk; [eapply R; eauto; lia|]. intros a (r & Ea & N). exists r. split; auto. rewrite <- Ea. lsolve.
    + destruct (Nat.leb_spec (p + length u0) i); [lia|]. eapply Runs_bind; [eapply R; eauto; lia|]. intros a (r & Ea & N). apply Runs_ret.
      assert (Ll := f_equal (@length Z) Ea). llen.
      assert (Na : a <> []). { intros ->. rewrite N in Ll by auto. cbn in Ll. lia. }
      destruct (Nat.ltb_spec p (length a + i)).
      * exists (u0 ++ skipn p w0). split.
        -- replace (firstn (p - i) a) with (firstn (p - i) (skipn i w0)); [lsolve|]. rewrite Ea, firstn_app. replace (p - i - length a) with 0 by lia. cbn. rewrite app_nil_r. auto.
        -- intros E0. apply (f_equal (@length Z)) in E0. llen. destruct a; cbn in *; try congruence. lia.
      * exists (firstn (p - i - length a) r ++ u0 ++ skipn p w0). split; [|intros; contradiction].
        replace (a ++ firstn (p - i - length a) r ++ u0 ++ skipn p w0) with (firstn (p - i) (a ++ r) ++ u0 ++ skipn p w0).
        -- rewrite <- Ea. lsolve.
        -- rewrite firstn_app. rewrite (firstn_all2 (n := p - i) a) by lia. rewrite <- app_assoc. auto.
  - unfold sub_chk. destruct (Nat.leb_spec i m); [|lia]. cbn [rb]. apply Runs_ret. exists (repeat ch (m - i - Nat.min (m - i) 512)). split.
    + rewrite <- repeat_app. replace (Nat.min (m - i) 512 + (m - i - Nat.min (m - i) 512)) with (m - i) by lia. lsolve.
    + intros E0. apply (f_equal (@length Z)) in E0. rewrite repeat_length in E0. cbn [length] in E0. replace (m - i) with 0 by lia. reflexivity.
  - eapply R; eauto.
Qed.

Variable dear : heap -> nat -> nat -> bool.
Variable q : bool.
Lemma next_blk : forall n H x v i a m, Val n H x v -> allk blkk H x -> Blk v i a -> m <= length a -> i + m <= length v ->
  Runs (fun f => if Nat.eqb (length a) m then block f H x (i + m) else Ok (skipn m a)) (Blk v (i + m)).
Proof.
  intros n H x v i a m V A B L Li. destruct (Nat.eqb_spec (length a) m).
  - eapply block_run; eauto.
  - apply Runs_ret. apply blk_skip; auto. lia.
Qed.
Lemma cmp_loop_run : forall n H x y v w nv nw i a b, Val nv H x v -> Val nw H y w -> allk blkk H x -> allk blkk H y ->
  i + n <= length v -> i + n <= length w -> Blk v i a -> Blk w i b -> (q = false -> (length v = i + n <-> length w = i + n)) ->
  Runs (fun f => cmp_loop q f H x y i a b n) (fun r => r = lexz (firstn n (skipn i v)) (firstn n (skipn i w))).
Proof.
  induction n as [n IH] using (well_founded_induction lt_wf). intros H x y v w nv nw i a b Vx Vy Ax Ay Lv Lw Ba Bb Q.
  apply Runs_S. cbn [cmp_loop]. destruct (Nat.eqb_spec n 0) as [->|N0].
  - apply runs_ret. reflexivity.
  - assert (Pa := blk_pos Ba ltac:(lia)). assert (Pb := blk_pos Bb ltac:(lia)).
    set (m := Nat.min (Nat.min (length a) (length b)) n).
    assert (M : 0 < m /\ m <= length a /\ m <= length b /\ m <= n) by (unfold m; lia). clearbody m. destruct M as (M0 & M1 & M2 & M3).
    rewrite (blk_first Ba M1), (blk_first Bb M2).
    rewrite cmp_ptr_run by (llen; lia). cbn [rb].
    rewrite (split_seg v i M3), (split_seg w i M3), lexz_app by (llen; lia).
    destruct (lexz (firstn m (skipn i v)) (firstn m (skipn i w))) eqn:El; [|apply runs_ret; auto|apply runs_ret; auto].
    eapply Runs_bind; [eapply next_blk; eauto; lia|]. intros a' Ba'.
    eapply Runs_bind; [eapply next_blk; eauto; lia|]. intros b' Bb'.
    assert (Go : Runs (fun f => cmp_loop q f H x y (i + m) a' b' (n - m)) (fun r => r = lexz (firstn (n - m) (skipn (i + m) v)) (firstn (n - m) (skipn (i + m) w)))).
    { eapply IH; eauto; try lia. }
    assert (End0 : length v = i + n -> length w = i + n -> n - m = 0 -> length a' = 0 /\ length b' = 0).
    { intros E1 E2 E3. assert (X := blk_len Ba'). assert (Y := blk_len Bb'). lia. }
    destruct (Nat.eqb_spec (length a') 0) as [Ea|Ea]; destruct (Nat.eqb_spec (length b') 0) as [Eb|Eb]; cbn [andb orb].
    + assert (Xa := blk_empty Ba' Ea). assert (n - m = 0) by lia. replace (n - m) with 0 by lia. destruct q; rewrite Ea, Eb; apply runs_ret; auto.
    + destruct q; [exact Go|]. exfalso. assert (Xa := blk_empty Ba' Ea). assert (length v = i + n) by lia. assert (length w = i + n) by (apply Q; auto).
      destruct End0; auto. lia.
    + destruct q; [exact Go|]. exfalso. assert (Xb := blk_empty Bb' Eb). assert (length w = i + n) by lia. assert (length v = i + n) by (apply Q; auto).
      destruct End0; auto. lia.
    + destruct q; exact Go.
Qed.
Lemma cmp_part_run : forall H x y v w p n, Vok H x v -> Vok H y w -> allk blkk H x -> allk blkk H y -> p + n <= length v -> p + n <= length w ->
  (q = false -> (length v = p + n <-> length w = p + n)) ->
  Runs (fun f => cmp_part q f H x y p n) (fun r => r = lexz (firstn n (skipn p v)) (firstn n (skipn p w))).
Proof.
  intros H x y v w p n [nv Vx] [nw Vy] Ax Ay Lv Lw Q. unfold cmp_part.
  eapply Runs_bind; [apply (deref_run Vx)|]. intros x1 (Rx & Vx1 & _).
  eapply Runs_bind; [apply (deref_run Vy)|]. intros y1 (Ry & Vy1 & _).
  destruct (Nat.eqb_spec x1 y1) as [<-|D].
  - apply runs_ret. replace w with v; [symmetry; apply lexz_refl|]. eapply Val_det; eauto.
  - assert (Ax1 := allk_reach Ax Rx). assert (Ay1 := allk_reach Ay Ry).
    eapply Runs_bind; [eapply block_run with (i := p); eauto; lia|]. intros a Ba.
    eapply Runs_bind; [eapply block_run with (i := p); eauto; lia|]. intros b Bb.
    eapply cmp_loop_run; eauto.
Qed.
Lemma view_loop_run : forall n H x v nv i a d, Val nv H x v -> allk blkk H x -> i <= length v -> length v - i = n -> length d = n -> Blk v i a ->
  Runs (fun f => view_loop f H x i a d) (fun r => r = lexz (skipn i v) d).
Proof.
  induction n as [n IH] using (well_founded_induction lt_wf). intros H x v nv i a d Vx Ax Li Ln Ld Ba.
  apply Runs_S. cbn [view_loop]. set (m := Nat.min (length a) (length d)). assert (La := blk_len Ba).
  assert (M : m <= length a /\ m <= length d) by (unfold m; lia). destruct M as [M1 M2].
  assert (M3 : 0 < n -> 0 < m). { intros P. assert (Pa := blk_pos Ba ltac:(lia)). unfold m. lia. }
  rewrite (blk_first Ba M1). rewrite cmp_ptr_run by (llen; lia). cbn [rb].
  replace (lexz (skipn i v) d) with (lexz (firstn m (skipn i v) ++ skipn (i + m) v) (firstn m d ++ skipn m d)).
  2:{ f_equal; [|apply firstn_skipn]. replace (skipn (i + m) v) with (skipn m (skipn i v)) by lsolve. apply firstn_skipn. }
  rewrite lexz_app by (llen; lia).
  destruct (lexz (firstn m (skipn i v)) (firstn m d)) eqn:El; [|apply runs_ret; auto|apply runs_ret; auto].
  eapply Runs_bind; [eapply next_blk; eauto; lia|]. intros a' Ba'. assert (La' := blk_len Ba').
  destruct (orb (Nat.eqb (length a') 0) (Nat.eqb (length (skipn m d)) 0)) eqn:Z0.
  - apply runs_ret. assert (X : length v <= i + m /\ length (skipn m d) = 0).
    { apply orb_prop in Z0. destruct Z0 as [Z0|Z0]; apply Nat.eqb_eq in Z0.
      - assert (Y := blk_empty Ba' Z0). llen. lia.
      - llen. lia. }
    destruct X as [X Y]. rewrite (skipn_all2 (n := i + m) v) by lia. destruct (skipn m d); [|discriminate].
    cbn [length]. replace (length a') with 0 by lia. auto.
  - apply orb_false_iff in Z0. destruct Z0 as [Z1 Z2]. apply Nat.eqb_neq in Z1. apply Nat.eqb_neq in Z2. llen.
    eapply IH with (y := n - m); eauto; try lia; llen; try lia.
Qed.
Lemma cmp_view_run : forall H o v d, Vok H o v -> allk blkk H o ->
  Runs (fun f => cmp_view f H o d) (fun r => r = match Nat.compare (length v) (length d) with Eq => lexz v d | c => c end).
Proof.
  intros H o v d [n V] A. unfold cmp_view.
  eapply Runs_bind; [apply (deref_run V)|]. intros x (Rx & Vx & _).
  eapply Runs_bind; [apply (size_run (ex_intro _ n Vx))|]. intros l ->.
  destruct (Nat.compare_spec (length v) (length d)) as [E|E|E]; [|apply runs_ret; auto|apply runs_ret; auto].
  assert (Ax := allk_reach A Rx).
  eapply Runs_bind; [eapply block_run with (i := 0); eauto; lia|]. intros a Ba.
  change v with (skipn 0 v) at 1. eapply (@view_loop_run (length d)); eauto; lia.
Qed.
End Cmp.
