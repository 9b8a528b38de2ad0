(** Appending to and prepending to string nodes. *)
From Verif Require Import Base Ref_Model Ref_Proofs List_Model Str_Model Str_Heap Str_Own Str_Read.
Local Open Scope res_scope.
Local Open Scope nat_scope.

Ltac shp := repeat match goal with
  | X : Forall2 _ (children _) _ |- _ => cbn [children] in X
  | X : Forall2 _ (_ :: _) _ |- _ => inversion X; subst; clear X
  | X : Forall2 _ [] _ |- _ => inversion X; subst; clear X
  | X : shape _ _ _ |- _ => cbn [shape] in X
  | X : _ /\ _ |- _ => destruct X
  end.

Section Apply.
Variable hv : list Z -> Z.
Variable uq : heap -> list nat -> nat -> bool.
Variable gold : nat -> nat.
Hypothesis uq_ok : forall H roots o, uq H roots o = true -> single H roots o.
Hypothesis gold_ok : forall n, n <= gold n.
Notation Val := (Val hv).
Notation Vok := (Vok hv).
Notation Pre := (Pre hv).
Notation Post := (Post hv).
Notation nullok := (nullok hv).
Notation Fresh := (Fresh hv).

Definition app (e : bool) (v s : list Z) : list Z := if e then v ++ s else s ++ v.

Lemma put_val : forall n H o k ws v, o < length H -> Forall2 (Val n H) (children k) ws -> shape k ws v ->
  Forall (fun c => ~ reach H c o) (children k) -> Val (S n) (put H o k) o v.
Proof.
  intros n H o k ws v L F S A. exists k, None, ws. split; [apply put_at; auto|split; [exact I|split; [|auto]]].
  rewrite Forall_forall in A. revert F. apply Forall2_impl2. intros c w I V.
  eapply Val_agree; [exact V|]. intros q R. apply put_other. intros ->. eapply A; eauto.
Qed.
Lemma not_null : forall H o k c, nullok H -> nth_error H o = Some (k, c) -> k <> KNull -> o <> 0.
Proof. intros H o k c (h & E & _) E' N ->. congruence. Qed.
Lemma sameK_id : forall k k0, sameK k k0 -> children k = [] -> k0 = k.
Proof. intros k k0 (l & L & ->) E. rewrite E in L. destruct l; [|discriminate]. destruct k; auto. Qed.

Definition isHE (e : bool) (k : kind) : Prop :=
  match k with KHead _ _ _ _ => e = false | KEnd _ _ _ _ => e = true | _ => False end.
Lemma sameK_HE : forall e k k0, sameK k k0 -> isHE e k -> isHE e k0.
Proof. intros e k k0 (l & L & ->) X. destruct k; try contradiction; destruct l as [|a [|]]; cbn in *; auto; lia. Qed.

Definition MergeOk (n : nat) : Prop := forall H roots e o v k c,
  Val n H o v -> Pre H roots o v -> single H roots o -> nth_error H o = Some (k, c) -> isHE e k ->
  Runs (fun f => merge uq gold f H roots o) (fun H' =>
    Post H roots [] o H' [o] [v] /\ Val n H' o v /\ exists k' c', nth_error H' o = Some (k', c') /\ isHE e k').

Lemma in_one : forall (P : nat -> Prop) a, P a -> Forall P [a].
Proof. intros; constructor; auto. Qed.

Lemma apply_same : forall n, MergeOk n -> forall H roots e o v k c s,
  Val n H o v -> Pre H roots o v -> uq H roots o = true -> nth_error H o = Some (k, c) -> isHE e k ->
  Runs (fun f => apply_v uq gold f H roots e o s) (fun r => snd r = o /\
    Post H roots [] o (fst r) [o] [app e v s] /\ Val n (fst r) o (app e v s) /\
    exists k' c', nth_error (fst r) o = Some (k', c') /\ isHE e k').
Proof.
  intros n M H roots e o v k c s V P U E X. destruct n as [|n]; [contradiction|].
  assert (Sg := uq_ok U). apply Runs_S. cbn [apply_v]. rewrite (kd_eq E). cbn [rb]. rewrite U.
  eapply Runs_bind; [apply (settle_run V P Sg E)|]. intros [H0 k0] (SK & L0 & Oth & E0 & V0 & (ws & F & Sh) & Rs & P0 & Pr0 & S0).
  assert (X0 := sameK_HE SK X).
  assert (O0 : o <> 0). { eapply not_null; [apply Pr0|exact E0|]. intros ->. destruct X0. }
  assert (LO : o < length H0) by (apply nth_error_Some; congruence).
  assert (G : forall k' v', children k' = children k0 -> shape k' ws v' -> v' = app e v s -> isHE e k' ->
    Runs (fun f => H2 <- merge uq gold f (put H0 o k') roots o;; Ok (H2, o)) (fun r => snd r = o /\
    Post H roots [] o (fst r) [o] [app e v s] /\ Val (S n) (fst r) o (app e v s) /\
    exists k' c', nth_error (fst r) o = Some (k', c') /\ isHE e k')).
  { intros k' v' Ek Sh' -> X'.
    assert (FV : Forall2 (Vok H0) (children k0) ws) by (eapply Forall2_Val_Vok; eauto).
    assert (P1 : Post H0 roots [] o (put H0 o k') [o] [app e v s]).
    { apply (step_here [] (k':=k') (ws':=ws) Pr0 S0 O0 E0 FV); auto.
      - rewrite Ek. auto.
      - rewrite Ek. auto. }
    assert (V1 : Val (S n) (put H0 o k') o (app e v s)).
    { eapply put_val; eauto; rewrite Ek; auto. rewrite Forall_forall. intros x I.
      eapply acyc_self; [apply Pr0|]. exists k0, c. auto. }
    assert (Pr1 := post_pre Pr0 P1). assert (S1 := post_single Pr0 S0 P1).
    eapply Runs_bind; [apply (M _ _ e _ _ k' None V1 Pr1 S1); auto; apply put_at; auto|].
    intros H2 (P2 & V2 & Ex). apply Runs_ret. cbn [fst snd]. split; auto. split; auto.
    apply (post_trans P Sg (@Argok_nil H roots o) P0).
    apply (post_trans Pr0 S0 (@Argok_nil H0 roots o) P1 P2). }
  destruct k0; cbn [isHE] in X0; try contradiction; subst e; shp; subst;
    (eapply G; [reflexivity| |reflexivity|reflexivity]); cbn [shape app]; llen;
    repeat split; rewrite ?app_assoc; auto;
    match goal with |- context[Nat.leb ?a ?b] => destruct (Nat.leb_spec a b) end;
    try match goal with |- context[gold ?n] => pose proof (gold_ok n) end; lia.
Qed.

Lemma merge_S : forall f H roots o, merge uq gold (S f) H roots o =
    '(H0, k) <- settle f H o ;;
    match k with
    | KHead p _ d _ =>
      kp <- kd H0 p ;;
      match kp with
      | KHead _ _ _ _ =>
        if uq H0 roots p then
          '(H1, _) <- apply_v uq gold f H0 roots false p d ;;
          k1 <- kd H1 p ;;
          match k1 with
          | KHead to1 tn1 d1 cap1 => merge uq gold f (put H1 o (KHead to1 tn1 d1 cap1)) roots o
          | _ => Ub
          end
        else Ok H0
      | _ => Ok H0
      end
    | KEnd p _ d _ =>
      kp <- kd H0 p ;;
      match kp with
      | KEnd _ _ _ _ =>
        if uq H0 roots p then
          '(H1, _) <- apply_v uq gold f H0 roots true p d ;;
          k1 <- kd H1 p ;;
          match k1 with
          | KEnd to1 tn1 d1 cap1 => merge uq gold f (put H1 o (KEnd to1 tn1 d1 cap1)) roots o
          | _ => Ub
          end
        else Ok H0
      | _ => Ok H0
      end
    | _ => Ub
    end.
Proof. reflexivity. Qed.

Lemma merge_ok : forall n, MergeOk n.
Proof.
  induction n as [|n M]; intros H roots e o v k c V P Sg E X; [contradiction|].
  apply Runs_S. eapply Runs_ext; [intros f; symmetry; apply merge_S|].
  eapply Runs_bind; [apply (settle_run V P Sg E)|]. intros [H0 k0] (SK & L0 & Oth & E0 & V0 & (ws & F & Sh) & Rs & P0 & Pr0 & S0).
  assert (X0 := sameK_HE SK X).
  assert (O0 : o <> 0). { eapply not_null; [apply Pr0|exact E0|]. intros ->. destruct X0. }
  assert (LO : o < length H0) by (apply nth_error_Some; congruence).
  assert (Stop : Runs (fun _ => Ok H0) (fun H' => Post H roots [] o H' [o] [v] /\ Val (S n) H' o v /\ exists k' c', nth_error H' o = Some (k', c') /\ isHE e k')).
  { apply Runs_ret. split; auto. split; auto. exists k0, c. auto. }
  assert (Go : forall p w kp cp d, children k0 = [p] -> Val n H0 p w -> nth_error H0 p = Some (kp, cp) -> isHE e kp -> uq H0 roots p = true ->
    v = app e w d ->
    (forall k1, isHE e k1 -> forall w', shape k1 [w'] v -> True) ->
    Runs (fun f => '(H1, _) <- apply_v uq gold f H0 roots e p d ;; k1 <- kd H1 p ;;
                   if match k1 with KHead _ _ _ _ => negb e | KEnd _ _ _ _ => e | _ => false end
                   then merge uq gold f (put H1 o k1) roots o else Ub)
         (fun H' => Post H roots [] o H' [o] [v] /\ Val (S n) H' o v /\ exists k' c', nth_error H' o = Some (k', c') /\ isHE e k')).
  { intros p w kp cp d Ek Vp Ep Xp U Ev _.
    assert (Ed : edge H0 o p) by (exists k0, c; rewrite Ek; split; auto; left; auto).
    assert (Sp := uq_ok U). assert (Vp' : Vok H0 p w) by (exists n; auto).
    assert (Prp := child_pre Pr0 Ed Vp').
    eapply Runs_bind; [apply (apply_same M d Vp Prp U Ep Xp)|].
    intros [H1 r1] (_ & P1 & V1 & k1 & c1 & E1 & X1). cbn [fst snd] in *. rewrite <- Ev in *.
    rewrite (kd_eq E1). cbn [rb].
    replace (match k1 with KHead _ _ _ _ => negb e | KEnd _ _ _ _ => e | _ => false end) with true
      by (destruct k1; cbn in X1; try contradiction; subst; auto).
    destruct n as [|n']; [contradiction|].
    destruct (Val1 V1 E1) as (ws1 & F1 & Sh1 & _).
    destruct P1 as [Le1 C1 VV1 N1]. inversion N1 as [|? ? N1' _]; subst.
    destruct (child_out Pr0 S0 (@Argok_nil H0 roots o) Ed O0 N1') as [NR NN].
    assert (Below : forall x, In x (children k1) -> reach H1 p x).
    { intros x Ix. apply reach_edge. exists k1, c1. auto. }
    assert (A1 : Forall (fun x => ~ reach H1 x o) (children k1)).
    { rewrite Forall_forall. intros x Ix R. apply NR. eapply reach_trans; eauto. }
    assert (P2 : Post H0 roots [] o (put H1 o k1) [o] [app e w d]).
    { apply (put_post S0 O0 LO Le1 (child_chg (pre_live Pr0) Ed S0 C1) (Forall2_Val_Vok F1) Sh1 A1); auto.
      rewrite Forall_forall. intros x Ix q Lq Nq R. eapply NN; eauto. eapply reach_trans; eauto. }
    assert (V2 : Val (S n') (put H1 o k1) o (app e w d)).
    { eapply put_val; eauto. lia. }
    assert (Pr2 := post_pre Pr0 P2). assert (S2 := post_single Pr0 S0 P2).
    eapply Runs_mono; [apply (M _ _ e _ _ k1 None V2 Pr2 S2); auto; apply put_at; lia|].
    intros H3 (P3 & V3 & Ex). split; [|split; [eapply Val_mono; [exact V3|lia]|auto]].
    apply (post_trans P Sg (@Argok_nil H roots o) P0).
    apply (post_trans Pr0 S0 (@Argok_nil H0 roots o) P2 P3). }
  destruct k0; cbn [isHE] in X0; try contradiction; subst e; shp; subst;
    match goal with Vp : Val n H0 ?p ?w |- _ => destruct (Val_cell Vp) as (kp & cp & Ep); rewrite (kd_eq Ep); cbn [rb];
      destruct kp; auto; destruct (uq H0 roots p) eqn:U; auto;
      specialize (Go p w _ cp d eq_refl Vp Ep eq_refl U eq_refl (fun _ _ _ _ => I)) end.
  - eapply Runs_ext; [|exact Go]. intros f. cbn beta.
    destruct (apply_v _ _ _ _ _ _ _ _) as [[H1 r1]| |]; cbn [rb]; auto. destruct (kd H1 _) as [k1| |]; cbn [rb]; auto.
    destruct k1; reflexivity.
  - eapply Runs_ext; [|exact Go]. intros f. cbn beta.
    destruct (apply_v _ _ _ _ _ _ _ _) as [[H1 r1]| |]; cbn [rb]; auto. destruct (kd H1 _) as [k1| |]; cbn [rb]; auto.
    destruct k1; reflexivity.
Qed.

(** After a change of a node that begins or ends with a buffer. *)
Lemma put_merge : forall H roots args o v k h H1 e v1, Pre H roots o v -> single H roots o -> Argok H roots o args ->
  Post H roots args o (put H1 o k) [o] [v1] -> nth_error (put H1 o k) o = Some (k, h) -> isHE e k ->
  Runs (fun f => H2 <- merge uq gold f (put H1 o k) roots o ;; Ok (H2, o)) (fun r => Post H roots args o (fst r) [snd r] [v1]).
Proof.
  intros H roots args o v k h H1 e v1 P S A Po E X.
  assert (P1 := post_pre P Po). assert (S1 := post_single P S Po).
  destruct (pre_val P1) as [n V1].
  eapply Runs_bind; [apply (merge_ok V1 P1 S1 E X)|]. intros H2 (P2 & _ & _). apply Runs_ret. cbn [fst snd].
  apply (post_trans P S A Po).
  destruct P2 as [a b c0 d]. constructor; auto.
  rewrite Forall_forall in *. intros x I. eapply newr_mono; [|apply d; auto]. intros y [].
Qed.

(** ** [string_view_t] arguments *)
Lemma apply_base_run : forall H args e o v s, Vok H o v ->
  Runs (fun f => apply_base gold f H e o s) (fun r => Fresh H args o (fst r) [snd r] [app e v s]).
Proof.
  intros H args e o v s V. unfold apply_base. destruct s as [|a s].
  - apply Runs_ret. cbn [fst snd]. unfold app. rewrite app_nil_r. destruct e; apply fresh_same; auto.
  - eapply Runs_bind; [eapply size_run; eauto|]. intros n ->. apply Runs_ret. cbn [mk fst snd].
    pose proof (gold_ok (length v + length (a :: s))).
    destruct e; (eapply fresh_one; [exact V|apply newr_self|reflexivity|]); cbn [shape app]; repeat split; lia.
Qed.
Lemma post_of_settle : forall H roots args o v H0 outs vals H', Pre H roots o v -> single H roots o -> Argok H roots o args ->
  Post H roots [] o H0 [o] [v] -> Post H0 roots args o H' outs vals -> Post H roots args o H' outs vals.
Proof.
  intros H roots args o v H0 outs vals H' P S A P0 P1. apply (post_trans (v1 := v) (H1 := H0) P S A); [|exact P1].
  destruct P0 as [a b c d]. constructor; auto. rewrite Forall_forall in *. intros x I. eapply newr_mono; [|apply d; auto]. intros y [].
Qed.

Lemma apply_v_run : forall n H roots e o v s, Val n H o v -> Pre H roots o v -> resolved H o ->
  Runs (fun f => apply_v uq gold f H roots e o s) (fun r => Post H roots [] o (fst r) [snd r] [app e v s]).
Proof.
  induction n as [|n IH]; intros H roots e o v s V P Rs; [contradiction|].
  destruct (Val_cell V) as (k & c & E). apply Runs_S. cbn [apply_v]. rewrite (kd_eq E). cbn [rb].
  assert (Rk := Rs _ _ E).
  destruct (uq H roots o) eqn:U.
  2:{ assert (B : Runs (fun f => apply_base gold f H e o s) (fun r => Post H roots [] o (fst r) [snd r] [app e v s])).
      { eapply Runs_mono; [apply apply_base_run; apply P|]. intros r Fr. apply fresh_post. exact Fr. }
      destruct k; auto; [|contradiction].
      destruct (Val1 V E) as (ws & F & Sh & _). shp. subst. apply Runs_ret. cbn [mk fst snd].
      apply fresh_post. replace (app e [] s) with s by (destruct e; cbn; rewrite ?app_nil_r; auto). apply fresh_leaf; cbn; auto. }
  assert (Sg := uq_ok U).
  eapply Runs_bind; [apply (settle_run V P Sg E)|]. intros [H0 k0] (SK & L0 & Oth & E0 & V0 & (ws & F & Sh) & Rs0 & P0 & Pr0 & S0).
  assert (An : Argok H roots o []) by apply Argok_nil. assert (An0 : Argok H0 roots o []) by apply Argok_nil.
  assert (St : forall r, Post H0 roots [] o (fst r) [snd r] [app e v s] -> Post H roots [] o (fst r) [snd r] [app e v s]).
  { intros r. apply (post_of_settle P Sg An P0). }
  assert (B : Runs (fun f => apply_base gold f H0 e o s) (fun r => Post H roots [] o (fst r) [snd r] [app e v s])).
  { eapply Runs_mono; [apply apply_base_run; apply Pr0|]. intros r Fr. apply St. apply fresh_post. exact Fr. }
  assert (LO : o < length H0) by (apply nth_error_Some; congruence).
  assert (FV : Forall2 (Vok H0) (children k0) ws) by (eapply Forall2_Val_Vok; eauto).
  assert (C : forall e c w, In c (children k0) -> Val n H0 c w ->
     Runs (fun f => apply_v uq gold f H0 roots e c s) (fun r => Post H0 roots [] c (fst r) [snd r] [app e w s])).
  { intros e' c' w I Vc. apply IH; auto.
    - eapply child_pre; eauto; [exists k0, c; auto|exists n; auto].
    - rewrite Forall_forall in Rs0. auto. }
  clear IH.
  destruct (match k0 with KNull => true | _ => false end) eqn:K0.
  { destruct k0; try discriminate. shp. subst. apply Runs_ret. cbn [mk fst snd]. apply (St (H0 ++ [(KComn s, None)], length H0)). apply fresh_post.
    replace (app e [] s) with s by (destruct e; cbn; rewrite ?app_nil_r; auto). apply fresh_leaf; cbn; auto. }
  assert (O0 : o <> 0). { eapply not_null; [apply Pr0|exact E0|]. intros ->. discriminate. }
  (* one child changed, then the node *)
  assert (D : forall l1 c1 l2 ws1 w1 ws2 H1 c1' w1' k' v', children k0 = l1 ++ c1 :: l2 -> length l1 = length ws1 ->
     ws = ws1 ++ w1 :: ws2 -> Post H0 roots [] c1 H1 [c1'] [w1'] -> children k' = l1 ++ c1' :: l2 -> shape k' (ws1 ++ w1' :: ws2) v' ->
     Post H0 roots [] o (put H1 o k') [o] [v']).
  { intros l1 c1 l2 ws1 w1 ws2 H1 c1' w1' k' v' El Ll -> Pc Ek Sh'.
    apply (step_in Pr0 S0 An0 O0 E0 El Ll FV Pc Ek Sh'). }
  assert (D0 : forall k' v', children k' = children k0 -> shape k' ws v' -> Post H0 roots [] o (put H0 o k') [o] [v']).
  { intros k' v' Ek Sh'. apply (step_here [] (k':=k') (ws':=ws) Pr0 S0 O0 E0 FV); auto; rewrite Ek; auto. }
  assert (PM : forall H1 k' v', Post H0 roots [] o (put H1 o k') [o] [v'] -> v' = app e v s -> length H0 <= length H1 -> (exists e, isHE e k') ->
     Runs (fun f => H2 <- merge uq gold f (put H1 o k') roots o ;; Ok (H2, o)) (fun r => Post H roots [] o (fst r) [snd r] [app e v s])).
  { intros H1 k' v' Po -> Le [e' X]. eapply Runs_mono; [apply (put_merge Pr0 S0 An0 Po (@put_at H1 o k' ltac:(lia)) X)|].
    intros r. apply St. }
  assert (IN : forall c1, In c1 (children k0) -> forall H1 c1' w1', Post H0 roots [] c1 H1 [c1'] [w1'] -> length H0 <= length H1) by (intros c1 _ H1 c1' w1' Pc; apply Pc).
  assert (W := app_length). assert (Gd := gold_ok).
  destruct k0; cbn [children] in *; shp; subst; try discriminate; auto.
  - (* substr *)
    eapply Runs_bind; [eapply size_run; eauto|]. intros t ->.
    destruct (if e then _ else _) eqn:Cond; auto.
    eapply Runs_bind; [apply C with (e := e); [left; reflexivity|eassumption]|]. intros [G1 to'] Pc. cbn [fst snd] in Pc. apply Runs_ret. apply St. cbn [fst snd].
    eapply (D [] to [] [] _ []); [reflexivity|reflexivity|reflexivity|exact Pc|reflexivity|cbn [List.app shape]].
    unfold app in *. destruct e; llen; (split; [lia|]); lsolve.
  - (* head *)
    destruct e.
    + eapply Runs_bind; [apply C with (e := true); [left; reflexivity|eassumption]|]. intros [G1 to'] Pc. cbn [fst snd] in Pc.
      assert (Le := po_len Pc).
      eapply PM; [eapply (D [] to [] [] _ []); [reflexivity|reflexivity|reflexivity|exact Pc|reflexivity|cbn [List.app shape]]| |auto|exists false; reflexivity].
      * unfold app. llen. repeat split; auto.
      * unfold app. rewrite app_assoc. auto.
    + eapply PM; [apply D0; [reflexivity|cbn [shape]; repeat split; auto]| |auto|exists false; reflexivity].
      * match goal with |- context[Nat.leb ?a ?b] => destruct (Nat.leb_spec a b) end; llen; [lia|].
        match goal with |- context[gold ?n] => pose proof (gold_ok n) end. lia.
      * unfold app. rewrite app_assoc. auto.
  - (* end *)
    destruct e.
    + eapply PM; [apply D0; [reflexivity|cbn [shape]; repeat split; auto]| |auto|exists true; reflexivity].
      * match goal with |- context[Nat.leb ?a ?b] => destruct (Nat.leb_spec a b) end; llen; [lia|].
        match goal with |- context[gold ?n] => pose proof (gold_ok n) end. lia.
      * unfold app. rewrite app_assoc. auto.
    + eapply Runs_bind; [apply C with (e := false); [left; reflexivity|eassumption]|]. intros [G1 to'] Pc. cbn [fst snd] in Pc.
      assert (Le := po_len Pc).
      eapply PM; [eapply (D [] to [] [] _ []); [reflexivity|reflexivity|reflexivity|exact Pc|reflexivity|cbn [List.app shape]]| |auto|exists true; reflexivity].
      * unfold app. llen. repeat split; auto. lia.
      * unfold app. rewrite app_assoc. auto.
  - (* sum *)
    destruct e.
    + eapply Runs_bind; [apply C with (e := true); [right; left; reflexivity|eassumption]|]. intros [G1 y'] Pc. cbn [fst snd] in Pc. apply Runs_ret. apply St. cbn [fst snd].
      eapply (D [x] y [] [_] _ []); [reflexivity|reflexivity|reflexivity|exact Pc|reflexivity|cbn [List.app shape]].
      unfold app. llen. repeat split; auto. rewrite app_assoc. auto.
    + eapply Runs_bind; [apply C with (e := false); [left; reflexivity|eassumption]|]. intros [G1 x'] Pc. cbn [fst snd] in Pc. apply Runs_ret. apply St. cbn [fst snd].
      eapply (D [] x [y] [] _ [_]); [reflexivity|reflexivity|reflexivity|exact Pc|reflexivity|cbn [List.app shape]].
      unfold app. llen. repeat split; auto; [lia|]. rewrite app_assoc. auto.
  - (* erased *)
    eapply Runs_bind; [apply C with (e := e); [left; reflexivity|eassumption]|]. intros [G1 to'] Pc. cbn [fst snd] in Pc. apply Runs_ret. apply St. cbn [fst snd].
    eapply (D [] to [] [] _ []); [reflexivity|reflexivity|reflexivity|exact Pc|reflexivity|cbn [List.app shape]].
    unfold app in *. destruct e; llen; (split; [lia|split; [lia|]]); lsolve.
  - (* inserted *)
    destruct (if e then _ else _) eqn:Cond.
    + eapply Runs_bind; [apply C with (e := e); [right; left; reflexivity|eassumption]|]. intros [G1 x'] Pc. cbn [fst snd] in Pc. apply Runs_ret. apply St. cbn [fst snd].
      eapply (D [to] x [] [_] _ []); [reflexivity|reflexivity|reflexivity|exact Pc|reflexivity|cbn [List.app shape]].
      unfold app in *. destruct e; llen; (split; [lia|split; [lia|split; [lia|]]]); lsolve.
    + eapply Runs_bind; [apply C with (e := e); [left; reflexivity|eassumption]|]. intros [G1 to'] Pc. cbn [fst snd] in Pc. apply Runs_ret. apply St. cbn [fst snd].
      eapply (D [] to [x] [] _ [_]); [reflexivity|reflexivity|reflexivity|exact Pc|reflexivity|cbn [List.app shape]].
      unfold app in *. destruct e; llen; (split; [lia|split; [lia|split; [lia|]]]); lsolve.
  - (* forwarded: excluded *)
    destruct SK as (l & Ll & Ek). destruct k; try contradiction; destruct l as [|l0 [|l1 [|]]]; cbn in Ek; discriminate.
Qed.
End Apply.
