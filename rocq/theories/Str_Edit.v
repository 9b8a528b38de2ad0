(** Assigning characters, inserting and erasing. *)
From Verif Require Import Base Ref_Model Ref_Proofs List_Model Str_Model Str_Heap Str_Own Str_Read Str_Apply Str_Ctx.
Local Open Scope res_scope.
Local Open Scope nat_scope.

(** ** Sequences *)
Definition erased (v : list Z) (p n : nat) : list Z := firstn p v ++ skipn (p + n) v.
Lemma erased_l : forall a b p m, p + m <= length a -> erased (a ++ b) p m = erased a p m ++ b.
Proof.
  intros a b p m L. unfold erased. rewrite firstn_app, skipn_app.
  replace (p - length a) with 0 by lia. replace (p + m - length a) with 0 by lia. cbn [firstn skipn]. rewrite app_nil_r, app_assoc. auto.
Qed.
Lemma erased_r : forall a b p m, length a <= p -> erased (a ++ b) p m = a ++ erased b (p - length a) m.
Proof.
  intros a b p m L. unfold erased. rewrite firstn_app, skipn_app.
  rewrite (firstn_all2 a) by lia. rewrite (skipn_all2 a) by lia. rewrite <- app_assoc. cbn [List.app].
  replace (p + m - length a) with (p - length a + m) by lia. auto.
Qed.
Lemma erased_length : forall v p m, p + m <= length v -> length (erased v p m) = length v - m.
Proof. intros. unfold erased. rewrite app_length, firstn_length, skipn_length. lia. Qed.
Lemma cut_app : forall A (a b : list A) n, n = length a -> firstn n (a ++ b) = a /\ skipn n (a ++ b) = b.
Proof.
  intros A a b n ->. rewrite firstn_app, skipn_app, firstn_all, skipn_all, Nat.sub_diag. cbn [firstn skipn]. rewrite app_nil_r. auto.
Qed.
Lemma erased_in : forall y s q p m, q <= length y -> q <= p -> p + m <= q + length s ->
  erased (firstn q y ++ s ++ skipn q y) p m = firstn q y ++ erased s (p - q) m ++ skipn q y.
Proof.
  intros. assert (L : length (firstn q y) = q) by (rewrite firstn_length; lia).
  rewrite erased_r by lia. rewrite L, erased_l by lia. auto.
Qed.
Lemma erased_lo : forall y s q p m, q <= length y -> p + m <= q ->
  erased (firstn q y ++ s ++ skipn q y) p m = firstn (q - m) (erased y p m) ++ s ++ skipn (q - m) (erased y p m).
Proof.
  intros. assert (L : length (firstn q y) = q) by (rewrite firstn_length; lia).
  rewrite erased_l by lia. rewrite <- (firstn_skipn q y) at 3 4. rewrite erased_l by lia.
  destruct (@cut_app _ (erased (firstn q y) p m) (skipn q y) (q - m)) as [-> ->]; auto. rewrite erased_length; lia.
Qed.
Lemma erased_hi : forall y s q p m, q <= length y -> q + length s <= p ->
  erased (firstn q y ++ s ++ skipn q y) p m = firstn q (erased y (p - length s) m) ++ s ++ skipn q (erased y (p - length s) m).
Proof.
  intros. assert (L : length (firstn q y) = q) by (rewrite firstn_length; lia).
  assert (E := firstn_skipn q y). remember (firstn q y) as a eqn:Ea. remember (skipn q y) as b eqn:Eb. clear Ea Eb. subst y.
  rewrite !erased_r by lia. rewrite L. rewrite (proj1 (@cut_app _ a _ q (eq_sym L))), (proj2 (@cut_app _ a _ q (eq_sym L))).
  replace (p - q - length s) with (p - length s - q) by lia. auto.
Qed.
Definition inserted (v : list Z) (p : nat) (s : list Z) : list Z := firstn p v ++ s ++ skipn p v.
Lemma inserted_l : forall a b p s, p <= length a -> inserted (a ++ b) p s = inserted a p s ++ b.
Proof.
  intros a b p s L. unfold inserted. rewrite firstn_app, skipn_app.
  replace (p - length a) with 0 by lia. cbn [firstn skipn]. rewrite app_nil_r, <- !app_assoc. auto.
Qed.
Lemma inserted_r : forall a b p s, length a <= p -> inserted (a ++ b) p s = a ++ inserted b (p - length a) s.
Proof.
  intros a b p s L. unfold inserted. rewrite firstn_app, skipn_app.
  rewrite (firstn_all2 a) by lia. rewrite (skipn_all2 a) by lia. rewrite <- app_assoc. auto.
Qed.
Lemma inserted_length : forall v p s, length (inserted v p s) = length v + length s.
Proof. intros. unfold inserted. rewrite !app_length, firstn_length, skipn_length. lia. Qed.
Lemma inserted_in : forall y s q p t, q <= length y -> q <= p -> p <= q + length s ->
  inserted (firstn q y ++ s ++ skipn q y) p t = firstn q y ++ inserted s (p - q) t ++ skipn q y.
Proof.
  intros. assert (L : length (firstn q y) = q) by (rewrite firstn_length; lia).
  rewrite inserted_r by lia. rewrite L, inserted_l by lia. auto.
Qed.
Lemma inserted_lo : forall y s q p t, q <= length y -> p <= q ->
  inserted (firstn q y ++ s ++ skipn q y) p t = firstn (q + length t) (inserted y p t) ++ s ++ skipn (q + length t) (inserted y p t).
Proof.
  intros. assert (L : length (firstn q y) = q) by (rewrite firstn_length; lia).
  rewrite inserted_l by lia. rewrite <- (firstn_skipn q y) at 3 4. rewrite inserted_l by lia.
  destruct (@cut_app _ (inserted (firstn q y) p t) (skipn q y) (q + length t)) as [-> ->]; auto. rewrite inserted_length; lia.
Qed.
Lemma inserted_hi : forall y s q p t, q <= length y -> q + length s <= p ->
  inserted (firstn q y ++ s ++ skipn q y) p t = firstn q (inserted y (p - length s) t) ++ s ++ skipn q (inserted y (p - length s) t).
Proof.
  intros. assert (L : length (firstn q y) = q) by (rewrite firstn_length; lia).
  assert (E := firstn_skipn q y). remember (firstn q y) as a eqn:Ea. remember (skipn q y) as b eqn:Eb. clear Ea Eb. subst y.
  rewrite !inserted_r by lia. rewrite L. rewrite (proj1 (@cut_app _ a _ q (eq_sym L))), (proj2 (@cut_app _ a _ q (eq_sym L))).
  replace (p - q - length s) with (p - length s - q) by lia. auto.
Qed.
Lemma sub_chk_ok : forall a b, b <= a -> sub_chk a b = Ok (a - b).
Proof. intros. unfold sub_chk. replace (Nat.leb b a) with true by lia. auto. Qed.

Section Edit.
Variable hv : list Z -> Z.
Variable uq : heap -> list nat -> nat -> bool.
Variable gold : nat -> nat.
Hypothesis uq_ok : forall H roots o, uq H roots o = true -> single H roots o.
Hypothesis gold_ok : forall n, n <= gold n.
Notation Val := (Val hv).
Notation Vok := (Vok hv).
Notation Pre := (Pre hv).
Notation Post := (Post hv).
Notation nullok := (nullok hv).
Notation Fresh := (Fresh hv).

(** ** Assigning a character *)
(** Nodes through which a character can be assigned. *)
Definition setk (k : kind) : Prop :=
  match k with KIns _ _ _ _ _ => False | KSame n _ => n <> 1 /\ n <= 512 | _ => True end.
Lemma setk_plain : forall H o, allk setk H o -> plain H o.
Proof. intros H o A q k c R E. specialize (A q k c R E). destruct k; auto. Qed.
Lemma setk_with : forall k l, setk k -> setk (with_children k l).
Proof. intros k l S. destruct k; destruct l as [|l0 [|l1 [|]]]; cbn in *; auto. Qed.
Lemma set_base_run : forall n H o v i a, Val n H o v -> plain H o -> i < length v ->
  Runs (fun f => set_base f H o i a) (fun r => Fresh H [] o (fst r) [snd r] [upd v i a]).
Proof.
  clear uq_ok gold_ok. intros n H o v i a V Pl L. unfold set_base.
  eapply Runs_bind; [eapply size_run; exists n; eauto|]. intros m ->.
  eapply Runs_bind; [eapply copy_run; eauto; lia|]. intros d ->.
  replace (Nat.ltb i (length v)) with true by lia. apply Runs_ret. cbn [mk fst snd skipn]. rewrite firstn_all.
  apply fresh_leaf; reflexivity.
Qed.
Lemma arec_set_run : forall n H roots o v i a, Val n H o v -> Pre H roots o v -> resolved H o -> allk setk H o -> i < length v ->
  Runs (fun f => arec_set uq gold f H roots o i a) (fun r => Post H roots [] o (fst r) [snd r] [upd v i a]).
Proof.
  induction n as [|n IH]; intros H roots o v i a V P Rs A L; [contradiction|].
  destruct (Val_cell V) as (k & c & E). apply Runs_S. cbn [arec_set]. rewrite (kd_eq E). cbn [rb].
  assert (Rk := Rs _ _ E). assert (Ak := A _ _ _ (r_refl H o) E).
  assert (B0 : Runs (fun f => set_base f H o i a) (fun r => Post H roots [] o (fst r) [snd r] [upd v i a])).
  { eapply Runs_mono; [apply (set_base_run a V (setk_plain A) L)|]. intros r Fr. apply fresh_post. exact Fr. }
  destruct (match k with KNull | KConst _ | KSame _ _ => true | _ => false end) eqn:K.
  { destruct (Val1 V E) as (ws & F & Sh & _). destruct k; try discriminate; shp; subst; auto.
    - cbn [length] in L. lia.
    - cbn [setk] in Ak. rewrite repeat_length in L. destruct (Z.eqb_spec a c0) as [->|].
      + apply Runs_ret. cbn [fst snd]. apply fresh_post. replace (upd (repeat c0 n0) i c0) with (repeat c0 n0) by lsolve. apply fresh_same. apply P.
      + replace (Nat.eqb n0 1) with false by lia. replace (Nat.ltb 512 n0) with false by lia. auto. }
  destruct (uq H roots o) eqn:U.
  2:{ destruct k; try discriminate; auto; contradiction. }
  assert (Sg := uq_ok U).
  eapply Runs_ext with (g := fun f => '(H0, k0) <- settle f H o;; _); [intros f; destruct k; try discriminate; reflexivity|].
  eapply Runs_bind; [apply (ctx_enter V P Sg (@Argok_nil H roots o) E)|]. intros [H0 k0] (SK & ws & X). cbn [fst snd] in *.
  assert (Ak0 : setk k0) by (destruct SK as (l & _ & ->); apply setk_with; auto).
  assert (C : forall c w j, In c (children k0) -> Val n H0 c w -> j < length w ->
     Runs (fun f => arec_set uq gold f H0 roots c j a) (fun r => Post H0 roots [] c (fst r) [snd r] [upd w j a])).
  { intros c' w j I Vc Lj. destruct (ctx_child X I Vc) as (Pc & Rc & Ac). apply IH; auto. eapply ctx_allk; eauto. exact Logic.I. }
  clear IH.
  assert (D := ctx_in X). assert (UP := ctx_up X). assert (MG := ctx_merge uq_ok gold_ok X). assert (F := cx_F X). assert (Sh := cx_sh X).
  assert (HR := ctx_here X).
  clear X.
  destruct k0; cbn [children] in *; shp; subst.
  all: try (destruct SK as (l & Ll & Ek); exfalso; destruct k; try discriminate; try contradiction; destruct l as [|l0 [|l1 [|]]]; cbn in Ek; discriminate).
  - (* common *)
    replace (Nat.ltb i (length d)) with true by lia. apply Runs_ret. cbn [fst snd]. apply UP. apply HR; try discriminate; reflexivity.
  - llen. eapply Runs_bind; [apply C; [left; reflexivity|eassumption|lia]|]. intros [G1 to'] Pc. cbn [fst snd] in Pc. apply Runs_ret. apply UP. cbn [fst snd].
    eapply (D [] to [] [] _ []); [discriminate|reflexivity|reflexivity|reflexivity|exact Pc|reflexivity|cbn [List.app shape]].
    llen. split; [lia|]. lsolve.
  - llen. destruct (Nat.ltb_spec i (length d)).
    + eapply MG; [apply HR; [discriminate|reflexivity|]|exists false; reflexivity]. cbn [shape]. llen. repeat split; auto. lsolve.
    + eapply Runs_bind; [apply C; [left; reflexivity|eassumption|lia]|]. intros [G1 to'] Pc. cbn [fst snd] in Pc.
      eapply MG; [eapply (D [] to [] [] _ []); [discriminate|reflexivity|reflexivity|reflexivity|exact Pc|reflexivity|cbn [List.app shape]]|exists false; reflexivity].
      llen. repeat split; auto. lsolve.
  - llen. match goal with |- context[Nat.ltb i ?a] => destruct (Nat.ltb_spec i a) end.
    + eapply Runs_bind; [apply C; [left; reflexivity|eassumption|lia]|]. intros [G1 to'] Pc. cbn [fst snd] in Pc.
      eapply MG; [eapply (D [] to [] [] _ []); [discriminate|reflexivity|reflexivity|reflexivity|exact Pc|reflexivity|cbn [List.app shape]]|exists true; reflexivity].
      llen. repeat split; auto. lsolve.
    + match goal with |- context[Nat.ltb ?x ?a] => replace (Nat.ltb x a) with true by lia end.
      eapply MG; [apply HR; [discriminate|reflexivity|]|exists true; reflexivity]. cbn [shape]. llen. repeat split; auto. lsolve.
  - llen. match goal with |- context[Nat.ltb i ?a] => destruct (Nat.ltb_spec i a) end.
    + eapply Runs_bind; [apply C; [left; reflexivity|eassumption|lia]|]. intros [G1 x'] Pc. cbn [fst snd] in Pc. apply Runs_ret. apply UP. cbn [fst snd].
      eapply (D [] x [y] [] _ [_]); [discriminate|reflexivity|reflexivity|reflexivity|exact Pc|reflexivity|cbn [List.app shape]].
      llen. repeat split; auto. lsolve.
    + eapply Runs_bind; [apply C; [right; left; reflexivity|eassumption|lia]|]. intros [G1 y'] Pc. cbn [fst snd] in Pc. apply Runs_ret. apply UP. cbn [fst snd].
      eapply (D [x] y [] [_] _ []); [discriminate|reflexivity|reflexivity|reflexivity|exact Pc|reflexivity|cbn [List.app shape]].
      llen. repeat split; auto. lsolve.
  - llen. eapply Runs_bind; [apply C; [left; reflexivity|eassumption|destruct (Nat.leb_spec p i); lia]|]. intros [G1 to'] Pc. cbn [fst snd] in Pc. apply Runs_ret. apply UP. cbn [fst snd].
    eapply (D [] to [] [] _ []); [discriminate|reflexivity|reflexivity|reflexivity|exact Pc|reflexivity|cbn [List.app shape]].
    llen. repeat split; auto. destruct (Nat.leb_spec p i); lsolve.
Qed.

(** ** Erasing *)
Lemma erase_base_run : forall H o v p n, nullok H -> Vok H o v -> p + n <= length v ->
  Runs (fun f => erase_base f H o p n) (fun r => Fresh H [] o (fst r) [snd r] [erased v p n]).
Proof.
  clear uq_ok gold_ok. intros H o v p n NZ V L. unfold erase_base. eapply Runs_bind; [eapply size_run; eauto|]. intros m ->. apply Runs_ret.
  destruct (Nat.eqb_spec n (length v)) as [->|N].
  - cbn [fst snd]. unfold erased. replace (firstn p v ++ skipn (p + length v) v) with (@nil Z) by lsolve. apply fresh_null; auto.
  - replace (Nat.eqb (length v) 0) with false by lia. cbn [mk fst snd].
    eapply fresh_one; [exact V|apply newr_self|reflexivity|]. cbn [shape]. auto.
Qed.

Lemma do_erase_run : forall n H roots o v p m, Val n H o v -> Pre H roots o v -> resolved H o -> p + m <= length v ->
  Runs (fun f => do_erase uq f H roots o p m) (fun r => Post H roots [] o (fst r) [snd r] [erased v p m]).
Proof.
  clear gold_ok.
  induction n as [|n IH]; intros H roots o v p m V P Rs L; [contradiction|].
  destruct (Val_cell V) as (k & c & E). apply Runs_S. cbn [do_erase]. rewrite (kd_eq E). cbn [rb].
  assert (Rk := Rs _ _ E).
  assert (B0 : Runs (fun f => erase_base f H o p m) (fun r => Post H roots [] o (fst r) [snd r] [erased v p m])).
  { eapply Runs_mono; [apply erase_base_run; [apply P|apply P|exact L]|]. intros r Fr. apply fresh_post. exact Fr. }
  destruct (match k with KNull | KErase _ _ _ _ | KIns _ _ _ _ _ => false | _ => true end) eqn:K.
  { destruct k; try discriminate; auto. contradiction. }
  destruct (Val1 V E) as (ws & F & Sh & _).
  destruct k; try discriminate.
  - shp. subst. cbn [length] in L. apply Runs_ret. cbn [fst snd]. apply fresh_post.
    replace (erased [] p m) with (@nil Z) by (unfold erased; rewrite firstn_nil, skipn_nil; auto). apply fresh_same. apply P.
  - match goal with |- context[if ?b then _ else _] => destruct b eqn:Cond end; auto.
    apply andb_prop in Cond. destruct Cond as [U Cond]. assert (Sg := uq_ok U).
    apply Runs_ret. cbn [fst snd].
    assert (O0 : o <> 0). { eapply not_null; [apply P|exact E|discriminate]. }
    apply (step_here [] (k':=KErase to tn p (n0 + m)) (ws':=ws) P Sg O0 E (Forall2_Val_Vok F)).
    + cbn [children]. auto.
    + apply (Forall2_Val_Vok F).
    + shp. subst. cbn [shape]. unfold erased in *. llen. repeat split; [lia|]. lsolve.
  - clear F Sh. destruct (uq H roots o) eqn:U; auto. assert (Sg := uq_ok U).
    eapply Runs_bind; [apply (ctx_enter V P Sg (@Argok_nil H roots o) E)|]. intros [H0 k0] (SK & ws' & X). cbn [fst snd] in *.
    assert (B : Runs (fun f => erase_base f H0 o p m) (fun r => Post H roots [] o (fst r) [snd r] [erased v p m])).
    { eapply Runs_mono; [apply erase_base_run; [apply X|apply X|exact L]|]. intros r Fr. eapply ctx_fresh; eauto. }
    assert (C : forall c w j, In c (children k0) -> Val n H0 c w -> j + m <= length w ->
       Runs (fun f => do_erase uq f H0 roots c j m) (fun r => Post H0 roots [] c (fst r) [snd r] [erased w j m])).
    { intros c' w j I Vc Lj. destruct (ctx_child X I Vc) as (Pc & Rc & Ac). apply IH; auto. }
    clear IH.
    assert (D := ctx_in X). assert (UP := ctx_up X). assert (F := cx_F X). assert (Sh := cx_sh X). clear X.
    assert (exists to x tn p n, k0 = KIns to x tn p n).
    { destruct SK as (l & Ll & ->). destruct l as [|l0 [|l1 [|]]]; cbn in *; try lia. eauto 8. }
    destruct H1 as (to' & x' & tn' & q & r & ->). clear SK. cbn [children] in *. shp. subst. llen.
    destruct (Nat.leb_spec q p); destruct (Nat.leb_spec (p + m) (q + length y0)); cbn [andb].
    + eapply Runs_bind; [apply C; [right; left; reflexivity|eassumption|lia]|]. intros [G1 x''] Pc. cbn [fst snd] in Pc.
      rewrite sub_chk_ok by lia. apply Runs_ret. apply UP. cbn [fst snd].
      eapply (D [to'] x' [] [_] _ []); [discriminate|reflexivity|reflexivity|reflexivity|exact Pc|reflexivity|cbn [List.app shape]].
      rewrite erased_length by lia. repeat (split; [lia|]). apply erased_in; lia.
    + replace (Nat.ltb (p + m) q) with false by lia.
      match goal with |- context[Nat.ltb ?a p] => destruct (Nat.ltb_spec a p) end; auto.
      eapply Runs_bind; [apply C; [left; reflexivity|eassumption|lia]|]. intros [G1 x''] Pc. cbn [fst snd] in Pc.
      rewrite sub_chk_ok by lia. apply Runs_ret. apply UP. cbn [fst snd].
      eapply (D [] to' [x'] [] _ [_]); [discriminate|reflexivity|reflexivity|reflexivity|exact Pc|reflexivity|cbn [List.app shape]].
      rewrite erased_length by lia. repeat (split; [lia|]). apply erased_hi; lia.
    + destruct (Nat.ltb_spec (p + m) q).
      * eapply Runs_bind; [apply C; [left; reflexivity|eassumption|lia]|]. intros [G1 x''] Pc. cbn [fst snd] in Pc.
        rewrite sub_chk_ok by lia. apply Runs_ret. apply UP. cbn [fst snd].
        eapply (D [] to' [x'] [] _ [_]); [discriminate|reflexivity|reflexivity|reflexivity|exact Pc|reflexivity|cbn [List.app shape]].
        rewrite erased_length by lia. repeat (split; [lia|]). apply erased_lo; lia.
      * replace (Nat.ltb (q + length y0) p) with false by lia. auto.
    + replace (Nat.ltb (p + m) q) with false by lia. replace (Nat.ltb (q + length y0) p) with false by lia. auto.
Qed.

(** ** Inserting *)
Lemma insert_base_run : forall n H roots o v p s, Val n H o v -> Pre H roots o v -> resolved H o -> p <= length v ->
  Runs (fun f => insert_base uq gold f H roots o p s) (fun r => Post H roots [] o (fst r) [snd r] [inserted v p s]).
Proof.
  intros n H roots o v p s V P Rs L. unfold insert_base.
  eapply Runs_bind; [eapply size_run; exists n; eauto|]. intros m ->.
  destruct (Nat.eqb_spec p 0) as [->|].
  { eapply Runs_mono; [apply (apply_v_run uq_ok gold_ok false s V P Rs)|]. intros r Po. exact Po. }
  destruct (Nat.eqb_spec p (length v)) as [->|].
  { eapply Runs_mono; [apply (apply_v_run uq_ok gold_ok true s V P Rs)|]. intros r Po. unfold inserted, app in *.
    rewrite firstn_all, skipn_all, app_nil_r. exact Po. }
  cbn [mk]. apply Runs_ret. cbn [fst snd].
  apply fresh_post. assert (VV : Vok H o v) by (exists n; auto).
  eapply alloc_fresh with (ws := [v; s]); [eexists; reflexivity| | | |constructor|constructor].
  - cbn [children]. constructor; [apply Vok_ext; auto|]. constructor; [|constructor].
    eapply Vok_intro with (ws := []); [apply ext_new|exact I|constructor|reflexivity].
  - cbn [shape]. repeat split; auto.
  - cbn [children]. constructor; [eapply newr_ext; [exact VV|apply newr_self]|]. constructor; [|constructor].
    intros q Lq Nq R. inversion R as [|? d ? (k2 & c2 & E2 & I) R']; subst q; [lia|].
    rewrite ext_new in E2. inversion E2; subst. contradiction.
Qed.
(** Nodes below which characters are inserted rightly. *)
Definition insk (k : kind) : Prop := match k with KHead _ _ _ _ | KEnd _ _ _ _ => False | _ => True end.
Lemma do_insert_run : forall n H roots o v p s, Val n H o v -> Pre H roots o v -> resolved H o -> p <= length v ->
  allk insk H o \/ (exists k c, nth_error H o = Some (k, c) /\
     match k with KIns _ _ _ _ _ => uq H roots o = false | KHead _ _ _ _ | KEnd _ _ _ _ => uq H roots o = false \/ p = 0 \/ p = length v | _ => True end) ->
  Runs (fun f => do_insert uq gold f H roots o p s) (fun r => Post H roots [] o (fst r) [snd r] [inserted v p s]).
Proof.
  induction n as [|n IH]; intros H roots o v p s V P Rs L A; [contradiction|].
  destruct (Val_cell V) as (k & c & E). apply Runs_S. cbn [do_insert]. rewrite (kd_eq E). cbn [rb].
  eapply Runs_bind; [eapply size_run; exists (S n); eauto|]. intros sz ->.
  assert (Rk := Rs _ _ E).
  assert (B0 := insert_base_run s V P Rs L).
  destruct (match k with KNull | KHead _ _ _ _ | KEnd _ _ _ _ | KIns _ _ _ _ _ => false | _ => true end) eqn:K.
  { destruct k; try discriminate; auto. contradiction. }
  destruct (match k with KHead _ _ _ _ | KEnd _ _ _ _ => true | _ => false end) eqn:K1.
  { assert (A1 : uq H roots o = false \/ p = 0 \/ p = length v).
    { destruct A as [A|(k1 & c1 & E1 & A)].
      - specialize (A _ _ _ (r_refl H o) E). destruct k; try discriminate; contradiction.
      - rewrite E in E1. inversion E1; subst k1 c1. destruct k; try discriminate; auto. }
    replace (uq H roots o && _)%bool with false; [destruct k; try discriminate; auto|].
    destruct A1 as [-> |A1]; auto. replace (orb (Nat.eqb p 0) (Nat.eqb p (length v))) with true by lia.
    destruct k; try discriminate; rewrite andb_false_r; auto. }
  destruct k; try discriminate.
  { destruct (Val1 V E) as (ws & F & Sh & _). shp. subst. cbn [length] in L. apply Runs_ret. cbn [mk fst snd]. apply fresh_post.
    replace (inserted [] p s) with s by (unfold inserted; rewrite firstn_nil, skipn_nil, app_nil_r; auto). apply fresh_leaf; cbn; auto. }
  rewrite andb_true_r. destruct (uq H roots o) eqn:U; auto. assert (Sg := uq_ok U).
  assert (A1 : allk insk H o).
  { destruct A as [A|(k1 & c1 & E1 & A)]; auto. rewrite E in E1. inversion E1; subst k1 c1. discriminate. }
  eapply Runs_bind; [apply (ctx_enter V P Sg (@Argok_nil H roots o) E)|]. intros [H0 k0] (SK & ws' & X). cbn [fst snd] in *.
  assert (C : forall c w j, In c (children k0) -> Val n H0 c w -> j <= length w ->
     Runs (fun f => do_insert uq gold f H0 roots c j s) (fun r => Post H0 roots [] c (fst r) [snd r] [inserted w j s])).
  { intros c' w j I Vc Lj. destruct (ctx_child X I Vc) as (Pc & Rc & Ac). apply IH; auto. left. eapply ctx_allk; eauto; exact Logic.I. }
  clear IH.
  assert (D := ctx_in X). assert (UP := ctx_up X). assert (F := cx_F X). assert (Sh := cx_sh X). clear X.
  assert (KK : exists to x tn p n, k0 = KIns to x tn p n).
  { destruct SK as (l & Ll & ->). destruct l as [|l0 [|l1 [|]]]; cbn in *; try lia. eauto 8. }
  destruct KK as (to' & x' & tn' & q & r & ->). clear SK. cbn [children] in *. shp. subst. llen.
  destruct (Nat.leb_spec q p); destruct (Nat.leb_spec p (q + length y0)); cbn [andb].
  - eapply Runs_bind; [apply C; [right; left; reflexivity|eassumption|lia]|]. intros [G1 x''] Pc. cbn [fst snd] in Pc.
    apply Runs_ret. apply UP. cbn [fst snd].
    eapply (D [to'] x' [] [_] _ []); [discriminate|reflexivity|reflexivity|reflexivity|exact Pc|reflexivity|cbn [List.app shape]].
    rewrite inserted_length. repeat (split; [lia|]). apply inserted_in; lia.
  - replace (Nat.ltb p q) with false by lia.
    eapply Runs_bind; [apply C; [left; reflexivity|eassumption|lia]|]. intros [G1 x''] Pc. cbn [fst snd] in Pc.
    apply Runs_ret. apply UP. cbn [fst snd].
    eapply (D [] to' [x'] [] _ [_]); [discriminate|reflexivity|reflexivity|reflexivity|exact Pc|reflexivity|cbn [List.app shape]].
    rewrite inserted_length. repeat (split; [lia|]). apply inserted_hi; lia.
  - replace (Nat.ltb p q) with true by lia.
    eapply Runs_bind; [apply C; [left; reflexivity|eassumption|lia]|]. intros [G1 x''] Pc. cbn [fst snd] in Pc.
    apply Runs_ret. apply UP. cbn [fst snd].
    eapply (D [] to' [x'] [] _ [_]); [discriminate|reflexivity|reflexivity|reflexivity|exact Pc|reflexivity|cbn [List.app shape]].
    rewrite inserted_length. repeat (split; [lia|]). apply inserted_lo; lia.
  - lia.
Qed.
End Edit.
