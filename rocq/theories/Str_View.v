(** Programs that take strings apart: substrings, removing and popping at both
    ends, without joining.  They need no condition on the representation. *)
From Verif Require Import Base Bits_Spec Ref_Model Ref_Proofs List_Model Str_Model Str_Heap Str_Own Str_Read Str_Apply Str_Ctx Str_Edit Str_Cut Str_Cmp_Model Str_Api_Model Str_Obs Str_Cmp Str_Merge Str_Spec Str_Guard Str_Api_Inv Str_Api_Proofs.
Local Open Scope res_scope.
Local Open Scope nat_scope.

(** [a]: characters are assigned, and no repeated characters are created;
    otherwise the other way round.  [c]: one-character strings are created, and no
    hashes taken; otherwise the other way round. *)
Definition inview (a c : bool) (x : op) : Prop :=
  match x with
  | ONew _ | OLit _ | OSetLit _ _ | OCopy _ | OMove _ | OSwap _ _ | OClear _ | ODrop _ => True
  | OSub _ _ _ | ORemove _ _ _ | OPop _ _ _ | OSize _ | OAt _ _ | OData _ | OCStr _ => True
  | OSet i j => i <> j
  | OChar _ | OSetChar _ _ => c = true
  | OHash _ => c = false
  | OAssign _ _ _ => a = true
  | ORep _ _ => a = false
  | _ => False
  end.

Section View.
Variables a c : bool.
Definition okv (k : kind) : Prop := viewk k /\ match k with KSame _ _ => a = false | _ => True end.
Definition vwH (H : heap) : Prop := forall q k h, nth_error H q = Some (k, h) -> okv k.
Lemma vw_kd : forall H o k, vwH H -> kd H o = Ok k -> okv k.
Proof. unfold kd. intros H o k O E. destruct (nth_error H o) as [[k0 h]|] eqn:N; [|discriminate]. injection E as <-. eapply O; eauto. Qed.
Lemma vw_ext : forall H k h, vwH H -> okv k -> vwH (H ++ [(k, h)]).
Proof.
  intros H k h O K q k1 c1 N. rewrite nth_snoc in N. destruct (Nat.eqb q (length H)); [|eapply O; eauto]. injection N as <- <-. auto.
Qed.
Lemma vw_upd : forall H o k h, vwH H -> okv k -> vwH (upd H o (k, h)).
Proof.
  intros H o k h O K q k1 c1 N. rewrite nth_upd in N. destruct (Nat.eqb q o); [|eapply O; eauto].
  destruct (Nat.ltb o (length H)); [|discriminate]. injection N as <- <-. auto.
Qed.
Lemma vw_put : forall H o k, vwH H -> okv k -> vwH (put H o k).
Proof. intros. apply vw_upd; auto. Qed.
Lemma vw_put_keep : forall H o k, vwH H -> okv k -> vwH (put_keep H o k).
Proof. intros. apply vw_upd; auto. Qed.
Lemma okv_with : forall k l, okv k -> okv (with_children k l).
Proof. intros k l K. destruct k; auto; destruct l as [|? [|? [|]]]; cbn in *; auto. Qed.
Lemma vw_settle : forall f H o H0 k0, vwH H -> settle f H o = Ok (H0, k0) -> vwH H0 /\ okv k0.
Proof.
  intros f H o H0 k0 O E. unfold settle in E. apply rb_ok in E. destruct E as (k & Ek & E). assert (K := vw_kd O Ek).
  destruct (children k) as [|x t]; [injection E as <- <-; auto|]. apply rb_ok in E. destruct E as (l & _ & E). injection E as <- <-.
  split; [apply vw_put_keep; auto; apply okv_with; auto|apply okv_with; auto].
Qed.
Tactic Notation "down" hyp(E) simple_intropattern(n) := apply rb_ok in E; destruct E as n.
Ltac okl :=
  cbn [mk fst snd] in *;
  repeat match goal with
  | |- vwH (fst (mk _ _)) => cbn [mk fst]
  | |- vwH (fst (_, _)) => cbn [fst]
  | |- vwH (fst (fst (_, _))) => cbn [fst]
  | |- vwH (put _ _ _) => apply vw_put
  | |- vwH (put_keep _ _ _) => apply vw_put_keep
  | |- vwH (_ ++ [(_, _)]) => apply vw_ext
  | |- vwH (upd _ _ (_, _)) => apply vw_upd
  | |- vwH (if ?b then _ else _) => destruct b
  | |- vwH (fst (if ?b then _ else _)) => destruct b
  | |- okv (if ?b then _ else _) => destruct b
  end; cbn [fst snd]; auto; try (split; [exact Logic.I|auto; fail]).
Lemma vw_mk_sub : forall H to b n, vwH H -> vwH (fst (mk_sub H to b n)).
Proof. intros H to b n O. unfold mk_sub. okl. Qed.
Lemma vw_sub_base : forall f H o b n r, vwH H -> sub_base f H o b n = Ok r -> vwH (fst r).
Proof.
  intros f H o b n r O E. unfold sub_base in E. down E (m & _ & E). injection E as <-. destruct (andb _ _); [exact O|apply vw_mk_sub; auto].
Qed.
Lemma vw_get_sub : forall f H o b n r, vwH H -> get_sub f H o b n = Ok r -> vwH (fst r).
Proof.
  induction f as [|f IH]; intros H o b n r O E; [discriminate|]. cbn [get_sub] in E.
  down E (k & Ek & E). destruct (vw_kd O Ek) as [K KS]. destruct k; cbn [viewk] in K; try contradiction.
  - injection E as <-. auto.
  - down E (d' & _ & E). injection E as <-. okl.
  - eapply vw_sub_base; eauto.
  - injection E as <-. apply vw_mk_sub; auto.
  - injection E as <-. okl.
  - eapply IH; eauto.
Qed.
Variable g : orc.
Notation uq := (uq g).
Notation gold := (gold g).
Lemma vw_set_base : forall f H o i z r, vwH H -> set_base f H o i z = Ok r -> vwH (fst r).
Proof. intros f H o i z r O E. unfold set_base in E. down E (n & _ & E). down E (d & _ & E). destruct (Nat.ltb i n); [|discriminate]. injection E as <-. okl. Qed.
Lemma vw_arec_set : a = true -> forall f H rts o i z r, vwH H -> arec_set uq gold f H rts o i z = Ok r -> vwH (fst r).
Proof.
  intros A. induction f as [|f IH]; intros H rts o i z r O E; [discriminate|]. cbn [arec_set] in E.
  down E (k & Ek & E). destruct (vw_kd O Ek) as [K KS]. destruct k; cbn [viewk] in K; try contradiction; try congruence.
  - injection E as <-. auto.
  - eapply vw_set_base; eauto.
  - destruct (uq H rts o); [|eapply vw_set_base; eauto]. down E ([H0 k0] & Es & E). destruct (vw_settle O Es) as [O0 [K0 KS0]].
    destruct k0; cbn [viewk] in K0; try contradiction; try discriminate.
    + destruct (Nat.ltb _ _); [|discriminate]. injection E as <-. okl.
    + down E ([H1 t1] & E1 & E). apply IH in E1; auto. injection E as <-. okl.
  - destruct (uq H rts o); [|eapply vw_set_base; eauto]. down E ([H0 k0] & Es & E). destruct (vw_settle O Es) as [O0 [K0 KS0]].
    destruct k0; cbn [viewk] in K0; try contradiction; try discriminate.
    + destruct (Nat.ltb _ _); [|discriminate]. injection E as <-. okl.
    + down E ([H1 t1] & E1 & E). apply IH in E1; auto. injection E as <-. okl.
  - destruct (uq H rts o); [|discriminate]. down E ([H0 k0] & Es & E). destruct (vw_settle O Es) as [O0 [K0 KS0]].
    destruct k0; cbn [viewk] in K0; try contradiction; try discriminate.
    + destruct (Nat.ltb _ _); [|discriminate]. injection E as <-. okl.
    + down E ([H1 t1] & E1 & E). apply IH in E1; auto. injection E as <-. okl.
Qed.
Lemma vw_remove_base : forall f H e o n r, vwH H -> remove_base f H e o n = Ok r -> vwH (fst r).
Proof.
  intros f H e o n r O E. unfold remove_base in E. destruct (Nat.eqb n 0); [injection E as <-; auto|]. down E (m & _ & E). down E (q & _ & E).
  destruct e; eapply vw_get_sub; eauto.
Qed.
Lemma vw_do_remove : forall f H rts e o n r, vwH H -> do_remove uq gold f H rts e o n = Ok r -> vwH (fst r).
Proof.
  induction f as [|f IH]; intros H rts e o n r O E; [discriminate|]. cbn [do_remove] in E.
  down E (k1 & Ek & E). down E ([H0 k] & Es & E).
  assert (O1 : vwH H0 /\ okv k).
  { assert (S : settle f H o = Ok (H0, k) -> vwH H0 /\ okv k) by (apply vw_settle; auto).
    assert (K1 := vw_kd O Ek). destruct k1; auto. destruct (uq H rts o); auto. injection Es as <- <-. auto. }
  destruct O1 as [O0 [K KS]]. clear Es.
  destruct k; cbn [viewk] in K; try contradiction; try discriminate; try (eapply vw_remove_base; eauto; fail).
  - injection E as <-. auto.
  - destruct (uq H rts o); [|eapply vw_remove_base; eauto]. down E (t & _ & E). down E (q & _ & E).
    match type of E with (if ?x then _ else _) = _ => destruct x end.
    + down E ([H1 t1] & E1 & E). apply IH in E1; auto. injection E as <-. okl.
    + injection E as <-. okl.
  - down E (q & _ & E). destruct (uq H rts o); injection E as <-; okl.
Qed.
Lemma vw_pop_base : forall f H e o n r, vwH H -> pop_base f H e o n = Ok r -> vwH (fst (fst r)).
Proof.
  intros f H e o n r O E. unfold pop_base in E. destruct (Nat.eqb n 0); [injection E as <-; auto|]. down E (m & _ & E). down E (q & _ & E).
  destruct e; down E ([H1 b1] & E1 & E); down E ([H2 b2] & E2 & E); apply vw_get_sub in E1; auto; apply vw_get_sub in E2; auto; injection E as <-; auto.
Qed.
Lemma vw_do_pop : forall f H rts e o n r, vwH H -> do_pop uq gold f H rts e o n = Ok r -> vwH (fst (fst r)).
Proof.
  induction f as [|f IH]; intros H rts e o n r O E; [discriminate|]. cbn [do_pop] in E.
  down E (k & Ek & E). destruct (vw_kd O Ek) as [K KS].
  assert (U : (if uq H rts o then
      '(H0, k0) <- settle f H o ;;
      match k0 with
      | KSub to b m =>
        t <- size f H0 to ;;
        if (if e then Nat.eqb (b + m) t else Nat.eqb b 0) then
          '(H1, to', a) <- do_pop uq gold f H0 rts e to n ;;
          r <- sub_chk m n ;;
          Ok (put H1 o (if Nat.eqb r 0 then KFwd 0 else KSub to' b r), o, a)
        else pop_base f H0 e o n
      | _ => pop_base f H0 e o n
      end else pop_base f H e o n) = Ok r -> vwH (fst (fst r))).
  { clear E. intros E. destruct (uq H rts o); [|eapply vw_pop_base; eauto]. down E ([H0 k0] & Es & E). destruct (vw_settle O Es) as [O0 _].
    destruct k0; try (eapply vw_pop_base; eauto; fail). down E (t & _ & E).
    match type of E with (if ?x then _ else _) = _ => destruct x end; [|eapply vw_pop_base; eauto].
    down E ([[H1 t1] z] & E1 & E). apply IH in E1; auto. down E (q & _ & E). injection E as <-. okl. }
  destruct k; cbn [viewk] in K; try contradiction; try discriminate.
  - injection E as <-. auto.
  - apply U. destruct (uq H rts o); auto. destruct (settle f H o) as [[H0 k0]| |] eqn:Es; auto. cbn [rb] in *. destruct (vw_settle O Es) as [_ [K0 _]].
    destruct k0; cbn [viewk] in K0; try contradiction; exact E.
  - apply U. destruct (uq H rts o); auto. destruct (settle f H o) as [[H0 k0]| |] eqn:Es; auto. cbn [rb] in *. destruct (vw_settle O Es) as [_ [K0 _]].
    destruct k0; cbn [viewk] in K0; try contradiction; exact E.
  - apply U. destruct (uq H rts o); auto. destruct (settle f H o) as [[H0 k0]| |] eqn:Es; auto. cbn [rb] in *. destruct (vw_settle O Es) as [_ [K0 _]].
    destruct k0; cbn [viewk] in K0; try contradiction; exact E.
  - down E (q & _ & E). destruct (uq H rts o).
    + destruct (Nat.eqb n q); [injection E as <-; okl|]. destruct (Nat.eqb n 0); injection E as <-; okl.
    + destruct (Nat.eqb n n0), (Nat.eqb n 0), (Nat.eqb q n0), (Nat.eqb q 0); cbn [mk] in E; injection E as <-; okl.
Qed.
Variable hd : Z.
Variable hc : Z -> Z.
Lemma vw_flat_base : forall f H o r, vwH H -> flat_base g f H o = Ok r -> vwH (fst (fst r)).
Proof. intros f H o r O E. unfold flat_base, mk in E. down E (n & _ & E). down E (d & _ & E). injection E as <-. okl. Qed.
Lemma vw_flat : forall f md H o r, vwH H -> flat g md f H o = Ok r -> vwH (fst (fst r)).
Proof.
  induction f as [|f IH]; intros md H o r O E; [discriminate|]. cbn [flat] in E.
  down E (k & Ek & E). destruct (vw_kd O Ek) as [K KS].
  destruct k; cbn [viewk] in K; try contradiction; try discriminate;
    try (injection E as <-; exact O); try (eapply vw_flat_base; eassumption).
  - destruct md; [eapply vw_flat_base; eassumption|destruct (ztail g H o); [injection E as <-; exact O|eapply vw_flat_base; eassumption]|injection E as <-; exact O].
  - down E (t1 & _ & E). down E (t & _ & E).
    destruct (match md with MC => _ | MConst => _ | MData => _ end); [|eapply vw_flat_base; eassumption].
    down E ([[H1 q] d] & E1 & E). apply IH in E1; auto. down E (d' & _ & E). injection E as <-. okl.
Qed.
Lemma vw_set_cache : forall H o h H', vwH H -> set_cache H o h = Ok H' -> vwH H'.
Proof. intros H o h H' O E. unfold set_cache in E. down E (k & Ek & E). assert (K := vw_kd O Ek). injection E as <-. okl. Qed.
Ltac okh IG IO :=
  repeat (match goal with
  | X : Ok _ = Ok _ |- _ => injection X; clear X; intros; subst
  | X : Ub = Ok _ |- _ => discriminate X
  | X : get_hash _ _ _ ?H _ = Ok ?x, O : vwH ?H |- _ => apply IG in X; [|exact O]
  | X : others_hash _ _ _ ?H _ _ _ _ _ = Ok ?x, O : vwH ?H |- _ => apply IO in X; [|exact O]
  | X : vwH (fst (_, _)) |- _ => cbn [fst] in X
  | X : rb _ _ = Ok _ |- _ => apply rb_ok in X; let x := fresh "x" in let Y := fresh "Y" in destruct X as (x & Y & X)
  | X : (let '(_, _) := ?x in _) = Ok _ |- _ => destruct x
  | X : (if ?b then _ else _) = Ok _ |- _ => destruct b
  end); cbn [fst]; auto.
Lemma vw_hash : forall f, (forall H o r, vwH H -> get_hash hd hc f H o = Ok r -> vwH (fst r)) /\
                        (forall H x xn o p n r, vwH H -> others_hash hd hc f H x xn o p n = Ok r -> vwH (fst r)).
Proof.
  induction f as [|f [IG IO]]; (split; [intros H o r O E|intros H x xn o p n r O E]); try discriminate.
  - cbn [get_hash] in E. fold (others_hash hd hc) in E. down E (o1 & _ & E).
    destruct (nth_error H o1) as [[k [h|]]|] eqn:N; try discriminate; [injection E as <-; auto|].
    down E ([H1 h] & E1 & E).
    assert (O1 : vwH H1).
    { clear E N. change H1 with (fst (H1, h)). revert E1. generalize (H1, h). intros r0 E1. destruct k; okh IG IO. }
    down E (H2 & E2 & E). injection E as <-. eapply vw_set_cache; eauto.
  - cbn [others_hash] in E. fold (get_hash hd hc) in E. down E (o1 & _ & E).
    down E (k & _ & E). down E (m & _ & E).
    destruct (andb _ _); [okh IG IO|]. destruct k; okh IG IO.
Qed.

Definition vok (v : var) : Prop := match v with VChr _ => c = true | _ => True end.
Record Vws (s : st) : Prop := {
  vw_heap : vwH (hp s);
  vw_var : forall i v, nth_error (vs s) i = Some (Some v) -> vok v }.
Lemma vws_set : forall s H i v, Vws s -> vwH H -> (forall w, v = Some w -> vok w) -> Vws (St H (upd (vs s) i v)).
Proof.
  intros s H i v C O P. split; cbn [hp vs]; auto. intros j w N. rewrite nth_upd in N.
  destruct (Nat.eqb j i); [|eapply C; eauto]. destruct (Nat.ltb i _); [|discriminate]. injection N as ->. auto.
Qed.
Lemma vws_one : forall s H i w, Vws s -> vwH H -> vok w -> Vws (St H (upd (vs s) i (Some w))).
Proof. intros. apply vws_set; auto. intros w0 E. injection E as <-. auto. Qed.
Lemma vws_add : forall s H v, Vws s -> vwH H -> vok v -> Vws (addv (St H (vs s)) v).
Proof.
  intros s H v C O P. split; cbn [hp vs addv]; auto. intros j w N. rewrite nth_snoc in N.
  destruct (Nat.eqb j _); [injection N as <-; auto|eapply C; eauto].
Qed.
Lemma vws_addv : forall s v, Vws s -> vok v -> Vws (addv s v).
Proof. intros [h l] v C P. apply (@vws_add (St h l) h); auto. apply C. Qed.
Lemma vws_heap : forall s H, Vws s -> vwH H -> Vws (St H (vs s)).
Proof. intros s H C O. split; cbn; auto. apply C. Qed.
Lemma vws_get : forall s i v, Vws s -> getv s i = Ok v -> vok v.
Proof. unfold getv. intros s i v C E. destruct (nth_error (vs s) i) as [[w|]|] eqn:N; try discriminate. injection E as <-. eapply C; eauto. Qed.
Lemma vws_own : forall w f s i s1 o, Vws s -> own hd hc w f s i = Ok (s1, o) -> Vws s1.
Proof.
  intros w f s i s1 o C E. unfold own in E. down E (v & Ev & E). destruct (fin hd hc w (hp s) v) as [H1 q] eqn:Ef.
  assert (O1 : vwH H1). { destruct v; cbn [fin mk] in Ef; [destruct w| |]; injection Ef as <- <-; okl; apply C. }
  down E (o1 & _ & E). injection E as <- <-. apply vws_one; auto. exact Logic.I.
Qed.
Ltac vfin := okl; try exact Logic.I; try (apply vw_heap; assumption); auto.
Lemma vws_step : forall f s x s1 o, inview a c x -> Vws s -> step hd hc g f s x = Ok (s1, o) -> Vws s1.
Proof.
  intros f s x s1 r I C E. unfold step, mk in E.
  destruct x as [d|d|z|n z|j|j|i j|i j|i d|i z|i|i|e i j|e i d|e i z n|i j|e i d|i p z|i b n|i n z|i p n|i p j|i p d|e i n|e i n|i|i p|i|i|i|q i j|q i d|q i d]; cbn [inview] in I; try contradiction.
  - injection E as <- <-. apply vws_add; vfin.
  - injection E as <- <-. apply vws_addv; vfin.
  - injection E as <- <-. apply vws_addv; vfin.
  - injection E as <- <-. apply vws_add; vfin.
  - down E (v & Ev & E). injection E as <- <-. apply vws_addv; vfin. eapply vws_get; eauto.
  - down E (v & Ev & E). injection E as <- <-. apply vws_addv; [apply vws_one; auto; apply C|exact (vws_get C Ev)].
  - down E (v & Ev & E). down E (u & Eu & E). destruct (andb _ _); [discriminate|]. injection E as <- <-. apply vws_one; auto; [apply C|exact (vws_get C Eu)].
  - down E (v & Ev & E). down E (u & Eu & E). injection E as <- <-. apply (@vws_one (setv s i (Some u)) (hp s)); [|apply C|exact (vws_get C Ev)].
    apply vws_one; auto; [apply C|exact (vws_get C Eu)].
  - down E (v & Ev & E). injection E as <- <-. apply vws_one; vfin.
  - down E (v & Ev & E). injection E as <- <-. apply vws_one; vfin.
  - down E (v & Ev & E). injection E as <- <-. apply vws_one; vfin.
  - down E (v & Ev & E). injection E as <- <-. apply vws_set; vfin. discriminate.
  - down E (s2 & E1 & E). injection E as <- <-. down E1 ([s3 q] & E2 & E1). apply vws_own in E2; auto. down E1 ([H2 q2] & E3 & E1). injection E1 as <-.
    apply vw_arec_set in E3; auto; [|apply E2]. apply vws_one; vfin.
  - down E ([s2 v] & E1 & E). injection E as <- <-. unfold substr in E1. down E1 (t & _ & E1). down E1 (q & _ & E1). destruct (Nat.eqb _ 0).
    + injection E1 as <- <-. apply vws_addv; vfin.
    + down E1 ([s3 o] & E2 & E1). apply vws_own in E2; auto. down E1 ([H2 q2] & E3 & E1). injection E1 as <- <-. apply vw_get_sub in E3; [|apply E2]. apply vws_add; vfin.
  - down E (s2 & E1 & E). injection E as <- <-. down E1 ([s3 q] & E2 & E1). apply vws_own in E2; auto. down E1 ([H2 q2] & E3 & E1). injection E1 as <-.
    apply vw_do_remove in E3; [|apply E2]. apply vws_one; vfin.
  - down E (s2 & E1 & E). injection E as <- <-. down E1 ([s3 q] & E2 & E1). apply vws_own in E2; auto. down E1 ([[H2 q2] z] & E3 & E1). injection E1 as <-.
    apply vw_do_pop in E3; [|apply E2]. apply vws_addv; vfin. apply vws_one; vfin.
  - down E (t & _ & E). injection E as <- <-. auto.
  - down E (v & _ & E). destruct v; down E (c9 & _ & E); injection E as <- <-; auto.
  - down E ([s2 d] & E1 & E). injection E as <- <-. unfold observe in E1. down E1 (v & _ & E1). destruct v; try (injection E1 as <- <-; exact C).
    down E1 ([s3 q] & E2 & E1). apply vws_own in E2; auto. down E1 ([[H2 q2] d2] & E3 & E1). injection E1 as <- <-. apply vw_flat in E3; [|apply E2]. apply vws_one; vfin.
  - down E ([s2 d] & E1 & E). injection E as <- <-. unfold observe in E1. down E1 (v & _ & E1). destruct v; try (injection E1 as <- <-; exact C).
    down E1 ([s3 q] & E2 & E1). apply vws_own in E2; auto. down E1 ([[H2 q2] d2] & E3 & E1). injection E1 as <- <-. apply vw_flat in E3; [|apply E2]. apply vws_one; vfin.
  - down E (v & _ & E). destruct v; try (injection E as <- <-; exact C). down E ([H1 h] & E1 & E). injection E as <- <-.
    eapply (proj1 (vw_hash _)) in E1; [|apply C]. apply vws_heap; auto.
Qed.
Lemma vws_guard : forall s x, inview a c x -> Vws s -> guard g s x.
Proof.
  intros s x I C.
  assert (W : forall i, wholev s i). { intros i o N. apply w_plain. intros q k h _ Nq. destruct (vw_heap C Nq) as [K _]. destruct k; auto. }
  assert (VV : forall q, allk viewk (hp s) q). { intros q q' k h _ Nq. apply (vw_heap C Nq). }
  destruct x; cbn [inview guard] in *; auto; try contradiction.
  - intros o q _ _ q' k h _ N. destruct (vw_heap C N) as [K KS]. destruct k; cbn in *; auto. congruence.
  - intros o q _ _. auto.
  - intros o q _ _. split.
    + intros q' k h _ N. destruct (vw_heap C N) as [K KS]. destruct k; cbn in *; auto; contradiction.
    + left. intros q1 k1 h1 q2 k2 h2 _ N1 S1. destruct (vw_heap C N1) as [K KS]. destruct k1; cbn in *; contradiction.
  - split; auto. intros z N. assert (P := vw_var C N). cbn in P. congruence.
Qed.
End View.

Lemma view_safe : forall hd hc a c xs s, Forall (fun x => inview a c (snd x)) xs -> Vws a c s -> Safe hd hc s xs.
Proof.
  intros hd hc a c. induction xs as [|[g x] t IH]; intros s F C; [constructor|]. inversion F as [|? ? I F']; subst. cbn [snd] in I. constructor.
  - eapply vws_guard; eauto.
  - intros s' o (f0 & E). apply IH; auto. eapply vws_step; eauto.
Qed.
Lemma view_start : forall a c, Vws a c st0.
Proof.
  intros a c. split; cbn.
  - intros [|[|q]] k h N; cbn in N; try discriminate. injection N as <- <-. split; exact Logic.I.
  - intros [|i] v N; discriminate.
Qed.
Lemma view_program : forall hd hc a c xs l' os, (0 < hd)%Z -> (hd | 2 ^ hd)%Z -> (forall c, word hd (hc c)) ->
  sruns [] (map snd xs) = Some (l', os) -> Forall (fun x => Sound (fst x)) xs -> Forall (fun x => inview a c (snd x)) xs ->
  exists f0 s' outs, (forall f, f0 <= f -> run hd hc f st0 xs = Ok (s', outs)) /\ Forall2 (out_ok hd hc) os outs.
Proof. intros. eapply program_run; eauto. eapply view_safe; eauto. apply view_start. Qed.
