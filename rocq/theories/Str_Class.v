(** Programs that need no condition on the representation: which operations they
    may use, and the proof that the conditions then hold by themselves. *)
From Verif Require Import Base Bits_Spec Ref_Model Ref_Proofs List_Model Str_Model Str_Heap Str_Own Str_Read Str_Apply Str_Ctx Str_Edit Str_Cut Str_Cmp_Model Str_Api_Model Str_Obs Str_Cmp Str_Merge Str_Spec Str_Guard Str_Api_Inv Str_Api_Proofs.
Local Open Scope res_scope.
Local Open Scope nat_scope.

(** Which small strings a program creates: only empty ones, compile-time strings,
    or also one-character strings. *)
Inductive small := Empty | Lits | Chars.
(** [asg]: characters are assigned with [s[p]=c], and no repeated characters are
    created; otherwise the other way round.  [ord]: strings are compared, and none
    is erased from, cut or resized; otherwise the other way round. *)
Record cl := Cl { asg : bool; ord : bool }.
Definition inclass (a : cl) (m : small) (x : op) : Prop :=
  match x with
  | OInsert _ _ _ | OInsertV _ _ _ | ORemove _ _ _ | OPop _ _ _ => False
  | OAssign _ _ _ => asg a = true
  | ORep n _ => asg a = false /\ (ord a = true -> 0 < n)
  | OPushRep _ _ _ _ => asg a = false
  | OResize _ _ _ => asg a = false /\ ord a = false
  | OErase _ _ _ | OSub _ _ _ => ord a = false
  | OSet i j => i <> j
  | OLit d | OSetLit _ d => m = Empty -> d = []
  | OChar _ | OSetChar _ _ => m = Chars
  | OPush _ _ _ => m = Empty
  | OPlus i j => i = j -> m <> Chars
  | OHash _ => m <> Chars
  | OCmp _ _ _ => ord a = true /\ m = Empty
  | OCmpV _ _ d | OCmpL _ _ d => ord a = true /\ m = Empty /\ d = []
  | _ => True
  end.

Definition okk (a : cl) (k : kind) : Prop :=
  match k with
  | KIns _ _ _ _ _ => False
  | KSame n _ => asg a = false /\ (ord a = true -> 0 < n)
  | KErase _ _ _ _ | KSub _ _ _ => ord a = false
  | KHead _ _ d _ | KEnd _ _ d _ => ord a = true -> d <> []
  | KSum _ _ xn yn => ord a = true -> 0 < xn /\ 0 < yn
  | _ => True
  end.
Definition okH (a : cl) (H : heap) : Prop := forall q k c, nth_error H q = Some (k, c) -> okk a k.
Lemma app_ne1 : forall (s d : list Z), d <> [] -> s ++ d <> [].
Proof. intros s d N E. apply app_eq_nil in E. tauto. Qed.
Lemma app_ne2 : forall (s d : list Z), d <> [] -> d ++ s <> [].
Proof. intros s d N E. apply app_eq_nil in E. tauto. Qed.
Lemma upd_ne : forall (d : list Z) i c, d <> [] -> upd d i c <> [].
Proof. intros d i c N E. apply (f_equal (@length Z)) in E. rewrite upd_length in E. destruct d; [congruence|discriminate]. Qed.
Ltac okz := lazymatch goal with |- ord _ = true -> _ =>
  let Q := fresh "Q" in intros Q; repeat match goal with X : ord _ = true -> _ |- _ => specialize (X Q) end;
  repeat match goal with X : _ /\ _ |- _ => destruct X end;
  solve [assumption | discriminate | split; lia | apply app_ne1; assumption | apply app_ne2; assumption | apply upd_ne; assumption | lia | congruence] end.

Section Ok.
Variable a : cl.
Notation okH := (okH a).
Notation okk := (okk a).
Lemma ok_kd : forall H o k, okH H -> kd H o = Ok k -> okk k.
Proof. unfold kd. intros H o k O E. destruct (nth_error H o) as [[k0 c]|] eqn:N; [|discriminate]. injection E as <-. eapply O; eauto. Qed.
Lemma ok_ext : forall H k c, okH H -> okk k -> okH (H ++ [(k, c)]).
Proof.
  intros H k c O K q k1 c1 N. rewrite nth_snoc in N. destruct (Nat.eqb q (length H)); [|eapply O; eauto]. injection N as <- <-. auto.
Qed.
Lemma ok_mk : forall H k H1 o, okH H -> okk k -> mk H k = (H1, o) -> okH H1.
Proof. intros H k H1 o O K E. unfold mk in E. injection E as <- <-. apply ok_ext; auto. Qed.
Lemma ok_upd : forall H o k c, okH H -> okk k -> okH (upd H o (k, c)).
Proof.
  intros H o k c O K q k1 c1 N. rewrite nth_upd in N. destruct (Nat.eqb q o); [|eapply O; eauto].
  destruct (Nat.ltb o (length H)); [|discriminate]. injection N as <- <-. auto.
Qed.
Lemma ok_put : forall H o k, okH H -> okk k -> okH (put H o k).
Proof. intros. apply ok_upd; auto. Qed.
Lemma ok_put_keep : forall H o k, okH H -> okk k -> okH (put_keep H o k).
Proof. intros. apply ok_upd; auto. Qed.
Lemma ok_with : forall k l, okk k -> okk (with_children k l).
Proof. intros k l K. destruct k; auto; destruct l as [|? [|? [|]]]; cbn in *; auto. Qed.
Lemma ok_settle : forall f H o H0 k0, okH H -> settle f H o = Ok (H0, k0) -> okH H0 /\ okk k0.
Proof.
  intros f H o H0 k0 O E. unfold settle in E. apply rb_ok in E. destruct E as (k & Ek & E). assert (K := ok_kd O Ek).
  destruct (children k) as [|x t]; [injection E as <- <-; auto|]. apply rb_ok in E. destruct E as (l & _ & E). injection E as <- <-.
  split; [apply ok_put_keep; auto; apply ok_with; auto|apply ok_with; auto].
Qed.
End Ok.

Ltac okl :=
  repeat match goal with
  | |- okH _ (fst (_, _)) => cbn [fst]
  | |- okH _ (fst (mk _ _)) => cbn [mk fst]
  | X : okH _ (fst (_, _)) |- _ => cbn [fst] in X
  | |- okH _ (put _ _ _) => apply ok_put
  | |- okH _ (put_keep _ _ _) => apply ok_put_keep
  | |- okH _ (_ ++ [(_, _)]) => apply ok_ext
  | |- okH _ (upd _ _ (_, _)) => apply ok_upd
  end; cbn [okk] in *; auto; try okz.
Ltac oki :=
  repeat (match goal with
  | X : Ok _ = Ok _ |- _ => injection X; clear X; intros; subst
  | X : Ub = Ok _ |- _ => discriminate X
  | X : Out = Ok _ |- _ => discriminate X
  | X : kd ?H ?o = Ok ?k, O : okH _ ?H |- _ =>
      lazymatch goal with K : okk _ k |- _ => fail | _ => assert (okk _ k) by (exact (ok_kd O X)) end
  | X : settle _ ?H _ = Ok (?H0, ?k0), O : okH _ ?H |- _ =>
      lazymatch goal with K : okH _ H0 |- _ => fail | _ => destruct (ok_settle O X) end
  | X : rb (settle ?f ?H ?o) _ = Ok _ |- _ => apply rb_ok in X; let H0 := fresh "H0" in let k0 := fresh "k0" in let Y := fresh "Y" in destruct X as ([H0 k0] & Y & X)
  | X : rb _ _ = Ok _ |- _ => apply rb_ok in X; let x := fresh "x" in let Y := fresh "Y" in destruct X as (x & Y & X)
  | X : (let '(_, _) := ?x in _) = Ok _ |- _ => destruct x eqn:?
  | X : (if ?b then _ else _) = Ok _ |- _ => destruct b
  | X : match ?k with _ => _ end = Ok _ |- _ => destruct k; cbn [okk] in *; try contradiction
  end).

Section Ok2.
Variable a : cl.
Notation okH := (okH a).
Notation okk := (okk a).
Lemma ok_mk_sub : ord a = false -> forall H to b n, okH H -> okH (fst (mk_sub H to b n)).
Proof. intros Z0 H to b n O. unfold mk_sub. destruct (Nat.eqb n 0); cbn [mk fst]; okl. Qed.
Lemma ok_sub_base : ord a = false -> forall f H o b n r, okH H -> sub_base f H o b n = Ok r -> okH (fst r).
Proof.
  intros Z0 f H o b n r O E. unfold sub_base in E. apply rb_ok in E. destruct E as (m & _ & E). injection E as <-.
  destruct (andb _ _); [exact O|apply ok_mk_sub; auto].
Qed.
Lemma ok_get_sub : ord a = false -> forall f H o b n r, okH H -> get_sub f H o b n = Ok r -> okH (fst r).
Proof.
  intros Z0. induction f as [|f IH]; intros H o b n r O E; [discriminate|]. cbn [get_sub] in E.
  apply rb_ok in E. destruct E as (k & Ek & E). assert (K := ok_kd O Ek).
  destruct k; cbn [Str_Class.okk] in K; try contradiction.
  - injection E as <-. auto.
  - apply rb_ok in E. destruct E as (d' & _ & E). injection E as <-. destruct (Nat.eqb n 0); cbn [mk fst]; okl.
  - eapply ok_sub_base; eauto.
  - injection E as <-. apply ok_mk_sub; auto.
  - destruct (Nat.leb _ _); [eapply IH; eauto|eapply ok_sub_base; eauto].
  - destruct (Nat.leb _ _); [eapply IH; eauto|eapply ok_sub_base; eauto].
  - destruct (Nat.leb _ _); [eapply IH; eauto|]. destruct (Nat.leb _ _); [eapply IH; eauto|eapply ok_sub_base; eauto].
  - destruct (Nat.ltb _ _); [eapply IH; eauto|]. destruct (Nat.leb _ _); [eapply IH; eauto|eapply ok_sub_base; eauto].
  - injection E as <-. destruct (Nat.eqb _ _); [auto|]. destruct (Nat.eqb _ _); cbn [mk fst]; okl. destruct K. split; auto. okz.
  - eapply IH; eauto.
Qed.
Variable uq : heap -> list nat -> nat -> bool.
Variable gold : nat -> nat.
Lemma ok_apply_base : forall f H e o s r, okH H -> apply_base gold f H e o s = Ok r -> okH (fst r).
Proof.
  intros f H e o s r O E. unfold apply_base in E. destruct s; [injection E as <-; auto|]. apply rb_ok in E. destruct E as (m & _ & E). injection E as <-.
  cbn [fst mk]. apply ok_ext; auto. destruct e; cbn; discriminate.
Qed.
Lemma ok_apply_v : forall f, (forall H rts e o s r, okH H -> apply_v uq gold f H rts e o s = Ok r -> okH (fst r)) /\
                            (forall H rts o H', okH H -> merge uq gold f H rts o = Ok H' -> okH H').
Proof.
  induction f as [|f [IA IM]]; (split; [intros H rts e o s r O E|intros H rts o H' O E]); try discriminate.
  - cbn [apply_v] in E. fold (merge uq gold) in E. apply rb_ok in E. destruct E as (k & Ek & E). assert (K := ok_kd O Ek).
    destruct (uq H rts o).
    + apply rb_ok in E. destruct E as ([H0 k0] & Es & E). destruct (ok_settle O Es) as [O0 K0].
      destruct k0; cbn [Str_Class.okk] in K0; try contradiction; oki; okl; try (eapply ok_apply_base; eassumption);
        repeat match goal with
        | X : apply_v _ _ _ ?H _ _ _ _ = Ok ?x, O : okH ?H |- _ => apply IA in X; [|exact O]; cbn [fst] in X
        | X : merge _ _ _ _ _ _ = Ok _ |- _ => apply IM in X; [|okl]
        end; cbn [fst] in *; okl.
    + destruct k; cbn [Str_Class.okk] in K; try contradiction; oki; okl; try (eapply ok_apply_base; eassumption).
  - rewrite merge_S in E. apply rb_ok in E. destruct E as ([H0 k0] & Es & E). destruct (ok_settle O Es) as [O0 K0].
    destruct k0; try discriminate; apply rb_ok in E; destruct E as (kp & Ep & E); destruct kp; try (injection E as <-; exact O0);
      (destruct (uq H0 rts to); [|injection E as <-; exact O0]; apply rb_ok in E; destruct E as ([H1 q] & E1 & E); apply IA in E1; [|exact O0]; cbn [fst] in E1;
       apply rb_ok in E; destruct E as (k1 & Ek1 & E); assert (K1 := ok_kd E1 Ek1); destruct k1; try discriminate; apply IM in E; [exact E|okl]).
Qed.
Lemma ok_mk_sum : forall f H x y r, okH H -> mk_sum f H x y = Ok r -> okH (fst r).
Proof.
  intros f H x y r O E. unfold mk_sum in E. apply rb_ok in E. destruct E as (xn & _ & E). apply rb_ok in E. destruct E as (yn & _ & E). injection E as <-.
  destruct (Nat.eqb_spec xn 0); [cbn [mk fst]; okl|]. destruct (Nat.eqb_spec yn 0); cbn [mk fst]; okl.
Qed.
Lemma ok_merge : forall f H rts o H', okH H -> merge uq gold f H rts o = Ok H' -> okH H'.
Proof. intros f. apply (ok_apply_v f). Qed.
Lemma ok_apply_p : forall f H rts e o s r, okH H -> apply_p uq gold f H rts e o s = Ok r -> okH (fst r).
Proof.
  induction f as [|f IA]; intros H rts e o s r O E; [discriminate|]; cbn [apply_p] in E.
  apply rb_ok in E. destruct E as (k & Ek & E). assert (K := ok_kd O Ek).
  destruct (uq H rts o).
  - apply rb_ok in E. destruct E as ([H0 k0] & Es & E). destruct (ok_settle O Es) as [O0 K0].
    destruct k0; cbn [Str_Class.okk] in K0; try contradiction; oki; okl; try (eapply ok_mk_sum; eassumption);
      repeat match goal with
        | X : apply_p _ _ _ ?H _ _ _ _ = Ok ?x, O : okH ?H |- _ => apply IA in X; [|exact O]; cbn [fst] in X
        | X : merge _ _ _ _ _ _ = Ok _ |- _ => apply ok_merge in X; [|okl]
        end; cbn [fst] in *; okl.
  - destruct k; cbn [Str_Class.okk] in K; try contradiction; oki; okl; try (eapply ok_mk_sum; eassumption).
Qed.
Lemma ok_set_base : forall f H o i c r, okH H -> set_base f H o i c = Ok r -> okH (fst r).
Proof. intros f H o i c r O E. unfold set_base in E. oki. cbn [fst mk]. okl. Qed.
Lemma ok_arec_set : asg a <> false -> forall f H rts o i c r, okH H -> arec_set uq gold f H rts o i c = Ok r -> okH (fst r).
Proof.
  intros At. induction f as [|f IA]; intros H rts o i c r O E; [discriminate|]; cbn [arec_set] in E.
  apply rb_ok in E. destruct E as (k & Ek & E). assert (K := ok_kd O Ek).
  assert (G : forall k, Str_Class.okk a k -> (if uq H rts o then '(H0, k0) <- settle f H o ;;
        match k0 with
        | KComn d => if Nat.ltb i (length d) then Ok (put H0 o (KComn (upd d i c)), o) else Ub
        | KSub to b n =>
          '(H1, to') <- arec_set uq gold f H0 rts to (i + b) c ;; Ok (put H1 o (KSub to' b n), o)
        | KHead to tn d cap =>
          if Nat.ltb i (length d) then
            H2 <- merge uq gold f (put H0 o (KHead to tn (upd d i c) cap)) rts o ;; Ok (H2, o)
          else
            '(H1, to') <- arec_set uq gold f H0 rts to (i - length d) c ;;
            H2 <- merge uq gold f (put H1 o (KHead to' tn d cap)) rts o ;; Ok (H2, o)
        | KEnd to tn d cap =>
          if Nat.ltb i tn then
            '(H1, to') <- arec_set uq gold f H0 rts to i c ;;
            H2 <- merge uq gold f (put H1 o (KEnd to' tn d cap)) rts o ;; Ok (H2, o)
          else if Nat.ltb (i - tn) (length d) then
            H2 <- merge uq gold f (put H0 o (KEnd to tn (upd d (i - tn) c) cap)) rts o ;; Ok (H2, o)
          else Ub
        | KSum x y xn yn =>
          if Nat.ltb i xn then
            '(H1, x') <- arec_set uq gold f H0 rts x i c ;; Ok (put H1 o (KSum x' y xn yn), o)
          else
            '(H1, y') <- arec_set uq gold f H0 rts y (i - xn) c ;; Ok (put H1 o (KSum x y' xn yn), o)
        | KErase to tn p n =>
          '(H1, to') <- arec_set uq gold f H0 rts to (if Nat.leb p i then i + n else i) c ;;
          Ok (put H1 o (KErase to' tn p n), o)
        | KIns to x tn p n =>
          let '(c0, j) := if andb (Nat.leb p i) (Nat.ltb i (p + n)) then (x, i - p)
                         else if Nat.leb (p + n) i then (to, i - n) else (to, i) in
          '(H1, c') <- arec_set uq gold f H0 rts c0 j c ;;
          if Nat.eqb c' c0 then Ok (put H1 o (KIns to x tn p n), o) else Ub
        | _ => Ub
        end
      else match k with
           | KFwd _ => Ub
           | _ => set_base f H o i c
           end) = Ok r -> okH (fst r)).
  { clear k Ek E K. intros k K E. destruct (uq H rts o).
    - apply rb_ok in E. destruct E as ([H0 k0] & Es & E). destruct (ok_settle O Es) as [O0 K0].
      destruct k0; cbn [Str_Class.okk] in K0; try contradiction; try discriminate; oki; okl;
      repeat match goal with
        | X : arec_set _ _ _ ?H _ _ _ _ = Ok ?x, O : okH ?H |- _ => apply IA in X; [|exact O]; cbn [fst] in X
        | X : merge _ _ _ _ _ _ = Ok _ |- _ => apply ok_merge in X; [|okl]
        end; cbn [fst] in *; okl.
    - destruct k; try discriminate; eapply ok_set_base; eauto. }
  destruct k; cbn [Str_Class.okk] in K; try contradiction;
    try (match goal with X : kd H o = Ok ?k |- _ => apply (G k); [exact K|exact E] end).
  - injection E as <-. auto.
  - eapply ok_set_base; eauto.
  - destruct K; contradiction.
Qed.
Lemma ok_do_erase : ord a = false -> forall f H rts o p n r, okH H -> do_erase uq f H rts o p n = Ok r -> okH (fst r).
Proof.
  intros Z0 [|f] H rts o p n r O E; [discriminate|]; cbn [do_erase] in E.
  apply rb_ok in E. destruct E as (k & Ek & E). assert (K := ok_kd O Ek).
  assert (B : erase_base f H o p n = Ok r -> okH (fst r)).
  { clear E. intros X. unfold erase_base in X. oki. repeat (destruct (Nat.eqb _ _)); cbn [mk fst]; okl. }
  destruct k; cbn [Str_Class.okk] in K; try contradiction; auto; try discriminate.
  - injection E as <-. auto.
  - destruct (andb _ _); auto. injection E as <-. cbn [fst]. okl.
Qed.
End Ok2.

Ltac okh IG IO :=
  repeat (match goal with
  | X : Ok _ = Ok _ |- _ => injection X; clear X; intros; subst
  | X : Ub = Ok _ |- _ => discriminate X
  | X : get_hash _ _ _ ?H _ = Ok ?x, O : okH _ ?H |- _ => apply IG in X; [|exact O]
  | X : others_hash _ _ _ ?H _ _ _ _ _ = Ok ?x, O : okH _ ?H |- _ => apply IO in X; [|exact O]
  | X : okH _ (fst (_, _)) |- _ => cbn [fst] in X
  | X : rb _ _ = Ok _ |- _ => apply rb_ok in X; let x := fresh "x" in let Y := fresh "Y" in destruct X as (x & Y & X)
  | X : (let '(_, _) := ?x in _) = Ok _ |- _ => destruct x
  | X : (if ?b then _ else _) = Ok _ |- _ => destruct b
  end); cbn [fst]; auto.
Section Ok3.
Variable a : cl.
Variable hd : Z.
Variable hc : Z -> Z.
Variable g : orc.
Notation okH := (okH a).
Notation okk := (okk a).
Lemma ok_flat_base : forall f H o r, okH H -> flat_base g f H o = Ok r -> okH (fst (fst r)).
Proof. intros f H o r O E. unfold flat_base, mk in E. oki. cbn [fst]. destruct (profit g H o); okl. Qed.
Lemma ok_flat : forall f md H o r, okH H -> flat g md f H o = Ok r -> okH (fst (fst r)).
Proof.
  induction f as [|f IH]; intros md H o r O E; [discriminate|]. cbn [flat] in E.
  apply rb_ok in E. destruct E as (k & Ek & E). assert (K := ok_kd O Ek).
  destruct k as [|d|d|to b n|to tn [|z d] cap|to tn [|z d] cap|x y xn yn|to tn p n|to x tn p n|n c|to]; cbn [Str_Class.okk] in K; try contradiction; try discriminate;
    try (injection E as <-; exact O); try (eapply ok_flat_base; eassumption).
  - destruct md; [eapply ok_flat_base; eassumption|destruct (ztail g H o); [injection E as <-; exact O|eapply ok_flat_base; eassumption]|injection E as <-; exact O].
  - apply rb_ok in E. destruct E as (t1 & _ & E). apply rb_ok in E. destruct E as (t & _ & E).
    destruct (match md with MC => _ | MConst => _ | MData => _ end); [|eapply ok_flat_base; eassumption].
    apply rb_ok in E. destruct E as ([[H1 q] d] & E1 & E). apply IH in E1; auto. cbn [fst] in E1. apply rb_ok in E. destruct E as (d' & _ & E). injection E as <-. cbn [fst]. okl.
  - apply rb_ok in E. destruct E as (t1 & _ & E). apply rb_ok in E. destruct E as ([[H1 q] d] & E1 & E). apply IH in E1; auto. injection E as <-. cbn [fst] in *. okl.
  - apply rb_ok in E. destruct E as (t1 & _ & E). apply rb_ok in E. destruct E as ([[H1 q] d] & E1 & E). apply IH in E1; auto. injection E as <-. cbn [fst] in *. okl.
Qed.
Lemma ok_set_cache : forall H o h H', okH H -> set_cache H o h = Ok H' -> okH H'.
Proof. intros H o h H' O E. unfold set_cache in E. apply rb_ok in E. destruct E as (k & Ek & E). assert (K := ok_kd O Ek). injection E as <-. okl. Qed.
Lemma ok_hash : forall f, (forall H o r, okH H -> get_hash hd hc f H o = Ok r -> okH (fst r)) /\
                        (forall H x xn o p n r, okH H -> others_hash hd hc f H x xn o p n = Ok r -> okH (fst r)).
Proof.
  induction f as [|f [IG IO]]; (split; [intros H o r O E|intros H x xn o p n r O E]); try discriminate.
  - cbn [get_hash] in E. fold (others_hash hd hc) in E. apply rb_ok in E; destruct E as (o1 & _ & E).
    destruct (nth_error H o1) as [[k [h|]]|] eqn:N; try discriminate; [injection E as <-; auto|].
    apply rb_ok in E. destruct E as ([H1 h] & E1 & E).
    assert (O1 : okH H1).
    { clear E N. change H1 with (fst (H1, h)). revert E1. generalize (H1, h). intros r0 E1. destruct k; okh IG IO. }
    apply rb_ok in E. destruct E as (H2 & E2 & E). injection E as <-. eapply ok_set_cache; eauto.
  - cbn [others_hash] in E. fold (get_hash hd hc) in E. apply rb_ok in E; destruct E as (o1 & _ & E).
    apply rb_ok in E. destruct E as (k & _ & E). apply rb_ok in E. destruct E as (m & _ & E).
    destruct (andb _ _); [okh IG IO|]. destruct k; okh IG IO.
Qed.

Lemma ok_opt_ptr : forall d f H x y H', okH H -> opt_ptr d f H x y = Ok H' -> okH H'.
Proof. intros d f H x y H' O E. unfold opt_ptr in E. oki; auto. destruct (opt_dir _ _ _ _); okl. Qed.
Lemma ok_replace : forall d f H x y H', okH H -> be_replace_as d f H x y = Ok H' -> okH H'.
Proof.
  intros d f H x y H' O E. unfold be_replace_as in E. apply rb_ok in E. destruct E as (kx & _ & E). apply rb_ok in E. destruct E as (ky & _ & E).
  apply rb_ok in E. destruct E as (H1 & E1 & E). injection E as <-. apply ok_put_keep; [|exact Logic.I].
  destruct kx, ky; try (injection E1 as <-; exact O);
    repeat match goal with
    | X : (if ?b then _ else _) = Ok _ |- _ => destruct b
    | X : Ok _ = Ok _ |- _ => injection X as <-
    | X : rb _ _ = Ok _ |- _ => apply rb_ok in X; destruct X as (? & ? & X)
    | X : opt_ptr _ _ ?H _ _ = Ok _, O : okH ?H |- _ => apply (ok_opt_ptr O) in X
    end; auto.
Qed.
Lemma ok_opt_this : forall d f H x y H', okH H -> opt_this d f H x y = Ok H' -> okH H'.
Proof.
  intros d f H x y H' O E. unfold opt_this in E. apply rb_ok in E. destruct E as (y1 & _ & E). destruct (Nat.eqb x y1); [discriminate|].
  destruct (opt_dir _ _ _ _); [eapply ok_replace; eauto|]. injection E as <-. apply ok_put_keep; auto. exact Logic.I.
Qed.
Lemma ok_cmp_same : forall d q f H x y r, okH H -> cmp_same d q f H x y = Ok r -> okH (fst r).
Proof.
  intros d q. induction f as [|f IH]; intros H x y r O E; [discriminate|]. cbn [cmp_same] in E.
  apply rb_ok in E. destruct E as (x1 & _ & E). apply rb_ok in E. destruct E as (y1 & _ & E).
  destruct (Nat.eqb x1 y1); [injection E as <-; exact O|]. destruct (andb _ _); [injection E as <-; exact O|].
  apply rb_ok in E. destruct E as (kx & _ & E). apply rb_ok in E. destruct E as (ky & _ & E). apply rb_ok in E. destruct E as ([H1 c] & E1 & E).
  assert (O1 : okH H1).
  { clear E. change H1 with (fst (H1, c)). revert E1. generalize (H1, c). intros r0 E1. unfold andthen in E1.
    destruct kx, ky;
    repeat match goal with
    | X : (if ?b then _ else _) = Ok _ |- _ => destruct b
    | X : match ?b with Eq => _ | _ => _ end = Ok _ |- _ => destruct b
    | X : Ok _ = Ok _ |- _ => injection X as <-
    | X : Ub = Ok _ |- _ => discriminate X
    | X : rb _ _ = Ok _ |- _ => apply rb_ok in X; let z := fresh "z" in let Y := fresh "Y" in destruct X as (z & Y & X)
    | X : (let '(_, _) := ?x in _) = Ok _ |- _ => destruct x
    | X : cmp_same _ _ _ ?H _ _ = Ok _, O : okH ?H |- _ => apply (IH _ _ _ _ O) in X; cbn [fst] in X
    | X : okH (fst (_, _)) |- _ => cbn [fst] in X
    end; cbn [fst]; auto. }
  destruct c; [|injection E as <-; exact O1|injection E as <-; exact O1].
  apply rb_ok in E. destruct E as (H2 & E2 & E). injection E as <-. cbn [fst]. eapply ok_opt_this; eauto.
Qed.
Lemma ok_cmp_top : forall d q f H x y r, okH H -> cmp_top d q f H x y = Ok r -> okH (fst r).
Proof.
  intros d q f H x y r O E. unfold cmp_top in E. apply rb_ok in E. destruct E as (x1 & _ & E). apply rb_ok in E. destruct E as (y1 & _ & E).
  destruct (Nat.eqb x1 y1); [injection E as <-; exact O|]. destruct (andb _ _); [injection E as <-; exact O|].
  apply rb_ok in E. destruct E as (n & _ & E). apply rb_ok in E. destruct E as (n1 & _ & E). destruct (Nat.compare n n1); try (injection E as <-; exact O).
  eapply ok_cmp_same; eauto.
Qed.

Variable m : small.
Definition polok (v : var) : Prop :=
  match m, v with Empty, VStr d => d = [] | Empty, VChr _ => False | Lits, VChr _ => False | _, _ => True end.
Record Cls (s : st) : Prop := {
  cl_heap : okH (hp s);
  cl_var : forall i v, nth_error (vs s) i = Some (Some v) -> polok v }.
Lemma pol_ptr : forall o, polok (VPtr o).
Proof. intros. unfold polok. destruct m; exact Logic.I. Qed.
Lemma pol_nil : polok (VStr []).
Proof. unfold polok. destruct m; auto. Qed.
Lemma cls_set : forall s H i v, Cls s -> okH H -> (forall w, v = Some w -> polok w) -> Cls (St H (upd (vs s) i v)).
Proof.
  intros s H i v C O P. split; cbn [hp vs]; auto. intros j w N. rewrite nth_upd in N.
  destruct (Nat.eqb j i); [|eapply C; eauto]. destruct (Nat.ltb i _); [|discriminate]. injection N as ->. auto.
Qed.
Lemma cls_ptr : forall s H i o, Cls s -> okH H -> Cls (St H (upd (vs s) i (Some (VPtr o)))).
Proof. intros. apply cls_set; auto. intros w E. injection E as <-. apply pol_ptr. Qed.
Lemma cls_add : forall s H v, Cls s -> okH H -> polok v -> Cls (addv (St H (vs s)) v).
Proof.
  intros s H v C O P. split; cbn [hp vs addv]; auto. intros j w N. rewrite nth_snoc in N.
  destruct (Nat.eqb j _); [injection N as <-; auto|eapply C; eauto].
Qed.
Lemma cls_heap : forall s H, Cls s -> okH H -> Cls (St H (vs s)).
Proof. intros s H C O. split; cbn; auto. apply C. Qed.
Lemma cls_get : forall s i v, Cls s -> getv s i = Ok v -> polok v.
Proof. unfold getv. intros s i v C E. destruct (nth_error (vs s) i) as [[w|]|] eqn:N; try discriminate. injection E as <-. eapply C; eauto. Qed.
Lemma ok_fin : forall w H v H1 o, okH H -> fin hd hc w H v = (H1, o) -> okH H1.
Proof. intros w H v H1 o O E. destruct v; cbn [fin mk] in E; [destruct w| |]; injection E as <- <-; okl. Qed.
Lemma cls_own : forall w f s i s1 o, Cls s -> own hd hc w f s i = Ok (s1, o) -> Cls s1.
Proof.
  intros w f s i s1 o C E. unfold own in E. apply rb_ok in E. destruct E as (v & Ev & E). destruct (fin hd hc w (hp s) v) as [H1 q] eqn:Ef.
  apply ok_fin in Ef; [|apply C]. apply rb_ok in E. destruct E as (o1 & _ & E). injection E as <- <-. apply cls_ptr; auto.
Qed.
Lemma cls_full : forall s i s1, Cls s -> full_copy hd hc g s i = Ok s1 -> Cls s1.
Proof.
  intros s i s1 C E. unfold full_copy in E. apply rb_ok in E. destruct E as (v & Ev & E). destruct (andb _ _); [|injection E as <-; auto].
  destruct (fin hd hc false (hp s) v) as [H1 q] eqn:Ef. apply ok_fin in Ef; [|apply C]. injection E as <-. apply cls_ptr; auto.
Qed.
Tactic Notation "down" hyp(E) simple_intropattern(n) := apply rb_ok in E; destruct E as n.
Lemma cls_push_view : forall e f s i d s1, Cls s -> push_view hd hc g e f s i d = Ok s1 -> Cls s1.
Proof.
  intros e f s i d s1 C E. unfold push_view in E. down E ([s2 o] & E1 & E). apply cls_own in E1; auto. down E ([H2 q] & E2 & E). injection E as <-.
  eapply (proj1 (@ok_apply_v a _ _ _)) in E2; [|apply E1]; cbn [fst] in E2. apply cls_ptr; auto.
Qed.
Lemma cls_push : forall e f s i j s1, Cls s -> push hd hc g e f s i j = Ok s1 -> Cls s1.
Proof.
  intros e f s i j s1 C E. unfold push in E. down E (s2 & E1 & E). apply cls_full in E1; auto. down E (s3 & E2 & E). apply cls_full in E2; auto.
  down E (v & Ev & E). down E (u & Eu & E). destruct u.
  - eapply cls_push_view; eauto.
  - destruct (Nat.eqb i j); [discriminate|]. eapply cls_push_view; eauto.
  - destruct (is_cso v).
    + down E ([s4 p] & E3 & E). apply cls_own in E3; auto. down E ([H4 q] & E4 & E). injection E as <-.
      eapply (proj1 (@ok_apply_v a _ _ _)) in E4; [|apply E3]; cbn [fst] in E4. apply cls_ptr; auto.
    + down E ([s4 p] & E3 & E). apply cls_own in E3; auto. down E ([s5 p5] & E4 & E). apply cls_own in E4; auto. down E ([H5 q] & E5 & E). injection E as <-.
      apply ok_apply_p with (a := a) in E5; [|apply E4]; cbn [fst] in E5. apply cls_ptr; auto.
Qed.
Lemma cls_push_rep : forall e f s i c n s1, asg a = false -> Cls s -> push_rep hd hc g e f s i c n = Ok s1 -> Cls s1.
Proof.
  intros e f s i c n s1 A C E. unfold push_rep, mk in E. destruct (Nat.eqb_spec n 0); [injection E as <-; auto|].
  down E ([s2 o] & E1 & E). apply cls_own in E1; auto. down E ([H2 q] & E2 & E). injection E as <-.
  apply ok_apply_p with (a := a) in E2; [|okl; [apply E1|split; auto; okz]]; cbn [fst] in E2. apply cls_ptr; auto.
Qed.
Lemma cls_plus_view : forall e f s i d s1, Cls s -> plus_view hd hc g e f s i d = Ok s1 -> Cls s1.
Proof.
  intros e f s i d s1 C E. unfold plus_view in E. down E ([s2 o] & E1 & E). apply cls_own in E1; auto. down E ([H2 q] & E2 & E). injection E as <-.
  eapply (proj1 (@ok_apply_v a _ _ _)) in E2; [|apply E1]; cbn [fst] in E2. apply cls_add; auto. apply pol_ptr.
Qed.
Lemma cls_plus : forall f s i j s1, Cls s -> plus hd hc g f s i j = Ok s1 -> Cls s1.
Proof.
  intros f s i j s1 C E. unfold plus in E. down E (s2 & E1 & E). apply cls_full in E1; auto. down E (u & Eu & E). destruct u.
  - eapply cls_plus_view; eauto.
  - destruct (Nat.eqb i j); [discriminate|]. eapply cls_plus_view; eauto.
  - down E ([s4 p] & E3 & E). apply cls_own in E3; auto. down E ([s5 p5] & E4 & E). apply cls_own in E4; auto. down E ([H5 q] & E5 & E). injection E as <-.
    apply ok_apply_p with (a := a) in E5; [|apply E4]; cbn [fst] in E5. apply cls_add; auto. apply pol_ptr.
Qed.
Lemma cls_substr : ord a = false -> forall f s i b n s1 v, Cls s -> substr hd hc f s i b n = Ok (s1, v) -> Cls s1 /\ polok v.
Proof.
  intros Z0 f s i b n s1 v C E. unfold substr in E. down E (t & _ & E). down E (r & _ & E). destruct (Nat.eqb _ 0).
  - injection E as <- <-. split; auto. apply pol_nil.
  - down E ([s2 o] & E1 & E). apply cls_own in E1; auto. down E ([H2 q] & E2 & E). injection E as <- <-.
    apply ok_get_sub with (a := a) in E2; [|auto|apply E1]; cbn [fst] in E2. split; [apply cls_heap; auto|apply pol_ptr].
Qed.
Lemma cls_observe : forall md f s i s1 d, Cls s -> observe hd hc g md f s i = Ok (s1, d) -> Cls s1.
Proof.
  intros md f s i s1 d C E. unfold observe in E. down E (v & _ & E). destruct v; try (injection E as <- <-; exact C).
  down E ([s2 q] & E1 & E). apply cls_own in E1; auto. down E ([[H2 q2] d2] & E2 & E). injection E as <- <-. apply ok_flat in E2; [|apply E1]; cbn [fst] in E2. apply cls_ptr; auto.
Qed.
Lemma cls_cmp_l : forall f s i s1 c, Cls s -> cmp_l f s i [] = Ok (s1, c) -> Cls s1.
Proof.
  intros f s i s1 c C E. unfold cmp_l in E. down E (r & _ & E). injection E as <- <-. destruct r; auto.
  apply cls_set; auto; [apply C|]. intros w Ew. injection Ew as <-. apply pol_nil.
Qed.
Lemma cls_step : forall f s x s1 o, inclass a m x -> Cls s -> step hd hc g f s x = Ok (s1, o) -> Cls s1.
Proof.
  intros f s x s1 r I C E. unfold step, mk in E.
  destruct x as [d|d|c|n c|j|j|i j|i j|i d|i c|i|i|e i j|e i d|e i c n|i j|e i d|i p c|i b n|i n c|i p n|i p j|i p d|e i n|e i n|i|i p|i|i|i|q i j|q i d|q i d]; cbn [inclass] in I; try contradiction.
  - injection E as <- <-. apply cls_add; auto; [okl; apply C|apply pol_ptr].
  - injection E as <- <-. destruct s as [h l]. apply (@cls_add (St h l) h); auto; [apply C|]. unfold polok. destruct m; auto.
  - injection E as <- <-. destruct s as [h l]. apply (@cls_add (St h l) h); auto; [apply C|]. unfold polok. rewrite I. exact Logic.I.
  - injection E as <- <-. apply cls_add; auto; [okl; apply C|apply pol_ptr].
  - down E (v & Ev & E). injection E as <- <-. destruct s as [h l]. apply (@cls_add (St h l) h); auto; [apply C|]. eapply cls_get; eauto.
  - down E (v & Ev & E). injection E as <- <-. assert (P := cls_get C Ev). apply (@cls_add (setv s j (Some (VStr []))) (hp s)); auto.
    + apply cls_set; auto; [apply C|]. intros w Ew. injection Ew as <-. apply pol_nil.
    + apply C.
  - down E (v & Ev & E). down E (u & Eu & E). destruct (andb _ _); [discriminate|]. injection E as <- <-. apply cls_set; auto; [apply C|].
    intros w Ew. injection Ew as <-. eapply cls_get; eauto.
  - down E (v & Ev & E). down E (u & Eu & E). injection E as <- <-. apply (@cls_set (setv s i (Some u)) (hp s)).
    + apply cls_set; auto; [apply C|]. intros w Ew. injection Ew as <-. eapply cls_get; eauto.
    + apply C.
    + intros w Ew. injection Ew as <-. exact (cls_get C Ev).
  - down E (v & Ev & E). injection E as <- <-. apply cls_set; auto; [apply C|]. intros w Ew. injection Ew as <-. unfold polok. destruct m; auto.
  - down E (v & Ev & E). injection E as <- <-. apply cls_set; auto; [apply C|]. intros w Ew. injection Ew as <-. unfold polok. rewrite I. exact Logic.I.
  - down E (v & Ev & E). injection E as <- <-. apply cls_set; auto; [apply C|]. intros w Ew. injection Ew as <-. apply pol_nil.
  - down E (v & Ev & E). injection E as <- <-. apply cls_set; auto; [apply C|]. discriminate.
  - down E (s2 & E1 & E). injection E as <- <-. eapply cls_push; eauto.
  - down E (s2 & E1 & E). injection E as <- <-. eapply cls_push_view; eauto.
  - down E (v & _ & E). down E (s2 & E1 & E). injection E as <- <-. eapply cls_push_rep; eauto.
  - down E (s2 & E1 & E). injection E as <- <-. eapply cls_plus; eauto.
  - down E (s2 & E1 & E). injection E as <- <-. eapply cls_plus_view; eauto.
  - down E (s2 & E1 & E). injection E as <- <-. down E1 ([s3 q] & E2 & E1). apply cls_own in E2; auto. down E1 ([H2 q2] & E3 & E1). injection E1 as <-.
    apply ok_arec_set with (a := a) in E3; [|congruence|apply E2]; cbn [fst] in E3. apply cls_ptr; auto.
  - down E ([s2 v] & E1 & E). injection E as <- <-. apply cls_substr in E1; auto. destruct E1 as [C1 P]. destruct s2 as [h l]. apply (@cls_add (St h l) h); auto. apply C1.
  - destruct I as [I1 I2]. down E (t & _ & E). destruct (Nat.ltb_spec n t).
    + down E ([s2 v] & E1 & E). injection E as <- <-. apply cls_substr in E1; auto. destruct E1 as [C1 P]. apply cls_set; auto; [apply C1|]. intros w Ew. injection Ew as <-. auto.
    + destruct (Nat.eqb_spec t n); [injection E as <- <-; auto|]. destruct (Nat.eqb_spec t 0).
      * injection E as <- <-. apply cls_ptr; auto. okl; [apply C|]. split; auto. okz.
      * down E ([s2 q] & E1 & E). apply cls_own in E1; auto. injection E as <- <-. apply cls_ptr; auto. okl. apply E1.
  - down E (s2 & E1 & E). injection E as <- <-. down E1 ([s3 q] & E2 & E1). apply cls_own in E2; auto. down E1 ([H2 q2] & E3 & E1). injection E1 as <-.
    apply ok_do_erase with (a := a) in E3; [|auto|apply E2]; cbn [fst] in E3. apply cls_ptr; auto.
  - down E (t & _ & E). injection E as <- <-. auto.
  - down E (v & _ & E). destruct v; down E (c9 & _ & E); injection E as <- <-; auto.
  - down E ([s2 d] & E1 & E). injection E as <- <-. eapply cls_observe; eauto.
  - down E ([s2 d] & E1 & E). injection E as <- <-. eapply cls_observe; eauto.
  - down E (v & _ & E). destruct v; try (injection E as <- <-; exact C). down E ([H1 h] & E1 & E). injection E as <- <-. eapply (proj1 (ok_hash _)) in E1; [|apply C]; cbn [fst] in E1. apply cls_heap; auto.
  - destruct I as [_ I]. down E ([s2 c] & E1 & E). injection E as <- <-. unfold cmp_s in E1. down E1 (v & Ev & E1). down E1 (u & Eu & E1).
    assert (Pv := cls_get C Ev). assert (Pu := cls_get C Eu). unfold polok in Pv, Pu. rewrite I in Pv, Pu.
    destruct u as [d|d|p]; [|contradiction|]; [|destruct v as [d|d|o]; [|contradiction|]].
    + subst d. eapply cls_cmp_l; eauto.
    + subst d. down E1 ([s3 r] & E2 & E1). injection E1 as <- <-. eapply cls_cmp_l; eauto.
    + down E1 ([H1 r] & E2 & E1). injection E1 as <- <-. apply ok_cmp_top in E2; [|apply C]. apply cls_heap; auto.
  - down E (c & _ & E). injection E as <- <-. auto.
  - down E ([s2 c] & E1 & E). injection E as <- <-. destruct I as (_ & _ & ->). eapply cls_cmp_l; eauto.
Qed.
Lemma ok_plain : forall H o, okH H -> plain H o.
Proof. intros H o O q k c _ N. assert (K := O _ _ _ N). destruct k; auto. Qed.
Lemma ok_blk : forall H o, ord a = true -> okH H -> allk blkk H o.
Proof. intros H o Z0 O r k c _ N. assert (K := O _ _ _ N). destruct k; cbn in *; auto. congruence. Qed.
Lemma ok_node : forall q H o p, ord a = true -> okH H -> node_cmp g q H o p.
Proof.
  intros q H o p Z0 O. split; [|split].
  - intros r k c _ N. assert (K := O _ _ _ N). destruct k; cbn in *; auto; try tauto. congruence.
  - intros _ p1 p2 t1 t2 b n c1 c2 f n1 n2 _ _ N1. assert (K := O _ _ _ N1). cbn in K. congruence.
  - left. intros r k c _ N. assert (K := O _ _ _ N). destruct k; cbn in *; auto. congruence.
Qed.
Lemma cls_guard : forall s x, inclass a m x -> Cls s -> guard g s x.
Proof.
  intros s x I C.
  assert (W : forall i, wholev s i). { intros i o N. apply w_plain. apply ok_plain. apply C. }
  assert (NC : m <> Chars -> forall i c, nth_error (vs s) i <> Some (Some (VChr c))).
  { intros M i c N. assert (P := cl_var C N). unfold polok in P. destruct m; auto. }
  destruct x; cbn [inclass guard] in *; auto; try contradiction.
  - split.
    + intros _ c N. exfalso. refine (NC _ _ _ N). congruence.
    + intros v N Sm _ NE. exfalso. assert (P := cl_var C N). unfold polok in P. rewrite I in P. destruct v; cbn in *; try contradiction; discriminate.
  - intros E c N. exfalso. exact (NC (I E) _ _ N).
  - intros o q _ _ q' k c' _ N. assert (K := cl_heap C N). destruct k; cbn in *; auto. destruct K. congruence.
  - destruct I as [Z0 I]. intros v u Nv Nu. assert (Pv := cl_var C Nv). assert (Pu := cl_var C Nu). unfold polok in Pv, Pu. rewrite I in Pv, Pu.
    destruct v as [d|d|o], u as [e|e|p]; try contradiction; try (apply ok_blk; auto; apply C).
    + subst. left. reflexivity.
    + apply ok_node; auto. apply C.
  - destruct I as (Z0 & I & ->). intros v N. assert (P := cl_var C N). unfold polok in P. rewrite I in P. destruct v; [|contradiction|apply ok_blk; auto; apply C].
    subst. left. reflexivity.
  - destruct I as (Z0 & I & ->). intros v N. assert (P := cl_var C N). unfold polok in P. rewrite I in P. destruct v; [|contradiction|apply ok_blk; auto; apply C].
    subst. left. reflexivity.
Qed.
End Ok3.

Lemma class_safe : forall hd hc a m xs s, Forall (fun x => inclass a m (snd x)) xs -> Cls a m s -> Safe hd hc s xs.
Proof.
  intros hd hc a m. induction xs as [|[g x] t IH]; intros s F C; [constructor|]. inversion F as [|? ? I F']; subst. cbn [snd] in I. constructor.
  - eapply cls_guard; eauto.
  - intros s' o (f0 & E). apply IH; auto. eapply cls_step; eauto.
Qed.
Lemma class_start : forall a m, Cls a m st0.
Proof.
  intros a m. split; cbn.
  - intros [|[|q]] k c N; cbn in N; try discriminate. injection N as <- <-. exact Logic.I.
  - intros [|i] v N; discriminate.
Qed.
Lemma class_program : forall hd hc a m xs l' os, (0 < hd)%Z -> (hd | 2 ^ hd)%Z -> (forall c, word hd (hc c)) ->
  sruns [] (map snd xs) = Some (l', os) -> Forall (fun x => Sound (fst x)) xs -> Forall (fun x => inclass a m (snd x)) xs ->
  exists f0 s' outs, (forall f, f0 <= f -> run hd hc f st0 xs = Ok (s', outs)) /\ Forall2 (out_ok hd hc) os outs.
Proof. intros. eapply program_run; eauto. eapply class_safe; eauto. apply class_start. Qed.
