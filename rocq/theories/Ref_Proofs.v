(** Proofs about reference counting (C37, C38). *)
From Verif Require Import Base Ref_Model Ref_Spec.
Local Open Scope nat_scope.

(** ** Counting handles *)
Definition hdec (x y : handle) : {x = y} + {x <> y}.
Proof. decide equality; [apply Nat.eq_dec | apply bool_dec]. Defined.
Definition cnt (l : list handle) (v : handle) : nat := count_occ hdec l v.
Definition cenv (c : option handle) : list handle := match c with Some v => [v] | None => [] end.
Definition ccell (c : option obj) : list handle := match c with Some x => flds x | None => [] end.
Definition cstk (t : task) : list handle := match t with TCut s o => [(s, o)] | _ => [] end.
Definition ctid (t : task) : list nat := match t with TClear o _ => [o] | TDtor o => [o] | _ => [] end.
Definition henv (e : list (option handle)) := flat_map cenv e.
Definition hheap (h : heap) := flat_map ccell h.
Definition hstk (k : list task) := flat_map cstk k.
Definition tids (k : list task) := flat_map ctid k.
Definition R (h : heap) e k v := cnt (henv e) v + cnt (hheap h) v + cnt (hstk k) v.
Definition self (o : nat) : nat := if Nat.eqb o 0 then 1 else 0.
Definition one (u v : handle) : nat := if hdec u v then 1 else 0.

Lemma cnt_app : forall l1 l2 v, cnt (l1 ++ l2) v = cnt l1 v + cnt l2 v.
Proof. intros. unfold cnt. apply count_occ_app. Qed.
Lemma cnt_cons : forall u l v, cnt (u :: l) v = one u v + cnt l v.
Proof. intros. unfold cnt, one. cbn. destruct (hdec u v); lia. Qed.
Lemma cnt_nil : forall v, cnt [] v = 0. Proof. reflexivity. Qed.
Lemma one_same : forall v, one v v = 1.
Proof. intros. unfold one. destruct (hdec v v); congruence. Qed.
Lemma one_diff : forall u v, u <> v -> one u v = 0.
Proof. intros. unfold one. destruct (hdec u v); congruence. Qed.
Lemma cnt_in : forall l v, cnt l v > 0 <-> In v l.
Proof. intros. unfold cnt. symmetry. apply count_occ_In. Qed.

Lemma upd_length : forall A (l : list A) n v, length (upd l n v) = length l.
Proof. induction l; intros [|n] v; cbn; auto. Qed.
Lemma nth_upd : forall A (l : list A) n v i,
  nth_error (upd l n v) i = if Nat.eqb i n then (if Nat.ltb n (length l) then Some v else None) else nth_error l i.
Proof.
  induction l as [|a l IH]; intros [|n] v [|i]; cbn; auto.
  - destruct (Nat.eqb i n); reflexivity.
  - rewrite IH. destruct (Nat.eqb i n); auto.
Qed.

Lemma cnt_flat_upd : forall A (f : A -> list handle) l n a a' v, nth_error l n = Some a ->
  cnt (flat_map f (upd l n a')) v + cnt (f a) v = cnt (flat_map f l) v + cnt (f a') v.
Proof.
  induction l as [|b l IH]; intros [|n] a a' v H; cbn in *; try discriminate.
  - injection H as ->. rewrite !cnt_app. lia.
  - rewrite !cnt_app. specialize (IH n a a' v H). lia.
Qed.
Lemma flat_sing : forall A (l : list A), flat_map (fun x => [x]) l = l.
Proof. induction l; cbn; congruence. Qed.
Lemma cnt_upd : forall l n a a' v, nth_error l n = Some a ->
  cnt (upd l n a') v + one a v = cnt l v + one a' v.
Proof.
  intros l n a a' v H. pose proof (@cnt_flat_upd handle (fun x => [x]) l n a a' v H) as E.
  cbv beta in E. rewrite !flat_sing in E. rewrite !cnt_cons, cnt_nil in E. lia.
Qed.

Lemma getO_nth : forall h o x, getO h o = Some x -> nth_error h o = Some (Some x).
Proof. intros h o x. unfold getO. destruct (nth_error h o) as [[y|]|]; congruence. Qed.
Lemma getO_lt : forall h o x, getO h o = Some x -> o < length h.
Proof. intros h o x H. apply getO_nth in H. apply nth_error_Some. congruence. Qed.
Lemma getO_upd : forall h o c p, o < length h -> getO (upd h o c) p = if Nat.eqb p o then c else getO h p.
Proof.
  intros h o c p H. unfold getO. rewrite nth_upd. destruct (Nat.eqb p o) eqn:E; auto.
  apply Nat.ltb_lt in H. rewrite H. destruct c; auto.
Qed.
Lemma getO_app : forall h x p, getO (h ++ [Some x]) p = if Nat.eqb p (length h) then Some x else getO h p.
Proof.
  intros h x p. unfold getO. destruct (Nat.eqb_spec p (length h)) as [->|N].
  - rewrite nth_error_app2, Nat.sub_diag by lia. reflexivity.
  - destruct (Nat.ltb_spec p (length h)).
    + rewrite nth_error_app1 by lia. reflexivity.
    + rewrite nth_error_app2 by lia. destruct (p - length h) as [|m] eqn:E; [lia|].
      cbn. replace (nth_error h p) with (@None (option obj)) by (symmetry; apply nth_error_None; lia).
      destruct m; reflexivity.
Qed.

(** The handles of a heap after one object changed. *)
Lemma R_upd : forall h e k o x c v, getO h o = Some x ->
  R (upd h o c) e k v + cnt (flds x) v = R h e k v + cnt (ccell c) v.
Proof.
  intros. unfold R. apply getO_nth in H. unfold hheap.
  pose proof (@cnt_flat_upd _ ccell h o (Some x) c v H) as E. cbn [ccell] in E. lia.
Qed.
Lemma R_stk : forall h e t k v, R h e (t :: k) v = cnt (cstk t) v + R h e k v.
Proof. intros. unfold R, hstk. cbn. rewrite cnt_app. lia. Qed.
Lemma in_heap_R : forall h e k o x v, getO h o = Some x -> In v (flds x) -> R h e k v > 0.
Proof.
  intros. unfold R. assert (cnt (hheap h) v > 0); [|lia]. apply cnt_in. unfold hheap. apply in_flat_map.
  exists (Some x). split; [|exact H0]. apply getO_nth in H. eapply nth_error_In; eauto.
Qed.
Lemma in_stk_R : forall h e k b o, In (TCut b o) k -> R h e k (b, o) > 0.
Proof.
  intros. unfold R. assert (cnt (hstk k) (b, o) > 0); [|lia]. apply cnt_in. unfold hstk. apply in_flat_map.
  eexists; split; eauto. cbn; auto.
Qed.

(** ** The invariant *)
Record Inv (h : heap) (e : list (option handle)) (d c : list nat) (k : list task) : Prop := mkInv {
  i_null : exists z, getO h 0 = Some z /\ flds z = [];
  i_cnt : forall o x, getO h o = Some x -> st x = R h e k (true, o) + self o /\ wk x = R h e k (false, o);
  i_dng : forall b o, R h e k (b, o) > 0 -> exists x, getO h o = Some x;
  i_str : forall o x v, getO h o = Some x -> In v (flds x) -> fst v = true;
  i_wk : forall o, In (TCut false o) k -> k = [TCut false o];
  i_clr : forall o is, In (TClear o is) k -> In o c /\ exists x, getO h o = Some x /\ st x = 0 /\ wk x > 0 /\
            Forall (fun i => i < length (flds x)) is /\
            forall j, j < length (flds x) -> ~ In j is -> nth_error (flds x) j = Some (true, 0);
  i_dt : forall o, In (TDtor o) k -> exists x, getO h o = Some x /\ st x = 0 /\ wk x = 0;
  i_nd : NoDup (tids k);
  i_zero : forall o x, getO h o = Some x -> st x = 0 ->
            In o (tids k) \/ (wk x > 0 /\ In o c /\ Forall (eq (true, 0)) (flds x));
  i_d : forall o, In o d <-> o < length h /\ (getO h o = None \/ In (TDtor o) k);
  i_dn : NoDup d;
  i_c : forall o x, In o c -> getO h o = Some x -> st x = 0;
  i_cn : NoDup c;
  i_cl : forall o, In o c -> o < length h
}.

Lemma self_pos : forall o, o <> 0 -> self o = 0.
Proof. intros. unfold self. destruct (Nat.eqb_spec o 0); congruence. Qed.

Lemma in_tids : forall k o, In o (tids k) <-> (exists is, In (TClear o is) k) \/ In (TDtor o) k.
Proof.
  intros k o. unfold tids. rewrite in_flat_map. split.
  - intros ([b p|p is|p] & H & I); cbn in I; [destruct I | destruct I as [<-|[]] | destruct I as [<-|[]]]; eauto.
  - intros [[is H]|H]; eexists; split; eauto; cbn; auto.
Qed.

Ltac gu := match goal with
  | L : ?o < length ?h |- context [getO (upd ?h ?o ?c) ?p] => rewrite (@getO_upd h o c p L) in *
  end.

Lemma null_not_task : forall h e d c k, Inv h e d c k -> ~ In 0 (tids k).
Proof.
  intros h e d c k I H. apply in_tids in H. destruct H as [[is H]|H].
  - destruct (i_clr I H) as (_ & x & G & S & _). destruct (i_cnt I G) as [E _]. unfold self in E. cbn in E. lia.
  - destruct (i_dt I H) as (x & G & S & _). destruct (i_cnt I G) as [E _]. unfold self in E. cbn in E. lia.
Qed.

Lemma pos_not_task : forall h e d c k o x, Inv h e d c k -> getO h o = Some x -> st x > 0 -> ~ In o (tids k).
Proof.
  intros h e d c k o x I G P H. apply in_tids in H. destruct H as [[is H]|H].
  - destruct (i_clr I H) as (_ & y & G' & S & _). rewrite G in G'; injection G' as <-; lia.
  - destruct (i_dt I H) as (y & G' & S & _). rewrite G in G'; injection G' as <-; lia.
Qed.

(** ** Termination measure *)
Definition Q (c : option obj) : nat :=
  match c with
  | None => 0
  | Some x => (2 * length (flds x) + 1) + (if Nat.eqb (st x) 0 then 0 else 2 * length (flds x) + 1)
  end.
Definition W (t : task) : nat :=
  match t with TCut _ _ => 1 | TClear _ is => 2 * length is + 1 | TDtor _ => 0 end.
Fixpoint sum {A} (f : A -> nat) (l : list A) : nat := match l with [] => 0 | x :: r => f x + sum f r end.
Definition M (h : heap) (k : list task) : nat := sum Q h + sum W k.

Lemma sum_upd : forall A (f : A -> nat) l n a a', nth_error l n = Some a ->
  sum f (upd l n a') + f a = sum f l + f a'.
Proof.
  induction l as [|b l IH]; intros [|n] a a' H; cbn in *; try discriminate.
  - injection H as ->. lia.
  - specialize (IH n a a' H). lia.
Qed.
Lemma Q_upd : forall h o x c, getO h o = Some x -> sum Q (upd h o c) + Q (Some x) = sum Q h + Q c.
Proof. intros. apply sum_upd. apply getO_nth; auto. Qed.

Definition frame (h h' : heap) : Prop := forall p y, getO h' p = Some y -> st y > 0 ->
  exists x, getO h p = Some x /\ st x > 0 /\ flds x = flds y.

Definition good (h : heap) (e : list (option handle)) (d c : list nat) (k : list task)
  (h' : heap) (d' c' : list nat) (k' : list task) : Prop :=
  Inv h' e d' c' k' /\ M h' k' < M h k /\ length h' = length h /\ frame h h'.

Lemma nd_cons_stk : forall t k, NoDup (tids (t :: k)) -> NoDup (tids k).
Proof. intros [b o|o is|o] k H; cbn in *; auto; inversion H; auto. Qed.

Lemma R_set : forall h e k o x y v, getO h o = Some x -> flds y = flds x ->
  R (upd h o (Some y)) e k v = R h e k v.
Proof. intros. pose proof (@R_upd h e k o x (Some y) v H). cbn [ccell] in *. rewrite H0 in *. lia. Qed.

Lemma step_cut_strong : forall h e d c o k, Inv h e d c (TCut true o :: k) ->
  exists h' d' c' k', step h d c (TCut true o :: k) = Some (h', d', c', k') /\
    good h e d c (TCut true o :: k) h' d' c' k'.
Proof.
  intros h e d c o k I.
  destruct (@i_dng _ _ _ _ _ I true o) as [x G].
  { apply in_stk_R; left; auto. }
  pose proof (getO_lt G) as L.
  destruct (i_cnt I G) as [S1 S2].
  rewrite R_stk in S1, S2. cbn [cstk] in S1, S2. rewrite cnt_cons, cnt_nil in S1, S2.
  rewrite one_same in S1. rewrite one_diff in S2 by congruence.
  cbn [step]. rewrite G. cbn [obind].
  destruct (st x) as [|n] eqn:Es; [lia|].
  set (y := mkObj n (wk x) (flds x)).
  assert (HR : forall v, R (upd h o (Some y)) e k v + one (true, o) v = R h e (TCut true o :: k) v).
  { intros v. rewrite R_stk. cbn [cstk]. rewrite cnt_cons, cnt_nil, (@R_set h e k o x y v G eq_refl). lia. }
  assert (Hnt : ~ In o (tids k)).
  { pose proof (@pos_not_task _ _ _ _ _ _ _ I G) as P. rewrite Es in P. cbn in P. intros H. apply P; auto. lia. }
  assert (Hnw : forall p, ~ In (TCut false p) k).
  { intros p H. pose proof (@i_wk _ _ _ _ _ I p (or_intror H)) as E. discriminate E. }
  assert (Hnc : ~ In o c).
  { intros H. pose proof (i_c I H G). lia. }
  assert (Hnd : ~ In o d).
  { intros H. apply (i_d I) in H. destruct H as [_ [H|[H|H]]]; try congruence.
    apply Hnt, in_tids. auto. }
  assert (QE : sum Q (upd h o (Some y)) + Q (Some x) = sum Q h + Q (Some y)) by (apply Q_upd; auto).
  assert (Qx : Q (Some x) = 4 * length (flds x) + 2).
  { unfold Q. rewrite Es. cbn [Nat.eqb]. lia. }
  assert (Qy : Q (Some y) = 2 * length (flds x) + 1 + (if Nat.eqb n 0 then 0 else 2 * length (flds x) + 1)) by reflexivity.
  (* facts about the heap with the decremented counter *)
  assert (Fcnt : forall p z, getO (upd h o (Some y)) p = Some z ->
            st z = R (upd h o (Some y)) e k (true, p) + self p /\ wk z = R (upd h o (Some y)) e k (false, p)).
  { intros p z Hz. pose proof (HR (true, p)) as H1. pose proof (HR (false, p)) as H2.
    rewrite (one_diff (u := (true, o)) (v := (false, p))) in H2 by congruence.
    rewrite getO_upd in Hz by auto. destruct (Nat.eqb_spec p o) as [->|N].
    - injection Hz as <-. destruct (i_cnt I G) as [A B]. rewrite one_same in H1. change (st y) with n. change (wk y) with (wk x). lia.
    - destruct (i_cnt I Hz) as [A B]. rewrite (one_diff (u := (true, o)) (v := (true, p))) in H1 by congruence. lia. }
  assert (Fdng : forall b p, R (upd h o (Some y)) e k (b, p) > 0 -> exists z, getO (upd h o (Some y)) p = Some z).
  { intros b p H. pose proof (HR (b, p)). destruct (@i_dng _ _ _ _ _ I b p) as [z Hz]; [lia|].
    rewrite getO_upd by auto. destruct (Nat.eqb p o); eauto. }
  assert (Fstr : forall p z v, getO (upd h o (Some y)) p = Some z -> In v (flds z) -> fst v = true).
  { intros p z v Hz Hv. rewrite getO_upd in Hz by auto. destruct (Nat.eqb_spec p o) as [->|N].
    - injection Hz as <-. apply (i_str I G Hv).
    - apply (i_str I Hz Hv). }
  assert (Fnull : exists z, getO (upd h o (Some y)) 0 = Some z /\ flds z = []).
  { destruct (i_null I) as (z & Z1 & Z2). rewrite getO_upd by auto. destruct (Nat.eqb_spec 0 o) as [<-|N].
    - exists y. split; auto. unfold y. cbn [flds]. congruence.
    - eauto. }
  assert (Fclr : forall p is, In (TClear p is) k -> In p c /\ exists x, getO (upd h o (Some y)) p = Some x /\ st x = 0 /\ wk x > 0 /\
            Forall (fun i => i < length (flds x)) is /\
            forall j, j < length (flds x) -> ~ In j is -> nth_error (flds x) j = Some (true, 0)).
  { intros p is H. assert (p <> o) by (intros ->; apply Hnt, in_tids; eauto).
    destruct (@i_clr _ _ _ _ _ I p is (or_intror H)) as (A & z & Z). split; auto. exists z.
    rewrite getO_upd by auto. apply Nat.eqb_neq in H0. rewrite H0. auto. }
  assert (Fdt : forall p, In (TDtor p) k -> exists x, getO (upd h o (Some y)) p = Some x /\ st x = 0 /\ wk x = 0).
  { intros p H. assert (p <> o) by (intros ->; apply Hnt, in_tids; eauto).
    destruct (@i_dt _ _ _ _ _ I p (or_intror H)) as (z & Z). exists z.
    rewrite getO_upd by auto. apply Nat.eqb_neq in H0. rewrite H0. auto. }
  assert (Fzero : forall p z, p <> o -> getO (upd h o (Some y)) p = Some z -> st z = 0 ->
            In p (tids k) \/ (wk z > 0 /\ In p c /\ Forall (eq (true, 0)) (flds z))).
  { intros p z N Hz Hs. rewrite getO_upd in Hz by auto. apply Nat.eqb_neq in N. rewrite N in Hz.
    apply (i_zero I Hz Hs). }
  assert (Ffr : frame h (upd h o (Some y))).
  { intros p z Hz Hp. rewrite getO_upd in Hz by auto. destruct (Nat.eqb_spec p o) as [->|N].
    - injection Hz as <-. exists x. repeat split; auto; lia.
    - eauto. }
  assert (Fc : forall p z, In p c -> getO (upd h o (Some y)) p = Some z -> st z = 0).
  { intros p z H Hz. rewrite getO_upd in Hz by auto. destruct (Nat.eqb_spec p o) as [->|N]; [contradiction|].
    apply (i_c I H Hz). }
  assert (Fd : forall p, In p d <-> p < length (upd h o (Some y)) /\
            (getO (upd h o (Some y)) p = None \/ In (TDtor p) k)).
  { intros p. rewrite (i_d I), upd_length, getO_upd by auto. cbn [In].
    destruct (Nat.eqb_spec p o) as [->|N].
    - rewrite G. intuition (try discriminate). 
    - intuition discriminate. }
  assert (Hn0 : n = 0 -> o <> 0).
  { intros -> ->. unfold self in S1. cbn in S1. lia. }
  destruct (Nat.eqb_spec n 0) as [->|Nn].
  - specialize (Hn0 eq_refl).
    destruct (Nat.eqb_spec (wk x) 0) as [Ew|Ew]; cbn [negb].
    + (* destroyed at once *)
      eexists _, _, _, _. split; [reflexivity|]. split; [|split; [|split; [apply upd_length|exact Ffr]]].
      2:{ unfold M. cbn [sum W]. cbn [Nat.eqb] in Qy. lia. }
      constructor; auto.
      * intros p H. cbn in H. destruct H as [H|H]; [discriminate|]. exfalso; eapply Hnw; eauto.
      * intros p is [H|H]; [discriminate|]. auto.
      * intros p [H|H]; [|auto]. injection H as <-. exists y. rewrite getO_upd, Nat.eqb_refl by auto. repeat split; auto.
      * cbn. constructor; auto. apply (nd_cons_stk (t := TCut true o)). apply (i_nd I).
      * intros p z Hz Hs. destruct (Nat.eq_dec p o) as [->|N]; [left; cbn; auto|].
        destruct (Fzero p z N Hz Hs) as [H|H]; [left; cbn; auto|right; auto].
      * intros p. cbn [In]. rewrite Fd. rewrite upd_length. intuition (subst; auto); try congruence.
      * constructor; auto. apply (i_dn I).
      * apply (i_cn I).
      * intros p H. rewrite upd_length. apply (i_cl I H).
    + (* waits: clear() runs *)
      eexists _, _, _, _. split; [reflexivity|]. split; [|split; [|split; [apply upd_length|exact Ffr]]].
      2:{ unfold M. cbn [sum W]. rewrite seq_length. cbn [Nat.eqb] in Qy. lia. }
      constructor; auto.
      * intros p H. cbn in H. destruct H as [H|H]; [discriminate|]. exfalso; eapply Hnw; eauto.
      * intros p is [H|H].
        -- injection H as <- <-. split; [left; auto|]. exists y. rewrite getO_upd, Nat.eqb_refl by auto.
           unfold y. cbn [st wk flds]. repeat split; auto; [lia| |].
           ++ apply Forall_forall. intros i Hi. apply in_seq in Hi. lia.
           ++ intros j Hj Hn. exfalso. apply Hn. apply in_seq. lia.
        -- destruct (Fclr _ _ H) as [A B]. split; [right; auto|auto].
      * intros p [H|H]; [discriminate|auto].
      * cbn. constructor; auto. apply (nd_cons_stk (t := TCut true o)). apply (i_nd I).
      * intros p z Hz Hs. destruct (Nat.eq_dec p o) as [->|N]; [left; cbn; auto|].
        destruct (Fzero p z N Hz Hs) as [H|(A & B & C)]; [left; cbn; auto|right; repeat split; auto; right; auto].
      * intros p. rewrite Fd. cbn [In]. intuition (try discriminate).
      * apply (i_dn I).
      * intros p z [<-|H] Hz.
        -- rewrite getO_upd, Nat.eqb_refl in Hz by auto. injection Hz as <-. reflexivity.
        -- eapply Fc; eauto.
      * constructor; auto. apply (i_cn I).
      * intros p [<-|H]; rewrite upd_length; auto. apply (i_cl I H).
  - eexists _, _, _, _. split; [reflexivity|]. split; [|split; [|split; [apply upd_length|exact Ffr]]].
    2:{ unfold M. cbn [sum W]. lia. }
    constructor; auto.
    * intros p H. exfalso; eapply Hnw; eauto.
    * apply (nd_cons_stk (t := TCut true o)). apply (i_nd I).
    * intros p z Hz Hs. destruct (Nat.eq_dec p o) as [->|N].
      { rewrite getO_upd, Nat.eqb_refl in Hz by auto. injection Hz as <-. cbn in Hs. lia. }
      apply Fzero; auto.
    * apply (i_dn I).
    * apply (i_cn I).
    * intros p H. rewrite upd_length. apply (i_cl I H).
Qed.

Lemma step_cut_weak : forall h e d c o k, Inv h e d c (TCut false o :: k) ->
  exists h' d' c' k', step h d c (TCut false o :: k) = Some (h', d', c', k') /\
    good h e d c (TCut false o :: k) h' d' c' k'.
Proof.
  intros h e d c o k I.
  assert (k = []) as ->.
  { pose proof (@i_wk _ _ _ _ _ I o (or_introl eq_refl)) as E. congruence. }
  destruct (@i_dng _ _ _ _ _ I false o) as [x G].
  { apply in_stk_R; left; auto. }
  pose proof (getO_lt G) as L.
  destruct (i_cnt I G) as [S1 S2].
  rewrite R_stk in S1, S2. cbn [cstk] in S1, S2. rewrite cnt_cons, cnt_nil in S1, S2.
  rewrite one_same in S2. rewrite one_diff in S1 by congruence.
  cbn [step]. rewrite G. cbn [obind].
  destruct (wk x) as [|n] eqn:Es; [lia|].
  set (y := mkObj (st x) n (flds x)).
  assert (HR : forall v, R (upd h o (Some y)) e [] v + one (false, o) v = R h e [TCut false o] v).
  { intros v. rewrite R_stk. cbn [cstk]. rewrite cnt_cons, cnt_nil, (@R_set h e [] o x y v G eq_refl). lia. }
  assert (QE : sum Q (upd h o (Some y)) + Q (Some x) = sum Q h + Q (Some y)) by (apply Q_upd; auto).
  assert (Qy : Q (Some y) = Q (Some x)) by reflexivity.
  assert (Fcnt : forall p z, getO (upd h o (Some y)) p = Some z ->
            st z = R (upd h o (Some y)) e [] (true, p) + self p /\ wk z = R (upd h o (Some y)) e [] (false, p)).
  { intros p z Hz. pose proof (HR (true, p)) as H1. pose proof (HR (false, p)) as H2.
    rewrite (one_diff (u := (false, o)) (v := (true, p))) in H1 by congruence.
    rewrite getO_upd in Hz by auto. destruct (Nat.eqb_spec p o) as [->|N].
    - injection Hz as <-. destruct (i_cnt I G) as [A B]. rewrite one_same in H2. change (st y) with (st x). change (wk y) with n. lia.
    - destruct (i_cnt I Hz) as [A B]. rewrite (one_diff (u := (false, o)) (v := (false, p))) in H2 by congruence. lia. }
  assert (Fdng : forall b p, R (upd h o (Some y)) e [] (b, p) > 0 -> exists z, getO (upd h o (Some y)) p = Some z).
  { intros b p H. pose proof (HR (b, p)). destruct (@i_dng _ _ _ _ _ I b p) as [z Hz]; [lia|].
    rewrite getO_upd by auto. destruct (Nat.eqb p o); eauto. }
  assert (Fstr : forall p z v, getO (upd h o (Some y)) p = Some z -> In v (flds z) -> fst v = true).
  { intros p z v Hz Hv. rewrite getO_upd in Hz by auto. destruct (Nat.eqb_spec p o) as [->|N].
    - injection Hz as <-. apply (i_str I G Hv).
    - apply (i_str I Hz Hv). }
  assert (Fnull : exists z, getO (upd h o (Some y)) 0 = Some z /\ flds z = []).
  { destruct (i_null I) as (z & Z1 & Z2). rewrite getO_upd by auto. destruct (Nat.eqb_spec 0 o) as [<-|N].
    - exists y. split; auto. change (flds y) with (flds x). congruence.
    - eauto. }
  assert (Fzero : forall p z, p <> o -> getO (upd h o (Some y)) p = Some z -> st z = 0 ->
            (wk z > 0 /\ In p c /\ Forall (eq (true, 0)) (flds z))).
  { intros p z N Hz Hs. rewrite getO_upd in Hz by auto. apply Nat.eqb_neq in N. rewrite N in Hz.
    destruct (i_zero I Hz Hs) as [[]|H]; auto. }
  assert (Ffr : frame h (upd h o (Some y))).
  { intros p z Hz Hp. rewrite getO_upd in Hz by auto. destruct (Nat.eqb_spec p o) as [->|N].
    - injection Hz as <-. exists x. repeat split; auto; lia.
    - eauto. }
  assert (Fc : forall p z, In p c -> getO (upd h o (Some y)) p = Some z -> st z = 0).
  { intros p z H Hz. rewrite getO_upd in Hz by auto. destruct (Nat.eqb_spec p o) as [->|N].
    - injection Hz as <-. apply (i_c I H G).
    - apply (i_c I H Hz). }
  assert (Fd : forall p, In p d <-> p < length (upd h o (Some y)) /\ getO (upd h o (Some y)) p = None).
  { intros p. rewrite (i_d I), upd_length, getO_upd by auto. cbn [In].
    destruct (Nat.eqb_spec p o) as [->|N].
    - rewrite G. intuition (try discriminate).
    - intuition discriminate. }
  destruct (Nat.eqb_spec n 0) as [->|Nn]; cbn [andb].
  - destruct (Nat.eqb_spec (st x) 0) as [E0|E0].
    + eexists _, _, _, _. split; [reflexivity|]. split; [|split; [|split; [apply upd_length|exact Ffr]]].
      2:{ unfold M. cbn [sum W]. lia. }
      constructor; auto.
      * intros p [H|[]]; discriminate.
      * intros p is [H|[]]; discriminate.
      * intros p [H|[]]. injection H as <-. exists y. rewrite getO_upd, Nat.eqb_refl by auto. repeat split; auto.
      * cbn. constructor; auto. constructor.
      * intros p z Hz Hs. destruct (Nat.eq_dec p o) as [->|N]; [left; cbn; auto|].
        right. apply Fzero; auto.
      * intros p. cbn [In]. rewrite Fd. rewrite upd_length. split.
        -- intros [->|[A B]]; auto.
        -- intros [A [B|[B|[]]]]; [right; auto|left; congruence].
      * constructor; [|apply (i_dn I)]. rewrite Fd, getO_upd, Nat.eqb_refl by auto. intros [_ H]; discriminate.
      * apply (i_cn I).
      * intros p H. rewrite upd_length. apply (i_cl I H).
    + eexists _, _, _, _. split; [reflexivity|]. split; [|split; [|split; [apply upd_length|exact Ffr]]].
      2:{ unfold M. cbn [sum W]. lia. }
      constructor; auto; try solve [intros ? []]; try solve [intros ? ? []].
      * constructor.
      * intros p z Hz Hs. destruct (Nat.eq_dec p o) as [->|N].
        { rewrite getO_upd, Nat.eqb_refl in Hz by auto. injection Hz as <-. contradiction. }
        right. apply Fzero; auto.
      * intros p. rewrite Fd. cbn [In]. intuition.
      * apply (i_dn I).
      * apply (i_cn I).
      * intros p H. rewrite upd_length. apply (i_cl I H).
  - eexists _, _, _, _. split; [reflexivity|]. split; [|split; [|split; [apply upd_length|exact Ffr]]].
    2:{ unfold M. cbn [sum W]. lia. }
    constructor; auto; try solve [intros ? []]; try solve [intros ? ? []].
    * constructor.
    * intros p z Hz Hs. destruct (Nat.eq_dec p o) as [->|N].
      { rewrite getO_upd, Nat.eqb_refl in Hz by auto. injection Hz as <-. right.
        change (st y) with (st x) in Hs. change (wk y) with n. change (flds y) with (flds x).
        destruct (i_zero I G Hs) as [[]|(A & B & C)]. repeat split; auto. lia. }
      right. apply Fzero; auto.
    * intros p. rewrite Fd. cbn [In]. intuition.
    * apply (i_dn I).
    * apply (i_cn I).
    * intros p H. rewrite upd_length. apply (i_cl I H).
Qed.

Lemma step_clear_nil : forall h e d c o k, Inv h e d c (TClear o [] :: k) ->
  good h e d c (TClear o [] :: k) h d c k.
Proof.
  intros h e d c o k I. split; [|split; [|split]]; auto.
  2:{ unfold M. cbn [sum W]. lia. }
  2:{ intros p y H P. eauto. }
  assert (HR : forall v, R h e (TClear o [] :: k) v = R h e k v).
  { intros. rewrite R_stk. reflexivity. }
  constructor.
  - apply (i_null I).
  - intros p x H. rewrite <- !HR. apply (i_cnt I H).
  - intros b p H. rewrite <- HR in H. apply (i_dng I H).
  - apply (i_str I).
  - intros p H. pose proof (@i_wk _ _ _ _ _ I p (or_intror H)). discriminate.
  - intros p is H. apply (i_clr I (or_intror H)).
  - intros p H. apply (i_dt I (or_intror H)).
  - apply (nd_cons_stk (i_nd I)).
  - intros p x H Hs. destruct (i_zero I H Hs) as [T|T]; [|right; auto].
    cbn in T. destruct T as [<-|T]; [|left; auto]. right.
    destruct (@i_clr _ _ _ _ _ I o [] (or_introl eq_refl)) as (C & y & G & A & B & _ & F).
    rewrite H in G. injection G as <-. repeat split; auto.
    apply Forall_forall. intros v Hv. apply In_nth_error in Hv. destruct Hv as [j Hj].
    assert (j < length (flds x)) by (apply nth_error_Some; congruence).
    specialize (F j H0 (fun z => z)). congruence.
  - intros p. rewrite (i_d I). cbn [In]. intuition discriminate.
  - apply (i_dn I).
  - apply (i_c I).
  - apply (i_cn I).
  - apply (i_cl I).
Qed.

Lemma step_clear_cons : forall h e d c o i is k, Inv h e d c (TClear o (i :: is) :: k) ->
  exists h' d' c' k', step h d c (TClear o (i :: is) :: k) = Some (h', d', c', k') /\
    good h e d c (TClear o (i :: is) :: k) h' d' c' k'.
Proof.
  intros h e d c o i is k I.
  destruct (@i_clr _ _ _ _ _ I o (i :: is) (or_introl eq_refl)) as (C & x & G & Hs & Hw & Fi & Fn).
  pose proof (getO_lt G) as L.
  assert (No : o <> 0).
  { intros ->. apply (null_not_task I). cbn. auto. }
  inversion Fi as [|? ? Fi1 Fi2]; subst.
  destruct (nth_error (flds x) i) as [[s t]|] eqn:Ei; [|apply nth_error_None in Ei; lia].
  assert (s = true) as ->.
  { apply nth_error_In in Ei. apply (i_str I G Ei). }
  destruct (i_null I) as (z & Z1 & Z2).
  pose proof (getO_lt Z1) as L0.
  set (x1 := mkObj (st x) (wk x) (upd (flds x) i (true, 0))).
  set (z1 := mkObj (S (st z)) (wk z) (flds z)).
  set (h2 := upd (upd h o (Some x1)) 0 (Some z1)).
  assert (No' : Nat.eqb 0 o = false) by (apply Nat.eqb_neq; auto).
  assert (Gz : getO (upd h o (Some x1)) 0 = Some z) by (rewrite getO_upd, No' by auto; auto).
  assert (Estep : step h d c (TClear o (i :: is) :: k) = Some (h2, d, c, TCut true t :: TClear o is :: k)).
  { cbn [step]. rewrite G. cbn [obind]. rewrite Ei. cbn [obind]. unfold inc. fold x1. rewrite Gz. reflexivity. }
  exists h2, d, c, (TCut true t :: TClear o is :: k). split; [exact Estep|].
  assert (G2 : forall p, getO h2 p = if Nat.eqb p 0 then Some z1 else if Nat.eqb p o then Some x1 else getO h p).
  { intros p. unfold h2. rewrite getO_upd by (rewrite upd_length; auto). rewrite getO_upd by auto. auto. }
  assert (L2 : length h2 = length h) by (unfold h2; rewrite !upd_length; auto).
  assert (HR : forall v, R h2 e (TCut true t :: TClear o is :: k) v = R h e (TClear o (i :: is) :: k) v + one (true, 0) v).
  { intros v. rewrite !R_stk. cbn [cstk]. rewrite cnt_cons, cnt_nil.
    unfold h2. rewrite (@R_set _ e k 0 z z1 v Gz eq_refl).
    pose proof (@R_upd h e k o x (Some x1) v G) as E1. cbn [ccell] in E1.
    change (flds x1) with (upd (flds x) i (true, 0)) in E1.
    pose proof (@cnt_upd (flds x) i (true, t) (true, 0) v Ei). lia. }
  assert (Sz : st z > 0) by (destruct (i_cnt I Z1) as [A _]; unfold self in A; cbn in A; lia).
  assert (Ntk : ~ In o (tids k)).
  { pose proof (i_nd I) as N. cbn in N. inversion N; auto. }
  assert (N0k : ~ In 0 (tids k)).
  { intros H. apply (null_not_task I). cbn. auto. }
  split; [|split; [|split; [auto|]]].
  - constructor.
    + exists z1. rewrite G2. split; auto.
    + intros p y Hy. rewrite !HR. rewrite (one_diff (u := (true, 0)) (v := (false, p))) by congruence.
      rewrite G2 in Hy. destruct (Nat.eqb_spec p 0) as [->|N0].
      * injection Hy as <-. destruct (i_cnt I Z1) as [A B]. rewrite one_same.
        change (st z1) with (S (st z)). change (wk z1) with (wk z). lia.
      * rewrite one_diff by congruence. destruct (Nat.eqb_spec p o) as [->|N].
        -- injection Hy as <-. destruct (i_cnt I G) as [A B]. change (st x1) with (st x). change (wk x1) with (wk x). lia.
        -- destruct (i_cnt I Hy) as [A B]. lia.
    + intros b p H. rewrite G2. destruct (Nat.eqb_spec p 0) as [->|N0]; [eauto|].
      destruct (Nat.eqb_spec p o) as [->|N]; [eauto|].
      apply (@i_dng _ _ _ _ _ I b p). rewrite HR in H. rewrite one_diff in H by congruence. lia.
    + intros p y v Hy Hv. rewrite G2 in Hy. destruct (Nat.eqb_spec p 0) as [->|N0].
      * injection Hy as <-. change (flds z1) with (flds z) in Hv. rewrite Z2 in Hv. destruct Hv.
      * destruct (Nat.eqb_spec p o) as [->|N].
        -- injection Hy as <-. change (flds x1) with (upd (flds x) i (true, 0)) in Hv.
           apply In_nth_error in Hv. destruct Hv as [j Hj]. rewrite nth_upd in Hj.
           destruct (Nat.eqb j i).
           ++ destruct (Nat.ltb i (length (flds x))); [|discriminate]. injection Hj as <-. auto.
           ++ apply nth_error_In in Hj. apply (i_str I G Hj).
        -- apply (i_str I Hy Hv).
    + intros p H. destruct H as [H|[H|H]]; try discriminate.
      pose proof (@i_wk _ _ _ _ _ I p (or_intror H)). discriminate.
    + intros p js H. destruct H as [H|[H|H]]; try discriminate.
      * injection H as <- <-. split; auto. exists x1. rewrite G2, Nat.eqb_refl.
        apply Nat.eqb_neq in No. rewrite No. repeat split; auto.
        -- change (flds x1) with (upd (flds x) i (true, 0)). rewrite upd_length. auto.
        -- intros j Hj Hn. change (flds x1) with (upd (flds x) i (true, 0)) in *. rewrite upd_length in Hj.
           rewrite nth_upd. destruct (Nat.eqb_spec j i) as [->|Ni].
           ++ apply Nat.ltb_lt in Hj. rewrite Hj. auto.
           ++ apply Fn; auto. intros [E|E]; [congruence|contradiction].
      * destruct (@i_clr _ _ _ _ _ I p js (or_intror H)) as (A & y & Y). split; auto. exists y.
        rewrite G2. destruct (Nat.eqb_spec p 0) as [->|N0].
        { exfalso. apply N0k, in_tids. eauto. }
        destruct (Nat.eqb_spec p o) as [->|N]; [exfalso; apply Ntk, in_tids; eauto|auto].
    + intros p H. destruct H as [H|[H|H]]; try discriminate.
      destruct (@i_dt _ _ _ _ _ I p (or_intror H)) as (y & Y). exists y.
      rewrite G2. destruct (Nat.eqb_spec p 0) as [->|N0].
      { exfalso. apply N0k, in_tids. eauto. }
      destruct (Nat.eqb_spec p o) as [->|N]; [exfalso; apply Ntk, in_tids; eauto|auto].
    + cbn. pose proof (i_nd I) as N. cbn in N. auto.
    + intros p y Hy Hp. rewrite G2 in Hy. destruct (Nat.eqb_spec p 0) as [->|N0].
      { injection Hy as <-. discriminate Hp. }
      destruct (Nat.eqb_spec p o) as [->|N]; [left; cbn; auto|].
      destruct (i_zero I Hy Hp) as [T|T]; [left; auto|right; auto].
    + intros p. rewrite (i_d I), L2, G2. cbn [In].
      destruct (Nat.eqb_spec p 0) as [->|N0].
      { rewrite Z1. intuition discriminate. }
      destruct (Nat.eqb_spec p o) as [->|N].
      { rewrite G. intuition discriminate. }
      intuition discriminate.
    + apply (i_dn I).
    + intros p y Hp Hy. rewrite G2 in Hy. destruct (Nat.eqb_spec p 0) as [->|N0].
      { pose proof (i_c I Hp Z1). lia. }
      destruct (Nat.eqb_spec p o) as [->|N]; [injection Hy as <-; auto|]. apply (i_c I Hp Hy).
    + apply (i_cn I).
    + rewrite L2. apply (i_cl I).
  - unfold M. cbn [sum W length].
    pose proof (@Q_upd h o x (Some x1) G) as E1. pose proof (@Q_upd _ 0 z (Some z1) Gz) as E2. fold h2 in E2.
    assert (Q (Some x1) = Q (Some x)).
    { unfold Q. change (flds x1) with (upd (flds x) i (true, 0)). rewrite upd_length. reflexivity. }
    assert (Q (Some z1) = Q (Some z)).
    { unfold Q. change (st z1) with (S (st z)). change (flds z1) with (flds z).
      destruct (st z); [lia|]. reflexivity. }
    lia.
  - intros p y Hy Hp. rewrite G2 in Hy. destruct (Nat.eqb_spec p 0) as [->|N0].
    { injection Hy as <-. exists z. auto. }
    destruct (Nat.eqb_spec p o) as [->|N]; [|eauto].
    injection Hy as <-. change (st x1) with (st x) in Hp. lia.
Qed.

Lemma step_dtor : forall h e d c o k, Inv h e d c (TDtor o :: k) ->
  exists h' d' c' k', step h d c (TDtor o :: k) = Some (h', d', c', k') /\
    good h e d c (TDtor o :: k) h' d' c' k'.
Proof.
  intros h e d c o k I.
  destruct (@i_dt _ _ _ _ _ I o (or_introl eq_refl)) as (x & G & Hs & Hw).
  pose proof (getO_lt G) as L.
  assert (No : o <> 0).
  { intros ->. apply (null_not_task I). cbn. auto. }
  assert (No' : Nat.eqb 0 o = false) by (apply Nat.eqb_neq; auto).
  assert (Ntk : ~ In o (tids k)).
  { pose proof (i_nd I) as N. cbn in N. inversion N; auto. }
  destruct (i_null I) as (z & Z1 & Z2).
  cbn [step]. rewrite G. cbn [obind].
  destruct (flds x) as [|[s t] fs] eqn:Ef.
  - eexists _, _, _, _. split; [reflexivity|].
    assert (HR : forall v, R (upd h o None) e k v = R h e (TDtor o :: k) v).
    { intros v. pose proof (@R_upd h e k o x None v G) as E1. cbn [ccell] in E1. rewrite Ef in E1.
      rewrite R_stk. cbn [cstk]. rewrite !cnt_nil in *. lia. }
    split; [|split; [|split; [apply upd_length|]]].
    + constructor.
      * exists z. rewrite getO_upd, No' by auto. auto.
      * intros p y Hy. rewrite !HR. rewrite getO_upd in Hy by auto.
        destruct (Nat.eqb p o); [discriminate|]. apply (i_cnt I Hy).
      * intros b p H. rewrite HR in H. rewrite getO_upd by auto. destruct (Nat.eqb_spec p o) as [->|N].
        -- destruct (i_cnt I G) as [A B]. destruct b; lia.
        -- apply (i_dng I H).
      * intros p y v Hy. rewrite getO_upd in Hy by auto. destruct (Nat.eqb p o); [discriminate|]. apply (i_str I Hy).
      * intros p H. pose proof (@i_wk _ _ _ _ _ I p (or_intror H)). discriminate.
      * intros p js H. destruct (@i_clr _ _ _ _ _ I p js (or_intror H)) as (A & y & Y). split; auto. exists y.
        rewrite getO_upd by auto. destruct (Nat.eqb_spec p o) as [->|N]; [exfalso; apply Ntk, in_tids; eauto|auto].
      * intros p H. destruct (@i_dt _ _ _ _ _ I p (or_intror H)) as (y & Y). exists y.
        rewrite getO_upd by auto. destruct (Nat.eqb_spec p o) as [->|N]; [exfalso; apply Ntk, in_tids; eauto|auto].
      * apply (nd_cons_stk (i_nd I)).
      * intros p y Hy Hp. rewrite getO_upd in Hy by auto. destruct (Nat.eqb_spec p o) as [->|N]; [discriminate|].
        destruct (i_zero I Hy Hp) as [T|T]; [|right; auto]. cbn in T. destruct T as [T|T]; [congruence|left; auto].
      * intros p. rewrite (i_d I), upd_length, getO_upd by auto. cbn [In].
        destruct (Nat.eqb_spec p o) as [->|N].
        -- intuition.
        -- split; [intros [A [B|[B|B]]]; auto; congruence|intuition].
      * apply (i_dn I).
      * intros p y Hp Hy. rewrite getO_upd in Hy by auto. destruct (Nat.eqb p o); [discriminate|]. apply (i_c I Hp Hy).
      * apply (i_cn I).
      * rewrite upd_length. apply (i_cl I).
    + unfold M. cbn [sum W]. pose proof (@Q_upd h o x None G) as E1. cbn [Q] in E1. lia.
    + intros p y Hy Hp. rewrite getO_upd in Hy by auto. destruct (Nat.eqb p o); [discriminate|]. eauto.
  - assert (s = true) as ->.
    { apply (@i_str _ _ _ _ _ I o x (s, t) G). rewrite Ef. left; auto. }
    set (x1 := mkObj (st x) (wk x) fs).
    eexists _, _, _, _. split; [reflexivity|].
    assert (HR : forall v, R (upd h o (Some x1)) e (TCut true t :: TDtor o :: k) v = R h e (TDtor o :: k) v).
    { intros v. pose proof (@R_upd h e k o x (Some x1) v G) as E1. cbn [ccell] in E1. rewrite Ef in E1.
      change (flds x1) with fs in E1. rewrite cnt_cons in E1.
      rewrite !R_stk. cbn [cstk]. rewrite cnt_cons, !cnt_nil in *. lia. }
    assert (G2 : forall p, getO (upd h o (Some x1)) p = if Nat.eqb p o then Some x1 else getO h p).
    { intros p. apply getO_upd; auto. }
    split; [|split; [|split; [apply upd_length|]]].
    + constructor.
      * exists z. rewrite G2, No'. auto.
      * intros p y Hy. rewrite !HR. rewrite G2 in Hy.
        destruct (Nat.eqb_spec p o) as [->|N]; [|apply (i_cnt I Hy)].
        injection Hy as <-. apply (i_cnt I G).
      * intros b p H. rewrite HR in H. rewrite G2. destruct (Nat.eqb p o); [eauto|].
        apply (i_dng I H).
      * intros p y v Hy Hv. rewrite G2 in Hy. destruct (Nat.eqb_spec p o) as [->|N].
        -- injection Hy as <-. apply (@i_str _ _ _ _ _ I o x v G). rewrite Ef. right. exact Hv.
        -- apply (i_str I Hy Hv).
      * intros p [H|[H|H]]; try discriminate. pose proof (@i_wk _ _ _ _ _ I p (or_intror H)). discriminate.
      * intros p js [H|[H|H]]; try discriminate.
        destruct (@i_clr _ _ _ _ _ I p js (or_intror H)) as (A & y & Y). split; auto. exists y.
        rewrite G2. destruct (Nat.eqb_spec p o) as [->|N]; [exfalso; apply Ntk, in_tids; eauto|auto].
      * intros p [H|[H|H]]; try discriminate.
        -- injection H as <-. exists x1. rewrite G2, Nat.eqb_refl. auto.
        -- destruct (@i_dt _ _ _ _ _ I p (or_intror H)) as (y & Y). exists y.
           rewrite G2. destruct (Nat.eqb_spec p o) as [->|N]; [exfalso; apply Ntk, in_tids; eauto|auto].
      * apply (i_nd I).
      * intros p y Hy Hp. rewrite G2 in Hy. destruct (Nat.eqb_spec p o) as [->|N]; [left; cbn; auto|].
        apply (i_zero I Hy Hp).
      * intros p. rewrite (i_d I), upd_length, G2. cbn [In].
        destruct (Nat.eqb_spec p o) as [->|N].
        -- rewrite G. split; [intros [A [B|[B|B]]]; auto; congruence|intros [A [B|[B|[B|B]]]]; auto; discriminate].
        -- split; [intros [A [B|[B|B]]]; auto; congruence|intros [A [B|[B|[B|B]]]]; auto; discriminate].
      * apply (i_dn I).
      * intros p y Hp Hy. rewrite G2 in Hy. destruct (Nat.eqb_spec p o) as [->|N]; [|apply (i_c I Hp Hy)].
        injection Hy as <-. auto.
      * apply (i_cn I).
      * rewrite upd_length. apply (i_cl I).
    + unfold M. cbn [sum W]. pose proof (@Q_upd h o x (Some x1) G) as E1. unfold Q in E1 at 2 4.
      change (flds x1) with fs in E1. change (st x1) with (st x) in E1. rewrite Ef, Hs in E1. cbn [length Nat.eqb] in E1. lia.
    + intros p y Hy Hp. rewrite G2 in Hy. destruct (Nat.eqb_spec p o) as [->|N]; [|eauto].
      injection Hy as <-. change (st x1) with (st x) in Hp. lia.
Qed.

(** ** The cascade *)
Lemma step_good : forall h e d c t k, Inv h e d c (t :: k) ->
  exists h' d' c' k', step h d c (t :: k) = Some (h', d', c', k') /\ good h e d c (t :: k) h' d' c' k'.
Proof.
  intros h e d c [[|] o|o [|i is]|o] k I.
  - apply step_cut_strong; auto.
  - apply step_cut_weak; auto.
  - exists h, d, c, k. split; [reflexivity|apply step_clear_nil; auto].
  - apply step_clear_cons; auto.
  - apply step_dtor; auto.
Qed.

Lemma frame_trans : forall a b c, frame a b -> frame b c -> frame a c.
Proof.
  intros a b c F1 F2 p y Hy Hp. destruct (F2 p y Hy Hp) as (x & A & B & C).
  destruct (F1 p x A B) as (w & D & E & F). exists w. repeat split; auto. congruence.
Qed.

Lemma cascade_good : forall m h e d c k, M h k <= m -> Inv h e d c k ->
  exists h' d' c', (forall fuel, m < fuel -> cascade fuel h d c k = Ok (h', d', c')) /\
    Inv h' e d' c' [] /\ length h' = length h /\ frame h h'.
Proof.
  induction m as [|m IH]; intros h e d c [|t k] Hm I.
  - exists h, d, c. split; [intros [|f] _; reflexivity|]. split; [auto|]. split; [auto|intros p y; eauto].
  - destruct (step_good I) as (h1 & d1 & c1 & k1 & E & I1 & M1 & L1 & F1). lia.
  - exists h, d, c. split; [intros [|f] _; reflexivity|]. split; [auto|]. split; [auto|intros p y; eauto].
  - destruct (step_good I) as (h1 & d1 & c1 & k1 & E & I1 & M1 & L1 & F1).
    destruct (IH h1 e d1 c1 k1) as (h2 & d2 & c2 & C & I2 & L2 & F2); [lia|auto|].
    exists h2, d2, c2. split; [|split; [auto|split; [congruence|eapply frame_trans; eauto]]].
    intros [|f] Hf; [lia|]. cbn [cascade]. rewrite E. apply C. lia.
Qed.

(** ** Operations *)
Definition InvS (s : state) : Prop := Inv (hp s) (env s) (dlog s) (clog s) [].

Definition strong_only (fs : list handle) : Prop := forall v, In v fs -> fst v = true.
Definition kept (x y : obj) : Prop :=
  (st x = 0 <-> st y = 0) /\ (st x = 0 -> wk x > 0 -> wk y > 0 /\ flds y = flds x) /\
  (flds x = [] -> flds y = []) /\ (strong_only (flds x) -> strong_only (flds y)).

Lemma kept_refl : forall x, kept x x.
Proof. intros. unfold kept. intuition. Qed.

Lemma inv_intro : forall h e d c h' e' k', Inv h e d c [] -> length h' = length h ->
  (forall p, getO h p = None -> getO h' p = None) ->
  (forall p x, getO h p = Some x -> exists y, getO h' p = Some y /\ kept x y) ->
  (forall p y, getO h' p = Some y -> st y = R h' e' k' (true, p) + self p /\ wk y = R h' e' k' (false, p)) ->
  (forall b p, R h' e' k' (b, p) > 0 -> exists x, getO h p = Some x) ->
  (k' = [] \/ exists b o, k' = [TCut b o]) ->
  Inv h' e' d c k'.
Proof.
  intros h e d c h' e' k' I L H1 H2 Hc Hd Hk.
  assert (Hb : forall p y, getO h' p = Some y -> exists x, getO h p = Some x /\ kept x y).
  { intros p y Hy. destruct (getO h p) as [x|] eqn:E.
    - destruct (H2 p x E) as (y' & A & B). exists x. split; auto. congruence.
    - apply H1 in E. congruence. }
  assert (Hnt : forall o is, ~ In (TClear o is) k').
  { intros o is H. destruct Hk as [->|(b & q & ->)]; [destruct H|destruct H as [H|[]]; discriminate]. }
  assert (Hnd : forall o, ~ In (TDtor o) k').
  { intros o H. destruct Hk as [->|(b & q & ->)]; [destruct H|destruct H as [H|[]]; discriminate]. }
  constructor; auto.
  - destruct (i_null I) as (z & A & B). destruct (H2 _ _ A) as (y & C & D). exists y. split; auto. apply D; auto.
  - intros b o H. destruct (Hd b o H) as [x Hx]. destruct (H2 _ _ Hx) as (y & A & _). eauto.
  - intros o x v Hx Hv. destruct (Hb _ _ Hx) as (y & A & _ & _ & _ & B). apply B; auto.
    intros u Hu. apply (i_str I A Hu).
  - intros o H. destruct Hk as [->|(b & q & ->)]; [destruct H|destruct H as [H|[]]]. congruence.
  - intros o is H. exfalso; eapply Hnt; eauto.
  - intros o H. exfalso; eapply Hnd; eauto.
  - destruct Hk as [->|(b & q & ->)]; constructor.
  - intros o y Hy Hs. destruct (Hb _ _ Hy) as (x & A & B & C & _). apply B in Hs.
    destruct (i_zero I A Hs) as [[]|(D & E & F)]. right. destruct (C Hs D) as [G1 G2]. rewrite G2. auto.
  - intros o. rewrite (i_d I), L. cbn [In]. split.
    + intros [A [B|[]]]. auto.
    + intros [A [B|B]]; [|exfalso; eapply Hnd; eauto]. split; auto. left.
      destruct (getO h o) as [x|] eqn:E; auto. destruct (H2 _ _ E) as (y & C & _). congruence.
  - apply (i_dn I).
  - intros o y Ho Hy. destruct (Hb _ _ Hy) as (x & A & B & _). apply B. apply (i_c I Ho A).
  - apply (i_cn I).
  - rewrite L. apply (i_cl I).
Qed.

Lemma inc_eq : forall h b o x, getO h o = Some x ->
  inc h b o = Some (upd h o (Some (mkObj (if b then S (st x) else st x) (if b then wk x else S (wk x)) (flds x)))).
Proof. intros h [] o x H; unfold inc; rewrite H; reflexivity. Qed.

(** What a write does. *)
Definition wrote (s s1 : state) (old new : handle) : Prop :=
  dlog s1 = dlog s /\ clog s1 = clog s /\ length (hp s1) = length (hp s) /\ length (env s1) = length (env s) /\
  (forall p, getO (hp s) p = None -> getO (hp s1) p = None) /\
  (forall p x, getO (hp s) p = Some x -> exists y, getO (hp s1) p = Some y /\ st y = st x /\ wk y = wk x /\
     (st x = 0 -> flds y = flds x) /\ (flds x = [] -> flds y = []) /\ (strong_only (flds x) -> strong_only (flds y))) /\
  (forall v, R (hp s1) (env s1) [] v + one old v = R (hp s) (env s) [] v + one new v).

Definition fieldlive (s : state) (sl : slot) : Prop :=
  match sl with SVar _ => True | SFld o _ => exists x, getO (hp s) o = Some x /\ st x > 0 end.

Lemma slot_eqb_spec : forall a b, reflect (a = b) (slot_eqb a b).
Proof.
  intros [i|o k] [j|p m]; cbn; try (constructor; congruence).
  - destruct (Nat.eqb_spec i j); constructor; congruence.
  - destruct (Nat.eqb_spec o p), (Nat.eqb_spec k m); cbn; constructor; congruence.
Qed.

Lemma wrS_ok : forall s sl old new, rdS s sl = Some old -> fst old = fst new -> fieldlive s sl ->
  exists s1, wrS s sl new = Some s1 /\ wrote s s1 old new /\
    (forall sl', rdS s1 sl' = if slot_eqb sl' sl then Some new else rdS s sl').
Proof.
  intros s [i|o k] old new H F L; cbn [rdS wrS] in *.
  - destruct (nth_error (env s) i) as [[v|]|] eqn:E; try discriminate. injection H as ->.
    eexists. split; [reflexivity|]. split.
    + unfold wrote. cbn [hp env dlog clog]. rewrite upd_length. repeat split; auto.
      * intros p x Hx. exists x. repeat split; auto.
      * intros v. unfold R. pose proof (@cnt_flat_upd _ cenv (env s) i (Some old) (Some new) v E) as C.
        cbn [cenv] in C. rewrite !cnt_cons, !cnt_nil in C. unfold henv. lia.
    + intros [j|p m]; cbn [rdS hp env slot_eqb]; auto. rewrite nth_upd.
      destruct (Nat.eqb_spec j i) as [->|N]; auto.
      assert (i < length (env s)) by (apply nth_error_Some; congruence). apply Nat.ltb_lt in H. rewrite H. auto.
  - destruct L as (x & G & P). rewrite G in *. cbn [obind] in *.
    assert (kl : k < length (flds x)) by (apply nth_error_Some; congruence).
    pose proof (getO_lt G) as Lo.
    eexists. split; [reflexivity|]. split.
    + unfold wrote. cbn [hp env dlog clog]. rewrite upd_length. repeat split; auto.
      * intros p Hp. rewrite getO_upd by auto. destruct (Nat.eqb_spec p o) as [->|N]; auto. congruence.
      * intros p y Hy. rewrite getO_upd by auto. destruct (Nat.eqb_spec p o) as [->|N].
        -- rewrite G in Hy. injection Hy as <-. eexists. split; [reflexivity|]. cbn [st wk flds].
           repeat split; auto; try lia.
           ++ intros E. rewrite E in kl. cbn in kl. lia.
           ++ intros S v Hv. apply In_nth_error in Hv. destruct Hv as [j Hj]. rewrite nth_upd in Hj.
              destruct (Nat.eqb j k).
              ** destruct (Nat.ltb k (length (flds x))); [|discriminate]. injection Hj as <-.
                 rewrite <- F. apply S. eapply nth_error_In; eauto.
              ** apply S. eapply nth_error_In; eauto.
        -- exists y. repeat split; auto.
      * intros v. pose proof (@R_upd (hp s) (env s) [] o x (Some (mkObj (st x) (wk x) (upd (flds x) k new))) v G) as E1.
        cbn [ccell flds] in E1. pose proof (@cnt_upd (flds x) k old new v H). lia.
    + intros [j|p m]; cbn [rdS hp env slot_eqb]; auto. rewrite getO_upd by auto.
      destruct (Nat.eqb_spec p o) as [->|N]; cbn [obind andb flds]; auto.
      rewrite nth_upd, G. cbn [obind]. destruct (Nat.eqb_spec m k) as [->|N]; auto.
      apply Nat.ltb_lt in kl. rewrite kl. auto.
Qed.

Lemma R_true_pos : forall s t, InvS s -> refers true s t -> exists x, getO (hp s) t = Some x /\ st x > 0.
Proof.
  intros s t I H. assert (P : R (hp s) (env s) [] (true, t) > 0).
  { destruct H as [H|(o & x & G & H)].
    - unfold R. assert (cnt (henv (env s)) (true, t) > 0); [|lia]. apply cnt_in. unfold henv. apply in_flat_map.
      eexists; split; eauto. cbn; auto.
    - eapply in_heap_R; eauto. }
  destruct (i_dng I P) as [x G]. exists x. split; auto. destruct (i_cnt I G). lia.
Qed.
Lemma refers_R : forall s b t, R (hp s) (env s) [] (b, t) > 0 <-> refers b s t.
Proof.
  intros s b t. unfold R. cbn [hstk flat_map]. rewrite cnt_nil. split.
  - intros H. assert (cnt (henv (env s)) (b, t) > 0 \/ cnt (hheap (hp s)) (b, t) > 0) as [A|A] by lia; apply cnt_in in A.
    + left. unfold henv in A. apply in_flat_map in A. destruct A as ([v|] & B & C); cbn in C; [|destruct C].
      destruct C as [->|[]]. auto.
    + right. unfold hheap in A. apply in_flat_map in A. destruct A as ([x|] & B & C); cbn in C; [|destruct C].
      apply In_nth_error in B. destruct B as [o Ho]. exists o, x. split; auto. unfold getO. rewrite Ho. auto.
  - intros [H|(o & x & G & H)].
    + assert (cnt (henv (env s)) (b, t) > 0); [|lia]. apply cnt_in. unfold henv. apply in_flat_map.
      eexists; split; eauto. cbn; auto.
    + assert (cnt (hheap (hp s)) (b, t) > 0); [|lia]. apply cnt_in. unfold hheap. apply in_flat_map.
      exists (Some x). split; auto. apply getO_nth in G. eapply nth_error_In; eauto.
Qed.

Lemma rdS_refers : forall s sl b t, rdS s sl = Some (b, t) -> refers b s t.
Proof.
  intros s [i|o k] b t H; cbn in H.
  - destruct (nth_error (env s) i) as [[v|]|] eqn:E; try discriminate. injection H as ->. left.
    eapply nth_error_In; eauto.
  - destruct (getO (hp s) o) as [x|] eqn:E; [|discriminate]. cbn in H. right. exists o, x. split; auto.
    eapply nth_error_In; eauto.
Qed.

Lemma alive_pos : forall s o, InvS s -> alive s o -> exists x, getO (hp s) o = Some x /\ st x > 0.
Proof.
  intros s o I [A B]. unfold exists_ in A. destruct (getO (hp s) o) as [x|] eqn:E; [|congruence].
  exists x. split; auto. destruct (st x) eqn:S; [|lia]. destruct (i_zero I E S) as [[]|(_ & C & _)]. contradiction.
Qed.

(** Reading after a cascade. *)
Lemma cut_ok : forall s b t, Inv (hp s) (env s) (dlog s) (clog s) [TCut b t] ->
  exists n s', (forall fuel, n < fuel -> cut fuel s b t = Ok s') /\ InvS s' /\ env s' = env s /\
    length (hp s') = length (hp s) /\
    (forall sl, live_slot s' sl -> rdS s' sl = rdS s sl).
Proof.
  intros s b t I.
  destruct (@cascade_good _ _ _ _ _ _ (Nat.le_refl _) I) as (h & d & c & C & I' & L & F).
  exists (M (hp s) [TCut b t]), (mkSt h (env s) d c).
  split; [|split; [exact I'|split; [auto|split; [auto|]]]].
  - intros fuel Hf. unfold cut. rewrite (C fuel Hf). auto.
  - intros [i|o k] Hl; cbn [rdS hp env]; auto.
    destruct (@alive_pos (mkSt h (env s) d c) o I' Hl) as (x & G & P). cbn [hp] in G. rewrite G.
    destruct (F _ _ G P) as (y & A & B & E). rewrite A. cbn [obind]. congruence.
Qed.

Lemma reset_ok : forall s l sl b old t, InvS s -> slot_of s l = Some sl -> rdS s sl = Some (b, old) ->
  fieldlive s sl -> (exists x, getO (hp s) t = Some x /\ (b = true -> st x > 0)) ->
  exists n s', (forall fuel, n < fuel -> reset fuel s l t = Ok s') /\ InvS s' /\
    (forall sl', live_slot s' sl' -> rdS s' sl' = if slot_eqb sl' sl then Some (b, t) else rdS s sl').
Proof.
  intros s l sl b old t I Hsl Hrd Hfl (x & G & P).
  destruct (@wrS_ok s sl (b, old) (b, t) Hrd eq_refl Hfl) as (s1 & W1 & (Wd & Wc & Wl & We & Wn & Wk & WR) & Wrd).
  destruct (Wk _ _ G) as (x1 & G1 & S1 & K1 & _).
  pose proof (getO_lt G1) as L1.
  set (y := mkObj (if b then S (st x1) else st x1) (if b then wk x1 else S (wk x1)) (flds x1)).
  assert (Hinc : inc (hp s1) b t = Some (upd (hp s1) t (Some y))) by (apply inc_eq; auto).
  set (s2 := with_hp s1 (upd (hp s1) t (Some y))).
  assert (HR : forall v, R (hp s2) (env s2) [TCut b old] v = R (hp s) (env s) [] v + one (b, t) v).
  { intros v. rewrite R_stk. cbn [cstk]. rewrite cnt_cons, cnt_nil. unfold s2. cbn [hp env with_hp].
    rewrite (@R_set _ _ [] t x1 y v G1 eq_refl). specialize (WR v). lia. }
  assert (I2 : Inv (hp s2) (env s2) (dlog s2) (clog s2) [TCut b old]).
  { unfold s2 at 3 4. cbn [with_hp dlog clog]. rewrite Wd, Wc.
    eapply (inv_intro I).
    - unfold s2. cbn [with_hp hp]. rewrite upd_length. auto.
    - intros p Hp. unfold s2. cbn [with_hp hp]. rewrite getO_upd by auto. destruct (Nat.eqb_spec p t) as [->|N]; [congruence|]. auto.
    - intros p z Hz. unfold s2. cbn [with_hp hp]. destruct (Wk _ _ Hz) as (z1 & A & B & C & D & E & F).
      rewrite getO_upd by auto. destruct (Nat.eqb_spec p t) as [->|N].
      + exists y. split; auto. rewrite G1 in A. injection A as <-. rewrite G in Hz. injection Hz as <-.
        unfold kept. change (flds y) with (flds x1). unfold y; cbn [st wk].
        destruct b; [specialize (P eq_refl)|]; repeat split; auto; try lia.
      + exists z1. split; auto. unfold kept. rewrite B, C. repeat split; auto.
    - intros p z Hz. rewrite !HR. unfold s2 in Hz. cbn [with_hp hp] in Hz. rewrite getO_upd in Hz by auto.
      destruct (Nat.eqb_spec p t) as [->|N].
      + injection Hz as <-. destruct (i_cnt I G) as [A B]. unfold y; cbn [st wk].
        destruct b; rewrite one_same, one_diff by congruence; lia.
      + rewrite !one_diff by congruence.
        destruct (getO (hp s) p) as [z0|] eqn:E; [|apply Wn in E; congruence].
        destruct (Wk _ _ E) as (z1 & A & B & C & _). destruct (i_cnt I E). rewrite Hz in A. injection A as <-. lia.
    - intros b' p H. rewrite HR in H. unfold one in H. destruct (hdec (b, t) (b', p)) as [E|E].
      + injection E as <- <-. eauto.
      + apply (@i_dng _ _ _ _ _ I b' p). lia.
    - right. eauto. }
  destruct (cut_ok I2) as (n & s' & C & I' & E' & L' & F').
  exists n, s'. split; [|split; auto].
  - intros fuel Hf. unfold reset. rewrite Hsl. cbn [obind]. rewrite Hrd. cbn [obind]. rewrite W1. cbn [obind].
    rewrite Hinc. cbn [obind]. apply C; auto.
  - intros sl' Hl. rewrite (F' sl' Hl). rewrite <- Wrd.
    destruct sl' as [i|o k]; cbn [rdS]; [reflexivity|]. unfold s2. cbn [with_hp hp]. rewrite getO_upd by auto.
    destruct (Nat.eqb_spec o t) as [->|N]; auto. rewrite G1. reflexivity.
Qed.

Lemma usable_slot : forall s l, InvS s -> usable s l ->
  exists sl b t, slot_of s l = Some sl /\ rdS s sl = Some (b, t) /\ fieldlive s sl.
Proof.
  intros s l I [A B]. unfold rd in A. destruct (slot_of s l) as [sl|] eqn:E; [|contradiction A; reflexivity].
  cbn [obind] in A. destruct (rdS s sl) as [[b t]|] eqn:F; [|congruence].
  exists sl, b, t. split; auto. split; auto.
  destruct l as [i|i k]; cbn in E.
  - injection E as <-. exact Logic.I.
  - destruct B as (b' & t' & C & D). rewrite C in E. injection E as <-. cbn. apply R_true_pos; auto.
Qed.

Lemma null_ok : forall s, InvS s -> exists x, getO (hp s) 0 = Some x /\ st x > 0.
Proof.
  intros s I. destruct (i_null I) as (z & A & B). exists z. split; auto.
  destruct (i_cnt I A) as [C _]. unfold self in C. cbn in C. lia.
Qed.

Lemma nth_snoc : forall A (l : list A) a i, nth_error (l ++ [a]) i = if Nat.eqb i (length l) then Some a else nth_error l i.
Proof.
  intros. destruct (Nat.eqb_spec i (length l)) as [->|N].
  - rewrite nth_error_app2, Nat.sub_diag by lia. reflexivity.
  - destruct (Nat.ltb_spec i (length l)).
    + apply nth_error_app1; auto.
    + rewrite nth_error_app2 by lia. destruct (i - length l) as [|m] eqn:E; [lia|]. cbn.
      symmetry. rewrite (proj2 (nth_error_None l i)) by lia. destruct m; reflexivity.
Qed.

(** A new variable that refers to an existing object. *)
Lemma push_ok : forall s b t x, InvS s -> getO (hp s) t = Some x -> (b = true -> st x > 0) ->
  exists h, inc (hp s) b t = Some h /\
    let s' := mkSt h (env s ++ [Some (b, t)]) (dlog s) (clog s) in
    InvS s' /\ forall sl, rdS s' sl = if slot_eqb sl (SVar (length (env s))) then Some (b, t) else rdS s sl.
Proof.
  intros s b t x I G P. pose proof (getO_lt G) as L.
  set (y := mkObj (if b then S (st x) else st x) (if b then wk x else S (wk x)) (flds x)).
  exists (upd (hp s) t (Some y)). split; [apply inc_eq; auto|]. cbn zeta. split.
  - unfold InvS. cbn [hp env dlog clog].
    assert (HR : forall v, R (upd (hp s) t (Some y)) (env s ++ [Some (b, t)]) [] v = R (hp s) (env s) [] v + one (b, t) v).
    { intros v. rewrite (@R_set _ _ [] t x y v G eq_refl). unfold R, henv. rewrite flat_map_app, cnt_app. cbn [flat_map cenv].
      rewrite cnt_app, cnt_cons, cnt_nil. lia. }
    eapply (inv_intro I).
    + apply upd_length.
    + intros p Hp. rewrite getO_upd by auto. destruct (Nat.eqb_spec p t) as [->|N]; congruence.
    + intros p z Hz. rewrite getO_upd by auto. destruct (Nat.eqb_spec p t) as [->|N].
      * exists y. split; auto. rewrite G in Hz. injection Hz as <-.
        unfold kept. change (flds y) with (flds x). unfold y; cbn [st wk].
        destruct b; [specialize (P eq_refl)|]; repeat split; auto; try lia.
      * exists z. split; auto. apply kept_refl.
    + intros p z Hz. rewrite !HR. rewrite getO_upd in Hz by auto. destruct (Nat.eqb_spec p t) as [->|N].
      * injection Hz as <-. destruct (i_cnt I G) as [A B]. unfold y; cbn [st wk].
        destruct b; rewrite one_same, one_diff by congruence; lia.
      * rewrite !one_diff by congruence. destruct (i_cnt I Hz). lia.
    + intros b' p H. rewrite HR in H. unfold one in H. destruct (hdec (b, t) (b', p)) as [E|E].
      * injection E as <- <-. eauto.
      * apply (@i_dng _ _ _ _ _ I b' p). lia.
    + auto.
  - intros [i|o k]; cbn [rdS env hp slot_eqb].
    + rewrite nth_snoc. destruct (Nat.eqb i (length (env s))); auto.
    + rewrite getO_upd by auto. destruct (Nat.eqb_spec o t) as [->|N]; auto. rewrite G. reflexivity.
Qed.

Lemma incs_ok : forall ks h z, Forall (fun k => k = true) ks -> getO h 0 = Some z ->
  exists h', fold_left (fun a k => obind a (fun h => inc h k 0)) ks (Some h) = Some h' /\ length h' = length h /\
    (forall p, getO h' p = if Nat.eqb p 0 then Some (mkObj (length ks + st z) (wk z) (flds z)) else getO h p) /\
    (forall e k v, R h' e k v = R h e k v).
Proof.
  induction ks as [|b ks IH]; intros h z F G; cbn [fold_left].
  - exists h. repeat split; auto. intros p. destruct (Nat.eqb_spec p 0) as [->|N]; auto. rewrite G. destruct z; auto.
  - inversion F as [|? ? F1 F2]; subst. cbn [obind]. rewrite (@inc_eq h true 0 z G).
    set (z1 := mkObj (S (st z)) (wk z) (flds z)). pose proof (getO_lt G) as L.
    destruct (IH (upd h 0 (Some z1)) z1 F2) as (h' & A & B & C & D).
    { rewrite getO_upd by auto. reflexivity. }
    exists h'. split; [exact A|]. split; [rewrite B; apply upd_length|]. split.
    + intros p. rewrite C. destruct (Nat.eqb_spec p 0) as [->|N].
      * unfold z1. cbn [st wk flds length]. do 2 f_equal. lia.
      * rewrite getO_upd by auto. apply Nat.eqb_neq in N. rewrite N. auto.
    + intros e k v. rewrite D. apply (@R_set h e k 0 z z1 v G eq_refl).
Qed.

Lemma cnt_nulls : forall ks v, Forall (fun k => k = true) ks -> cnt (map (fun k => (k, 0)) ks) v = length ks * one (true, 0) v.
Proof.
  induction ks as [|b ks IH]; intros v F; [reflexivity|]. inversion F; subst. cbn [map length]. rewrite cnt_cons, IH by auto. lia.
Qed.

Lemma new_ok : forall s ks, InvS s -> Forall (fun k => k = true) ks ->
  exists s', (forall fuel, do_op fuel s (ONew ks) = Ok s') /\ InvS s' /\
    forall sl, effect s (ONew ks) sl (rdS s' sl).
Proof.
  intros s ks I F. destruct (i_null I) as (z & Z1 & Z2).
  destruct (incs_ok F Z1) as (h' & A & B & C & D).
  set (nw := mkObj 1 0 (map (fun k => (k, 0)) ks)).
  set (e' := env s ++ [Some (true, length (hp s))]).
  exists (mkSt (h' ++ [Some nw]) e' (dlog s) (clog s)). split.
  { intros fuel. cbn [do_op]. unfold lift. rewrite A. reflexivity. }
  assert (GL : getO (hp s) (length (hp s)) = None).
  { unfold getO. rewrite (proj2 (nth_error_None _ _)) by lia. auto. }
  assert (G2 : forall p, getO (h' ++ [Some nw]) p = if Nat.eqb p (length (hp s)) then Some nw
             else if Nat.eqb p 0 then Some (mkObj (length ks + st z) (wk z) (flds z)) else getO (hp s) p).
  { intros p. rewrite getO_app, B, C. auto. }
  pose proof (getO_lt Z1) as L0.
  assert (HR : forall v, R (h' ++ [Some nw]) e' [] v = R (hp s) (env s) [] v + length ks * one (true, 0) v + one (true, length (hp s)) v).
  { intros v. unfold R, e', hheap, henv. rewrite !flat_map_app, !cnt_app. cbn [flat_map cenv ccell nw flds].
    rewrite !app_nil_r. unfold nw. cbn [flds]. rewrite cnt_nulls by auto. rewrite cnt_cons, cnt_nil.
    pose proof (D (env s) [] v) as E. unfold R, hheap, henv in E. lia. }
  assert (Rnew : forall b, R (hp s) (env s) [] (b, length (hp s)) = 0).
  { intros b. destruct (R (hp s) (env s) [] (b, length (hp s))) eqn:E; auto.
    destruct (@i_dng _ _ _ _ _ I b (length (hp s))) as [x Hx]; [rewrite E; lia|]. congruence. }
  split.
  - unfold InvS. cbn [hp env dlog clog]. constructor; try solve [intros ? []]; try solve [intros ? ? []].
    + exists (mkObj (length ks + st z) (wk z) (flds z)). rewrite G2. cbn [flds].
      destruct (Nat.eqb_spec 0 (length (hp s))) as [E|E]; [lia|]. auto.
    + intros p y Hy. rewrite !HR. rewrite (one_diff (u := (true, 0)) (v := (false, p))), (one_diff (u := (true, length (hp s))) (v := (false, p))) by congruence.
      rewrite G2 in Hy. destruct (Nat.eqb_spec p (length (hp s))) as [->|N].
      * injection Hy as <-. unfold nw. cbn [st wk]. rewrite !Rnew, one_same, one_diff by (intros E; injection E; lia). rewrite self_pos by lia. lia.
      * rewrite (one_diff (u := (true, length (hp s))) (v := (true, p))) by congruence.
        destruct (Nat.eqb_spec p 0) as [->|N0].
        -- injection Hy as <-. destruct (i_cnt I Z1). rewrite one_same. cbn [st wk]. lia.
        -- rewrite one_diff by congruence. destruct (i_cnt I Hy). lia.
    + intros b p H. rewrite HR in H. rewrite G2. destruct (Nat.eqb_spec p (length (hp s))) as [->|N]; [eauto|].
      destruct (Nat.eqb_spec p 0) as [->|N0]; [eauto|]. apply (@i_dng _ _ _ _ _ I b p).
      rewrite !one_diff in H by congruence. lia.
    + intros p y v Hy Hv. rewrite G2 in Hy. destruct (Nat.eqb_spec p (length (hp s))) as [->|N].
      * injection Hy as <-. unfold nw in Hv. cbn [flds] in Hv. apply in_map_iff in Hv. destruct Hv as (k & <- & Hk).
        cbn. revert k Hk. apply Forall_forall. auto.
      * destruct (Nat.eqb_spec p 0) as [->|N0].
        -- injection Hy as <-. cbn [flds] in Hv. rewrite Z2 in Hv. destruct Hv.
        -- apply (i_str I Hy Hv).
    + constructor.
    + intros p y Hy Hs. rewrite G2 in Hy. destruct (Nat.eqb_spec p (length (hp s))) as [->|N].
      { injection Hy as <-. discriminate Hs. }
      destruct (Nat.eqb_spec p 0) as [->|N0].
      { injection Hy as <-. cbn [st] in Hs. destruct (i_cnt I Z1) as [Q1 _]. unfold self in Q1. cbn in Q1. lia. }
      apply (i_zero I Hy Hs).
    + intros p. rewrite (i_d I), app_length, G2, B. cbn [In length].
      destruct (Nat.eqb_spec p (length (hp s))) as [->|N].
      { split; [intros [? _]; lia|intros [_ [?|[]]]; discriminate]. }
      destruct (Nat.eqb_spec p 0) as [->|N0].
      { rewrite Z1. split; intros [_ [?|[]]]; discriminate. }
      split; intros [U V]; split; auto; lia.
    + apply (i_dn I).
    + intros p y Hp Hy. pose proof (i_cl I Hp). rewrite G2 in Hy. destruct (Nat.eqb_spec p (length (hp s))) as [->|N]; [lia|].
      destruct (Nat.eqb_spec p 0) as [->|N0]; [|apply (i_c I Hp Hy)].
      pose proof (i_c I Hp Z1). destruct (i_cnt I Z1) as [Q1 _]. unfold self in Q1. cbn in Q1. lia.
    + apply (i_cn I).
    + intros p Hp. pose proof (i_cl I Hp). rewrite app_length. lia.
  - intros [i|o k]; cbn [effect rdS env hp slot_eqb].
    + unfold e'. rewrite nth_snoc. destruct (Nat.eqb i (length (env s))); auto.
    + rewrite G2. destruct (Nat.eqb_spec o (length (hp s))) as [->|N].
      * unfold nw. cbn [obind flds]. rewrite nth_error_map. reflexivity.
      * destruct (Nat.eqb_spec o 0) as [->|N0]; auto. rewrite Z1. reflexivity.
Qed.

Lemma wrote_inv : forall s s1 s2 a b, InvS s -> wrote s s1 a b -> wrote s1 s2 b a -> InvS s2.
Proof.
  intros s s1 s2 a b I (Ad & Ac & Al & Ae & An & Ak & AR) (Bd & Bc & Bl & Be & Bn & Bk & BR).
  unfold InvS. rewrite Bd, Bc, Ad, Ac.
  assert (HR : forall v, R (hp s2) (env s2) [] v = R (hp s) (env s) [] v).
  { intros v. specialize (AR v). specialize (BR v). lia. }
  assert (Hk : forall p x, getO (hp s) p = Some x -> exists y, getO (hp s2) p = Some y /\ st y = st x /\ wk y = wk x /\ kept x y).
  { intros p x Hx. destruct (Ak _ _ Hx) as (y & Y1 & Y2 & Y3 & Y4 & Y5 & Y6).
    destruct (Bk _ _ Y1) as (w & W1 & W2 & W3 & W4 & W5 & W6).
    exists w. repeat split; try congruence; auto; try lia.
    rewrite W4, Y4; auto. congruence. }
  eapply (inv_intro I).
  - congruence.
  - auto.
  - intros p x Hx. destruct (Hk _ _ Hx) as (y & A & _ & _ & B). eauto.
  - intros p y Hy. rewrite !HR. destruct (getO (hp s) p) as [x|] eqn:E.
    + destruct (Hk _ _ E) as (y' & A & B & C & _). rewrite Hy in A. injection A as <-. rewrite B, C. apply (i_cnt I E).
    + apply An, Bn in E. congruence.
  - intros b' p H. rewrite HR in H. apply (i_dng I H).
  - auto.
Qed.

Lemma refers_dec : forall s b t, {refers b s t} + {~ refers b s t}.
Proof.
  intros s b t. destruct (Nat.ltb 0 (R (hp s) (env s) [] (b, t))) eqn:E.
  - left. apply refers_R. apply Nat.ltb_lt in E. lia.
  - right. intros H. apply refers_R in H. apply Nat.ltb_ge in E. lia.
Qed.

(** Every legal operation succeeds, keeps the invariant and has its effect. *)
Lemma op_ok : forall s o, InvS s -> legal s o ->
  exists n s', (forall fuel, n < fuel -> do_op fuel s o = Ok s') /\ InvS s' /\
    forall sl, live_slot s' sl -> effect s o sl (rdS s' sl).
Proof.
  intros s [ks|b|b l|l1 l2|l1 l2|l|i] I Hl; cbn [legal] in Hl.
  - destruct (new_ok I Hl) as (s' & A & B & C). exists 0, s'. auto.
  - destruct (null_ok I) as (x & G & P). destruct (@push_ok s b 0 x I G (fun _ => P)) as (h & A & B & C).
    eexists 0, _. split; [|split; [exact B|]].
    + intros fuel _. cbn [do_op]. unfold lift. rewrite A. reflexivity.
    + intros sl _. cbn [effect]. apply C.
  - destruct (usable_slot I Hl) as (sl & b0 & t & E1 & E2 & E3).
    assert (Erd : rd s l = Some (b0, t)) by (unfold rd; rewrite E1; auto).
    assert (Gt : exists x, getO (hp s) t = Some x).
    { apply (@i_dng _ _ _ _ _ I b0 t). apply refers_R. eapply rdS_refers; eauto. }
    destruct Gt as [x Gx].
    assert (Ht : exists t' x', copy_target (hp s) b t = Some t' /\ getO (hp s) t' = Some x' /\ (b = true -> st x' > 0) /\
              ((b = false \/ refers true s t) -> t' = t) /\ (~ (b = false \/ refers true s t) -> t' = 0)).
    { destruct b; cbn [copy_target].
      - rewrite Gx. cbn [obind]. destruct (null_ok I) as (z & Z1 & Z2). destruct (i_cnt I Gx) as [Q1 _].
        destruct (Nat.eqb_spec (st x) 0) as [E|E].
        + exists 0, z. repeat split; auto. intros [H|H]; [discriminate|]. apply refers_R in H. lia.
        + exists t, x. repeat split; auto; [lia|]. intros H.
          destruct (Nat.eq_dec t 0) as [->|N]; auto. exfalso. apply H. right. apply refers_R. rewrite self_pos in Q1 by auto. lia.
      - exists t, x. repeat split; auto; [discriminate|]. intros H. exfalso; auto. }
    destruct Ht as (t' & x' & T1 & T2 & T3 & T4 & T5).
    destruct (@push_ok s b t' x' I T2 T3) as (h & A & B & C).
    eexists 0, _. split; [|split; [exact B|]].
    + intros fuel _. cbn [do_op]. unfold lift. rewrite Erd. cbn [obind]. rewrite T1. cbn [obind]. rewrite A. reflexivity.
    + intros sl' _. cbn [effect]. rewrite C. destruct (slot_eqb sl' (SVar (length (env s)))); auto.
      exists b0, t. split; auto. split; intros H; [rewrite (T4 H)|rewrite (T5 H)]; auto.
  - destruct Hl as (U1 & U2 & b1 & t1 & b2 & t2 & R1 & R2 & Hc).
    destruct (usable_slot I U1) as (sl1 & b1' & t1' & E1 & E2 & E3).
    unfold rd in R1. rewrite E1 in R1. cbn [obind] in R1. rewrite E2 in R1. injection R1 as -> ->.
    destruct (usable_slot I U2) as (sl2 & b2' & t2' & D1 & D2 & D3).
    assert (R2' := R2). unfold rd in R2'. rewrite D1 in R2'. cbn [obind] in R2'. rewrite D2 in R2'. injection R2' as -> ->.
    assert (Ht : exists x, getO (hp s) t2 = Some x /\ (b1 = true -> st x > 0)).
    { destruct (@i_dng _ _ _ _ _ I b2 t2) as [x Gx].
      { apply refers_R. eapply rdS_refers; eauto. }
      exists x. split; auto. intros ->. destruct b2.
      - destruct (@R_true_pos s t2 I) as (y & Y1 & Y2); [eapply rdS_refers; eauto|]. congruence.
      - destruct (Hc eq_refl eq_refl) as [->|H].
        + destruct (null_ok I) as (y & Y1 & Y2). congruence.
        + destruct (@R_true_pos s t2 I H) as (y & Y1 & Y2). congruence. }
    destruct (@reset_ok s l1 sl1 b1 t1 t2 I E1 E2 E3 Ht) as (n & s' & A & B & C).
    exists n, s'. split; [|split; auto].
    + intros fuel Hf. cbn [do_op]. rewrite R2. apply A; auto.
    + intros sl Hl. cbn [effect]. exists sl1, b1, t1, b2, t2. rewrite (C sl Hl). auto.
  - destruct Hl as (U1 & U2 & b & t1 & t2 & R1 & R2).
    destruct (usable_slot I U1) as (sl1 & b1' & t1' & E1 & E2 & E3).
    unfold rd in R1. rewrite E1 in R1. cbn [obind] in R1. rewrite E2 in R1. injection R1 as -> ->.
    destruct (usable_slot I U2) as (sl2 & b2' & t2' & D1 & D2 & D3).
    unfold rd in R2. rewrite D1 in R2. cbn [obind] in R2. rewrite D2 in R2. injection R2 as -> ->.
    destruct (@wrS_ok s sl1 (b, t1) (b, t2) E2 eq_refl E3) as (s1 & W1 & W2 & W3).
    assert (X2 : rdS s1 sl2 = Some (b, t2)).
    { rewrite W3. destruct (slot_eqb_spec sl2 sl1); auto. }
    assert (X3 : fieldlive s1 sl2).
    { destruct sl2 as [j|o k]; cbn; auto. destruct D3 as (x & Gx & Px). destruct W2 as (_ & _ & _ & _ & _ & Wk & _).
      destruct (Wk _ _ Gx) as (y & Y1 & Y2 & _). exists y. split; auto. lia. }
    destruct (@wrS_ok s1 sl2 (b, t2) (b, t1) X2 eq_refl X3) as (s2 & V1 & V2 & V3).
    exists 0, s2. split; [|split].
    + intros fuel _. cbn [do_op]. unfold lift. rewrite E1. cbn [obind]. rewrite D1. cbn [obind]. rewrite E2. cbn [obind]. rewrite D2. cbn [obind].
      rewrite W1. cbn [obind]. rewrite V1. auto.
    + eapply wrote_inv; eauto.
    + intros sl _. cbn [effect]. exists sl1, sl2. split; auto. split; auto.
      rewrite V3, W3, E2, D2. destruct (slot_eqb_spec sl sl1) as [->|N1]; auto.
      destruct (slot_eqb_spec sl1 sl2) as [->|N2]; auto. congruence.
  - destruct (usable_slot I Hl) as (sl & b & t & E1 & E2 & E3).
    destruct (null_ok I) as (z & Z1 & Z2).
    destruct (@reset_ok s l sl b t 0 I E1 E2 E3) as (n & s' & A & B & C); [eauto|].
    exists n, s'. split; [exact A|split; [exact B|]].
    intros sl' Hl'. cbn [effect]. exists sl, b, t. rewrite (C sl' Hl'). auto.
  - destruct (rd s (LVar i)) as [[b t]|] eqn:E; [|congruence].
    assert (E' := E). unfold rd in E'. cbn in E'. destruct (nth_error (env s) i) as [[v|]|] eqn:En; try discriminate. injection E' as ->.
    set (s1 := mkSt (hp s) (upd (env s) i None) (dlog s) (clog s)).
    assert (HR : forall v, R (hp s1) (env s1) [TCut b t] v = R (hp s) (env s) [] v).
    { intros v. rewrite R_stk. cbn [cstk s1 hp env]. rewrite cnt_cons, cnt_nil. unfold R, henv.
      pose proof (@cnt_flat_upd _ cenv (env s) i (Some (b, t)) None v En) as C. cbn [cenv] in C.
      rewrite cnt_cons, !cnt_nil in C. lia. }
    assert (I1 : Inv (hp s1) (env s1) (dlog s1) (clog s1) [TCut b t]).
    { eapply (inv_intro I); auto.
      - intros p x Hx. exists x. split; auto. apply kept_refl.
      - intros p y Hy. rewrite !HR. apply (i_cnt I Hy).
      - intros b' p H. rewrite HR in H. apply (i_dng I H).
      - right. eauto. }
    destruct (cut_ok I1) as (n & s' & A & B & C & D & F).
    exists n, s'. split; [|split; auto].
    + intros fuel Hf. cbn [do_op]. rewrite E. apply A; auto.
    + intros sl Hl'. cbn [effect]. rewrite (F sl Hl'). destruct sl as [j|o k]; cbn [rdS s1 env hp slot_eqb]; auto.
      rewrite nth_upd. destruct (Nat.eqb_spec j i) as [->|N]; auto.
      destruct (Nat.ltb i (length (env s))); auto.
Qed.

(** ** Histories *)
Lemma cascade_mono : forall f h d c k r, cascade f h d c k = Ok r -> forall f', f <= f' -> cascade f' h d c k = Ok r.
Proof.
  induction f as [|f IH]; intros h d c k r H f' Hf; destruct k as [|t k]; cbn [cascade] in H.
  - destruct f'; exact H.
  - discriminate.
  - destruct f'; exact H.
  - destruct f' as [|f']; [lia|]. cbn [cascade]. destruct (step h d c (t :: k)) as [[[[h1 d1] c1] k1]|]; [|discriminate].
    eapply IH; eauto. lia.
Qed.
Lemma do_op_mono : forall f s o s', do_op f s o = Ok s' -> forall f', f <= f' -> do_op f' s o = Ok s'.
Proof.
  assert (Hcut : forall f s b t s', cut f s b t = Ok s' -> forall f', f <= f' -> cut f' s b t = Ok s').
  { intros f s b t s' H f' Hf. unfold cut in *.
    destruct (cascade f (hp s) (dlog s) (clog s) [TCut b t]) as [[[h d] c]| |] eqn:E; try discriminate.
    rewrite (cascade_mono E Hf). auto. }
  assert (Hreset : forall f s l t s', reset f s l t = Ok s' -> forall f', f <= f' -> reset f' s l t = Ok s').
  { intros f s l t s' H f' Hf. unfold reset in *.
    match type of H with match ?X with _ => _ end = _ => destruct X as [[[s2 b] old]|]; [|discriminate] end.
    eapply Hcut; eauto. }
  intros f s [ks|b|b l|l1 l2|l1 l2|l|i] s' H f' Hf; cbn [do_op] in *; auto.
  - destruct (rd s l2) as [[b t]|]; [|discriminate]. eapply Hreset; eauto.
  - eapply Hreset; eauto.
  - destruct (rd s (LVar i)) as [[b t]|]; [|discriminate]. eapply Hcut; eauto.
Qed.

Lemma inv0 : InvS st0.
Proof.
  assert (G : forall o x, getO (hp st0) o = Some x -> o = 0 /\ x = mkObj 1 0 []).
  { intros [|[|o]] x H; cbn in H; try discriminate. injection H as <-. auto. }
  unfold InvS. cbn [dlog clog st0]. constructor.
  - eexists. split; reflexivity.
  - intros o x H. destruct (G o x H) as [-> ->]. split; reflexivity.
  - intros b o H. cbn in H. lia.
  - intros o x v H Hv. destruct (G o x H) as [-> ->]. destruct Hv.
  - intros o [].
  - intros o is [].
  - intros o [].
  - constructor.
  - intros o x H Hs. destruct (G o x H) as [-> ->]. discriminate Hs.
  - intros o. split; [intros []|]. intros [A [B|[]]]. destruct o as [|o]; [discriminate|cbn in A; lia].
  - constructor.
  - intros o x [].
  - constructor.
  - intros o [].
Qed.

Lemma reach_inv : forall s, reach s -> InvS s.
Proof.
  induction 1 as [|s o fuel s' _ IH L E]; [apply inv0|].
  destruct (op_ok IH L) as (n & s1 & A & B & _).
  specialize (A (S (fuel + n)) ltac:(lia)). rewrite (do_op_mono E (f' := S (fuel + n)) ltac:(lia)) in A. injection A as <-. auto.
Qed.

(** C37: legal operations on reachable states. *)
Lemma op_reach : forall s o, reach s -> legal s o ->
  exists n s', (forall fuel, n < fuel -> do_op fuel s o = Ok s') /\ reach s' /\
    forall sl, live_slot s' sl -> effect s o sl (rdS s' sl).
Proof.
  intros s o Hr Hl. destruct (op_ok (reach_inv Hr) Hl) as (n & s' & A & B & C).
  exists n, s'. split; auto. split; auto. econstructor; eauto.
Qed.

Lemma lifetime : forall s o, reach s -> created s o ->
  (alive s o <-> refers true s o) /\
  (exists_ s o <-> refers true s o \/ refers false s o) /\
  (In o (dlog s) <-> ~ exists_ s o) /\
  NoDup (dlog s) /\ NoDup (clog s).
Proof.
  intros s o Hr [Ho Hlt]. pose proof (reach_inv Hr) as I.
  split; [|split; [|split; [|split; [apply (i_dn I)|apply (i_cn I)]]]].
  - split.
    + intros H. destruct (alive_pos I H) as (x & G & P). apply refers_R. destruct (i_cnt I G) as [A _]. rewrite self_pos in A by lia. lia.
    + intros H. destruct (R_true_pos I H) as (x & G & P). split; [unfold exists_; congruence|].
      intros C. pose proof (i_c I C G). lia.
  - split.
    + intros H. unfold exists_ in H. destruct (getO (hp s) o) as [x|] eqn:G; [|congruence].
      destruct (i_cnt I G) as [A B]. rewrite self_pos in A by lia.
      destruct (st x) as [|n] eqn:E.
      * right. apply refers_R. destruct (i_zero I G E) as [[]|(W & _)]. lia.
      * left. apply refers_R. lia.
    + intros H. unfold exists_. destruct H as [H|H]; apply refers_R in H; destruct (i_dng I H) as [x G]; congruence.
  - rewrite (i_d I). cbn [In]. unfold exists_. split.
    + intros [_ [A|[]]]. congruence.
    + intros H. split; auto. left. destruct (getO (hp s) o); auto. exfalso. apply H. congruence.
Qed.

(** Members of an object that only waits are all null. *)
Lemma waiting_empty : forall s o x, reach s -> getO (hp s) o = Some x -> o <> 0 -> ~ refers true s o ->
  In o (clog s) /\ forall v, In v (flds x) -> v = (true, 0).
Proof.
  intros s o x Hr G No H. pose proof (reach_inv Hr) as I.
  destruct (i_cnt I G) as [A B]. rewrite self_pos in A by lia.
  assert (S0 : st x = 0). { destruct (st x); auto. exfalso. apply H. apply refers_R. lia. }
  destruct (i_zero I G S0) as [[]|(_ & C & D)]. split; auto. intros v Hv.
  symmetry. revert v Hv. apply Forall_forall. auto.
Qed.

Lemma never_null_gone : forall s, reach s -> exists_ s 0.
Proof. intros s Hr. destruct (i_null (reach_inv Hr)) as (z & A & _). unfold exists_. congruence. Qed.

(** C38: constructing a strong handle from any handle. *)
Lemma lock_ok : forall s l b t, reach s -> usable s l -> rd s l = Some (b, t) ->
  exists s', (forall fuel, do_op fuel s (OCopy true l) = Ok s') /\ reach s' /\
    ((refers true s t -> rd s' (LVar (length (env s))) = Some (true, t)) /\
     (~ refers true s t -> rd s' (LVar (length (env s))) = Some (true, 0))).
Proof.
  intros s l b t Hr Hu Hrd. destruct (@op_reach s (OCopy true l) Hr Hu) as (n & s' & A & B & C).
  exists s'. split; [|split; auto].
  - intros fuel. specialize (A (S n) ltac:(lia)). exact A.
  - specialize (C (SVar (length (env s))) Logic.I). cbn [effect slot_eqb] in C. rewrite Nat.eqb_refl in C.
    destruct C as (b0 & t0 & E & C1 & C2). rewrite Hrd in E. injection E as -> ->.
    unfold rd. cbn [slot_of obind]. split; intros H; [apply C1; auto|apply C2]. intros [?|?]; [discriminate|contradiction].
Qed.

(** After the last handle of either kind the memory is given back. *)
Lemma released : forall s o, reach s -> created s o -> ~ refers true s o -> ~ refers false s o ->
  getO (hp s) o = None /\ In o (dlog s).
Proof.
  intros s o Hr Hc H1 H2. destruct (lifetime Hr Hc) as (_ & A & B & _).
  assert (N : ~ exists_ s o) by (rewrite A; intuition). split; [|apply B; auto].
  unfold exists_ in N. destruct (getO (hp s) o); auto. exfalso. apply N. congruence.
Qed.

Lemma reach_ops : forall fuel os s s', reach s -> legal_ops fuel s os -> do_ops fuel s os = Ok s' -> reach s'.
Proof.
  induction os as [|o os IH]; intros s s' Hr Hl E; cbn [legal_ops do_ops] in Hl, E.
  - injection E as <-. auto.
  - destruct Hl as [L Hl]. destruct (do_op fuel s o) as [s1| |] eqn:D; try discriminate.
    apply (IH s1); auto. apply (reach1 (s := s) (o := o) (fuel := fuel)); auto.
Qed.
