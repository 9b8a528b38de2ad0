(** The reading methods of the string nodes. *)
From Verif Require Import Base Ref_Model Ref_Proofs List_Model Str_Model Str_Heap Str_Own.
Local Open Scope res_scope.
Local Open Scope nat_scope.

(** ** Lists *)
Lemma nth_ext_err : forall A (l l' : list A), (forall i, nth_error l i = nth_error l' i) -> l = l'.
Proof.
  induction l as [|a l IH]; intros [|b l'] E; auto.
  - specialize (E 0). discriminate.
  - specialize (E 0). discriminate.
  - f_equal; [specialize (E 0); cbn in E; congruence|]. apply IH. intros i. apply (E (S i)).
Qed.
Lemma nth_app : forall A (a b : list A) i, nth_error (a ++ b) i = if Nat.ltb i (length a) then nth_error a i else nth_error b (i - length a).
Proof.
  intros. destruct (Nat.ltb_spec i (length a)); [apply nth_error_app1|apply nth_error_app2]; auto.
Qed.
Lemma nth_first : forall A (l : list A) n i, nth_error (firstn n l) i = if Nat.ltb i n then nth_error l i else None.
Proof.
  induction l as [|a l IH]; intros [|n] [|i]; cbn; auto.
  all: try (match goal with |- context[if ?b then _ else _] => destruct b end; reflexivity).
  rewrite IH. reflexivity.
Qed.
Lemma nth_skip : forall A (l : list A) n i, nth_error (skipn n l) i = nth_error l (n + i).
Proof. induction l as [|a l IH]; intros [|n] i; cbn; auto. destruct i; auto. Qed.
Lemma nth_rep : forall A (c : A) n i, nth_error (repeat c n) i = if Nat.ltb i n then Some c else None.
Proof.
  induction n; intros [|i]; cbn; auto. rewrite IHn. reflexivity.
Qed.
Lemma nth_upd' : forall A (l : list A) n v i,
  nth_error (upd l n v) i = if Nat.eqb i n then (if Nat.ltb n (length l) then Some v else None) else nth_error l i.
Proof. intros. apply nth_upd. Qed.
Lemma nth_nil : forall A i, nth_error (@nil A) i = None.
Proof. intros A [|i]; auto. Qed.
Ltac llen := rewrite ?app_length, ?firstn_length, ?skipn_length, ?repeat_length, ?upd_length, ?app_length, ?firstn_length, ?skipn_length, ?app_length in *; cbn [length] in *.
Ltac lnorm := repeat (rewrite ?nth_app, ?nth_first, ?nth_skip, ?nth_rep, ?nth_upd', ?nth_nil); llen.
Ltac lfin :=
  first [ reflexivity
        | lia
        | (f_equal; lia)
        | (apply nth_error_None; llen; lia)
        | (symmetry; apply nth_error_None; llen; lia)
        | (transitivity (@None Z); [|symmetry]; apply nth_error_None; llen; lia) ].
Ltac lclean := repeat match goal with X : ?T |- _ =>
  lazymatch T with
  | (_ <= _) => fail | (_ < _) => fail | @eq nat _ _ => fail | @eq bool _ _ => fail | not _ => fail
  | nat => fail | list Z => fail | bool => fail | Z => fail
  | _ => clear X
  end end.
Ltac lsolve :=
  lclean; apply nth_ext_err; let i := fresh "i" in intros i; lnorm;
  repeat (match goal with
          | |- context[if Nat.ltb ?a ?b then _ else _] => destruct (Nat.ltb_spec a b)
          | |- context[if Nat.eqb ?a ?b then _ else _] => destruct (Nat.eqb_spec a b)
          end; try (exfalso; lia));
  try lfin.

Section Read.
Variable hv : list Z -> Z.
Notation Val := (Val hv).
Notation Vok := (Vok hv).
Notation Pre := (Pre hv).
Notation Post := (Post hv).
Notation nullok := (nullok hv).

(** Nodes are added only. *)
Record Fresh (H : heap) (args : list nat) (o : nat) (H' : heap) (outs : list nat) (vals : list (list Z)) : Prop := {
  fr_ext : exists l, H' = H ++ l;
  fr_val : Forall2 (Vok H') outs vals;
  fr_new : Forall (newr H args o H') outs }.
Lemma fresh_post : forall H roots args o H' outs vals, Fresh H args o H' outs vals -> Post H roots args o H' outs vals.
Proof.
  intros H roots args o H' outs vals [[l ->] V N]. constructor; auto.
  - rewrite app_length. lia.
  - intros q L. left. apply ext_old. auto.
Qed.
Lemma fresh_below : forall H args o c H' outs vals, reach H o c -> Fresh H args c H' outs vals -> Fresh H args o H' outs vals.
Proof.
  intros H args o c H' outs vals R [E V N]. constructor; auto.
  rewrite Forall_forall in *. intros x I q L Nq Rq. destruct (N x I q L Nq Rq) as [X|]; auto.
  left. eapply reach_trans; eauto.
Qed.
Lemma alloc_fresh : forall H args o H1 k ws v outs vals, (exists l, H1 = H ++ l) ->
  Forall2 (Vok H1) (children k) ws -> shape k ws v -> Forall (newr H args o H1) (children k) ->
  Forall2 (Vok H1) outs vals -> Forall (newr H args o H1) outs ->
  Fresh H args o (H1 ++ [(k, None)]) (length H1 :: outs) (v :: vals).
Proof.
  intros H args o H1 k ws v outs vals [l ->] F S N Fo No.
  assert (P : Post H [] args o ((H ++ l) ++ [(k, None)]) (length (H ++ l) :: outs) (v :: vals)).
  { eapply alloc_post; eauto.
    - rewrite app_length. lia.
    - intros q L. left. apply ext_old. auto. }
  destruct P as [_ _ V N']. constructor; auto. exists (l ++ [(k, None)]). rewrite app_assoc. auto.
Qed.
Lemma fresh_id : forall H args o outs vals, Forall2 (Vok H) outs vals -> Forall (newr H args o H) outs -> Fresh H args o H outs vals.
Proof. intros. constructor; auto. exists []. rewrite app_nil_r. auto. Qed.
Lemma fresh_same : forall H args o v, Vok H o v -> Fresh H args o H [o] [v].
Proof. intros. apply fresh_id; constructor; auto. apply newr_self. Qed.
Lemma fresh_null : forall H args o, nullok H -> Fresh H args o H [0] [[]].
Proof. intros H args o N. apply fresh_id; constructor; auto. - apply null_val; auto. - eapply newr_null; eauto. Qed.
(** A new node with one child. *)
Lemma fresh_one : forall H args o c w k v, Vok H c w -> newr H args o H c -> children k = [c] -> shape k [w] v ->
  Fresh H args o (H ++ [(k, None)]) [length H] [v].
Proof.
  intros H args o c w k v V N E S. eapply alloc_fresh; [exists []; rewrite app_nil_r; auto| |exact S| |constructor|constructor]; rewrite E; constructor; auto.
Qed.
Lemma fresh_leaf : forall H args o k v, children k = [] -> shape k [] v ->
  Fresh H args o (H ++ [(k, None)]) [length H] [v].
Proof.
  intros H args o k v E S. eapply alloc_fresh; [exists []; rewrite app_nil_r; auto| |exact S| |constructor|constructor]; rewrite E; constructor; auto.
Qed.
Lemma fresh_fwd0 : forall H args o, nullok H -> Fresh H args o (H ++ [(KFwd 0, None)]) [length H] [[]].
Proof.
  intros H args o N. eapply fresh_one with (c := 0) (w := []); try reflexivity.
  - apply null_val; auto. - eapply newr_null; eauto.
Qed.

(** ** Characters *)
Lemma Val1 : forall n H o v k c, Val (S n) H o v -> nth_error H o = Some (k, c) ->
  exists ws, Forall2 (Val n H) (children k) ws /\ shape k ws v /\ cok hv c v.
Proof.
  intros n H o v k c (k' & c' & ws & E & O & F & S) E'. rewrite E in E'. inversion E'; subst. eauto.
Qed.
Lemma Val_cell : forall n H o v, Val n H o v -> exists k c, nth_error H o = Some (k, c).
Proof. intros [|n] H o v V; [contradiction|]. destruct V as (k & c & ws & E & _). eauto. Qed.

Ltac shp := repeat match goal with
  | X : Forall2 _ (children _) _ |- _ => cbn [children] in X
  | X : Forall2 _ (_ :: _) _ |- _ => inversion X; subst; clear X
  | X : Forall2 _ [] _ |- _ => inversion X; subst; clear X
  | X : shape _ _ _ |- _ => cbn [shape] in X
  | X : _ /\ _ |- _ => destruct X
  end.

Lemma runs_val : forall A (g : nat -> res A) r, (forall f, g f = Ok r) -> Runs g (fun x => x = r).
Proof. intros. exists 0, r. auto. Qed.
Lemma runs_ret : forall A (r s : A), r = s -> Runs (fun _ => Ok r) (fun x => x = s).
Proof. intros. exists 0, r. auto. Qed.
Lemma def_nth : forall A (l : list A) i a, nth_error l i = Some a -> Runs (fun _ => def_ (nth_error l i)) (fun x => Some x = Some a).
Proof. intros A l i a E. exists 0, a. split; auto. intros. rewrite E. auto. Qed.

Lemma arec_run : forall n H o v i, Val n H o v -> i < length v ->
  Runs (fun f => arec f H o i) (fun a => Some a = nth_error v i).
Proof.
  induction n as [|n IH]; intros H o v i V L; [contradiction|].
  destruct (Val_cell V) as (k & c & E). destruct (Val1 V E) as (ws & F & S & O). clear V.
  apply Runs_S. cbn [arec]. rewrite (kd_eq E). cbn [rb].
  assert (G : forall d : list Z, i < length d -> Runs (fun _ => def_ (nth_error d i)) (fun a => Some a = nth_error d i)).
  { intros d Ld. destruct (nth_error d i) eqn:X; [|apply nth_error_None in X; lia]. apply Runs_ret. auto. }
  assert (G' : forall (d : list Z) j, j < length d -> nth_error d j = nth_error v i -> Runs (fun _ => def_ (nth_error d j)) (fun a => Some a = nth_error v i)).
  { intros d j Ld Y. rewrite <- Y. destruct (nth_error d j) eqn:X; [|apply nth_error_None in X; lia]. apply Runs_ret. auto. }
  assert (R : forall to w j, Val n H to w -> j < length w -> nth_error w j = nth_error v i -> Runs (fun f => arec f H to j) (fun a => Some a = nth_error v i)).
  { intros to w j Vw Lj <-. apply IH; auto. }
  destruct k; shp; subst; llen.
  - lia.
  - auto.
  - apply G'; [llen; lia|]. rewrite nth_app. destruct (Nat.ltb_spec i (length d)); auto. lia.
  - eapply R; eauto; [lia|]. lnorm. destruct (Nat.ltb_spec i n0); [f_equal; lia|lia].
  - destruct (Nat.ltb_spec i (length d)).
    + apply G'; auto. rewrite nth_app. destruct (Nat.ltb_spec i (length d)); auto. lia.
    + eapply R; eauto; [lia|]. rewrite nth_app. destruct (Nat.ltb_spec i (length d)); auto. lia.
  - match goal with |- context[Nat.ltb i ?a] => destruct (Nat.ltb_spec i a) end.
    + eapply R; eauto. rewrite nth_app. match goal with |- context[Nat.ltb i ?a] => destruct (Nat.ltb_spec i a) end; auto. lia.
    + apply G'; [lia|]. rewrite nth_app. match goal with |- context[Nat.ltb i ?a] => destruct (Nat.ltb_spec i a) end; auto. lia.
  - match goal with |- context[Nat.ltb i ?a] => destruct (Nat.ltb_spec i a) end.
    + eapply R; eauto. rewrite nth_app. match goal with |- context[Nat.ltb i ?a] => destruct (Nat.ltb_spec i a) end; auto. lia.
    + eapply R; eauto; [lia|]. rewrite nth_app. match goal with |- context[Nat.ltb i ?a] => destruct (Nat.ltb_spec i a) end; auto. lia.
  - destruct (Nat.leb_spec p i).
    + eapply R; eauto; [lia|]. lnorm. repeat match goal with |- context[Nat.ltb ?b ?a] => destruct (Nat.ltb_spec b a) end; try lia. f_equal. lia.
    + eapply R; eauto; [lia|]. lnorm. repeat match goal with |- context[Nat.ltb ?b ?a] => destruct (Nat.ltb_spec b a) end; try lia. auto.
  - match goal with |- context[andb (Nat.leb p i) (Nat.ltb i ?a)] => destruct (Nat.leb_spec p i); destruct (Nat.ltb_spec i a) end; cbn [andb]; try lia.
    + eapply R; eauto; [lia|]. lnorm. repeat match goal with |- context[Nat.ltb ?b ?a] => destruct (Nat.ltb_spec b a) end; try lia. f_equal; lia.
    + match goal with |- context[Nat.leb ?a i] => destruct (Nat.leb_spec a i) end; [|lia].
      eapply R; eauto; [lia|]. lnorm. repeat match goal with |- context[Nat.ltb ?b ?a] => destruct (Nat.ltb_spec b a) end; try lia. f_equal; lia.
    + match goal with |- context[Nat.leb ?a i] => destruct (Nat.leb_spec a i) end; [lia|].
      eapply R; eauto; [lia|]. lnorm. repeat match goal with |- context[Nat.ltb ?b ?a] => destruct (Nat.ltb_spec b a) end; try lia. auto.
  - apply Runs_ret. rewrite nth_rep. destruct (Nat.ltb_spec i n0); auto. lia.
  - eapply R; eauto.
Qed.

(** ** Parts *)
Definition plain (H : heap) (o : nat) : Prop :=
  forall q k c, reach H o q -> nth_error H q = Some (k, c) -> match k with KIns _ _ _ _ _ => False | _ => True end.
Lemma plain_edge : forall H o c, plain H o -> edge H o c -> plain H c.
Proof. intros H o c P E q k h R. apply P. eapply r_step; eauto. Qed.
Lemma slice_run : forall (d : list Z) p n, p + n <= length d -> slice d p n = Ok (firstn n (skipn p d)).
Proof. intros d p n L. unfold slice. replace (Nat.leb (p + n) (length d)) with true by lia. auto. Qed.

Lemma runs_eq : forall A (g : nat -> res A) r s, Runs g (fun x => x = r) -> r = s -> Runs g (fun x => x = s).
Proof. intros. subst. auto. Qed.

Lemma copy_run : forall n H o v p m, Val n H o v -> plain H o -> p + m <= length v ->
  Runs (fun f => copy_part f H o p m) (fun l => l = firstn m (skipn p v)).
Proof.
  induction n as [|n IH]; intros H o v p m V Pl L; [contradiction|].
  destruct (Val_cell V) as (k & c & E). destruct (Val1 V E) as (ws & F & S & O). clear V.
  apply Runs_S. cbn [copy_part]. rewrite (kd_eq E). cbn [rb].
  assert (R : forall to w p' m', Val n H to w -> In to (children k) -> p' + m' <= length w ->
    Runs (fun f => copy_part f H to p' m') (fun l => l = firstn m' (skipn p' w))).
  { intros to w p' m' Vw Ic Lj. apply IH; auto. eapply plain_edge; eauto. exists k, c. auto. }
  clear IH.
  destruct k; shp; subst; cbn [In children] in R; llen.
  - destruct p; [|lia]. destruct m; [|lia]. apply runs_ret. auto.
  - rewrite slice_run by lia. apply runs_ret. auto.
  - rewrite slice_run by lia. apply runs_ret. auto.
  - eapply runs_eq; [eapply R; eauto; lia|]. lsolve.
  - destruct (Nat.ltb_spec p (length d)).
    + rewrite slice_run by lia. cbn [rb].
      destruct (Nat.eqb_spec m (Nat.min (length d - p) m)).
      * apply runs_ret. lsolve.
      * eapply Runs_bind; [eapply R; eauto; lia|]. intros r ->. apply runs_ret. lsolve.
    + eapply runs_eq; [eapply R; eauto; lia|]. lsolve.
  - match goal with |- context[Nat.leb (p + m) ?a] => destruct (Nat.leb_spec (p + m) a) end.
    + eapply runs_eq; [eapply R; eauto; lia|]. lsolve.
    + match goal with |- context[Nat.ltb p ?a] => destruct (Nat.ltb_spec p a) end.
      * eapply Runs_bind; [eapply R; eauto; lia|]. intros r ->. rewrite slice_run by (llen; lia). apply runs_ret. lsolve.
      * rewrite slice_run by lia. apply runs_ret. lsolve.
  - match goal with |- context[Nat.ltb p ?a] => destruct (Nat.ltb_spec p a) end.
    + eapply Runs_bind; [eapply R; eauto; lia|]. intros r ->.
      match goal with |- context[Nat.eqb m ?a] => destruct (Nat.eqb_spec m a) end.
      * apply runs_ret. lsolve.
      * eapply Runs_bind; [eapply R; eauto; lia|]. intros r ->. apply runs_ret. lsolve.
    + eapply runs_eq; [eapply R; eauto; lia|]. lsolve.
  - destruct (Nat.ltb_spec (p + m) p0).
    + eapply runs_eq; [eapply R; eauto; lia|]. lsolve.
    + destruct (Nat.leb_spec p0 p).
      * eapply runs_eq; [eapply R; eauto; lia|]. lsolve.
      * eapply Runs_bind; [eapply R; eauto; lia|]. intros r ->.
        eapply Runs_bind; [eapply R; eauto; lia|]. intros r ->. apply runs_ret. lsolve.
  - exfalso. exact (Pl o _ _ (r_refl H o) E).
  - apply runs_ret. lsolve.
  - eapply R; eauto.
Qed.
(** An inserted node is copied rightly from its beginning. *)
Lemma copy_ins_run : forall n H o v to x tn q r c m, Val (S n) H o v -> nth_error H o = Some (KIns to x tn q r, c) ->
  plain H to -> plain H x -> m <= length v ->
  Runs (fun f => copy_part f H o 0 m) (fun l => l = firstn m v).
Proof.
  intros n H o v to x tn q r c m V E P1 P2 L. destruct (Val1 V E) as (ws & F & S & O). shp. subst. llen.
  apply Runs_S. cbn [copy_part]. rewrite (kd_eq E). cbn [rb].
  cbn [Nat.add].
  destruct (Nat.ltb_spec m q).
  { eapply runs_eq; [eapply copy_run; eauto; lia|]. lsolve. }
  replace (Nat.ltb (q + length y0) 0) with false by lia.
  eapply Runs_bind with (Q := fun a => a = firstn q y).
  { destruct (Nat.ltb_spec 0 q).
    - eapply runs_eq; [eapply copy_run; eauto; lia|]. lsolve.
    - apply runs_ret. replace q with 0 by lia. auto. }
  intros a ->. llen. eapply Runs_bind; [eapply copy_run with (v := y0); eauto; lia|]. intros b ->.
  match goal with |- context[Nat.eqb ?a 0] => destruct (Nat.eqb_spec a 0) end.
  - apply runs_ret. lsolve.
  - eapply Runs_bind; [eapply copy_run with (v := y); eauto; lia|]. intros b ->. apply runs_ret. lsolve.
Qed.

(** ** Substrings *)
Lemma mk_sub_fresh : forall H args o to w b n, nullok H -> Vok H to w -> newr H args o H to -> b + n <= length w ->
  Fresh H args o (fst (mk_sub H to b n)) [snd (mk_sub H to b n)] [firstn n (skipn b w)].
Proof.
  intros H args o to w b n Z V N L. unfold mk_sub. destruct (Nat.eqb_spec n 0) as [->|].
  - cbn [mk fst snd]. rewrite firstn_O. apply fresh_fwd0; auto.
  - cbn [mk fst snd]. eapply fresh_one; eauto; cbn; auto.
Qed.
Lemma sub_base_run : forall H args o v b n, nullok H -> Vok H o v -> b + n <= length v ->
  Runs (fun f => sub_base f H o b n) (fun r => Fresh H args o (fst r) [snd r] [firstn n (skipn b v)]).
Proof.
  intros H args o v b n Z V L. unfold sub_base. eapply Runs_bind; [eapply size_run; eauto|]. intros m ->. apply Runs_ret.
  destruct (Nat.eqb_spec b 0); destruct (Nat.eqb_spec n (length v)); cbn [andb]; try (apply mk_sub_fresh; auto; apply newr_self).
  subst. cbn [fst snd skipn]. rewrite firstn_all. apply fresh_same; auto.
Qed.
Lemma get_sub_run : forall n H o v b m, Val n H o v -> nullok H -> b + m <= length v ->
  Runs (fun f => get_sub f H o b m) (fun r => Fresh H [] o (fst r) [snd r] [firstn m (skipn b v)]).
Proof.
  induction n as [|n IH]; intros H o v b m V Z L; [contradiction|].
  assert (VV : Vok H o v) by (exists (S n); auto).
  destruct (Val_cell V) as (k & c & E). destruct (Val1 V E) as (ws & F & S & O). clear V.
  apply Runs_S. cbn [get_sub]. rewrite (kd_eq E). cbn [rb].
  assert (R : forall to w b', Val n H to w -> In to (children k) -> b' + m <= length w -> firstn m (skipn b' w) = firstn m (skipn b v) ->
    Runs (fun f => get_sub f H to b' m) (fun r => Fresh H [] o (fst r) [snd r] [firstn m (skipn b v)])).
  { intros to w b' Vw Ic Lj X. eapply Runs_mono; [eapply IH; eauto|]. intros r Fr. rewrite <- X.
    eapply fresh_below; [|exact Fr]. apply reach_edge. exists k, c. auto. }
  clear IH.
  assert (B : Runs (fun f => sub_base f H o b m) (fun r => Fresh H [] o (fst r) [snd r] [firstn m (skipn b v)])).
  { apply sub_base_run; auto. }
  destruct k; shp; subst; cbn [In children] in R; llen; auto.
  - apply Runs_ret. replace m with 0 by lia. rewrite firstn_O. apply fresh_same; auto.
  - rewrite slice_run by lia. cbn [rb]. apply Runs_ret. destruct (Nat.eqb_spec m 0) as [->|]; cbn [mk fst snd].
    + rewrite firstn_O. apply fresh_fwd0; auto.
    + apply fresh_leaf; cbn; auto.
  - apply Runs_ret.
    match goal with X : Val n H to ?w |- _ => replace (firstn m (skipn b (firstn n0 (skipn b0 w)))) with (firstn m (skipn (b + b0) w)) by lsolve;
      apply mk_sub_fresh; auto; [exists n; auto|apply newr_below, reach_edge; exists (KSub to b0 n0), c; split; auto; left; auto|lia] end.
  - destruct (Nat.leb_spec (length d) b); auto. eapply R; eauto; [lia|]. lsolve.
  - match goal with |- context[Nat.leb (b + m) ?a] => destruct (Nat.leb_spec (b + m) a) end; auto. eapply R; eauto. lsolve.
  - match goal with |- context[Nat.leb (b + m) ?a] => destruct (Nat.leb_spec (b + m) a) end.
    + eapply R; eauto. lsolve.
    + match goal with |- context[Nat.leb ?a b] => destruct (Nat.leb_spec a b) end; auto. eapply R; eauto; [lia|]. lsolve.
  - destruct (Nat.ltb_spec (b + m) p).
    + eapply R; eauto; [lia|]. lsolve.
    + destruct (Nat.leb_spec p b); auto. eapply R; eauto; [lia|]. lsolve.
  - destruct (Nat.ltb_spec (b + m) p).
    + eapply R; eauto; [lia|]. lsolve.
    + match goal with |- context[Nat.ltb ?a b] => destruct (Nat.ltb_spec a b) end.
      * eapply R; eauto; [lia|]. lsolve.
      * match goal with |- context[andb (Nat.leb p b) (Nat.leb (b + m) ?a)] => destruct (Nat.leb_spec p b); destruct (Nat.leb_spec (b + m) a) end; cbn [andb]; auto.
        eapply R; eauto; [lia|]. lsolve.
  - apply Runs_ret. destruct (Nat.eqb_spec m n0) as [->|].
    + cbn [fst snd]. replace (firstn n0 (skipn b (repeat c0 n0))) with (repeat c0 n0) by lsolve. apply fresh_same; auto.
    + destruct (Nat.eqb_spec m 0) as [->|]; cbn [mk fst snd].
      * rewrite firstn_O. apply fresh_null; auto.
      * apply fresh_leaf; auto. cbn [shape]. lsolve.
  - eapply R; eauto.
Qed.
End Read.
