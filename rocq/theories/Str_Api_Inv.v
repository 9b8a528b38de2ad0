(** The invariant that ties string variables to character sequences, and the
    lemmas that keep it. *)
From Verif Require Import Base Bits_Model Ref_Model Ref_Proofs List_Model Str_Model Str_Heap Str_Own Str_Read Str_Apply Str_Ctx Str_Edit Str_Cut Str_Uniq Str_Api_Model Str_Obs Str_Spec.
From Coq Require Import Permutation.
Local Open Scope res_scope.
Local Open Scope nat_scope.

Lemma sset_upd : forall (l : sst) i x, i < length l -> sset l i x = upd l i x.
Proof.
  unfold sset. induction l as [|a l IH]; intros [|i] x L; cbn in *; try lia; auto. f_equal. apply (IH i x). lia.
Qed.
Lemma upd_upd : forall A (l : list A) i x y, upd (upd l i x) i y = upd l i y.
Proof. induction l as [|a l IH]; intros [|i] x y; cbn; auto. f_equal; auto. Qed.
Lemma upd_id : forall A (l : list A) i x, nth_error l i = Some x -> upd l i x = l.
Proof. induction l as [|a l IH]; intros [|i] x E; cbn in *; try congruence. f_equal; auto. Qed.
Lemma sget_in : forall l i d, sget l i = Some d -> nth_error l i = Some (Some d) /\ i < length l.
Proof.
  unfold sget. intros l i d E. destruct (nth_error l i) as [x|] eqn:N; [|discriminate]. subst. split; auto.
  apply nth_error_Some. congruence.
Qed.

Lemma in_roots : forall l o, In o (roots l) <-> exists j, nth_error l j = Some (Some (VPtr o)).
Proof.
  unfold roots. intros l o. rewrite in_flat_map. split.
  - intros (v & I & J). apply In_nth_error in I. destruct I as [j I]. destruct v as [[| |p]|]; cbn in J; try contradiction.
    destruct J as [->|[]]. eauto.
  - intros [j E]. exists (Some (VPtr o)). split; [eapply nth_error_In; eauto|left; auto].
Qed.
Lemma in_others : forall l i o, In o (others i l) <-> exists j, j <> i /\ nth_error l j = Some (Some (VPtr o)).
Proof.
  unfold others. intros l i o. rewrite in_roots. split.
  - intros [j E]. rewrite nth_upd in E. destruct (Nat.eqb_spec j i) as [Ej|N]; [destruct (Nat.ltb i (length l)); discriminate|]. eauto.
  - intros (j & N & E). exists j. rewrite nth_upd. destruct (Nat.eqb_spec j i); [contradiction|auto].
Qed.
Lemma others_upd : forall l i x, others i (upd l i x) = others i l.
Proof. intros. unfold others. rewrite upd_upd. auto. Qed.
Lemma roots_others : forall l i x, nth_error l i = Some x -> Permutation (roots l) (hof x ++ others i l).
Proof.
  unfold others. induction l as [|a l IH]; intros [|i] x E; cbn in E; try discriminate.
  - injection E as ->. cbn. apply Permutation_refl.
  - cbn. change (flat_map hof l) with (roots l). change (flat_map hof (upd l i None)) with (roots (upd l i None)).
    eapply Permutation_trans; [apply Permutation_app_head, (IH _ _ E)|].
    rewrite !app_assoc. apply Permutation_app_tail, Permutation_app_comm.
Qed.

(** A handle that the caller keeps beside the one operated on. *)
Definition beside (rts : list nat) (o r : nat) : Prop := In o rts /\ In r rts /\ (r = o -> 2 <= count_occ Nat.eq_dec rts o).
Lemma beside_cons : forall o rs r, In r rs -> beside (o :: rs) o r.
Proof.
  intros o rs r I. split; [left; auto|split; [right; auto|]]. intros ->. cbn. destruct (Nat.eq_dec o o); [|contradiction].
  apply (count_occ_In Nat.eq_dec) in I. lia.
Qed.
Lemma beside_roots : forall l i o r, nth_error l i = Some (Some (VPtr o)) -> In r (others i l) -> beside (roots l) o r.
Proof.
  intros l i o r E I. assert (P := roots_others E). cbn [hof List.app] in P.
  destruct (beside_cons o I) as (A & B & C).
  split; [eapply Permutation_in; [apply Permutation_sym, P|auto]|split; [eapply Permutation_in; [apply Permutation_sym, P|auto]|]].
  intros X. rewrite (proj1 (Permutation_count_occ Nat.eq_dec _ _) P o). auto.
Qed.
Lemma beside_far : forall H rts o r, single H rts o -> beside rts o r -> ~ reach H r o.
Proof.
  intros H rts o r S (A & B & C) R. destruct (reach_last R) as [E|(p & Rp & E)].
  - assert (D := sg_root S). specialize (C E). lia.
  - apply (sg_mix S A (p := p)); auto. exists r. auto.
Qed.
Lemma chg_beside : forall H rts o H' r q, chg H rts o H' -> beside rts o r -> closed H rts -> reach H r q -> nth_error H' q = nth_error H q.
Proof.
  intros H rts o H' r q C B Cl R.
  assert (L : q < length H). { apply Cl. exists r. split; [apply B|auto]. }
  destruct (C q L) as [E|[N P]]; auto. exfalso.
  destruct (reach_split o R) as [X|[X _]].
  - apply (pv_av P (r := r)); [apply B|auto].
  - apply (beside_far (pv_single P) B X).
Qed.

Section Inv.
Variable hv : list Z -> Z.
Notation Val := (Val hv).
Notation Vok := (Vok hv).
Notation Pre := (Pre hv).
Notation Post := (Post hv).
Notation nullok := (nullok hv).
Notation Fresh := (Fresh hv).
Notation Keep := (Keep hv).

Definition varok (H : heap) (v : var) (d : list Z) : Prop :=
  match v with VPtr o => Vok H o d | _ => cso_data v = d end.
Definition ovok (H : heap) (v : option var) (d : option (list Z)) : Prop :=
  match v, d with None, None => True | Some v, Some d => varok H v d | _, _ => False end.
Definition Inv (s : st) (l : sst) : Prop := nullok (hp s) /\ Forall2 (ovok (hp s)) (vs s) l.

Lemma F2_nth : forall A B (P : A -> B -> Prop) l l', Forall2 P l l' -> forall i,
  match nth_error l i, nth_error l' i with Some a, Some b => P a b | None, None => True | _, _ => False end.
Proof. induction 1; intros [|i]; cbn; auto. apply IHForall2. Qed.
Lemma F2_of_nth : forall A B (P : A -> B -> Prop) l l', (forall i,
  match nth_error l i, nth_error l' i with Some a, Some b => P a b | None, None => True | _, _ => False end) -> Forall2 P l l'.
Proof.
  induction l as [|a l IH]; intros [|b l'] X; auto.
  - specialize (X 0); contradiction.
  - specialize (X 0); contradiction.
  - constructor; [apply (X 0)|]. apply IH. intros i. apply (X (S i)).
Qed.

Lemma inv_len : forall s l, Inv s l -> length (vs s) = length l.
Proof. intros s l [_ F]. eapply F2_length; eauto. Qed.
Lemma inv_get : forall s l i d, Inv s l -> sget l i = Some d ->
  exists v, nth_error (vs s) i = Some (Some v) /\ getv s i = Ok v /\ varok (hp s) v d.
Proof.
  intros s l i d [_ F] E. destruct (sget_in E) as [N L]. assert (X := F2_nth F i). rewrite N in X. unfold getv.
  destruct (nth_error (vs s) i) as [[v|]|] eqn:Nv; try contradiction. exists v. split; auto.
Qed.
Lemma inv_root : forall s l o, Inv s l -> In o (roots (vs s)) -> exists d, Vok (hp s) o d.
Proof.
  intros s l o [_ F] I. apply in_roots in I. destruct I as [j E]. assert (X := F2_nth F j). rewrite E in X.
  destruct (nth_error l j) as [[d|]|]; try contradiction. exists d. exact X.
Qed.
Lemma inv_other : forall s l i o, Inv s l -> In o (others i (vs s)) -> exists d, Vok (hp s) o d.
Proof. intros s l i o I J. apply in_others in J. destruct J as (j & _ & E). eapply inv_root; eauto. apply in_roots. eauto. Qed.
Lemma closed_all : forall H rs, (forall r, In r rs -> exists d, Vok H r d) -> closed H rs.
Proof. intros H rs X q (r & I & R). destruct (X r I) as [d V]. eapply Vok_reach_lt; eauto. Qed.

Lemma inv_set : forall s l H' i nv nd, Inv s l -> nullok H' ->
  (forall o w, In o (others i (vs s)) -> Vok (hp s) o w -> Vok H' o w) ->
  i < length l -> ovok H' nv nd -> Inv (St H' (upd (vs s) i nv)) (sset l i nd).
Proof.
  intros s l H' i nv nd I N K L V. assert (Le := inv_len I). destruct I as [_ F]. split; [exact N|].
  cbn [hp vs]. rewrite sset_upd by exact L. apply F2_of_nth. intros j. rewrite !nth_upd.
  destruct (Nat.eqb_spec j i) as [Ej|Nj].
  - rewrite Le. destruct (Nat.ltb_spec i (length l)); [exact V|lia].
  - assert (X := F2_nth F j). destruct (nth_error (vs s) j) as [v|] eqn:E1, (nth_error l j) as [d|]; try contradiction; auto.
    destruct v as [v|], d as [d|]; try contradiction; auto. cbn in *. destruct v as [| |o]; cbn in *; auto.
    apply K; auto. apply in_others. eauto.
Qed.
Lemma inv_heap : forall s l H', Inv s l -> nullok H' -> (forall o w, In o (roots (vs s)) -> Vok (hp s) o w -> Vok H' o w) ->
  Inv (St H' (vs s)) l.
Proof.
  intros s l H' [_ F] N K. split; [exact N|]. cbn [hp vs]. apply F2_of_nth. intros j.
  assert (X := F2_nth F j). destruct (nth_error (vs s) j) as [v|] eqn:E1, (nth_error l j) as [d|]; try contradiction; auto.
  destruct v as [v|], d as [d|]; try contradiction; auto. cbn in *. destruct v as [| |o]; cbn in *; auto.
  apply K; auto. apply in_roots. eauto.
Qed.
Lemma inv_keep : forall s l H', Inv s l -> Keep (hp s) H' -> Inv (St H' (vs s)) l.
Proof. intros s l H' I K. apply inv_heap; auto; [apply K, I|]. intros o w _. apply K. Qed.
Lemma inv_keep_set : forall s l H' i nv nd, Inv s l -> Keep (hp s) H' -> i < length l -> ovok H' nv nd ->
  Inv (St H' (upd (vs s) i nv)) (sset l i nd).
Proof. intros s l H' i nv nd I K L V. apply inv_set; auto; [apply K, I|]. intros o w _. apply K. Qed.
Lemma inv_same : forall s l H' i v d, Inv s l -> Keep (hp s) H' -> sget l i = Some d -> varok H' v d ->
  Inv (St H' (upd (vs s) i (Some v))) l.
Proof.
  intros s l H' i v d I K E V. destruct (sget_in E) as [N L].
  assert (X : Inv (St H' (upd (vs s) i (Some v))) (sset l i (Some d))) by (apply inv_keep_set; auto).
  rewrite sset_upd in X by exact L. rewrite (@upd_id _ l i (Some d) N) in X. exact X.
Qed.
Lemma inv_add : forall s l v d, Inv s l -> varok (hp s) v d -> Inv (addv s v) (l ++ [Some d]).
Proof.
  intros s l v d [N F] V. split; [exact N|]. cbn [addv vs hp]. apply Forall2_app; auto.
Qed.

(** After an operation on the node of variable [i]. *)
Lemma post_beside : forall H rts args o H' outs vals r w, Post H rts args o H' outs vals -> beside rts o r -> closed H rts ->
  Vok H r w -> Vok H' r w.
Proof. intros H rts args o H' outs vals r w P B C V. eapply Vok_agree; eauto. intros q R. eapply chg_beside; eauto. apply P. Qed.
Lemma inv_post : forall s l i o rts args H' o' v' outs vals, Inv s l -> nth_error (vs s) i = Some (Some (VPtr o)) ->
  closed (hp s) rts -> (forall r, In r (others i (vs s)) -> beside rts o r) ->
  Post (hp s) rts args o H' (o' :: outs) (v' :: vals) -> i < length l ->
  Inv (St H' (upd (vs s) i (Some (VPtr o')))) (sset l i (Some v')).
Proof.
  intros s l i o rts args H' o' v' outs vals I E C B P L. assert (F := po_val P). inversion F; subst.
  apply inv_set; auto.
  - eapply null_keep; [apply P|apply I].
  - intros r w J V. eapply post_beside; eauto.
Qed.
Lemma inv_pre : forall s l o d rs, Inv s l -> Vok (hp s) o d -> (forall r, In r rs -> exists w, Vok (hp s) r w) ->
  Pre (hp s) (o :: rs) o d.
Proof.
  intros s l o d rs I V A. split; auto.
  - exists o. split; [left; auto|apply r_refl].
  - apply closed_all. intros r [->|J]; eauto.
  - apply I.
Qed.
Lemma arg_ok : forall H o rs a, In a rs -> Argok H (o :: rs) o [a].
Proof.
  intros H o rs a I b [<-|[]]. split; [right; auto|]. intros S. apply (beside_far S), beside_cons; auto.
Qed.

Lemma fin_ok : forall hd hc w H v d, (forall x, hv x = Str_Api_Model.hv hd hc x) -> varok H v d ->
  let H1 := fst (fin hd hc w H v) in let o := snd (fin hd hc w H v) in
  Vok H1 o d /\ Keep H H1 /\
  match v with VPtr p => H1 = H /\ o = p
  | _ => exists k c, H1 = H ++ [(k, c)] /\ o = length H /\ (k = KConst d \/ k = KComn d) end.
Proof.
  intros hd hc w H v d Hv V. destruct v as [x|x|p]; cbn [varok cso_data] in V; subst; cbn [fin].
  - destruct w; cbn [mk fst snd].
    + split; [|split; [apply keep_ext|exists (KComn d), None; auto]].
      eapply Vok_intro; [apply ext_new|exact I|constructor|reflexivity].
    + split; [|split; [apply keep_ext|exists (KConst d), (Some (Str_Api_Model.hv hd hc d)); auto]].
      eapply Vok_intro; [apply ext_new|cbn; auto|constructor|reflexivity].
  - cbn [mk fst snd]. split; [|split; [apply keep_ext|exists (KComn [x]), None; auto]].
    eapply Vok_intro; [apply ext_new|exact I|constructor|reflexivity].
  - cbn [fst snd]. split; [exact V|split; [apply keep_refl|auto]].
Qed.
End Inv.
