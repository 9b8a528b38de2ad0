(** Rules for changing a node in place, allocating nodes, and running the
    methods with enough fuel. *)
From Verif Require Import Base Ref_Model Ref_Proofs List_Model Str_Model Str_Heap.
Local Open Scope res_scope.
Local Open Scope nat_scope.

(** ** Running with enough fuel *)
Definition Runs {A} (g : nat -> res A) (Q : A -> Prop) : Prop :=
  exists f0 r, (forall f, f0 <= f -> g f = Ok r) /\ Q r.
Lemma Runs_ret : forall A (r : A) (Q : A -> Prop), Q r -> Runs (fun _ => Ok r) Q.
Proof. intros. exists 0, r. auto. Qed.
Lemma Runs_S : forall A (g : nat -> res A) Q, Runs (fun f => g (S f)) Q -> Runs g Q.
Proof.
  intros A g Q (f0 & r & E & X). exists (S f0), r. split; auto.
  intros [|f] L; [lia|]. apply E. lia.
Qed.
Lemma Runs_bind : forall A B (g : nat -> res A) (k : nat -> A -> res B) Q R,
  Runs g Q -> (forall r, Q r -> Runs (fun f => k f r) R) -> Runs (fun f => rb (g f) (k f)) R.
Proof.
  intros A B g k Q R (f0 & r & E & X) K. destruct (K r X) as (f1 & s & E' & Y).
  exists (f0 + f1), s. split; auto. intros f L. rewrite E by lia. cbn. apply E'. lia.
Qed.
Lemma Runs_ext : forall A (g g' : nat -> res A) Q, (forall f, g f = g' f) -> Runs g Q -> Runs g' Q.
Proof. intros A g g' Q E (f0 & r & X & Y). exists f0, r. split; auto. intros. rewrite <- E; auto. Qed.
Lemma Runs_mono : forall A (g : nat -> res A) (Q R : A -> Prop), Runs g Q -> (forall r, Q r -> R r) -> Runs g R.
Proof. intros A g Q R (f0 & r & X & Y) I. exists f0, r. auto. Qed.
Lemma Runs_det : forall A (g : nat -> res A) Q R, Runs g Q -> Runs g R -> Runs g (fun r => Q r /\ R r).
Proof.
  intros A g Q R (f0 & r & E & X) (f1 & s & E' & Y). exists (f0 + f1), r.
  assert (r = s). { assert (Ok r = Ok s) by (rewrite <- (E (f0 + f1)), <- (E' (f0 + f1)); auto; lia). congruence. }
  subst. split; auto. intros. apply E. lia.
Qed.

Section Own.
Variable hv : list Z -> Z.
Notation Val := (Val hv).
Notation Vok := (Vok hv).
Notation Pre := (Pre hv).
Notation Post := (Post hv).
Notation nullok := (nullok hv).

Definition resolved (H : heap) (o : nat) : Prop :=
  forall k c, nth_error H o = Some (k, c) -> match k with KFwd _ => False | _ => True end.

Lemma kd_eq : forall H o k c, nth_error H o = Some (k, c) -> kd H o = Ok k.
Proof. intros H o k c E. unfold kd. rewrite E. auto. Qed.

Lemma deref_run : forall n H o v, Val n H o v ->
  Runs (fun f => deref f H o) (fun o1 => reach H o o1 /\ Val n H o1 v /\ resolved H o1).
Proof.
  induction n as [|n IH]; intros H o v V; [contradiction|].
  assert (V0 := V). destruct V as (k & c & ws & E & O & C & D). apply Runs_S. cbn [deref].
  rewrite (kd_eq E). cbn [rb].
  destruct k; try (apply Runs_ret; split; [apply r_refl|split; [exact V0|]]; intros k' c' E'; rewrite E in E'; inversion E'; exact I).
  cbn in C. inversion C as [|? w ? ? W C']; subst. inversion C'; subst. cbn in D. subst.
  destruct (IH _ _ _ W) as (f0 & r & X & (R & VR & RR)). exists f0, r. split; auto. split; [|split; auto].
  - eapply r_step; [|exact R]. exists (KFwd to), c. split; auto. left; auto.
  - eapply Val_mono; [exact VR|lia].
Qed.
Lemma ksize_val : forall k ws v, shape k ws v -> match k with KFwd _ => False | _ => True end -> ksize k = Ok (length v).
Proof.
  intros k ws v. destruct k; destruct ws as [|w [|u [|]]]; cbn; try tauto; intros X _; unfold sub_chk.
  - subst; auto.
  - subst; auto.
  - subst; auto.
  - destruct X as [L ->]. f_equal. rewrite firstn_length, skipn_length. lia.
  - destruct X as (-> & _ & ->). rewrite app_length. reflexivity.
  - destruct X as (-> & _ & ->). rewrite app_length. f_equal. lia.
  - destruct X as (-> & -> & ->). rewrite app_length. reflexivity.
  - destruct X as (-> & L & ->). rewrite app_length, firstn_length, skipn_length.
    replace (Nat.leb n (length w)) with true by lia. f_equal. lia.
  - destruct X as (-> & -> & L & ->). rewrite !app_length, firstn_length, skipn_length. f_equal. lia.
  - subst. rewrite repeat_length. auto.
Qed.
Lemma size_run : forall H o v, Vok H o v -> Runs (fun f => size f H o) (fun n => n = length v).
Proof.
  intros H o v [n V]. unfold size. eapply Runs_bind; [apply deref_run; eauto|].
  intros r (R & W & X). cbn beta. destruct n as [|n]; [contradiction|]. destruct W as (k & c & ws & E & O & C & D).
  specialize (X k c E). rewrite (kd_eq E). cbn [rb]. exists 0, (length v). split; [|auto].
  intros. eapply ksize_val; eauto.
Qed.

(** ** Cells *)
Lemma put_at : forall H o k, o < length H -> nth_error (put H o k) o = Some (k, None).
Proof. intros. unfold put. rewrite nth_upd, Nat.eqb_refl. replace (Nat.ltb o (length H)) with true by lia. auto. Qed.
Lemma put_other : forall H o k q, q <> o -> nth_error (put H o k) q = nth_error H q.
Proof. intros. unfold put. rewrite nth_upd. replace (Nat.eqb q o) with false by lia. auto. Qed.
Lemma put_len : forall H o k, length (put H o k) = length H.
Proof. intros. apply upd_length. Qed.
Lemma put_keep_at : forall H o k k0 c, nth_error H o = Some (k0, c) -> nth_error (put_keep H o k) o = Some (k, c).
Proof.
  intros H o k k0 c E. assert (o < length H) by (apply nth_error_Some; congruence).
  unfold put_keep. rewrite nth_upd, Nat.eqb_refl, E. replace (Nat.ltb o (length H)) with true by lia. auto.
Qed.
Lemma put_keep_other : forall H o k q, q <> o -> nth_error (put_keep H o k) q = nth_error H q.
Proof. intros. unfold put_keep. rewrite nth_upd. replace (Nat.eqb q o) with false by lia. auto. Qed.
Lemma put_keep_len : forall H o k, length (put_keep H o k) = length H.
Proof. intros. apply upd_length. Qed.
Lemma ext_old : forall (H : heap) l q, q < length H -> nth_error (H ++ l) q = nth_error H q.
Proof. intros. apply nth_error_app1. auto. Qed.
Lemma ext_new : forall (H : heap) x, nth_error (H ++ [x]) (length H) = Some x.
Proof. intros. rewrite nth_error_app2 by lia. rewrite Nat.sub_diag. auto. Qed.
Lemma Vok_ext : forall H l o v, Vok H o v -> Vok (H ++ l) o v.
Proof. intros H l o v V. eapply Vok_agree; eauto. intros q R. apply ext_old. eapply Vok_reach_lt; eauto. Qed.
Lemma reach_ext : forall H l o v q, Vok H o v -> reach (H ++ l) o q -> reach H o q.
Proof. intros H l o v q V. apply reach_agree2. intros x R. apply ext_old. eapply Vok_reach_lt; eauto. Qed.

(** ** New references *)
Lemma newr_self : forall H args o, newr H args o H o.
Proof. intros H args o q L N R. auto. Qed.
Lemma newr_below : forall H args o c, reach H o c -> newr H args o H c.
Proof. intros H args o c E q L N R. left. eapply reach_trans; eauto. Qed.
Lemma newr_arg : forall H args o a, In a args -> newr H args o H a.
Proof. intros H args o a I q L N R. right. exists a. auto. Qed.
Lemma newr_null : forall H args o H', nullok H' -> newr H args o H' 0.
Proof. intros H args o H' Z q L N R. exfalso. apply N. eapply null_reach; eauto. Qed.
Lemma newr_ext : forall H args o H' c v l, Vok H' c v -> newr H args o H' c -> newr H args o (H' ++ l) c.
Proof. intros H args o H' c v l V N q L X R. eapply N; eauto. eapply reach_ext; eauto. Qed.
Lemma newr_mono : forall H args args' o H' c, incl args args' -> newr H args o H' c -> newr H args' o H' c.
Proof. intros H args args' o H' c I N q L X R. destruct (N q L X R) as [|(a & Ia & Ra)]; eauto. Qed.

Lemma Forall2_impl2 : forall A B (P Q : A -> B -> Prop) l l', (forall a b, In a l -> P a b -> Q a b) -> Forall2 P l l' -> Forall2 Q l l'.
Proof.
  intros A B P Q l l' I F. induction F; constructor.
  - apply I; auto. left; auto.
  - apply IHF. intros. apply I; auto. right; auto.
Qed.
Lemma Forall2_in : forall A B (P : A -> B -> Prop) l l' a, Forall2 P l l' -> In a l -> exists b, P a b.
Proof. intros A B P l l' a F. induction F; cbn; [tauto|]. intros [<-|I]; eauto. Qed.

Lemma F2_length : forall A B (P : A -> B -> Prop) l l', Forall2 P l l' -> length l = length l'.
Proof. induction 1; cbn; auto. Qed.

(** A new node. *)
Lemma alloc_post : forall H roots args o H1 k ws v outs vals,
  length H <= length H1 -> chg H roots o H1 ->
  Forall2 (Vok H1) (children k) ws -> shape k ws v -> Forall (newr H args o H1) (children k) ->
  Forall2 (Vok H1) outs vals -> Forall (newr H args o H1) outs ->
  Post H roots args o (H1 ++ [(k, None)]) (length H1 :: outs) (v :: vals).
Proof.
  intros H roots args o H1 k ws v outs vals L C F S N Fo No. constructor.
  - rewrite app_length. lia.
  - intros q Lq. rewrite ext_old by lia. apply C. auto.
  - constructor.
    + eapply Vok_intro; [apply ext_new|exact I| |exact S].
      revert F. apply Forall2_impl2. intros. apply Vok_ext; auto.
    + revert Fo. apply Forall2_impl2. intros. apply Vok_ext; auto.
  - constructor.
    + intros q Lq Nq R. inversion R as [|? c ? (k' & h' & E & I) Rc]; subst; [lia|].
      rewrite ext_new in E. inversion E; subst.
      destruct (Forall2_in F I) as [w W]. rewrite Forall_forall in N. eapply (N c I); eauto. eapply reach_ext; eauto.
    + rewrite Forall_forall in *. intros c I. destruct (Forall2_in Fo I) as [w W]. eapply newr_ext; eauto.
Qed.
Lemma id_post : forall H roots args o outs vals, Forall2 (Vok H) outs vals -> Forall (newr H args o H) outs ->
  Post H roots args o H outs vals.
Proof. intros. constructor; auto. apply chg_refl. Qed.

(** A changed node. *)
Lemma put_post : forall H roots args o H1 k ws v outs vals,
  single H roots o -> o <> 0 -> o < length H -> length H <= length H1 -> chg H roots o H1 ->
  Forall2 (Vok H1) (children k) ws -> shape k ws v ->
  Forall (fun c => ~ reach H1 c o) (children k) -> Forall (newr H args o H1) (children k) ->
  Forall2 (Vok H1) outs vals -> Forall (fun c => ~ reach H1 c o) outs -> Forall (newr H args o H1) outs ->
  Post H roots args o (put H1 o k) (o :: outs) (v :: vals).
Proof.
  intros H roots args o H1 k ws v outs vals Sg O0 Lo L C F S A N Fo Ao No.
  assert (Ag : forall c, ~ reach H1 c o -> forall q, reach H1 c q -> nth_error (put H1 o k) q = nth_error H1 q).
  { intros c X q R. apply put_other. intros ->. auto. }
  rewrite Forall_forall in A, N, Ao, No.
  constructor.
  - rewrite put_len. auto.
  - intros q Lq. destruct (Nat.eq_dec q o) as [->|X].
    + right. split; auto. apply single_priv; auto.
    + rewrite put_other by auto. apply C; auto.
  - constructor.
    + eapply Vok_intro; [apply put_at; lia|exact I| |exact S].
      revert F. apply Forall2_impl2. intros c w I V. eapply Vok_agree; [exact V|]. apply Ag. auto.
    + revert Fo. apply Forall2_impl2. intros c w I V. eapply Vok_agree; [exact V|]. apply Ag. auto.
  - constructor.
    + intros q Lq Nq R. inversion R as [|? c ? (k' & h' & E & I) Rc]; subst; [left; apply r_refl|].
      rewrite put_at in E by lia. inversion E; subst. eapply (N c I); eauto.
      eapply reach_agree2; [|exact Rc]. apply Ag. auto.
    + rewrite Forall_forall. intros c I q Lq Nq R. eapply (No c I); eauto.
      eapply reach_agree2; [|exact R]. apply Ag. auto.
Qed.

(** ** The context of a child *)
Definition Argok (H : heap) (roots : list nat) (o : nat) (args : list nat) : Prop :=
  forall a, In a args -> In a roots /\ (single H roots o -> ~ reach H a o).
Lemma Argok_nil : forall H roots o, Argok H roots o [].
Proof. intros H roots o a []. Qed.

Lemma rav_split : forall H x y a q, rav H x a q -> rav H y a q \/ rav H x a y.
Proof.
  induction 1 as [r N|r c q N E R IH].
  - destruct (Nat.eq_dec r y) as [->|N']; [right; apply ra_refl; auto|left; apply ra_refl; auto].
  - destruct (Nat.eq_dec r y) as [->|N']; [right; apply ra_refl; auto|].
    destruct IH; [left|right]; eapply ra_step; eauto.
Qed.
(** The only live way to a child with one handle is through its parent. *)
Lemma child_way : forall H roots o c a, live H roots o -> edge H o c -> single H roots c ->
  live H roots a -> reach H a c -> (a = c /\ ~ In a roots) \/ reach H a o.
Proof.
  intros H roots o c a Lo E S La R. destruct (reach_last R) as [->|(p & Rp & Ep)].
  - left. split; auto. intros I. exact (sg_mix S I Lo E).
  - right. assert (p = o); [|subst; auto]. eapply (sg_one S); eauto. eapply live_reach; eauto.
Qed.
Lemma child_chg : forall H roots o c H1, live H roots o -> edge H o c -> single H roots o ->
  chg H roots c H1 -> chg H roots o H1.
Proof.
  intros H roots o c H1 Lo E So C q Lq. destruct (C q Lq) as [|[N P]]; [auto|]. right. split; auto.
  constructor; auto.
  - eapply r_step; eauto. apply P.
  - intros r I R. destruct (rav_split c R) as [X|X].
    + eapply (pv_av P); eauto.
    + destruct (rav_last X) as [->|(p & Rp & Ep)].
      * exact (sg_mix (pv_single P) I Lo E).
      * assert (p = o).
        { eapply (sg_one (pv_single P)); eauto. exists r. split; auto. eapply rav_reach; eauto. }
        subst. destruct (rav_ends Rp). congruence.
Qed.
Lemma child_arg : forall H roots o c args, live H roots o -> edge H o c -> single H roots o ->
  Argok H roots o args -> Argok H roots c args.
Proof.
  intros H roots o c args Lo E So A a I. destruct (A a I) as [Ir Na]. split; auto.
  intros Sc R. assert (La : live H roots a) by (exists a; split; auto; apply r_refl).
  destruct (child_way Lo E Sc La R) as [[-> X]|X]; auto. apply Na; auto.
Qed.
Lemma arg_same : forall H roots o c H1 args a, live H roots o -> edge H o c -> single H roots o ->
  Argok H roots o args -> chg H roots c H1 -> closed H roots -> In a args ->
  forall q, reach H a q -> nth_error H1 q = nth_error H q.
Proof.
  intros H roots o c H1 args a Lo E So A C K I q R. destruct (A a I) as [Ir Na].
  assert (La : live H roots a) by (exists a; split; auto; apply r_refl).
  destruct (C q) as [|[N P]]; auto.
  - apply K. eapply live_reach; eauto.
  - exfalso. destruct (reach_split c R) as [X|[X _]]; [eapply (pv_av P); eauto|].
    destruct (child_way Lo E (pv_single P) La X) as [[-> Y]|Y]; auto. apply Na; auto.
Qed.
Lemma sib_same : forall H roots o k h l1 c l2 v H1 s, live H roots o -> nth_error H o = Some (k, h) ->
  children k = l1 ++ c :: l2 -> In s (l1 ++ l2) -> Vok H o v -> chg H roots c H1 -> closed H roots ->
  forall q, reach H s q -> nth_error H1 q = nth_error H q.
Proof.
  intros H roots o k h l1 c l2 v H1 s Lo Eo El Is V C K q R.
  assert (Ec : edge H o c).
  { exists k, h. split; auto. rewrite El. apply in_or_app. right; left; auto. }
  assert (Es : edge H o s).
  { exists k, h. split; auto. rewrite El. apply in_app_or in Is. apply in_or_app. destruct Is; auto. right; right; auto. }
  destruct (C q) as [|[N P]]; auto.
  { apply K. eapply live_reach; [|exact R]. eapply live_edge; eauto. }
  exfalso. destruct Lo as (r & Ir & Rr). eapply (pv_av P); [exact Ir|].
  assert (Lo : live H roots o) by (exists r; auto).
  assert (Ls : live H roots s) by (eapply live_edge; eauto).
  assert (X : rav H c r o).
  { destruct (reach_split c Rr) as [|[_ Y]]; auto. exfalso. exact (acyc_self V Ec Y). }
  eapply rav_trans; [exact X|]. eapply ra_step; [apply (rav_ends X)|exact Es|].
  destruct (reach_split c R) as [|[Y _]]; auto. exfalso.
  destruct (reach_last Y) as [->|(p & Rp & Ep)].
  - assert (count_occ Nat.eq_dec (children k) c <= 1) by exact (sg_cnt (pv_single P) Lo Eo).
    rewrite El, count_occ_app in H0. cbn [count_occ] in H0. destruct (Nat.eq_dec c c); [|congruence].
    rewrite (count_occ_In Nat.eq_dec) in Is. rewrite count_occ_app in Is. lia.
  - assert (p = o) by exact (sg_one (pv_single P) (live_reach Ls Rp) Lo Ep Ec).
    subst. eapply acyc_self; [exact V|exact Es|exact Rp].
Qed.
Lemma child_pre : forall H roots o v c w, Pre H roots o v -> edge H o c -> Vok H c w -> Pre H roots c w.
Proof. intros H roots o v c w P E V. constructor; auto; try apply P. eapply live_edge; eauto. apply P. Qed.

Lemma child_out : forall H roots args o v c H1 c', Pre H roots o v -> single H roots o -> Argok H roots o args ->
  edge H o c -> o <> 0 -> newr H args c H1 c' -> ~ reach H1 c' o /\ newr H args o H1 c'.
Proof.
  intros H roots args o v c H1 c' P S A E O0 N. split.
  - intros R. destruct (N o) as [X|(a & I & X)]; auto.
    + eapply Vok_lt. apply P.
    + eapply acyc_self; eauto. apply P.
    + destruct (A a I) as [_ Y]. apply Y; auto.
  - intros q Lq Nq R. destruct (N q Lq Nq R) as [X|]; auto. left. eapply r_step; eauto.
Qed.

(** A child is changed, then the node. *)
Lemma step_in : forall H roots args o v k h l1 c l2 ws1 w ws2 H1 c' w' k' v' outs vals,
  Pre H roots o v -> single H roots o -> Argok H roots o args -> o <> 0 ->
  nth_error H o = Some (k, h) -> children k = l1 ++ c :: l2 ->
  length l1 = length ws1 -> Forall2 (Vok H) (children k) (ws1 ++ w :: ws2) ->
  Post H roots args c H1 (c' :: outs) (w' :: vals) ->
  children k' = l1 ++ c' :: l2 -> shape k' (ws1 ++ w' :: ws2) v' ->
  Post H roots args o (put H1 o k') (o :: outs) (v' :: vals).
Proof.
  intros H roots args o v k h l1 c l2 ws1 w ws2 H1 c' w' k' v' outs vals P S A O0 Eo El Ll F Pc El' Sh.
  assert (Ec : edge H o c).
  { exists k, h. split; auto. rewrite El. apply in_or_app. right; left; auto. }
  assert (Vo := pre_val P). assert (Lo := pre_live P). assert (K := pre_closed P).
  destruct Pc as [Le Cc Vc Nc]. inversion Vc as [|? ? ? ? Vc' Vouts]; subst. inversion Nc as [|? ? Nc' Nouts]; subst.
  assert (SS : forall s, In s (l1 ++ l2) -> (forall q, reach H s q -> nth_error H1 q = nth_error H q) /\ edge H o s).
  { intros s Is. split.
    - intros q R. eapply sib_same; eauto.
    - exists k, h. split; auto. rewrite El. apply in_app_or in Is. apply in_or_app. destruct Is; auto. right; right; auto. }
  assert (SG : forall s, In s (l1 ++ l2) -> ~ reach H1 s o /\ newr H args o H1 s).
  { intros s Is. destruct (SS s Is) as [X Y]. split.
    - intros R. eapply acyc_self; [exact Vo|exact Y|]. eapply reach_agree2; eauto.
    - intros q Lq Nq R. left. eapply r_step; [exact Y|]. eapply reach_agree2; eauto. }
  destruct (child_out P S A Ec O0 Nc') as [Rc Nc''].
  assert (F1 : Forall2 (Vok H1) (children k') (ws1 ++ w' :: ws2)).
  { rewrite El'. rewrite El in F. apply Forall2_app_inv_l in F. destruct F as (a & b & Fa & Fb & Eab).
    assert (La : length a = length ws1) by (apply F2_length in Fa; lia).
    assert (a = ws1 /\ b = w :: ws2).
    { clear - Eab La. revert ws1 La Eab. induction a as [|x a IH]; intros [|y ws1] La Eab; cbn in *; try lia.
      - auto.
      - inversion Eab. destruct (IH ws1) as [-> ->]; auto. }
    destruct H0 as [-> ->]. inversion Fb; subst.
    apply Forall2_app; [|constructor; auto].
    - revert Fa. apply Forall2_impl2. intros s u Is V. eapply Vok_agree; [exact V|]. apply SS. apply in_or_app; auto.
    - revert H6. apply Forall2_impl2. intros s u Is V. eapply Vok_agree; [exact V|]. apply SS. apply in_or_app; auto. }
  assert (Ch : forall s, In s (children k') -> ~ reach H1 s o /\ newr H args o H1 s).
  { intros s Is. rewrite El' in Is. apply in_app_or in Is. destruct Is as [Is|[<-|Is]]; [|auto|].
    - apply SG. apply in_or_app; auto.
    - apply SG. apply in_or_app; auto. }
  assert (LO : o < length H) by (eapply Vok_lt; eauto).
  assert (CO : chg H roots o H1) by (eapply child_chg; eauto).
  apply (put_post S O0 LO Le CO F1 Sh).
  - rewrite Forall_forall. intros s Is. apply Ch; auto.
  - rewrite Forall_forall. intros s Is. apply Ch; auto.
  - auto.
  - rewrite Forall_forall in *. intros s Is. eapply child_out; eauto.
  - rewrite Forall_forall in *. intros s Is. eapply child_out; eauto.
Qed.
(** The node is changed, its children stay or become null. *)
Lemma step_here : forall H roots args o v k h ws k' ws' v',
  Pre H roots o v -> single H roots o -> o <> 0 ->
  nth_error H o = Some (k, h) -> Forall2 (Vok H) (children k) ws ->
  (forall c, In c (children k') -> In c (children k) \/ c = 0) ->
  Forall2 (Vok H) (children k') ws' -> shape k' ws' v' ->
  Post H roots args o (put H o k') [o] [v'].
Proof.
  intros H roots args o v k h ws k' ws' v' P S O0 Eo F I F' Sh.
  assert (Vo := pre_val P).
  assert (Ch : forall s, In s (children k') -> ~ reach H s o /\ newr H args o H s).
  { intros s Is. destruct (I s Is) as [X| ->].
    - assert (edge H o s) by (exists k, h; auto). split; [eapply acyc_self; eauto|apply newr_below; apply reach_edge; auto].
    - split; [|apply newr_null; apply P]. intros R. apply O0. eapply null_reach; eauto. apply P. }
  assert (LO : o < length H) by (eapply Vok_lt; eauto).
  apply (put_post S O0 LO (le_n _) (@chg_refl H roots o) F' Sh); auto.
  - rewrite Forall_forall. intros s Is. apply Ch; auto.
  - rewrite Forall_forall. intros s Is. apply Ch; auto.
Qed.

(** ** Composition *)
Lemma post_trans : forall H roots args o v H1 v1 H2 outs vals,
  Pre H roots o v -> single H roots o -> Argok H roots o args ->
  Post H roots args o H1 [o] [v1] -> Post H1 roots args o H2 outs vals ->
  Post H roots args o H2 outs vals.
Proof.
  intros H roots args o v H1 v1 H2 outs vals P S A P1 P2.
  destruct P1 as [L1 C1 V1 N1]. destruct P2 as [L2 C2 V2 N2].
  inversion V1 as [|? ? ? ? Vo _]; subst. inversion N1 as [|? ? No _]; subst.
  assert (K := pre_closed P).
  assert (A' : forall a, In a args -> In a roots /\ ~ reach H a o).
  { intros a I. destruct (A a I). auto. }
  constructor; auto; [lia| |].
  - eapply chg_trans; eauto.
  - rewrite Forall_forall in *. intros c Ic q Lq Nq R.
    destruct (N2 c Ic q) as [X|(a & Ia & Ra)]; auto; [lia|].
    right. exists a. split; auto. destruct (A' a Ia) as [Ir Na].
    assert (Rk : forall q, rav H1 o a q -> rav H o a q) by (intros; apply (rav_keep q0 C1 K Ir); auto).
    destruct (reach_split o Ra) as [X|[X _]]; [eapply rav_reach; eauto|].
    exfalso. (* a reaches o in H1 *)
    clear Ra. destruct (reach_last X) as [->|(p & Rp & Ep)].
    + apply Na. apply r_refl.
    + assert (Y : exists p', rav H1 o a p' /\ edge H1 p' o).
      { clear - X Na. assert (a <> o) by (intros ->; apply Na; apply r_refl).
        clear Na. remember o as x eqn:Ex in X. induction X as [|a c q E R IH]; subst; [congruence|].
        destruct (Nat.eq_dec c o) as [->|Nc].
        - exists a. split; auto. apply ra_refl; auto.
        - destruct IH as (p' & Rp' & Ep'); auto. exists p'. split; auto. eapply ra_step; eauto. }
      destruct Y as (p' & Rp' & Ep'). assert (Z := Rk _ Rp').
      apply Na. eapply reach_snoc; [eapply rav_reach; exact Z|].
      eapply edge_agree; [|exact Ep']. symmetry. eapply chg_rav; eauto.
Qed.
Lemma post_pre : forall H roots args o v H1 v1 outs vals, Pre H roots o v -> Post H roots args o H1 (o :: outs) (v1 :: vals) ->
  Pre H1 roots o v1.
Proof.
  intros H roots args o v H1 v1 outs vals P [L C V N]. inversion V; subst. eapply pre_keep; eauto.
Qed.
Lemma post_single : forall H roots args o v H1 v1 outs vals, Pre H roots o v -> single H roots o ->
  Post H roots args o H1 (o :: outs) (v1 :: vals) -> single H1 roots o.
Proof.
  intros H roots args o v H1 v1 outs vals P S [L C V N]. inversion V; subst. eapply single_keep; eauto. apply P.
Qed.
Lemma post_arg : forall H roots args o v H1 v1 outs vals, Pre H roots o v -> single H roots o -> Argok H roots o args ->
  Post H roots args o H1 (o :: outs) (v1 :: vals) -> Argok H1 roots o args.
Proof.
  intros H roots args o v H1 v1 outs vals P S A [L C V N] a I. destruct (A a I) as [Ir Na]. split; auto.
  intros _ X. specialize (Na S).
  assert (Y : exists p', rav H1 o a p' /\ edge H1 p' o).
  { clear - X Na. assert (a <> o) by (intros ->; apply Na; apply r_refl).
    clear Na. remember o as x eqn:Ex in X. induction X as [|a c q E R IH]; subst; [congruence|].
    destruct (Nat.eq_dec c o) as [->|Nc].
    - exists a. split; auto. apply ra_refl; auto.
    - destruct IH as (p' & Rp' & Ep'); auto. exists p'. split; auto. eapply ra_step; eauto. }
  destruct Y as (p' & Rp' & Ep'). assert (Z := Rp'). rewrite (rav_keep p' C (pre_closed P) Ir) in Z.
  apply Na. eapply reach_snoc; [eapply rav_reach; exact Z|].
  eapply edge_agree; [|exact Ep']. symmetry. eapply chg_rav; eauto. apply P.
Qed.

(** ** Redirecting the handles of a node *)
Lemma with_children_ok : forall k l, length l = length (children k) -> children (with_children k l) = l.
Proof. intros k l L. destruct k; destruct l as [|l0 [|l1 [|]]]; cbn in *; auto; try lia. Qed.
Lemma with_children_shape : forall k l ws v, length l = length (children k) ->
  (shape (with_children k l) ws v <-> shape k ws v).
Proof. intros k l ws v L. destruct k; destruct l as [|l0 [|l1 [|]]]; cbn in *; try lia; tauto. Qed.
Definition sameK (k k0 : kind) : Prop := exists l, length l = length (children k) /\ k0 = with_children k l.

Lemma derefs_run : forall n H l ws, Forall2 (Val n H) l ws ->
  Runs (fun f => derefs f H l) (fun l' => Forall2 (Val n H) l' ws /\ Forall2 (reach H) l l' /\ Forall (resolved H) l').
Proof.
  intros n H l ws F. induction F as [|c w l ws V F IH].
  - apply Runs_ret. repeat split; constructor.
  - cbn [derefs]. eapply Runs_bind; [apply deref_run; exact V|]. intros c' (R & V' & X). cbn beta.
    eapply Runs_bind; [apply IH|]. intros l' (F' & R' & X'). apply Runs_ret. repeat split; constructor; auto.
Qed.
Lemma settle_run : forall n H roots o v k h, Val (S n) H o v -> Pre H roots o v -> single H roots o ->
  nth_error H o = Some (k, h) ->
  Runs (fun f => settle f H o) (fun r => let '(H0, k0) := r in
    sameK k k0 /\ length H0 = length H /\ (forall q, q <> o -> nth_error H0 q = nth_error H q) /\
    nth_error H0 o = Some (k0, h) /\ Val (S n) H0 o v /\
    (exists ws, Forall2 (Val n H0) (children k0) ws /\ shape k0 ws v) /\
    Forall (resolved H0) (children k0) /\
    Post H roots [] o H0 [o] [v] /\ Pre H0 roots o v /\ single H0 roots o).
Proof.
  intros n H roots o v k h V P S E. assert (V0 := V).
  destruct V as (k1 & h1 & ws & E1 & O & F & Sh). rewrite E in E1. inversion E1; subst k1 h1. clear E1.
  unfold settle. rewrite (kd_eq E). cbn [rb].
  destruct (children k) as [|a l] eqn:Ek.
  - apply Runs_ret. inversion F; subst. split; [|split; [|split; [|split; [|split; [|split; [|split; [|split; [|split]]]]]]]]; auto.
    + exists []. rewrite Ek. split; auto. destruct k; auto.
    + exists []. rewrite Ek. auto.
    + rewrite Ek. constructor.
    + apply id_post; constructor; auto. { exists (Datatypes.S n). auto. } apply newr_self.
  - rewrite <- Ek in *.
    eapply Runs_bind; [apply derefs_run; exact F|]. intros l' (F' & R' & X'). apply Runs_ret.
    assert (Ll : length l' = length (children k)) by (apply F2_length in R'; lia).
    set (k0 := with_children k l'). assert (Ek0 : children k0 = l') by (apply with_children_ok; auto).
    assert (RR : forall c, In c l' -> reach H o c /\ ~ reach H c o).
    { intros c I. clear - I R' E V0.
      assert (X : exists a, In a (children k) /\ reach H a c).
      { revert I. induction R' as [|x y l l2 Rxy R' IH]; intros I; [contradiction|]. destruct I as [->|I].
        - exists x. split; [left|]; auto.
        - destruct IH as (a & Ia & Ra); auto. exists a. split; [right|]; auto. }
      destruct X as (a & Ia & Ra). assert (edge H o a) by (exists k, h; auto).
      split; [eapply r_step; eauto|]. intros Y. eapply Val_acyc; eauto. eapply reach_trans; eauto. }
    assert (Oth : forall q, q <> o -> nth_error (put_keep H o k0) q = nth_error H q) by (intros; apply put_keep_other; auto).
    assert (At : nth_error (put_keep H o k0) o = Some (k0, h)) by (eapply put_keep_at; eauto).
    assert (Ag : forall c, In c l' -> forall q, reach H c q -> nth_error (put_keep H o k0) q = nth_error H q).
    { intros c I q R. apply Oth. intros ->. destruct (RR c I). auto. }
    assert (F0 : Forall2 (Val n (put_keep H o k0)) (children k0) ws).
    { rewrite Ek0. revert F'. apply Forall2_impl2. intros c w I Vc. eapply Val_agree; [exact Vc|]. apply Ag; auto. }
    assert (Sh0 : shape k0 ws v) by (apply with_children_shape; auto).
    assert (V1 : Val (Datatypes.S n) (put_keep H o k0) o v).
    { exists k0, h, ws. auto. }
    assert (O0 : o <> 0).
    { intros ->. destruct (pre_null P) as (c0 & E0 & _). rewrite E in E0. injection E0 as Y1 Y2. rewrite Y1 in Ek. discriminate. }
    assert (Po : Post H roots [] o (put_keep H o k0) [o] [v]).
    { constructor.
      - rewrite put_keep_len. auto.
      - intros q Lq. destruct (Nat.eq_dec q o) as [->|]; [right; split; auto; apply single_priv; auto|left; auto].
      - constructor; [|constructor]. exists (Datatypes.S n). exact V1.
      - constructor; [|constructor]. intros q Lq Nq R. left.
        inversion R as [? Z1 Z2|? c ? (k' & h' & E' & I) Rc Z1 Z2]; [apply r_refl|].
        rewrite At in E'. injection E' as Y1 Y2. rewrite <- Y1, Ek0 in I.
        eapply reach_trans; [apply RR; exact I|]. eapply reach_agree2; [|exact Rc]. apply Ag; auto. }
    split; [|split; [|split; [|split; [|split; [|split; [|split; [|split; [|split]]]]]]]]; auto.
    + exists l'. auto.
    + apply put_keep_len.
    + exists ws. auto.
    + rewrite Ek0. rewrite Forall_forall in *. intros c I k2 c2 E2. eapply (X' c I k2 c2). rewrite <- E2.
      symmetry. apply Oth. intros ->. destruct (RR o I) as [_ Y]. apply Y. apply r_refl.
    + eapply post_pre; eauto.
    + eapply post_single; eauto.
Qed.
End Own.
