(** Proof vocabulary for the string nodes: reachability, the value of a node,
    ownership, and the rules for changing a node in place. *)
From Verif Require Import Base Ref_Model Ref_Proofs List_Model Str_Model.
Local Open Scope nat_scope.

(** ** Reachability *)
Definition edge (H : heap) (o c : nat) : Prop :=
  exists k h, nth_error H o = Some (k, h) /\ In c (children k).
Inductive reach (H : heap) : nat -> nat -> Prop :=
| r_refl : forall o, reach H o o
| r_step : forall o c q, edge H o c -> reach H c q -> reach H o q.
(** Reached along a path that avoids [x]. *)
Inductive rav (H : heap) (x : nat) : nat -> nat -> Prop :=
| ra_refl : forall r, r <> x -> rav H x r r
| ra_step : forall r c q, r <> x -> edge H r c -> rav H x c q -> rav H x r q.

Lemma reach_trans : forall H a b c, reach H a b -> reach H b c -> reach H a c.
Proof. induction 1; eauto using r_step. Qed.
Lemma reach_edge : forall H a b, edge H a b -> reach H a b.
Proof. intros. eapply r_step; [eassumption|apply r_refl]. Qed.
Lemma reach_snoc : forall H a b c, reach H a b -> edge H b c -> reach H a c.
Proof. intros. eapply reach_trans; eauto using reach_edge. Qed.
Lemma reach_last : forall H a q, reach H a q -> a = q \/ exists p, reach H a p /\ edge H p q.
Proof.
  induction 1 as [|o c q E R IH]; [auto|]. right.
  destruct IH as [->|(p & Rp & Ep)]; [exists o; auto using r_refl|].
  exists p. split; auto. eapply r_step; eauto.
Qed.
Lemma rav_reach : forall H x a b, rav H x a b -> reach H a b.
Proof. induction 1; eauto using r_refl, r_step. Qed.
Lemma rav_ends : forall H x a b, rav H x a b -> a <> x /\ b <> x.
Proof. induction 1; intuition. Qed.
Lemma rav_snoc : forall H x a b c, rav H x a b -> edge H b c -> c <> x -> rav H x a c.
Proof.
  induction 1; intros E N.
  - eapply ra_step; eauto. apply ra_refl; auto.
  - eapply ra_step; eauto.
Qed.
Lemma rav_trans : forall H x a b c, rav H x a b -> rav H x b c -> rav H x a c.
Proof. induction 1; intros; auto. eapply ra_step; eauto. Qed.
Lemma reach_split : forall H x a q, reach H a q -> rav H x a q \/ (reach H a x /\ reach H x q).
Proof.
  induction 1 as [o|o c q E R IH].
  - destruct (Nat.eq_dec o x) as [->|N]; [right; split; apply r_refl|left; apply ra_refl; auto].
  - destruct (Nat.eq_dec o x) as [->|N].
    + right. split; [apply r_refl|]. eapply r_step; eauto.
    + destruct IH as [IH|[A B]]; [left; eapply ra_step; eauto|right; split; auto; eapply r_step; eauto].
Qed.
Lemma rav_last : forall H x a q, rav H x a q -> a = q \/ exists p, rav H x a p /\ edge H p q.
Proof.
  induction 1 as [|o c q N E R IH]; [auto|]. right.
  destruct IH as [->|(p & Rp & Ep)]; [exists o; auto using ra_refl|].
  exists p. split; auto. eapply ra_step; eauto.
Qed.

(** Two heaps that agree on what is reached. *)
Lemma edge_agree : forall H H' o c, nth_error H' o = nth_error H o -> edge H o c -> edge H' o c.
Proof. intros H H' o c E (k & h & A & B). exists k, h. rewrite E. auto. Qed.
Lemma reach_agree1 : forall H H' o q, (forall q, reach H o q -> nth_error H' q = nth_error H q) ->
  reach H o q -> reach H' o q.
Proof.
  intros H H' o q A R. induction R as [|o c q E R IH]; [apply r_refl|].
  eapply r_step.
  - eapply edge_agree; [|exact E]. apply A, r_refl.
  - apply IH. intros. apply A. eapply r_step; eauto.
Qed.
Lemma reach_agree2 : forall H H' o q, (forall q, reach H o q -> nth_error H' q = nth_error H q) ->
  reach H' o q -> reach H o q.
Proof.
  intros H H' o q A R. induction R as [|o c q E R IH]; [apply r_refl|].
  assert (E' : edge H o c).
  { eapply edge_agree; [|exact E]. symmetry. apply A, r_refl. }
  eapply r_step; [exact E'|]. apply IH. intros. apply A. eapply r_step; eauto.
Qed.
Lemma rav_agree : forall H H' x a q, (forall q, rav H x a q -> nth_error H' q = nth_error H q) ->
  rav H x a q -> rav H' x a q.
Proof.
  intros H H' x a q A R. induction R as [o N|o c q N E R IH]; [apply ra_refl; auto|].
  eapply ra_step; auto.
  - eapply edge_agree; [|exact E]. apply A, ra_refl; auto.
  - apply IH. intros. apply A. eapply ra_step; eauto.
Qed.
Lemma rav_agree2 : forall H H' x a q, (forall q, rav H x a q -> nth_error H' q = nth_error H q) ->
  rav H' x a q -> rav H x a q.
Proof.
  intros H H' x a q A R. induction R as [o N|o c q N E R IH]; [apply ra_refl; auto|].
  assert (E' : edge H o c).
  { eapply edge_agree; [|exact E]. symmetry. apply A, ra_refl; auto. }
  eapply ra_step; eauto. apply IH. intros. apply A. eapply ra_step; eauto.
Qed.

(** ** The value of a node *)
Section Value.
Variable hv : list Z -> Z.
Definition cok (c : option Z) (v : list Z) : Prop := match c with Some h => h = hv v | None => True end.
(** The characters of a node, from those of the nodes it refers to. *)
Definition shape (k : kind) (ws : list (list Z)) (v : list Z) : Prop :=
  match k, ws with
  | KNull, [] => v = []
  | KConst d, [] => v = d
  | KComn d, [] => v = d
  | KSame n c, [] => v = repeat c n
  | KSub _ b n, [w] => b + n <= length w /\ v = firstn n (skipn b w)
  | KHead _ tn d cap, [w] => tn = length w /\ length d <= cap /\ v = d ++ w
  | KEnd _ tn d cap, [w] => tn = length w /\ length d <= cap /\ v = w ++ d
  | KSum _ _ xn yn, [w; u] => xn = length w /\ yn = length u /\ v = w ++ u
  | KErase _ tn p n, [w] => tn = length w /\ p + n <= tn /\ v = firstn p w ++ skipn (p + n) w
  | KIns _ _ tn p n, [w; u] => tn = length w /\ n = length u /\ p <= tn /\ v = firstn p w ++ u ++ skipn p w
  | KFwd _, [w] => v = w
  | _, _ => False
  end.
Fixpoint Val (n : nat) (H : heap) (o : nat) (v : list Z) : Prop :=
  match n with
  | O => False
  | S m => exists k c ws, nth_error H o = Some (k, c) /\ cok c v /\
                          Forall2 (Val m H) (children k) ws /\ shape k ws v
  end.
Definition Vok (H : heap) (o : nat) (v : list Z) : Prop := exists n, Val n H o v.

Lemma Val_mono : forall n m H o v, Val n H o v -> n <= m -> Val m H o v.
Proof.
  induction n as [|n IH]; intros m H o v V L; [contradiction|].
  destruct m as [|m]; [lia|]. destruct V as (k & c & ws & A & B & C & D).
  exists k, c, ws. split; [auto|split; [auto|split; [|auto]]].
  assert (L' : n <= m) by lia. clear - IH C L'. induction C; constructor; eauto.
Qed.
Lemma Val_lt : forall n H o v, Val n H o v -> o < length H.
Proof. intros [|n] H o v V; [contradiction|]. destruct V as (k & c & ws & A & _). apply nth_error_Some. congruence. Qed.
Lemma Val_edge : forall n H o v c, Val (S n) H o v -> edge H o c -> exists w, Val n H c w.
Proof.
  intros n H o v c (k & h & ws & A & _ & C & _) (k' & h' & A' & I).
  rewrite A in A'. inversion A'; subst. clear - C I.
  induction C; cbn in I; [contradiction|]. destruct I as [<-|I]; eauto.
Qed.
Lemma Val_reach : forall H o q, reach H o q -> forall n v, Val n H o v -> exists m w, m <= n /\ Val m H q w.
Proof.
  induction 1 as [o|o c q E R IH]; intros n v V; [eauto|].
  destruct n as [|n]; [contradiction|]. destruct (Val_edge V E) as [w W].
  destruct (IH _ _ W) as (m & u & L & U). exists m, u. split; [lia|auto].
Qed.
Lemma Val_acyc : forall n H o v c, Val n H o v -> edge H o c -> ~ reach H c o.
Proof.
  induction n as [|n IH]; intros H o v c V E R; [contradiction|].
  destruct (Val_edge V E) as [w W]. destruct (Val_reach R W) as (m & u & L & U).
  eapply IH; [eapply Val_mono; [exact U|exact L]|exact E|exact R].
Qed.
Lemma shape_det : forall k ws v v', shape k ws v -> shape k ws v' -> v = v'.
Proof.
  intros k ws v v'. destruct k; destruct ws as [|w [|u [|]]]; cbn; intuition congruence.
Qed.
Lemma Val_det : forall n m H o v v', Val n H o v -> Val m H o v' -> v = v'.
Proof.
  induction n as [|n IH]; intros [|m] H o v v' V V'; try contradiction.
  destruct V as (k & c & ws & A & _ & C & D). destruct V' as (k' & c' & ws' & A' & _ & C' & D').
  rewrite A in A'. inversion A'; subst k' c'. clear A'.
  assert (ws = ws').
  { clear - IH C C'. revert ws' C'. induction C; intros ws' C'; inversion C'; subst; auto. f_equal; eauto. }
  subst. eapply shape_det; eauto.
Qed.
Lemma Val_agree : forall n H H' o v, Val n H o v ->
  (forall q, reach H o q -> nth_error H' q = nth_error H q) -> Val n H' o v.
Proof.
  induction n as [|n IH]; intros H H' o v V A; [contradiction|].
  destruct V as (k & c & ws & E & B & C & D). exists k, c, ws.
  split; [rewrite A; [auto|apply r_refl]|split; [auto|split; [|auto]]].
  assert (P : forall x q, In x (children k) -> reach H x q -> nth_error H' q = nth_error H q).
  { intros x q I R. apply A. eapply r_step; [exists k, c; eauto|exact R]. }
  clear - IH C P. induction C; constructor.
  - eapply IH; eauto. intros. eapply P; eauto. left; auto.
  - apply IHC. intros. eapply P; eauto. right; auto.
Qed.
Lemma Vok_lt : forall H o v, Vok H o v -> o < length H.
Proof. intros H o v [n V]. eapply Val_lt; eauto. Qed.
Lemma Vok_agree : forall H H' o v, Vok H o v ->
  (forall q, reach H o q -> nth_error H' q = nth_error H q) -> Vok H' o v.
Proof. intros H H' o v [n V] A. exists n. eapply Val_agree; eauto. Qed.
Lemma Vok_det : forall H o v v', Vok H o v -> Vok H o v' -> v = v'.
Proof. intros H o v v' [n V] [m V']. eapply Val_det; eauto. Qed.
Lemma Vok_reach_lt : forall H o v q, Vok H o v -> reach H o q -> q < length H.
Proof. intros H o v q [n V] R. destruct (Val_reach R V) as (m & w & _ & W). eapply Val_lt; eauto. Qed.
Lemma Forall2_Val_Vok : forall n H l ws, Forall2 (Val n H) l ws -> Forall2 (Vok H) l ws.
Proof. induction 1; constructor; auto. exists n; auto. Qed.
Lemma Vok_intro : forall H o k c ws v, nth_error H o = Some (k, c) -> cok c v ->
  Forall2 (Vok H) (children k) ws -> shape k ws v -> Vok H o v.
Proof.
  intros H o k c ws v A B C D.
  assert (X : exists n, Forall2 (Val n H) (children k) ws).
  { clear - C. induction C as [|x w l ws [n V] C [m IH]].
    - exists 0. constructor.
    - exists (n + m). constructor; [eapply Val_mono; [exact V|lia]|].
      clear - IH. induction IH; constructor; auto. eapply Val_mono; [eassumption|lia]. }
  destruct X as [n X]. exists (S n), k, c, ws. auto.
Qed.
Lemma Vok_inv : forall H o v, Vok H o v -> exists k c ws, nth_error H o = Some (k, c) /\ cok c v /\
  Forall2 (Vok H) (children k) ws /\ shape k ws v.
Proof.
  intros H o v [[|n] V]; [contradiction|]. destruct V as (k & c & ws & A & B & C & D).
  exists k, c, ws. split; [auto|split; [auto|split; [|auto]]]. eapply Forall2_Val_Vok; eauto.
Qed.

(** ** Ownership *)
Definition live (H : heap) (roots : list nat) (q : nat) : Prop := exists r, In r roots /\ reach H r q.
(** At most one handle to [o], among the roots and the live nodes. *)
Record single (H : heap) (roots : list nat) (o : nat) : Prop := {
  sg_root : count_occ Nat.eq_dec roots o <= 1;
  sg_mix : In o roots -> forall p, live H roots p -> ~ edge H p o;
  sg_one : forall p p', live H roots p -> live H roots p' -> edge H p o -> edge H p' o -> p = p';
  sg_cnt : forall p k h, live H roots p -> nth_error H p = Some (k, h) -> count_occ Nat.eq_dec (children k) o <= 1 }.
(** Reached from [o] only, and [o] itself has one handle only. *)
Record priv (H : heap) (roots : list nat) (o q : nat) : Prop := {
  pv_single : single H roots o;
  pv_reach : reach H o q;
  pv_av : forall r, In r roots -> ~ rav H o r q }.
Definition closed (H : heap) (roots : list nat) : Prop := forall q, live H roots q -> q < length H.
Definition nullok (H : heap) : Prop := exists c, nth_error H 0 = Some (KNull, c) /\ cok c [].

Record Pre (H : heap) (roots : list nat) (o : nat) (v : list Z) : Prop := {
  pre_live : live H roots o;
  pre_closed : closed H roots;
  pre_null : nullok H;
  pre_val : Vok H o v }.
(** From the heap [H] to [H']: nodes are added, and changed only below [o] and
    only if no other handle leads to them; [outs] have the values [vals] and
    refer to nodes below [o] or [args], new nodes, or the null node. *)
Definition chg (H : heap) (roots : list nat) (o : nat) (H' : heap) : Prop :=
  forall q, q < length H -> nth_error H' q = nth_error H q \/ (q <> 0 /\ priv H roots o q).
Definition newr (H : heap) (args : list nat) (o : nat) (H' : heap) (c : nat) : Prop :=
  forall q, q < length H -> q <> 0 -> reach H' c q -> reach H o q \/ exists a, In a args /\ reach H a q.
Record Post (H : heap) (roots args : list nat) (o : nat) (H' : heap) (outs : list nat) (vals : list (list Z)) : Prop := {
  po_len : length H <= length H';
  po_chg : chg H roots o H';
  po_val : Forall2 (Vok H') outs vals;
  po_new : Forall (newr H args o H') outs }.

Lemma acyc_self : forall H o v c, Vok H o v -> edge H o c -> ~ reach H c o.
Proof. intros H o v c [n V] E. eapply Val_acyc; eauto. Qed.
Lemma live_reach : forall H roots a b, live H roots a -> reach H a b -> live H roots b.
Proof. intros H roots a b (r & I & R) R'. exists r. split; auto. eapply reach_trans; eauto. Qed.
Lemma live_edge : forall H roots a b, live H roots a -> edge H a b -> live H roots b.
Proof. intros. eapply live_reach; eauto using reach_edge. Qed.
Lemma single_priv : forall H roots o, single H roots o -> priv H roots o o.
Proof.
  intros H roots o S. constructor; [auto|apply r_refl|].
  intros r I R. destruct (rav_ends R). congruence.
Qed.
Lemma chg_refl : forall H roots o, chg H roots o H.
Proof. intros H roots o q L. auto. Qed.

(** Changing cells below [o] keeps [o] live. *)
Lemma reach_keep : forall H H' o v, Vok H o v -> (forall q, reach H q o -> q <> o -> nth_error H' q = nth_error H q) ->
  forall r, reach H r o -> reach H' r o.
Proof.
  intros H H' o v V A r R. remember o as x eqn:Ex in R. induction R as [r|r c q E R IH]; subst; [apply r_refl|].
  destruct (Nat.eq_dec r o) as [->|N]; [apply r_refl|].
  eapply r_step; [|apply IH; auto]. eapply edge_agree; [|exact E]. apply A; auto. eapply r_step; eauto.
Qed.
Lemma below_above : forall H o v q, Vok H o v -> reach H o q -> reach H q o -> q = o.
Proof.
  intros H o v q V R R'. inversion R as [|? c ? E R1]; subst; auto.
  exfalso. eapply acyc_self; eauto. eapply reach_trans; eauto.
Qed.
Lemma chg_above : forall H roots o H' v, chg H roots o H' -> Vok H o v ->
  forall q, reach H q o -> q <> o -> q < length H -> nth_error H' q = nth_error H q.
Proof.
  intros H roots o H' v C V q R N L. destruct (C q L) as [E|[_ P]]; [auto|].
  exfalso. apply N. eapply below_above; eauto. apply (pv_reach P).
Qed.
Lemma edge_lt : forall H o c, edge H o c -> o < length H.
Proof. intros H o c (k & h & E & _). apply nth_error_Some. congruence. Qed.
Lemma reach_lt : forall H o q, reach H o q -> q < length H -> o < length H.
Proof. intros H o q R L. inversion R as [|? c ? E]; subst; auto. eapply edge_lt; eauto. Qed.
Lemma live_keep : forall H roots o H' v, chg H roots o H' -> Vok H o v -> live H roots o -> live H' roots o.
Proof.
  intros H roots o H' v C V (r & I & R). exists r. split; auto.
  eapply reach_keep; eauto. intros q Rq N. eapply chg_above; eauto.
  eapply reach_lt; eauto. eapply Vok_lt; eauto.
Qed.
(** Paths that avoid [o] are untouched. *)
Lemma chg_rav : forall H roots o H' r q, chg H roots o H' -> closed H roots -> In r roots ->
  rav H o r q -> nth_error H' q = nth_error H q.
Proof.
  intros H roots o H' r q C K I R.
  destruct (C q) as [E|[_ P]]; auto.
  - apply K. exists r. split; auto. eapply rav_reach; eauto.
  - exfalso. eapply (pv_av P); eauto.
Qed.
Lemma rav_keep : forall H roots o H' r q, chg H roots o H' -> closed H roots -> In r roots ->
  (rav H' o r q <-> rav H o r q).
Proof.
  intros H roots o H' r q C K I. split.
  - apply rav_agree2. intros. eapply chg_rav; eauto.
  - apply rav_agree. intros. eapply chg_rav; eauto.
Qed.
Lemma single_keep : forall H roots o H' v', chg H roots o H' -> closed H roots -> length H <= length H' ->
  Vok H' o v' -> single H roots o -> single H' roots o.
Proof.
  intros H roots o H' v' C K L V S.
  assert (P : forall p, live H' roots p -> edge H' p o -> live H roots p /\ nth_error H' p = nth_error H p).
  { intros p (r & I & R) E. destruct (reach_split o R) as [A|[A B]].
    - assert (A' := A). rewrite (rav_keep p C K I) in A'.
      split; [exists r; split; auto; eapply rav_reach; eauto|]. eapply chg_rav; eauto.
    - exfalso. destruct (reach_last B) as [->|(p' & _ & _)]; [eapply acyc_self; eauto; apply r_refl|].
      inversion B as [|? c ? Ec Rc]; subst; [eapply acyc_self; eauto; apply r_refl|].
      eapply acyc_self; [exact V|exact Ec|]. eapply reach_snoc; eauto. }
  assert (Q : forall p, live H' roots p -> edge H' p o -> live H roots p /\ edge H p o).
  { intros p Lp E. destruct (P p Lp E) as [A B]. split; auto. eapply edge_agree; [|exact E]. auto. }
  constructor.
  - apply (sg_root S).
  - intros I p Lp E. destruct (Q p Lp E). eapply (sg_mix S); eauto.
  - intros p p' Lp Lp' E E'. destruct (Q _ Lp E), (Q _ Lp' E'). eapply (sg_one S); eauto.
  - intros p k h Lp E. destruct (in_dec Nat.eq_dec o (children k)) as [I|I].
    + assert (Ed : edge H' p o) by (exists k, h; auto). destruct (P p Lp Ed) as [A B].
      eapply (sg_cnt S); [exact A|]. rewrite <- B. exact E.
    + apply (count_occ_not_In Nat.eq_dec) in I. lia.
Qed.
Lemma closed_keep : forall H roots o H' v', chg H roots o H' -> closed H roots -> length H <= length H' ->
  Vok H' o v' -> closed H' roots.
Proof.
  intros H roots o H' v' C K L V q (r & I & R). destruct (reach_split o R) as [A|[A B]].
  - rewrite (rav_keep q C K I) in A. assert (q < length H); [|lia]. apply K. exists r. split; auto. eapply rav_reach; eauto.
  - eapply Vok_reach_lt; eauto.
Qed.
Lemma null_keep : forall H roots o H', chg H roots o H' -> nullok H -> nullok H'.
Proof.
  intros H roots o H' C (c & E & O). exists c. split; auto. rewrite <- E.
  destruct (C 0) as [X|[X _]]; auto; [apply nth_error_Some; congruence|congruence].
Qed.
Lemma null_val : forall H, nullok H -> Vok H 0 [].
Proof. intros H (c & E & O). exists 1, KNull, c, []. split; [auto|split; [auto|split; [constructor|reflexivity]]]. Qed.
Lemma null_reach : forall H q, nullok H -> reach H 0 q -> q = 0.
Proof.
  intros H q (c & E & _) R. inversion R as [|? d ? (k & h & E' & I)]; subst; auto.
  rewrite E in E'. inversion E'; subst. contradiction.
Qed.
Lemma pre_keep : forall H roots o H' v v', chg H roots o H' -> length H <= length H' -> Pre H roots o v ->
  Vok H' o v' -> Pre H' roots o v'.
Proof.
  intros H roots o H' v v' C L P V. constructor; auto.
  - eapply live_keep; eauto; apply P.
  - eapply closed_keep; eauto; apply P.
  - eapply null_keep; eauto; apply P.
Qed.

(** Two changes below [o], one after the other. *)
Lemma chg_trans : forall H roots args o H1 H2 v1, chg H roots o H1 -> closed H roots -> length H <= length H1 ->
  Vok H1 o v1 -> newr H args o H1 o ->
  (forall a, In a args -> In a roots /\ ~ reach H a o) ->
  single H roots o ->
  chg H1 roots o H2 -> chg H roots o H2.
Proof.
  intros H roots args o H1 H2 v1 C K L V N A S C2 q Lq.
  destruct (C2 q) as [E|[N0 P]]; [lia| |].
  - rewrite E. apply C; auto.
  - right. split; auto. constructor; auto.
    + destruct (N q Lq N0 (pv_reach P)) as [R|(a & Ia & R)]; auto.
      exfalso. destruct (A a Ia) as [Ir Na].
      apply (@pv_av _ _ _ _ P a Ir). rewrite (rav_keep q C K Ir).
      destruct (reach_split o R) as [|[X _]]; auto. contradiction.
    + intros r I R. apply (@pv_av _ _ _ _ P r I). rewrite (rav_keep q C K I). exact R.
Qed.
Lemma newr_trans : forall H args o H1 H2 c, length H <= length H1 -> newr H args o H1 o -> newr H1 [] o H2 c ->
  newr H args o H2 c.
Proof.
  intros H args o H1 H2 c L A B q Lq N R. destruct (B q) as [X|(a & [] & _)]; auto. lia.
Qed.
End Value.
