(** The exact handle counter answers "unique" only for nodes with one handle. *)
From Verif Require Import Base Ref_Model List_Model Str_Model Str_Heap.
Local Open Scope nat_scope.

(** Paths that avoid a list of nodes. *)
Inductive av (H : heap) (vis : list nat) : nat -> nat -> Prop :=
| av_refl : forall r, ~ In r vis -> av H vis r r
| av_step : forall r c q, ~ In r vis -> edge H r c -> av H vis c q -> av H vis r q.
Lemma reach_av : forall H r q, reach H r q -> av H [] r q.
Proof. intros H r q R. induction R; [apply av_refl; auto|]. eapply av_step; eauto. Qed.
Lemma av_first : forall H vis r q, av H vis r q -> ~ In r vis.
Proof. intros H vis r q A. inversion A; auto. Qed.
Lemma av_cut : forall H vis x a q, av H vis a q -> av H (x :: vis) a q \/ (exists c, edge H x c /\ av H (x :: vis) c q) \/ q = x.
Proof.
  intros H vis x a q A. induction A as [r N|r c q N E A IH].
  - destruct (Nat.eq_dec r x) as [->|D]; auto. left. apply av_refl. intros [|]; auto.
  - destruct IH as [IH|[IH|IH]]; auto.
    destruct (Nat.eq_dec r x) as [->|D]; [right; left; eauto|]. left. eapply av_step; eauto. intros [|]; auto.
Qed.
Lemma edge_lt : forall H r c, edge H r c -> r < length H.
Proof. intros H r c (k & h & E & _). apply nth_error_Some. congruence. Qed.
Lemma reachb_complete : forall f H vis r q, NoDup vis -> (forall x, In x vis -> x < length H) -> length H <= length vis + f ->
  av H vis r q -> reachb f H r q = true.
Proof.
  induction f as [|f IH]; intros H vis r q ND LV L A; cbn [reachb].
  - destruct (Nat.eqb_spec r q) as [|D]; auto. exfalso.
    inversion A as [|? c ? N E _]; subst; [congruence|].
    assert (X : length (r :: vis) <= length (seq 0 (length H))).
    { apply NoDup_incl_length; [constructor; auto|]. intros x [<-|I]; apply in_seq; split; try lia; [apply (edge_lt E)|]. specialize (LV x I). lia. }
    rewrite seq_length in X. cbn [length] in X. lia.
  - destruct (Nat.eqb_spec r q) as [|D]; auto. cbn [orb].
    inversion A as [|? c ? N E A']; subst; [congruence|].
    assert (G : exists c, edge H r c /\ av H (r :: vis) c q).
    { destruct (av_cut r A') as [B|[B|B]]; eauto. congruence. }
    clear c E A' A. destruct G as (c & E & A). assert (Lr := edge_lt E).
    destruct E as (k & h & E & I). rewrite E. apply existsb_exists. exists c. split; auto.
    apply (IH H (r :: vis)); auto.
    + constructor; auto.
    + intros x [<-|Ix]; auto.
    + cbn [length]. lia.
Qed.
Lemma reachb_ok : forall H r q, reach H r q -> reachb (length H) H r q = true.
Proof. intros H r q R. apply (@reachb_complete (length H) H []); auto; [constructor|intros x []|apply reach_av; auto]. Qed.
Lemma reachb_sound : forall f H r q, reachb f H r q = true -> reach H r q.
Proof.
  induction f as [|f IH]; intros H r q E; cbn [reachb] in E; apply orb_prop in E; destruct E as [E|E]; try (apply Nat.eqb_eq in E; subst; apply r_refl); try discriminate.
  destruct (nth_error H r) as [[k c]|] eqn:N; [|discriminate]. apply existsb_exists in E. destruct E as (x & I & Ex).
  eapply r_step; [exists k, c; eauto|]. auto.
Qed.

Lemma sum_in : forall (g : nat -> nat) l p, In p l -> g p <= list_sum (map g l).
Proof. induction l as [|a l IH]; intros p []; cbn [map]; unfold list_sum; cbn [fold_right]; fold (list_sum (map g l)); [subst; lia|]. specialize (IH p H). lia. Qed.
Lemma sum_two : forall (g : nat -> nat) l p p', In p l -> In p' l -> p <> p' -> g p + g p' <= list_sum (map g l).
Proof.
  induction l as [|a l IH]; intros p p' I I' N; [destruct I|].
  cbn [map]. unfold list_sum. cbn [fold_right]. fold (list_sum (map g l)).
  destruct I as [->|I], I' as [->|I']; [congruence| | |].
  - apply (sum_in g) in I'. lia.
  - apply (sum_in g) in I. lia.
  - specialize (IH p p' I I' N). lia.
Qed.
Theorem uniq_single : forall H roots o, uniq H roots o = true -> single H roots o.
Proof.
  intros H roots o U. apply Nat.eqb_eq in U. unfold refs in U.
  set (g := fun q => if existsb (fun r => reachb (length H) H r q) roots
    then match nth_error H q with Some (k, _) => count_occ Nat.eq_dec (children k) o | None => 0 end else 0) in U.
  assert (LV : forall p k h, live H roots p -> nth_error H p = Some (k, h) -> g p = count_occ Nat.eq_dec (children k) o /\ In p (seq 0 (length H))).
  { intros p k h (r & I & R) E. split.
    - unfold g. replace (existsb _ roots) with true; [rewrite E; auto|]. symmetry. apply existsb_exists. exists r. split; auto. apply reachb_ok. auto.
    - apply in_seq. split; [lia|]. apply nth_error_Some. congruence. }
  assert (ED : forall p, live H roots p -> edge H p o -> 1 <= g p /\ In p (seq 0 (length H))).
  { intros p L (k & h & E & I). destruct (LV p k h L E) as [-> Ip]. split; auto. apply (count_occ_In Nat.eq_dec) in I. lia. }
  constructor.
  - lia.
  - intros I p L E. destruct (ED p L E) as [G Ip]. apply (sum_in g) in Ip. apply (count_occ_In Nat.eq_dec) in I. lia.
  - intros p p' L L' E E'. destruct (Nat.eq_dec p p') as [|N]; auto. exfalso.
    destruct (ED p L E) as [G Ip]. destruct (ED p' L' E') as [G' Ip']. assert (X := sum_two g Ip Ip' N). lia.
  - intros p k h L E. destruct (LV p k h L E) as [G Ip]. apply (sum_in g) in Ip. lia.
Qed.
(** A node with one handle that is referred to at all is found unique. *)
Lemma sum_le1 : forall (g : nat -> nat) l, NoDup l -> (forall p, In p l -> g p <= 1) -> (forall p p', In p l -> In p' l -> 1 <= g p -> 1 <= g p' -> p = p') ->
  list_sum (map g l) <= 1.
Proof.
  induction l as [|a l IH]; intros ND B O; cbn [map]; unfold list_sum; cbn [fold_right]; [lia|]. fold (list_sum (map g l)).
  inversion ND; subst. assert (B1 := B a (or_introl eq_refl)).
  destruct (Nat.eq_dec (g a) 0) as [Z|NZ].
  - rewrite Z. apply IH; auto. { intros p I. apply B. right; auto. } intros p p' I I'. apply O; right; auto.
  - assert (list_sum (map g l) = 0); [|lia].
    assert (A : forall p, In p l -> g p = 0).
    { intros p I. destruct (Nat.eq_dec (g p) 0) as [|N]; auto. exfalso. assert (a = p) by (apply O; [left; auto|right; auto|lia|lia]). subst. auto. }
    clear - A. induction l as [|b l IH]; auto. cbn [map]. unfold list_sum. cbn [fold_right]. fold (list_sum (map g l)). rewrite (A b), IH; auto; [|left; auto].
    intros p I. apply A. right; auto.
Qed.
Theorem single_uniq : forall H roots o, single H roots o -> live H roots o -> uniq H roots o = true.
Proof.
  intros H roots o [R M O C] L. apply Nat.eqb_eq. unfold refs.
  set (g := fun q => if existsb (fun r => reachb (length H) H r q) roots
    then match nth_error H q with Some (k, _) => count_occ Nat.eq_dec (children k) o | None => 0 end else 0).
  assert (G1 : forall p, 1 <= g p -> live H roots p /\ edge H p o).
  { intros p G. unfold g in G. destruct (existsb _ roots) eqn:X; [|lia]. apply existsb_exists in X. destruct X as (r & I & X).
    destruct (nth_error H p) as [[k h]|] eqn:E; [|lia]. split; [exists r; split; auto; eapply reachb_sound; eauto|].
    exists k, h. split; auto. apply (count_occ_In Nat.eq_dec). lia. }
  assert (G2 : forall p, live H roots p -> edge H p o -> 1 <= g p /\ In p (seq 0 (length H))).
  { intros p (r & I & Rp) (k & h & E & Ic). split.
    - unfold g. replace (existsb _ roots) with true; [rewrite E; apply (count_occ_In Nat.eq_dec) in Ic; lia|].
      symmetry. apply existsb_exists. exists r. split; auto. apply reachb_ok. auto.
    - apply in_seq. split; [lia|]. apply nth_error_Some. congruence. }
  assert (S1 : list_sum (map g (seq 0 (length H))) <= 1).
  { apply sum_le1; [apply seq_NoDup| |].
    - intros p _. destruct (Nat.leb_spec (g p) 1) as [|X]; auto. destruct (G1 p) as [Lp _]; [lia|]. unfold g in X.
      destruct (existsb _ roots); [|lia]. destruct (nth_error H p) as [[k h]|] eqn:E; [|lia]. specialize (C p k h Lp E). lia.
    - intros p p' _ _ X X'. destruct (G1 p X), (G1 p' X'). eapply O; eauto. }
  destruct L as (r & I & Rr). destruct (reach_last Rr) as [->|(p & Rp & Ep)].
  - assert (A := proj1 (count_occ_In Nat.eq_dec _ _) I).
    assert (list_sum (map g (seq 0 (length H))) = 0); [|lia].
    clear S1. assert (Z : forall p, In p (seq 0 (length H)) -> g p = 0).
    { intros p _. destruct (Nat.eq_dec (g p) 0) as [|N]; auto. exfalso. destruct (G1 p) as [Lp Ep]; [lia|]. exact (M I p Lp Ep). }
    revert Z. generalize (seq 0 (length H)). intros l Z. induction l as [|b l IH]; auto. cbn [map]. unfold list_sum. cbn [fold_right]. fold (list_sum (map g l)).
    rewrite (Z b), IH; auto; [|left; auto]. intros q Iq. apply Z. right; auto.
  - assert (Lp : live H roots p) by (exists r; auto). destruct (G2 p Lp Ep) as [G Ip]. apply (sum_in g) in Ip.
    assert (count_occ Nat.eq_dec roots o = 0); [|lia].
    apply (count_occ_not_In Nat.eq_dec). intros Io. exact (M Io p Lp Ep).
Qed.
