(** Proofs about exchanging objects. *)
From Verif Require Import Base Swap_Model Swap_Spec.

Section P.
Variable V : Type.
Variable keep : nat -> V -> V.
Variable left_by_move self_move : V -> V.
Notation swap_refs := (swap_refs keep left_by_move self_move).
Notation swaps := (swaps keep left_by_move self_move).

Lemma swap_exact m a b : a <> b -> forall c, swap_refs m a b c = if Nat.eqb c a then keep a (m b) else if Nat.eqb c b then keep b (m a) else m c.
Proof.
  intros N c. unfold Swap_Model.swap_refs, move_to, put. cbv zeta.
  destruct (Nat.eqb_spec c a) as [->|Na]; [reflexivity|].
  destruct (Nat.eqb_spec b a) as [E|_]; [congruence|].
  destruct (Nat.eqb_spec c b) as [->|Nb].
  - destruct (Nat.eqb_spec a b); [congruence|]. reflexivity.
  - destruct (Nat.eqb_spec c a); [congruence|]. destruct (Nat.eqb_spec c b); [congruence|]. reflexivity.
Qed.
Lemma swap_self m a c : swap_refs m a a c = if Nat.eqb c a then keep a (m a) else m c.
Proof.
  unfold Swap_Model.swap_refs, move_to, put. cbv zeta. rewrite Nat.eqb_refl. destruct (Nat.eqb c a); reflexivity.
Qed.
Lemma swap_change m a b : keep a (m b) = m b -> keep b (m a) = m a -> forall c, swap_refs m a b c = m (change a b c).
Proof.
  intros A B c. unfold change. destruct (Nat.eqb_spec a b) as [<-|N].
  - rewrite swap_self. destruct (Nat.eqb_spec c a); [exact A|reflexivity].
  - rewrite (@swap_exact m a b N). destruct (Nat.eqb c a); [exact A|]. destruct (Nat.eqb c b); [exact B|reflexivity].
Qed.
Lemma swaps_right p : forall m, (forall c d, keep c (m d) = m d) -> forall c, swaps p m c = m (came_from p c).
Proof.
  induction p as [|[a b] p IH]; intros m K c; cbn [Swap_Model.swaps came_from]; [reflexivity|].
  rewrite IH; [now apply swap_change|]. intros c' d. rewrite !swap_change by auto. apply K.
Qed.
Lemma const_right m a b : a <> b ->
  fst (swap_const keep left_by_move m a b) = m a /\
  forall c, snd (swap_const keep left_by_move m a b) c = if Nat.eqb c a then keep a (m b) else m c.
Proof.
  intros N. unfold swap_const, put. cbn [fst snd]. split; [reflexivity|]. intros c.
  destruct (Nat.eqb_spec a b); [congruence|]. destruct (Nat.eqb_spec b a); [congruence|]. destruct (Nat.eqb c a); reflexivity.
Qed.
Lemma const_self m a : snd (swap_const keep left_by_move m a a) a = left_by_move (m a).
Proof. unfold swap_const, put. cbn [snd]. now rewrite !Nat.eqb_refl. Qed.
Lemma types_wrong m a b : a <> b -> keep b (m a) <> m a ->
  swaps [(a, b)] m b = keep b (m a) /\ swaps [(a, b)] m b <> m a.
Proof.
  intros N K. cbn [Swap_Model.swaps].
  assert (E : swap_refs m a b b = keep b (m a)).
  { rewrite (@swap_exact m a b N b). destruct (Nat.eqb_spec b a); [congruence|]. now rewrite Nat.eqb_refl. }
  rewrite E. split; [reflexivity|exact K].
Qed.
Lemma self_lost m a : left_by_move (m a) <> m a ->
  snd (swap_const keep left_by_move m a a) a = left_by_move (m a) /\ snd (swap_const keep left_by_move m a a) a <> m a.
Proof. intros N. rewrite const_self. split; [reflexivity|exact N]. Qed.
End P.

Lemma change_back a b c : change a b (change a b c) = c.
Proof.
  unfold change. destruct (Nat.eqb_spec c a) as [->|N]; [destruct (Nat.eqb_spec b a); [auto|now rewrite Nat.eqb_refl]|].
  destruct (Nat.eqb_spec c b) as [->|N']; [now rewrite Nat.eqb_refl|].
  destruct (Nat.eqb_spec c a); [congruence|]. destruct (Nat.eqb_spec c b); congruence.
Qed.
Lemma came_onto p : forall d, exists c, came_from p c = d.
Proof.
  induction p as [|[a b] p IH]; intros d; cbn [came_from]; [now exists d|].
  destruct (IH (change a b d)) as [c H]. exists c. now rewrite H, change_back.
Qed.
Lemma came_once p : forall c c', came_from p c = came_from p c' -> c = c'.
Proof.
  induction p as [|[a b] p IH]; intros c c' H; cbn [came_from] in H; [exact H|].
  apply IH. rewrite <- (change_back a b (came_from p c)), H. apply change_back.
Qed.
