(** Proofs about loops of a number of turns. *)
From Verif Require Import Base Times_Model Times_Spec.
Local Open Scope Z_scope.

Section Type_.
Variable k : tkind.
Variable w : Z.
Hypothesis W : 1 < w.
Lemma half : 2 ^ w = 2 * 2 ^ (w - 1).
Proof. replace w with (1 + (w - 1)) at 1 by lia. rewrite Z.pow_add_r by lia. reflexivity. Qed.
Lemma half_pos : 1 < 2 ^ (w - 1).
Proof. apply Z.pow_gt_1; lia. Qed.
Lemma next_below : forall n t, fits k w n -> 0 <= t < n -> next k w t = Some (t + 1).
Proof.
  intros n t F H. pose proof half. pose proof half_pos. unfold next, fits in *. destruct k.
  - rewrite Z.mod_small by lia. reflexivity.
  - destruct (Z.eqb_spec (t + 1) (2 ^ (w - 1))); [lia|reflexivity].
  - destruct (Z.eqb_spec (t + 1) (2 ^ (w - 1))); [lia|reflexivity].
Qed.

Section Body.
Variable St : Type.
Variable body : St -> Z -> Z -> St * bool.
Notation loop := (loop k w body).
Lemma loop_turns : forall fuel n t st, fits k w n -> 0 <= t <= n -> n - t <= Z.of_nat fuel ->
  exists t' st', loop fuel (mkP t n) st = TOk (mkP t' n, st') /\ turns body n t st st'.
Proof.
  induction fuel as [|fuel IH]; intros n t st F H Hf; cbn [Times_Model.loop loop_times loop_end];
    (destruct (Z.eqb_spec t n) as [->|Ne]; [exists n, st; split; [reflexivity|constructor]|]); [lia|].
  destruct (body st t n) as [st1 [|]] eqn:B.
  - rewrite (@next_below n t F ltac:(lia)).
    destruct (IH n (t + 1) st1 F ltac:(lia) ltac:(lia)) as (t' & st' & E & T).
    exists t', st'. split; [exact E|]. eapply turns_go; [lia|exact B|exact T].
  - exists t, st1. split; [reflexivity|]. eapply turns_stop; [lia|exact B].
Qed.
Lemma turns_fun : forall n i st a, turns body n i st a -> forall b, turns body n i st b -> a = b.
Proof.
  intros n i st a H. induction H as [st|i st st1 L B|i st st1 st2 L B H IH]; intros b Hb; inversion Hb; subst; try lia; try congruence.
  rewrite B in *. match goal with E : (_, true) = (_, true) |- _ => injection E as -> end. apply IH. assumption.
Qed.
Lemma again : forall fuel p st p1 st1, endless body -> loop fuel p st = TOk (p1, st1) -> loop_times p1 = loop_end p1.
Proof.
  induction fuel as [|fuel IH]; intros p st p1 st1 B E; cbn [Times_Model.loop] in E;
    (destruct (Z.eqb_spec (loop_times p) (loop_end p)) as [Q|Ne]; [injection E as <- <-; exact Q|]); [discriminate|].
  pose proof (B st (loop_times p) (loop_end p)) as G. destruct (body st (loop_times p) (loop_end p)) as [st2 go].
  cbn [snd] in G. subst go. destruct (next k w (loop_times p)) as [t|]; [|discriminate]. exact (IH _ _ _ _ B E).
Qed.
End Body.
Lemma done_again : forall (St : Type) (body : St -> Z -> Z -> St * bool) fuel p st, loop_times p = loop_end p ->
  loop k w body fuel p st = TOk (p, st).
Proof. intros St body [|fuel] p st E; cbn [loop]; rewrite E, Z.eqb_refl; reflexivity. Qed.

(** What is written down. *)
Lemma note_up : forall m fuel t n st, (m <= fuel)%nat ->
  (forall i, (i < m)%nat -> next k w (t + Z.of_nat i) = Some (t + Z.of_nat i + 1) /\ t + Z.of_nat i <> n) ->
  loop k w note fuel (mkP t n) st =
  loop k w note (fuel - m) (mkP (t + Z.of_nat m) n) (st ++ map (fun i => (t + Z.of_nat i, n)) (seq 0 m)).
Proof.
  induction m as [|m IH]; intros fuel t n st Hf H.
  - rewrite Nat.sub_0_r, app_nil_r. replace (t + Z.of_nat 0) with t by lia. reflexivity.
  - destruct fuel as [|fuel]; [lia|]. cbn [loop loop_times loop_end].
    destruct (H 0%nat ltac:(lia)) as [N Ne]. replace (t + Z.of_nat 0) with t in * by lia.
    destruct (Z.eqb_spec t n) as [Q|_]; [contradiction|]. cbn [note]. rewrite N. rewrite IH; [|lia|].
    + cbn [Nat.sub]. replace (t + 1 + Z.of_nat m) with (t + Z.of_nat (S m)) by lia. f_equal.
      rewrite <- app_assoc. f_equal. cbn [seq map app]. f_equal; [f_equal; lia|].
      rewrite <- seq_shift, map_map. apply map_ext. intros i. f_equal. lia.
    + intros i Hi. destruct (H (S i) ltac:(lia)) as [N' Ne'].
      replace (t + Z.of_nat (S i)) with (t + 1 + Z.of_nat i) in * by lia. auto.
Qed.
End Type_.

Section Type2.
Variable k : tkind.
Variable w : Z.
Hypothesis W : 1 < w.
Lemma loop_end_any : forall (St : Type) (body : St -> Z -> Z -> St * bool) fuel n st, loop k w body fuel (mkP n n) st = TOk (mkP n n, st).
Proof. intros St body fuel n st. apply done_again. reflexivity. Qed.
Lemma counted : forall fuel n, fits k w n -> 0 <= n -> n <= Z.of_nat fuel ->
  times k w note fuel n [] = TOk (mkP n n, map (fun i => (Z.of_nat i, n)) (seq 0 (Z.to_nat n))).
Proof.
  intros fuel n F H Hf. unfold times. rewrite (@note_up k w (Z.to_nat n)).
  - replace (0 + Z.of_nat (Z.to_nat n)) with n by lia. rewrite loop_end_any. reflexivity.
  - lia.
  - intros i Hi. split; [|lia]. apply (@next_below k w W n); [exact F|lia].
Qed.
End Type2.

Lemma up_to_top : forall k w, 1 < w -> k <> KUnsigned -> forall t, 0 <= t -> t + 1 < 2 ^ (w - 1) -> next k w t = Some (t + 1).
Proof.
  intros k w W K t H H2. unfold next. destruct k; [congruence| |]; (destruct (Z.eqb_spec (t + 1) (2 ^ (w - 1))); [lia|reflexivity]).
Qed.
(** Negative numbers: undefined, after the largest number was reached. *)
Lemma negative_signed : forall w, 1 < w -> forall (St : Type) (body : St -> Z -> Z -> St * bool), endless body ->
  forall n, n < 0 -> forall fuel t st, 0 <= t < 2 ^ (w - 1) ->
  loop KSigned w body fuel (mkP t n) st = if 2 ^ (w - 1) - t <=? Z.of_nat fuel then TUb else TOut.
Proof.
  intros w W St body B n Hn. induction fuel as [|fuel IH]; intros t st Ht; cbn [loop loop_times loop_end];
    (destruct (Z.eqb_spec t n) as [Q|_]; [lia|]).
  - destruct (Z.leb_spec (2 ^ (w - 1) - t) (Z.of_nat 0)); [lia|reflexivity].
  - pose proof (B st t n) as G. destruct (body st t n) as [st1 go]. cbn [snd] in G. subst go. cbn [next].
    destruct (Z.eqb_spec (t + 1) (2 ^ (w - 1))) as [Q|Q].
    + destruct (Z.leb_spec (2 ^ (w - 1) - t) (Z.of_nat (S fuel))); [reflexivity|lia].
    + rewrite IH by lia. destruct (Z.leb_spec (2 ^ (w - 1) - (t + 1)) (Z.of_nat fuel)), (Z.leb_spec (2 ^ (w - 1) - t) (Z.of_nat (S fuel)));
        reflexivity || lia.
Qed.
(** Narrow types: the numbers wrap. *)
Lemma negative_narrow : forall w n, 1 < w -> - 2 ^ (w - 1) <= n < 0 -> forall fuel, 2 ^ w + n <= Z.of_nat fuel ->
  exists st, times KNarrow w note fuel n [] = TOk (mkP n n, st) /\ Z.of_nat (length st) = 2 ^ w + n.
Proof.
  intros w n W H fuel Hf. pose proof (@half w W) as Hh. pose proof (@half_pos w W) as Hp. unfold times.
  set (top := Z.to_nat (2 ^ (w - 1) - 1)).
  rewrite (@note_up KNarrow w top).
  2:{ lia. }
  2:{ intros i Hi. split; [apply up_to_top; [exact W|discriminate|lia|lia]|lia]. }
  replace (0 + Z.of_nat top) with (2 ^ (w - 1) - 1) by lia.
  assert (Hf2 : exists f, (fuel - top)%nat = S f) by (exists (fuel - top - 1)%nat; lia). destruct Hf2 as [f Ef]. rewrite Ef.
  cbn [loop loop_times loop_end]. destruct (Z.eqb_spec (2 ^ (w - 1) - 1) n) as [Q|_]; [lia|]. cbn [note next].
  replace (2 ^ (w - 1) - 1 + 1 =? 2 ^ (w - 1)) with true by (symmetry; apply Z.eqb_eq; lia).
  set (low := Z.to_nat (n + 2 ^ (w - 1))).
  rewrite (@note_up KNarrow w low).
  2:{ lia. }
  2:{ intros i Hi. split; [|lia]. unfold next. destruct (Z.eqb_spec (- 2 ^ (w - 1) + Z.of_nat i + 1) (2 ^ (w - 1))); [lia|reflexivity]. }
  replace (- 2 ^ (w - 1) + Z.of_nat low) with n by lia. rewrite loop_end_any.
  eexists. split; [reflexivity|]. rewrite !app_length, !map_length, !seq_length. cbn [length]. lia.
Qed.
