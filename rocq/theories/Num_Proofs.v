(** Proofs about counting objects (Num_Model.v against Num_Spec.v). *)
From Verif Require Import Base Num_Model Num_Spec.
Open Scope Z_scope.

Section P.
Variable w : Z.
Hypothesis Hw : 0 <= w.
Lemma pw : 0 < 2 ^ w. Proof. apply Z.pow_pos_nonneg; lia. Qed.

(** The counter is the number of objects less that of copies. *)
Definition inv (s : cst) (c : Z) : Prop :=
  NoDup (clive s) /\ (forall i, In i (clive s) -> (i < cnext s)%nat) /\ cnum s = (Z.of_nat (length (clive s)) - c) mod 2 ^ w.

Lemma remove_len : forall l i, NoDup l -> In i l -> S (length (remove Nat.eq_dec i l)) = length l.
Proof.
  induction l as [|x l IH]; intros i N I; [destruct I|]. inversion N; subst. cbn [remove].
  destruct (Nat.eq_dec i x) as [->|D].
  - cbn [length]. now rewrite notin_remove.
  - destruct I as [->|I]; [congruence|]. cbn [length]. now rewrite IH.
Qed.
Lemma remove_nodup : forall l i, NoDup l -> NoDup (remove Nat.eq_dec i l).
Proof.
  induction l as [|x l IH]; intros i N; cbn [remove]; [constructor|]. inversion N; subst.
  destruct (Nat.eq_dec i x); [auto|]. constructor; [|auto]. intros I. apply in_remove in I. tauto.
Qed.
Lemma end_ok : forall s c i s1, inv s c -> c_end w s i = Some s1 ->
  inv s1 c /\ Z.of_nat (length (clive s1)) = Z.of_nat (length (clive s)) - 1 /\ ckept s1 = ckept s.
Proof.
  intros s c i s1 (N & L & E). unfold c_end. destruct (in_dec Nat.eq_dec i (clive s)) as [I|]; [|discriminate]. intros [= <-].
  pose proof (remove_len N I) as R. cbn [clive cnum ckept]. repeat split.
  - now apply remove_nodup.
  - intros j J. apply in_remove in J. now apply L.
  - cbn [cnum clive]. rewrite E, Zminus_mod_idemp_l. f_equal. lia.
  - lia.
Qed.
Lemma ends_ok : forall l s c s1, inv s c -> c_ends w s l = Some s1 ->
  inv s1 c /\ Z.of_nat (length (clive s1)) = Z.of_nat (length (clive s)) - Z.of_nat (length l) /\ ckept s1 = ckept s.
Proof.
  induction l as [|i l IH]; intros s c s1 V; cbn [c_ends].
  - intros [= <-]. cbn [length]. split; [exact V|lia].
  - destruct (c_end w s i) as [s2|] eqn:E; [|discriminate]. destruct (end_ok V E) as (V2 & L2 & K2). intros H.
    destruct (IH _ _ _ V2 H) as (V1 & L1 & K1). split; [exact V1|]. cbn [length]. split; [lia|congruence].
Qed.
Lemma new_ok : forall s, NoDup (clive s) -> (forall i, In i (clive s) -> (i < cnext s)%nat) ->
  NoDup (cnext s :: clive s) /\ forall i, In i (cnext s :: clive s) -> (i < S (cnext s))%nat.
Proof.
  intros s N L. split.
  - constructor; [|exact N]. intros I. specialize (L _ I). lia.
  - intros i [<-|I]; [lia|]. specialize (L _ I). lia.
Qed.
Lemma run_ok : forall os s c s1 l, inv s c -> c_run w s os = Some (s1, l) ->
  inv s1 (c + Z.of_nat (copies os)) /\ Z.of_nat (length (clive s1)) = left_over (Z.of_nat (length (clive s))) os.
Proof.
  induction os as [|o os IH]; intros s c s1 l V H; cbn [c_run] in H.
  - injection H as <- _. cbn [copies left_over]. rewrite Z.add_0_r. now split.
  - destruct (c_op w s o) as [[s2 a]|] eqn:O; [|discriminate]. destruct (c_run w s2 os) as [[s3 m]|] eqn:R; [|discriminate]. injection H as <- _.
    destruct V as (N & L & E). destruct (new_ok N L) as [N' L']. destruct o as [|i|i| |q]; cbn [c_op] in O; cbn [copies left_over].
    + injection O as <- _.
      assert (V' : inv (mkC ((cnum s + 1) mod 2 ^ w) (cnext s :: clive s) (S (cnext s)) (ckept s)) c).
      { split; [exact N'|]. split; [exact L'|]. cbn [cnum clive length]. rewrite E, Zplus_mod_idemp_l. f_equal. lia. }
      destruct (IH _ _ _ _ V' R) as [A B]. split; [exact A|]. rewrite B. cbn [clive length]. f_equal; lia.
    + destruct (in_dec Nat.eq_dec i (clive s)); [|discriminate]. injection O as <- _.
      assert (V' : inv (mkC (cnum s) (cnext s :: clive s) (S (cnext s)) (ckept s)) (c + 1)).
      { split; [exact N'|]. split; [exact L'|]. cbn [cnum clive length]. rewrite E. f_equal. lia. }
      destruct (IH _ _ _ _ V' R) as [A B]. split; [|rewrite B; cbn [clive length]; f_equal; lia].
      rewrite Nat2Z.inj_succ. replace (c + Z.succ (Z.of_nat (copies os))) with (c + 1 + Z.of_nat (copies os)) by lia. exact A.
    + destruct (c_end w s i) as [s4|] eqn:Q; [|discriminate]. injection O as <- _.
      destruct (end_ok (conj N (conj L E)) Q) as (V4 & L4 & _). destruct (IH _ _ _ _ V4 R) as [A B]. split; [exact A|]. rewrite B. f_equal; lia.
    + injection O as <- _. exact (IH _ _ _ _ (conj N (conj L E)) R).
    + destruct (c_ends w (mkC (cnum s) (clive s) (cnext s) (cnum s)) q) as [s4|] eqn:Q; [|discriminate]. injection O as <- _.
      assert (V' : inv (mkC (cnum s) (clive s) (cnext s) (cnum s)) c) by (split; [|split]; assumption).
      destruct (ends_ok V' Q) as (V4 & L4 & _). destruct (IH _ _ _ _ V4 R) as [A B]. split; [exact A|]. rewrite B. f_equal. exact L4.
Qed.
Lemma inv0 : inv cst0 0.
Proof. split; [constructor|]. split; [intros i []|]. unfold cst0. cbn [cnum clive length]. change (Z.of_nat 0 - 0) with 0. pose proof pw. rewrite Z.mod_0_l; lia. Qed.
Lemma run_app : forall os qs s, c_run w s (os ++ qs) =
  match c_run w s os with Some (s1, l) => match c_run w s1 qs with Some (s2, m) => Some (s2, l ++ m) | None => None end | None => None end.
Proof.
  induction os as [|o os IH]; intros qs s; cbn [app c_run].
  - now destruct (c_run w s qs) as [[? ?]|].
  - destruct (c_op w s o) as [[s1 a]|]; [|reflexivity]. rewrite IH. destruct (c_run w s1 os) as [[s2 l]|]; [|reflexivity].
    now destruct (c_run w s2 qs) as [[? ?]|].
Qed.
Lemma asked : forall os s l, c_run w cst0 os = Some (s, l) ->
  c_run w cst0 (os ++ [CAsk]) = Some (s, l ++ [(left_over 0 os - Z.of_nat (copies os)) mod 2 ^ w]).
Proof.
  intros os s l H. destruct (run_ok inv0 H) as [(_ & _ & E) L]. rewrite run_app, H. cbn [c_run c_op]. rewrite E, L. reflexivity.
Qed.
Lemma left_nonneg : forall os s l, c_run w cst0 os = Some (s, l) -> 0 <= left_over 0 os.
Proof. intros os s l H. destruct (run_ok inv0 H) as [_ L]. cbn [clive cst0 length] in L. change (Z.of_nat 0) with 0 in L. lia. Qed.
Lemma right_number : forall os s l, copies os = 0%nat -> left_over 0 os < 2 ^ w -> c_run w cst0 os = Some (s, l) ->
  c_run w cst0 (os ++ [CAsk]) = Some (s, l ++ [left_over 0 os]).
Proof.
  intros os s l C B H. rewrite (asked H), C. do 4 f_equal. pose proof (left_nonneg H).
  change (Z.of_nat 0) with 0. rewrite Z.sub_0_r. apply Z.mod_small. lia.
Qed.
Lemma wrong_number : forall os s l, (0 < Z.of_nat (copies os) < 2 ^ w)%Z -> c_run w cst0 os = Some (s, l) ->
  exists a, c_run w cst0 (os ++ [CAsk]) = Some (s, l ++ [a]) /\ a <> left_over 0 os mod 2 ^ w.
Proof.
  intros os s l C H. eexists. split; [apply (asked H)|]. intros E. pose proof pw.
  assert (D : (Z.of_nat (copies os)) mod 2 ^ w = 0).
  { replace (Z.of_nat (copies os)) with (left_over 0 os - (left_over 0 os - Z.of_nat (copies os))) by lia.
    rewrite Zminus_mod, E, Z.sub_diag. apply Z.mod_0_l. lia. }
  rewrite Z.mod_small in D by lia. lia.
Qed.
Lemma success : forall os s l q, copies os = 0%nat -> left_over 0 os < 2 ^ w -> c_run w cst0 os = Some (s, l) ->
  c_ends w s q <> None ->
  exists s2, c_run w cst0 (os ++ [CCollect q]) = Some (s2, l ++ [if match q with [] => false | _ => true end then 1 else 0]).
Proof.
  intros os s l q C B H K. destruct (run_ok inv0 H) as [(N & L & E) Q]. rewrite C in E. cbn in E. rewrite Z.sub_0_r in E.
  cbn [clive cst0 length] in Q. change (Z.of_nat 0) with 0 in Q.
  rewrite run_app, H. cbn [c_run c_op].
  assert (X : forall q s t, clive s = clive t -> cnum s = cnum t -> cnext s = cnext t -> c_ends w s q <> None -> c_ends w t q <> None).
  { clear. induction q as [|i q IH]; intros s t A1 A2 A3; cbn [c_ends]; [discriminate|]. unfold c_end. rewrite A1, A2, A3.
    destruct (in_dec Nat.eq_dec i (clive t)); [|congruence]. apply IH; reflexivity. }
  destruct (c_ends w (mkC (cnum s) (clive s) (cnext s) (cnum s)) q) as [s4|] eqn:Z4.
  2:{ exfalso. revert Z4. apply (X q s); auto. }
  assert (V' : inv (mkC (cnum s) (clive s) (cnext s) (cnum s)) 0) by (split; [|split]; try assumption; cbn; now rewrite Z.sub_0_r).
  destruct (ends_ok V' Z4) as ((_ & _ & E4) & L4 & K4). cbn [clive ckept] in L4, K4. exists s4. do 4 f_equal.
  rewrite K4, E, E4, Z.sub_0_r. rewrite !Z.mod_small by lia.
  destruct q as [|i q]; cbn [length] in L4.
  - replace (Z.of_nat (length (clive s4))) with (Z.of_nat (length (clive s))) by lia. rewrite Z.gtb_ltb, Z.ltb_irrefl. reflexivity.
  - destruct (Z.gtb_spec (Z.of_nat (length (clive s))) (Z.of_nat (length (clive s4)))); [reflexivity|lia].
Qed.
End P.
