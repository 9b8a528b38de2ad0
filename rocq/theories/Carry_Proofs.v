(** Proofs about addition with carry. *)
From Verif Require Import Base UBig_Model UBig_AddSub Carry_Model.
Local Open Scope Z_scope.

Lemma x86_add_wrong w a b : 0 < w -> 0 <= a < base w -> 0 <= b < base w -> 2 <= a + b < base w ->
  fst (x86_add w a b) <> a + b.
Proof.
  intros W A B R. unfold x86_add. cbn [fst]. destruct (base w <=? a + b) eqn:E; cbn [b2z]; lia.
Qed.
Lemma arm_add_wrong w a b : 0 < w -> 0 <= a < base w -> 0 <= b < base w -> 2 <= a + b < base w ->
  fst (arm_add w a b) <> a + b.
Proof. exact (@x86_add_wrong w a b). Qed.
Lemma x86_sub_wrong w a b : 0 < w -> 0 <= b -> b + 2 <= a < base w -> fst (x86_sub a b) <> a - b.
Proof. intros W B R. unfold x86_sub. cbn [fst]. destruct (a <? b) eqn:E; cbn [b2z]; lia. Qed.
Lemma arm_sub_wrong w a b : 0 < w -> 0 <= b -> b + 1 <= a < base w -> fst (arm_sub w a b) <> a - b.
Proof. intros W B R. unfold arm_sub. cbn [fst]. destruct (a <? b) eqn:E; lia. Qed.
Lemma asm_add_wrong w a b : 0 < w -> 0 <= a < base w -> 0 <= b < base w -> 2 <= a + b < base w ->
  fst (x86_add w a b) <> a + b /\ fst (arm_add w a b) <> a + b.
Proof. intros W A B R. split; [exact (x86_add_wrong W A B R)|exact (arm_add_wrong W A B R)]. Qed.
Lemma asm_sub_wrong w a b : 0 < w -> 0 <= b -> b + 2 <= a < base w ->
  fst (x86_sub a b) <> a - b /\ fst (arm_sub w a b) <> a - b.
Proof. intros W B R. split; [exact (x86_sub_wrong W B R)|apply (@arm_sub_wrong w a b); lia]. Qed.
