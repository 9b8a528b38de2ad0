(** C67: addition with carry and subtraction with borrow of machine integers. *)
From Verif Require Import Base UBig_Model UBig_AddSub Carry_Model Carry_Proofs.
Local Open Scope Z_scope.

(** For every width the result and the carry together are the exact sum. *)
Theorem C67_add w a b c o : 0 < w -> 0 <= a < 2 ^ w -> 0 <= b < 2 ^ w -> add_carry2 w a b = (c, o) ->
  0 <= c < 2 ^ w /\ c + 2 ^ w * (if o then 1 else 0) = a + b.
Proof. intros W. exact (@add_carry2_spec w W a b c o). Qed.
Print Assumptions C67_add.

(** With a carry coming in; the carry going out replaces it. *)
Theorem C67_add_carry w a b o c o' : 0 < w -> 0 <= a < 2 ^ w -> 0 <= b < 2 ^ w -> add_carry3 w a b o = (c, o') ->
  0 <= c < 2 ^ w /\ c + 2 ^ w * (if o' then 1 else 0) = a + b + (if o then 1 else 0).
Proof. intros W. exact (@add_carry3_spec w W a b o c o'). Qed.
Print Assumptions C67_add_carry.

Theorem C67_add_carry_only w a o c o' : 0 < w -> 0 <= a < 2 ^ w -> add_carry1 w a o = (c, o') ->
  0 <= c < 2 ^ w /\ c + 2 ^ w * (if o' then 1 else 0) = a + (if o then 1 else 0).
Proof. intros W. exact (@add_carry1_spec w W a o c o'). Qed.
Print Assumptions C67_add_carry_only.

(** Likewise the differences. *)
Theorem C67_sub w a b c u : 0 < w -> 0 <= a < 2 ^ w -> 0 <= b < 2 ^ w -> sub_borrow2 w a b = (c, u) ->
  0 <= c < 2 ^ w /\ c - 2 ^ w * (if u then 1 else 0) = a - b.
Proof. intros W. exact (@sub_borrow2_spec w W a b c u). Qed.
Print Assumptions C67_sub.

Theorem C67_sub_borrow w a b u c u' : 0 < w -> 0 <= a < 2 ^ w -> 0 <= b < 2 ^ w -> sub_borrow3 w a b u = (c, u') ->
  0 <= c < 2 ^ w /\ c - 2 ^ w * (if u' then 1 else 0) = a - b - (if u then 1 else 0).
Proof. intros W. exact (@sub_borrow3_spec w W a b u c u'). Qed.
Print Assumptions C67_sub_borrow.

Theorem C67_sub_borrow_only w a u c u' : 0 < w -> 0 <= a < 2 ^ w -> sub_borrow1 w a u = (c, u') ->
  0 <= c < 2 ^ w /\ c - 2 ^ w * (if u' then 1 else 0) = a - (if u then 1 else 0).
Proof. intros W. exact (@sub_borrow1_spec w W a u c u'). Qed.
Print Assumptions C67_sub_borrow_only.

Example C67_case :
  add_carry3 8 255 255 true = (255, true) /\ add_carry3 8 255 0 true = (0, true) /\
  add_carry1 8 255 true = (0, true) /\ sub_borrow3 8 0 255 true = (0, true) /\
  sub_borrow3 8 3 5 true = (253, true) /\ sub_borrow1 8 0 true = (255, true).
Proof. vm_compute. repeat split. Qed.

(** The assembly variants report the carry but return it in place of the sum or the
    difference: every sum from 2 on that fits is wrong. *)
Theorem C67_assembly_add_wrong w a b : 0 < w -> 0 <= a < 2 ^ w -> 0 <= b < 2 ^ w -> 2 <= a + b < 2 ^ w ->
  fst (x86_add w a b) <> a + b /\ fst (arm_add w a b) <> a + b.
Proof. exact (@asm_add_wrong w a b). Qed.
Print Assumptions C67_assembly_add_wrong.

Theorem C67_assembly_sub_wrong w a b : 0 < w -> 0 <= b -> b + 2 <= a < 2 ^ w ->
  fst (x86_sub a b) <> a - b /\ fst (arm_sub w a b) <> a - b.
Proof. exact (@asm_sub_wrong w a b). Qed.
Print Assumptions C67_assembly_sub_wrong.

Example C67_assembly_case : x86_add 32 40 2 = (0, false) /\ arm_sub 32 2 5 = (2 ^ 32 - 1, true) /\ x86_sub 44 2 = (0, false).
Proof. vm_compute. repeat split. Qed.
