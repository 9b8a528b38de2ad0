(** Property theorems C116: counting objects. *)
From Verif Require Import Base Num_Model Num_Spec Num_Proofs.
Open Scope Z_scope.

(** ** C116 *)
(** After every program the number given is that of the objects that live less that of
    the copies ever made, as the counter wraps around. *)
Theorem C116_number : forall w, 0 <= w -> forall os s l, c_run w cst0 os = Some (s, l) ->
  c_run w cst0 (os ++ [CAsk]) = Some (s, l ++ [(left_over 0 os - Z.of_nat (copies os)) mod 2 ^ w]).
Proof. exact asked. Qed.
Print Assumptions C116_number.
(** After every program without copies it is the number of objects that live. *)
Theorem C116_number_partial : forall w, 0 <= w -> forall os s l, copies os = 0%nat -> left_over 0 os < 2 ^ w ->
  c_run w cst0 os = Some (s, l) -> c_run w cst0 (os ++ [CAsk]) = Some (s, l ++ [left_over 0 os]).
Proof. exact right_number. Qed.
Print Assumptions C116_number_partial.
(** After every program with copies it is not. *)
Theorem C116_copy_wrong : forall w, 0 <= w -> forall os s l, 0 < Z.of_nat (copies os) < 2 ^ w ->
  c_run w cst0 os = Some (s, l) ->
  exists a, c_run w cst0 (os ++ [CAsk]) = Some (s, l ++ [a]) /\ a <> left_over 0 os mod 2 ^ w.
Proof. exact wrong_number. Qed.
Print Assumptions C116_copy_wrong.
(** In programs without copies a collection is called a success exactly if it ended an
    object. *)
Theorem C116_success_partial : forall w, 0 <= w -> forall os s l q, copies os = 0%nat -> left_over 0 os < 2 ^ w ->
  c_run w cst0 os = Some (s, l) -> c_ends w s q <> None ->
  exists s2, c_run w cst0 (os ++ [CCollect q]) = Some (s2, l ++ [if match q with [] => false | _ => true end then 1 else 0]).
Proof. exact success. Qed.
Print Assumptions C116_success_partial.
(** With copies a collection that ended an object may be called a failure. *)
Theorem C116_success_refuted : exists os i, 
  match c_run 64 cst0 (os ++ [CCollect [i]]) with Some (_, l) => last l 7 = 0 | None => False end.
Proof. exists [CMake; CCopy 0; CEnd 0], 1%nat. vm_compute. reflexivity. Qed.
Print Assumptions C116_success_refuted.
Example C116_case :
  match c_run 64 cst0 [CMake; CMake; CAsk; CEnd 0; CAsk; CMake; CCollect [1%nat; 2%nat]; CCollect []; CAsk] with
  | Some (s, l) => l = [0; 0; 2; 0; 1; 0; 1; 0; 0] /\ clive s = []
  | None => False
  end /\
  match c_run 64 cst0 [CMake; CCopy 0; CAsk; CEnd 0; CEnd 1; CAsk] with
  | Some (_, l) => l = [0; 0; 1; 0; 0; 18446744073709551615]
  | None => False
  end.
Proof. vm_compute. repeat split; reflexivity. Qed.
