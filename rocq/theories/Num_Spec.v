(** Specification of counting objects. *)
From Verif Require Import Base Num_Model.

(** How many copies a program makes. *)
Fixpoint copies (os : list cop) : nat :=
  match os with [] => 0 | CCopy _ :: r => S (copies r) | _ :: r => copies r end.
(** How many objects live after a program that starts with [n]. *)
Fixpoint left_over (n : Z) (os : list cop) : Z :=
  match os with
  | [] => n
  | CMake :: r | CCopy _ :: r => left_over (n + 1) r
  | CEnd _ :: r => left_over (n - 1) r
  | CCollect l :: r => left_over (n - Z.of_nat (length l)) r
  | CAsk :: r => left_over n r
  end.
