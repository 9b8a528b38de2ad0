(** What exchanges should do: objects change places and nothing else happens. *)
From Verif Require Import Base.

(** The two places change. *)
Definition change (a b c : nat) : nat := if Nat.eqb c a then b else if Nat.eqb c b then a else c.
(** The place from which the value at [c] came. *)
Fixpoint came_from (p : list (nat * nat)) (c : nat) : nat :=
  match p with [] => c | (a, b) :: p' => change a b (came_from p' c) end.
