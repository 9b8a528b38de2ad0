(** What a user expects of comparing nodes, stated without levels and without
    asking both sides. *)
From Verif Require Import Base.
From Verif Require Import Node_Model.

(** The true nodes: all but nil and void (specification). *)
Definition true_node (n : node) : bool := match n with NNil | NVoid => false | _ => true end.

Section Types.
(** The boxed types, as in the model (specification). *)
Variable comparable : nat -> bool.
(** The same. *)
Variable teq : nat -> Z -> Z -> bool.

(** Two nodes are the same for [==] of pointers: boxes of a type that can be
    compared when they hold equal objects of that type, anything else when it
    is the same node (specification). *)
Definition same_node (h : store) (a b : nat) : bool :=
  match h a, h b with
  | NBox ty v, NBox ty' v' =>
    if comparable ty || comparable ty'
    then Nat.eqb ty ty' && teq ty v v' && teq ty v' v
    else Nat.eqb a b
  | _, _ => Nat.eqb a b
  end.

(** Boxes of different types meet, and at least one of the types can be
    compared (specification). *)
Definition mixed (h : store) (a b : nat) : Prop :=
  exists ty v ty' v', h a = NBox ty v /\ h b = NBox ty' v' /\ ty <> ty' /\ comparable ty || comparable ty' = true.

(** [l] holds the elements of the list at [a], whose pairs are at [cells]
    (specification). *)
Inductive is_list (h : store) : nat -> list nat -> list nat -> Prop :=
| list_end : forall a, h a = NNil -> is_list h a [] []
| list_more : forall a x b l cells, h a = NPair 0 x b -> is_list h b l cells -> is_list h a (x :: l) (a :: cells).

(** What a user expects of comparing two lists: as many elements, and the same
    ones (specification). *)
Definition same_lists (h : store) (l l' : list nat) : bool :=
  Nat.eqb (length l) (length l') && forallb (fun p => same_node h (fst p) (snd p)) (combine l l').
End Types.
