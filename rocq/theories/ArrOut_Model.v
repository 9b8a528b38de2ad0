(** Model of the output of arrays as text
    (H/base_stream/operators/_body.hpp:126-146).
    Simplifications: the text of an element that is not an array is given; the stream
    takes every character. *)
From Verif Require Import Base.
Local Open Scope Z_scope.

(** What is written: something with a text of its own, or an array. *)
Inductive item := One (text : list Z) | Many (l : list item).
(** [base_array_output] (H/base_stream/operators/_body.hpp:126-136): the loop with the
    position [i]; [show] is [operator<<] of an element. *)
Definition array_loop (show : item -> list Z) : list item -> nat -> list Z :=
  fix array_loop (l : list item) (i : nat) : list Z :=
  match l with
  | [] => []
  | x :: r => (if Nat.eqb i 0 then [] else [44]) ++ show x ++ array_loop r (S i)
  end.
(** [operator<<] (H/base_stream/operators/_body.hpp:137-146). *)
Fixpoint show (x : item) : list Z :=
  match x with
  | One text => text
  | Many l => [91] ++ array_loop show l 0 ++ [93]
  end.
