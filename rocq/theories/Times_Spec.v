(** What a program relies on in loops of a number of turns. *)
From Verif Require Import Base Times_Model.
Local Open Scope Z_scope.

(** The numbers of the type with width [w]. *)
Definition fits (k : tkind) (w n : Z) : Prop :=
  match k with KUnsigned => 0 <= n < 2 ^ w | _ => - 2 ^ (w - 1) <= n < 2 ^ (w - 1) end.
(** Turns number [i] to [n] - 1, or fewer if the body ends the loop. *)
Inductive turns {St : Type} (body : St -> Z -> Z -> St * bool) (n : Z) : Z -> St -> St -> Prop :=
| turns_end : forall st, turns body n n st st
| turns_stop : forall i st st1, i < n -> body st i n = (st1, false) -> turns body n i st st1
| turns_go : forall i st st1 st2, i < n -> body st i n = (st1, true) -> turns body n (i + 1) st1 st2 -> turns body n i st st2.
(** A body that writes down what it is given. *)
Definition note (st : list (Z * Z)) (i n : Z) : list (Z * Z) * bool := (st ++ [(i, n)], true).
(** The body never ends the loop. *)
Definition endless {St : Type} (body : St -> Z -> Z -> St * bool) : Prop := forall st i n, snd (body st i n) = true.
