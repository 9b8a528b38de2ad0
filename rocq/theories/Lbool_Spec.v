(** What formulas of five-valued truth values should mean, without the fields of the
    class.  The documentation is H/base_defs/logical_bool.hpp:32-41. *)
From Verif Require Import Base Node_Model Lbool_Model.

(** Whether a value that is not unknown speaks for an answer: [either] for both,
    [neither] for none. *)
Definition speaks (v : five) (b : bool) : Prop :=
  match v with VTrue => b = true | VFalse => b = false | VEither => True | VNeither => False | VUnknown => False end.
(** Whether a formula speaks for an answer.  Two values are equal if they speak for
    the same answers. *)
Fixpoint tells (rho : nat -> five) (f : form) (b : bool) : Prop :=
  match f with
  | FVar x => speaks (rho x) b
  | FNot g => tells rho g (negb b)
  | FAnd g h => if b then tells rho g true /\ tells rho h true else tells rho g false \/ tells rho h false
  | FOr g h => if b then tells rho g true \/ tells rho h true else tells rho g false /\ tells rho h false
  | FEq g h =>
      let same := (tells rho g true <-> tells rho h true) /\ (tells rho g false <-> tells rho h false) in
      if b then same else ~ same
  end.
(** The variables of a formula. *)
Fixpoint occurs (x : nat) (f : form) : Prop :=
  match f with
  | FVar y => x = y
  | FNot g => occurs x g
  | FAnd g h | FOr g h | FEq g h => occurs x g \/ occurs x h
  end.
(** A formula in which something is unknown. *)
Definition in_doubt (rho : nat -> five) (f : form) : Prop := exists x, occurs x f /\ rho x = VUnknown.
(** The formula on ordinary bools. *)
Fixpoint plain (rho : nat -> bool) (f : form) : bool :=
  match f with
  | FVar x => rho x
  | FNot g => negb (plain rho g)
  | FAnd g h => if plain rho g then plain rho h else false
  | FOr g h => if plain rho g then true else plain rho h
  | FEq g h => Bool.eqb (plain rho g) (plain rho h)
  end.
(** Formulas without equality. *)
Fixpoint no_equality (f : form) : Prop :=
  match f with
  | FVar _ => True
  | FNot g => no_equality g
  | FAnd g h | FOr g h => no_equality g /\ no_equality h
  | FEq _ _ => False
  end.
