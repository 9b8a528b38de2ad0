(** The five-valued truth values of ELC (H/base_defs/logical_bool.hpp).  The
    record, the conversions, [!] and [&&] are in Node_Model.v, which uses them for
    the comparison of nodes; here are the remaining operators, and formulas that
    are made with all of them. *)
From Verif Require Import Base Node_Model.

(** [operator||], which evaluates both sides (H/base_defs/logical_bool.hpp:66-68). *)
Definition lor (a b : lbool) : lbool :=
  mkL (is_true a || is_true b) (is_false a && is_false b) (is_unknown a || is_unknown b).
(** [operator==] (H/base_defs/logical_bool.hpp:69-73): the conversion from bool, of
    which the third field is then overwritten. *)
Definition leq (a b : lbool) : lbool :=
  let aret := of_bool (Bool.eqb (is_true a) (is_true b) && Bool.eqb (is_false a) (is_false b)) in
  mkL (is_true aret) (is_false aret) (is_unknown a || is_unknown b).

(** The values that a program can start with: the two bools through the conversion
    (H/base_defs/logical_bool.hpp:54) and the three constants (75).  The constructor
    with [special_init] (53) is used for the constants only. *)
Inductive five := VTrue | VFalse | VNeither | VEither | VUnknown.
(** H/base_defs/logical_bool.hpp:54,75. *)
Definition start (v : five) : lbool :=
  match v with VTrue => of_bool true | VFalse => of_bool false | VNeither => neither | VEither => either | VUnknown => unknown end.

(** What is written with the operators of H/base_defs/logical_bool.hpp:58-73. *)
Inductive form := FVar (x : nat) | FNot (f : form) | FAnd (f g : form) | FOr (f g : form) | FEq (f g : form).
(** Its value, H/base_defs/logical_bool.hpp:58-73. *)
Fixpoint lvalue (rho : nat -> five) (f : form) : lbool :=
  match f with
  | FVar x => start (rho x)
  | FNot g => lnot (lvalue rho g)
  | FAnd g h => land (lvalue rho g) (lvalue rho h)
  | FOr g h => lor (lvalue rho g) (lvalue rho h)
  | FEq g h => leq (lvalue rho g) (lvalue rho h)
  end.
