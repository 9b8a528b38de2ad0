(** [bigint::operator-=] with a native operand (H/bignum/bignum/bigint.hpp:221-233).
    The operand is given by its sign and its absolute value [t], which has the unsigned
    type of [nd] digits.  The operators + += - with native operands are not modelled: the
    first two have an ambiguous call in them (bigint.hpp:150,213: "other-(-x)" leads to
    380-382, where + of an rvalue big integer and a native integer has two candidates,
    146 and 268, none of which is better), - assigns to a constant (157,163). *)
From Verif Require Import Base UBig_Model Math_Model Bits_Model BigInt_Model.
Local Open Scope Z_scope.
Local Open Scope omonad_scope.

Section Native.
Variable w : Z.
(** bigint.hpp:221-233.  [_num+=other_abs] is ubigint.hpp:1026-1030, where the
    calculation is done in at least two digits (328); [_num < other_abs] is
    ubigint.hpp:229-248; [other_abs-_num] is ubigint.hpp:1278-1280, a native integer
    again; [_num-=other_abs] makes a big integer of the operand (ubigint.hpp:64-78,
    1038-1046). *)
Definition isub_assign_native (nd : nat) (a : bi) (s : bool) (t : Z) : option bi :=
  m <- (if Bool.eqb (neg a) s then addT w (Nat.max nd 2) (mag a) t else Some (mag a)) ;;
  u <- of_uint w nd t ;;
  match cmp_native w nd m t with
  | Lt =>
      r <- usub w u m ;;
      n <- of_uint w nd (convert_to w (base w ^ Z.of_nat nd) r) ;;
      Some (Bi (negb (neg a)) n)
  | _ => r <- usub w m u ;; Some (Bi (neg a) r)
  end.
End Native.
