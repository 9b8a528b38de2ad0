(** The assembly variants of addition with carry and subtraction with borrow
    (S/basic_environment/add_sub_carry.hpp, S = parts/_share), taken at run time by
    compilers that are neither GCC-like nor MSVC (basic_environment/_defs.hpp:35-53).
    The portable variant, which constant evaluation uses, is in UBig_Model. *)
From Verif Require Import Base UBig_Model.
Local Open Scope Z_scope.

Section Carry.
Variable w : Z.
(** add_sub_carry.hpp:62-70: the sum is left in the register of the first input,
    the output operand gets the carry flag and is returned. *)
Definition x86_add (a b : Z) : Z * bool :=
  let carry := base w <=? a + b in (b2z carry, carry).
(** add_sub_carry.hpp:71-79: [adc] of two zero registers is the carry flag. *)
Definition arm_add (a b : Z) : Z * bool :=
  let carry := base w <=? a + b in (b2z carry, carry).
(** add_sub_carry.hpp:132-140. *)
Definition x86_sub (a b : Z) : Z * bool :=
  let borrow := a <? b in (b2z borrow, borrow).
(** add_sub_carry.hpp:141-149: [sbc] of two zero registers is minus the borrow. *)
Definition arm_sub (a b : Z) : Z * bool :=
  let borrow := a <? b in (if borrow then base w - 1 else 0, borrow).
End Carry.
