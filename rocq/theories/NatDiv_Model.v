(** Model of / and % with a native dividend and a signed big integer as divisor
    (H/bignum/bignum/bigint.hpp:387-396).  Signed and unsigned dividends of [d]
    bits, [d >= 32]. *)
From Verif Require Import Base UBig_Model Math_Model Bits_Model BigInt_Model MinMax_Model Cast_Model.
Local Open Scope Z_scope.
Local Open Scope omonad_scope.

Section NatDiv.
Variable w : Z.
(** [fuel]: the number of digits of the native type (UBig_Model.of_uint). *)
Variable fuel : nat.

(** [bigint{abs(forward<T>(a))}] (bigint.hpp:390, 395; abs is math.hpp:190-200, of an
    unsigned value the value itself). *)
Definition of_abs (t : ity) (a : Z) : option bi :=
  u <- (if sgn t then abs_signed (bits t) a else Some a) ;;
  m <- of_uint w fuel u ;; Some (Bi false m).
(** [remove_cvref<T>(x)]: conversion of a big integer to T (bigint.hpp:98-104; the sign
    is dropped for an unsigned T). *)
Definition to_type (t : ity) (x : bi) : ival :=
  {| vty := t; num := if sgn t then to_native w (bits t) x else convert_to w (2 ^ bits t) (mag x) |}.
(** bigint.hpp:388-391 [operator/(T&&,bigint_t&&)]; the left operand of the inner
    division is a temporary, which selects 279-281, i.e. [operator/=]. *)
Definition native_div (a : ival) (b : bi) : option ival :=
  let sign := xorb (int_negative a) (neg b) in
  x <- of_abs (vty a) (num a) ;;
  r <- idiv_assign w x b ;;
  copy_as_negative (to_type (vty a) r) sign.
(** bigint.hpp:393-396 [operator%(T&&,bigint_t&&)], with 283-285, i.e. [operator%=]. *)
Definition native_mod (a : ival) (b : bi) : option ival :=
  let sign := int_negative a in
  x <- of_abs (vty a) (num a) ;;
  r <- imod_assign w x b ;;
  copy_as_negative (to_type (vty a) r) sign.
End NatDiv.
