(** Signed arbitrary-precision integers.
    Models H/bignum/bignum/bigint.hpp (H = parts/header_file/files/elc/_files):
    a sign and an unsigned big integer; the magnitude operations are those of
    UBig_Model, so that everything wrong with them is inherited.
    [None]: undefined behaviour of a magnitude operation, or fuel exhausted in
    the recursion between addition and subtraction. *)
From Verif Require Import Base UBig_Model Math_Model Bits_Model.
Local Open Scope Z_scope.
Local Open Scope omonad_scope.

(** bigint.hpp:40-41. *)
Record bi : Type := Bi { neg : bool; mag : list Z }.

Section BigInt.
Variable w : Z.

(** bigint.hpp:43-48, the private constructors: no negative zero. *)
Definition mk (m : list Z) (s : bool) : bi := Bi (if unot m then false else s) m.

(** bigint.hpp:57, constructor from a native signed value of [d] bits; [fuel]
    bounds the number of digits (ubigint constructor, see UBig_Model.of_uint).
    The absolute value is math.hpp:190-200. *)
Definition of_native (fuel : nat) (d v : Z) : option bi :=
  a <- abs_signed d v ;;
  m <- of_uint w fuel a ;;
  Some (Bi (v <? 0) m).

(** bigint.hpp:98-104 convert_to<T> for a signed T of [d] bits, with
    math::copy_as_negative (math.hpp:68-81: T{}-x computed in the unsigned type)
    and the conversion of that unsigned value to T. *)
Definition to_native (d : Z) (a : bi) : Z :=
  let u := convert_to w (2 ^ d) (mag a) in
  let x := (if neg a then 0 - u else u) mod 2 ^ d in
  if x <? 2 ^ (d - 1) then x else x - 2 ^ d.

(** bigint.hpp:64-69 operator== between big integers. *)
Definition ieq (a b : bi) : bool :=
  if negb (Bool.eqb (neg a) (neg b)) then false else eq_digits (mag a) (mag b).

(** bigint.hpp:71-79 operator<=> between big integers; compare.reverse is
    compare.hpp:362-369. *)
Definition icmp (a b : bi) : comparison :=
  if negb (Bool.eqb (neg a) (neg b)) then (if neg a then Lt else Gt)
  else let t := ucompare (mag a) (mag b) in
       if neg a then CompOpp t else t.

(** bigint.hpp:115-117 unary minus of an lvalue. *)
Definition ineg (a : bi) : bi := mk (mag a) (negb (neg a)).
(** bigint.hpp:118-121 unary minus of an rvalue: in place, no normalisation. *)
Definition ineg_move (a : bi) : bi := Bi (negb (neg a)) (mag a).

(** bigint.hpp:220-233 operator-=. *)
Definition isub_assign (a b : bi) : option bi :=
  m <- (if Bool.eqb (neg a) (neg b) then add_to_base w (mag a) (mag b) else Some (mag a)) ;;
  if match ucompare m (mag b) with Lt => true | _ => false end then
    r <- usub w (mag b) m ;; Some (Bi (negb (neg a)) r)
  else
    r <- usub w m (mag b) ;; Some (Bi (neg a) r).

(** bigint.hpp:210-218 operator+= with an lvalue big integer operand.  In the
    second branch "other-(-move( *this))" has an lvalue on the left and an rvalue
    big integer on the right, which selects operator-(bigint&&)const& (297-299):
    (-move(x))+y with an rvalue on the left, which selects
    operator+(const bigint&)&& (268-270), i.e. += again. *)
Fixpoint iadd_assign (fuel : nat) (a b : bi) : option bi :=
  match fuel with
  | O => None
  | S f =>
      if Bool.eqb (neg a) (neg b) then
        m <- add_to_base w (mag a) (mag b) ;; Some (Bi (neg a) m)
      else if neg a then
        iadd_assign f (ineg_move (ineg_move a)) b
      else isub_assign a (ineg b)
  end.

(** bigint.hpp:297-299 operator-(bigint&&)const&: lvalue minus rvalue. *)
Definition isub_rv (fuel : nat) (a b : bi) : option bi :=
  iadd_assign fuel (ineg_move b) a.

(** bigint.hpp:146-153 operator+ of two lvalues. *)
Definition iadd (fuel : nat) (a b : bi) : option bi :=
  if Bool.eqb (neg a) (neg b) then
    m <- add_base w (mag a) (mag b) ;; Some (mk m (neg a))
  else if neg a then isub_rv fuel b (ineg a)
  else isub_rv fuel a (ineg b).

(** bigint.hpp:156-167 operator- of two lvalues.  As written it assigns to the
    constant [sign] (157, 163) and cannot be compiled; modelled as if [sign] were
    a variable. *)
Definition isub (a b : bi) : option bi :=
  if negb (Bool.eqb (neg a) (neg b)) then
    m <- add_base w (mag a) (mag b) ;; Some (mk m (neg a))
  else if match ucompare (mag a) (mag b) with Lt => true | _ => false end then
    m <- usub w (mag b) (mag a) ;; Some (mk m (negb (neg a)))
  else
    m <- usub w (mag a) (mag b) ;; Some (mk m (neg a)).

(** bigint.hpp:170-173, 176-179, 182-184: * / % of lvalues. *)
Definition imul (a b : bi) : option bi :=
  m <- umul w (mag a) (mag b) ;; Some (mk m (negb (Bool.eqb (neg a) (neg b)))).
Definition idiv (a b : bi) : option bi :=
  m <- udiv w (mag a) (mag b) ;; Some (mk m (negb (Bool.eqb (neg a) (neg b)))).
Definition imod (a b : bi) : option bi :=
  m <- umod w (mag a) (mag b) ;; Some (mk m (neg a)).

(** bigint.hpp:236-240, 243-247, 250-254: *= /= %= (also the operators of an
    rvalue left operand, 274-285): no normalisation of zero.  ubigint's *= and /=
    (ubigint.hpp:1048-1058) assign the by-value results; its %= works in place and
    is simplified to the by-value result. *)
Definition imul_assign (a b : bi) : option bi :=
  m <- umul w (mag a) (mag b) ;; Some (Bi (negb (Bool.eqb (neg a) (neg b))) m).
Definition idiv_assign (a b : bi) : option bi :=
  m <- udiv w (mag a) (mag b) ;; Some (Bi (negb (Bool.eqb (neg a) (neg b))) m).
Definition imod_assign (a b : bi) : option bi :=
  m <- umod w (mag a) (mag b) ;; Some (Bi (neg a) m).

(** bigint.hpp:187-189 operator<<, 263-266 operator>>=. *)
Definition ishl (a : bi) (n : Z) : bi := mk (ushl w (mag a) n) (neg a).
Definition ishr_assign (a : bi) (n : Z) : bi := Bi (neg a) (ushr_assign w (mag a) n).

(** bigint.hpp:311-320 operator++. *)
Definition iinc (a : bi) : bi :=
  if neg a then
    let m := sub_one w (mag a) in Bi (if unot m then false else true) m
  else Bi false (add_one w (mag a)).

(** bigint.hpp:327-335 operator--. *)
Definition idec (a : bi) : bi :=
  let s := if negb (neg a) && unot (mag a) then true else neg a in
  if s then Bi s (add_one w (mag a)) else Bi s (sub_one w (mag a)).

(** ubigint.hpp:1257-1259 and bigint.hpp:350-353 hash; the hash of one digit is its
    value (hash.hpp, is_fundamental_hash), [d] is the width of size_t. *)
Definition uhash (d : Z) (m : list Z) : Z := hash_seq d m.
Definition ihash (d : Z) (a : bi) : Z :=
  if neg a then uhash d (mag a) * 7 mod 2 ^ d else uhash d (mag a).

End BigInt.
