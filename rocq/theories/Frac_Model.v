(** Exact fractions of big integers.
    Models H/bignum/bignum/ubigfloat.hpp (unsigned) and H/bignum/bignum/bigfloat.hpp
    (signed), H = parts/header_file/files/elc/_files.  Numerators and denominators
    are the digit lists of UBig_Model, so that everything wrong with the integer
    operations is inherited; [None]: undefined behaviour of an integer operation,
    or fuel exhausted.  The rvalue overloads of the integer operators are
    simplified to the by-value ones. *)
From Verif Require Import Base UBig_Model Math_Model Bits_Model BigInt_Model.
Local Open Scope Z_scope.
Local Open Scope omonad_scope.

(** ubigfloat.hpp:32-33. *)
Record uf : Type := Uf { num : list Z; den : list Z }.

(** bigfloat.hpp:40-41. *)
Record sf : Type := Sf { sneg : bool; smag : uf }.

Section Frac.
Variable w : Z.

(** ubigfloat.hpp:43 constructor from an unsigned integer, denominator 33. *)
Definition f_of_uint (n : list Z) : uf := Uf n [1].

(** ubigfloat.hpp:202-207. *)
Definition freciprocal (a : uf) : uf := Uf (den a) (num a).

(** ubigfloat.hpp:272-276 operator+, 330-334 operator+= (the numerator is complete
    before the denominator is changed, so x+=x is the same). *)
Definition fadd (a b : uf) : option uf :=
  n1 <- umul w (num a) (den b) ;;
  n2 <- umul w (num b) (den a) ;;
  n <- add_base w n1 n2 ;;
  d <- umul w (den a) (den b) ;;
  Some (Uf n d).

(** ubigfloat.hpp:290-294 operator-, 348-352 operator-=. *)
Definition fsub (a b : uf) : option uf :=
  n1 <- umul w (num a) (den b) ;;
  n2 <- umul w (num b) (den a) ;;
  n <- usub w n1 n2 ;;
  d <- umul w (den a) (den b) ;;
  Some (Uf n d).

(** ubigfloat.hpp:308-312 operator*, 366-370 operator*=. *)
Definition fmul (a b : uf) : option uf :=
  n <- umul w (num a) (num b) ;;
  d <- umul w (den a) (den b) ;;
  Some (Uf n d).

(** ubigfloat.hpp:319-323 operator/, 377-381 operator/= with a different object. *)
Definition fdiv (a b : uf) : option uf :=
  n <- umul w (num a) (den b) ;;
  d <- umul w (den a) (num b) ;;
  Some (Uf n d).

(** ubigfloat.hpp:377-381 x/=x: the second product reads the numerator that the
    first one has already overwritten. *)
Definition fdiv_self (a : uf) : option uf :=
  n <- umul w (num a) (den a) ;;
  d <- umul w (den a) n ;;
  Some (Uf n d).

(** ubigfloat.hpp:278-281, 296-299, 314-317, 325-328 and the assignments 336-339,
    354-357, 372-375, 383-386: an unsigned integer on the right. *)
Definition fadd_int (a : uf) (t : list Z) : option uf :=
  p <- umul w t (den a) ;; n <- add_base w (num a) p ;; Some (Uf n (den a)).
Definition fsub_int (a : uf) (t : list Z) : option uf :=
  p <- umul w t (den a) ;; n <- usub w (num a) p ;; Some (Uf n (den a)).
Definition fmul_int (a : uf) (t : list Z) : option uf :=
  n <- umul w (num a) t ;; Some (Uf n (den a)).
Definition fdiv_int (a : uf) (t : list Z) : option uf :=
  d <- umul w (den a) t ;; Some (Uf (num a) d).

(** ubigfloat.hpp:388-390 operator==, 398-400 operator<=>. *)
Definition feq (a b : uf) : option bool :=
  x <- umul w (num a) (den b) ;;
  y <- umul w (num b) (den a) ;;
  Some (eq_digits x y).
Definition fcmp (a b : uf) : option comparison :=
  x <- umul w (num a) (den b) ;;
  y <- umul w (num b) (den a) ;;
  Some (ucompare x y).

(** ubigfloat.hpp:392-396 and 402-406: an unsigned integer on the right. *)
Definition feq_int (a : uf) (t : list Z) : option bool :=
  p <- umul w t (den a) ;; Some (eq_digits (num a) p).
Definition fcmp_int (a : uf) (t : list Z) : option comparison :=
  p <- umul w t (den a) ;; Some (ucompare (num a) p).

(** ubigfloat.hpp:237-242 trunc, 250-257 split. *)
Definition ftrunc (a : uf) : option (list Z) := udiv w (num a) (den a).
Definition fsplit (a : uf) : option (list Z * uf) :=
  qr <- udivmod w (num a) (den a) ;; let '(q, r) := qr in Some (q, Uf r (den a)).

(** ubigfloat.hpp:462-466 simplify. *)
Definition fsimplify (fuel : nat) (a : uf) : option uf :=
  g <- ugcd w fuel (num a) (den a) ;;
  n <- udiv w (num a) g ;;
  d <- udiv w (den a) g ;;
  Some (Uf n d).

(** math.hpp:317-323 pow for fractions with an unsigned exponent. *)
Fixpoint fpow_loop (f : nat) (aret a : uf) (b : Z) : option uf :=
  match f with
  | O => None
  | S f' =>
      if b =? 0 then Some aret else
      aret' <- (if Z.odd b then fmul aret a else Some aret) ;;
      a' <- fmul a a ;;
      fpow_loop f' aret' a' (b / 2)
  end.
Definition fpow_nat (f : nat) (a : uf) (b : Z) : option uf := fpow_loop f (f_of_uint [1]) a b.
(** ubigfloat.hpp:477-485 pow with a signed exponent. *)
Definition fpow (f : nat) (a : uf) (e : Z) : option uf :=
  fpow_nat f (if e <? 0 then freciprocal a else a) (Z.abs e).

(** ubigfloat.hpp:500-502 hash, bigfloat.hpp:372-375. *)
Definition fhash (d : Z) (a : uf) : Z := (uhash d (num a) * 13 + uhash d (den a)) mod 2 ^ d.
Definition shash (d : Z) (a : sf) : Z :=
  if sneg a then fhash d (smag a) * 7 mod 2 ^ d else fhash d (smag a).

(** ** Signed fractions *)
(** bigfloat.hpp:96-102 unary minus (both overloads flip the sign). *)
Definition sneg_of (a : sf) : sf := Sf (negb (sneg a)) (smag a).

(** The test [_num>uother] of bigfloat.hpp:192, 205, 237, 254. *)
Definition fgt (a b : uf) : option bool :=
  c <- fcmp a b ;; Some (match c with Gt => true | _ => false end).

(** bigfloat.hpp:192-196 = 205-209 = 237-245 = 254-262: magnitudes of opposite
    direction. *)
Definition sdiff (s : bool) (a b : uf) : option sf :=
  g <- fgt a b ;;
  if (g : bool) then m <- fsub a b ;; Some (Sf s m)
  else m <- fsub b a ;; Some (Sf (negb s) m).

(** bigfloat.hpp:187-197 operator+, 230-247 operator+= (signed operand). *)
Definition sadd (a b : sf) : option sf :=
  if Bool.eqb (sneg a) (sneg b) then m <- fadd (smag a) (smag b) ;; Some (Sf (sneg a) m)
  else sdiff (sneg a) (smag a) (smag b).

(** bigfloat.hpp:200-210 operator-, 250-267 operator-=. *)
Definition ssub (a b : sf) : option sf :=
  if negb (Bool.eqb (sneg a) (sneg b)) then m <- fadd (smag a) (smag b) ;; Some (Sf (sneg a) m)
  else sdiff (sneg a) (smag a) (smag b).

(** bigfloat.hpp:213-216, 219-222 and 276-279, 288-291. *)
Definition smul (a b : sf) : option sf :=
  m <- fmul (smag a) (smag b) ;; Some (Sf (negb (Bool.eqb (sneg a) (sneg b))) m).
Definition sdiv (a b : sf) : option sf :=
  m <- fdiv (smag a) (smag b) ;; Some (Sf (negb (Bool.eqb (sneg a) (sneg b))) m).

(** bigfloat.hpp:225-228 operator+= with an operand of an unsigned type (the more
    constrained overload): the sign is not looked at. *)
Definition sadd_unsigned (a : sf) (b : uf) : option sf :=
  m <- fadd (smag a) b ;; Some (Sf (sneg a) m).
(** bigfloat.hpp:270-273 and 282-285 *= and /= with an unsigned operand. *)
Definition smul_unsigned (a : sf) (b : uf) : option sf :=
  m <- fmul (smag a) b ;; Some (Sf (sneg a) m).
Definition sdiv_unsigned (a : sf) (b : uf) : option sf :=
  m <- fdiv (smag a) b ;; Some (Sf (sneg a) m).

(** bigfloat.hpp:294-297 operator==, 300-308 operator<=>. *)
Definition seq_ (a b : sf) : option bool :=
  if negb (Bool.eqb (sneg a) (sneg b)) then Some false else feq (smag a) (smag b).
Definition scmp (a b : sf) : option comparison :=
  if negb (Bool.eqb (sneg a) (sneg b)) then Some (if sneg a then Lt else Gt)
  else c <- fcmp (smag a) (smag b) ;; Some (if sneg a then CompOpp c else c).

(** bigfloat.hpp:348-352 pow with an unsigned exponent, 353-357 with a signed one
    (which uses the absolute value of the exponent). *)
Definition spow (f : nat) (a : sf) (e : Z) : option sf :=
  m <- fpow_nat f (smag a) (Z.abs e) ;; Some (Sf (sneg a && Z.odd e) m).
End Frac.
