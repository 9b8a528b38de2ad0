(** Model of the division of big unsigned integers of any size: the
    divide-and-conquer path of H/bignum/bignum/ubigint.hpp:750-846 and the
    operators that reach it (881-913, 1054-1071).  The pieces it uses (schoolbook
    division, multiplication, subtraction) are those of UBig_Model; digits and
    the width [w] are as there. *)
From Verif Require Import Base UBig_Model.
Local Open Scope Z_scope.

(** Outcome of a computation: a value, undefined behaviour, or the recursion
    bound of the model was too small. *)
Inductive dres (A : Type) : Type :=
| DOk (x : A)
| DUb
| DOut.
Arguments DOk {A} _.
Arguments DUb {A}.
Arguments DOut {A}.
Definition dbind {A C} (m : dres A) (k : A -> dres C) : dres C :=
  match m with DOk x => k x | DUb => DUb | DOut => DOut end.
(** Results of UBig_Model: there [None] is undefined behaviour. *)
Definition lift {A} (o : option A) : dres A :=
  match o with Some x => DOk x | None => DUb end.
Declare Scope dres_scope.
Notation "x <- m ;; k" := (dbind m (fun x => k))
  (at level 61, m at next level, right associativity) : dres_scope.
Notation "' p <- m ;; k" := (dbind m (fun p => k))
  (at level 61, p pattern, m at next level, right associativity) : dres_scope.
Local Open Scope dres_scope.

Section FastDiv.
Variable w : Z.
Notation base := (base w).
(** ubigint.hpp:803 [to_size_t(b.size()/magic_number::e)]: the floating-point
    quotient of a size by Euler's number, rounded.  Its value is not computed
    here; the theorems hold for every function, or for every one whose values
    are positive and below the argument. *)
Variable ediv : nat -> nat.

(** ubigint.hpp:753-765 [fast_div_regularisation]: scale both operands by the
    largest multiplier that keeps the two leading digits of the divisor in
    place.  Line 755 reads the digit below the top one: for a one-digit divisor
    that is outside of the array.  When both leading digits are maximal
    [first2] is [base*base], for 32-bit digits 0 after wrapping and a division
    by zero; for 8-bit digits the multiplier is 0, both operands become 0 and
    [divmod_base] then reads outside of the array. *)
Definition regularise (a b : list Z) : dres (list Z * list Z * list Z) :=
  match rev b with
  | hi :: lo :: _ =>
      let first2 := hi * base + lo + 1 in
      if first2 =? base * base then DUb
      else
        muti <- lift (of_uint w 2 ((base * base - 1) / first2)) ;;
        a' <- lift (umul w a muti) ;;
        b' <- lift (umul w b muti) ;;
        DOk (a', b', muti)
  | _ => DUb
  end.

(** ubigint.hpp:811-814: the correction loop of the trial quotient.  [lf] bounds
    the iterations of the model. *)
Fixpoint fix_down (lf : nat) (remain ans a b : list Z) : dres (list Z * list Z) :=
  match ucompare remain a with
  | Gt =>
      match lf with
      | O => DOut
      | S f =>
          remain' <- lift (sub_base w remain b) ;;
          fix_down f remain' (sub_one w ans) a b
      end
  | _ => DOk (remain, ans)
  end.

(** ubigint.hpp:797-836 [fast_divmod_base_impl]; the result is (quotient,
    remainder).  [data_type m] (827-829) is the low digits of [a] followed by the
    remainder of the high part and is not shrunk, nor is the copy of [a] returned
    by line 798. *)
Fixpoint impl (lf fuel : nat) (a b : list Z) : dres (list Z * list Z) :=
  match fuel with
  | O => DOut
  | S f =>
      match ucompare a b with
      | Lt => DOk ([], a)
      | _ =>
          if Nat.leb (length a) 32 then lift (divmod_base w a b)
          else
            let half := ((length b + 1) / 2)%nat in
            if Nat.leb (length a) (half * 3) then
              let k := ediv (length b) in
              '(_, a1, b1) <- lift (no_mod_opt (skipn k a) (skipn k b)) ;;
              '(q, _) <- impl lf f a1 b1 ;;
              p <- lift (umul w q b) ;;
              '(p', q') <- fix_down lf p q a b ;;
              r <- lift (sub_base w a p') ;;
              DOk (q', r)
            else
              let k := if Nat.ltb (half * 4) (length a) then (length a / 2)%nat else half in
              '(q1, r1) <- impl lf f (skipn k a) b ;;
              '(q2, r2) <- impl lf f (firstn k a ++ r1) b ;;
              q <- lift (add_to_base w (repeat 0 k ++ q1) q2) ;;
              DOk (q, r2)
      end
  end.

(** ubigint.hpp:881-887 [operator/] with 776-781 [fast_div_base]; also 1054-1058
    [operator/=]. *)
Definition fdiv (lf fuel : nat) (a b : list Z) : dres (list Z) :=
  match b with
  | [] => DOk []
  | _ =>
      if Nat.ltb (length a) (length b) then DOk []
      else
        '(_, a1, b1) <- lift (no_mod_opt a b) ;;
        if Nat.leb (length a1) 32 then
          '(q, _) <- lift (long_div w a1 b1) ;; DOk q
        else
          '(a2, b2, _) <- regularise a1 b1 ;;
          '(q, _) <- impl lf fuel a2 b2 ;;
          DOk q
  end.
(** ubigint.hpp:889-895 [operator%] with 789-795 [fast_mod_base]; also 1060-1071
    [operator%=] with 782-788. *)
Definition fmod (lf fuel : nat) (a b : list Z) : dres (list Z) :=
  match b with
  | [] => DOk []
  | _ =>
      if Nat.ltb (length a) (length b) then DOk a
      else if Nat.leb (length a) 32 then lift (mod_base w a b)
      else
        '(a2, b2, muti) <- regularise a b ;;
        '(_, r) <- impl lf fuel a2 b2 ;;
        fdiv lf fuel r muti
  end.
(** ubigint.hpp:897-913 [divmod] with 766-772 [fast_divmod_base]. *)
Definition fdivmod (lf fuel : nat) (a b : list Z) : dres (list Z * list Z) :=
  match b with
  | [] => DOk ([], [])
  | _ =>
      if Nat.ltb (length a) (length b) then DOk ([], a)
      else if Nat.leb (length a) 32 then lift (divmod_base w a b)
      else
        '(a2, b2, muti) <- regularise a b ;;
        '(q, r) <- impl lf fuel a2 b2 ;;
        r' <- fdiv lf fuel r muti ;;
        DOk (q, r')
  end.
End FastDiv.

(** ubigint.hpp:803 for the sizes used in the examples: Euler's number to six
    digits. *)
Definition e_floor (n : nat) : nat := Z.to_nat (Z.of_nat n * 100000 / 271828).
