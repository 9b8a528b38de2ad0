(** Model of the greatest common divisor of big unsigned integers of any size,
    H/base_defs/math.hpp:943-1013.  Digits, width and the operators are those of
    UBig_Model and, for / and % on long operands, of UBigDiv_Model. *)
From Verif Require Import Base UBig_Model UBigDiv_Model Math_Model.
Local Open Scope Z_scope.
Local Open Scope dres_scope.

Section Lehmer.
Variable w : Z.
Variable ediv : nat -> nat.
(** The bounds of the model on the loops inside of / and %. *)
Variables lf fuel : nat.

(** math.hpp:961: [right_shift_in_base_type(m)] (ubigint.hpp:970-985) with a [size_t]. *)
Definition top_digits (x : list Z) (m : Z) : list Z :=
  if Z.of_nat (length x) <=? m then [] else skipn (Z.to_nat m) x.
(** math.hpp:957, 965: the four numbers A, B, C, D. *)
Definition matrix : Type := ((list Z * list Z) * (list Z * list Z))%type.
(** math.hpp:967-980, the inner loop; [n] bounds its rounds in the model.  [operator-=]
    gives zero when more is taken away than there is (ubigint.hpp:1038-1046). *)
Fixpoint inner (n : nat) (A B C D a b : list Z) : dres matrix :=
  match n with
  | O => DOut
  | S n' =>
      aA <- lift (add_base w a A) ;;
      bC <- lift (add_base w b C) ;;
      q <- fdiv w ediv lf fuel aA bC ;;
      aB <- lift (add_base w a B) ;;
      bD <- lift (add_base w b D) ;;
      q2 <- fdiv w ediv lf fuel aB bD ;;
      if negb (eq_digits q q2) then DOk ((A, B), (C, D))
      else
        qC <- lift (umul w q C) ;; A' <- lift (usub w A qC) ;;
        qD <- lift (umul w q D) ;; B' <- lift (usub w B qD) ;;
        qb <- lift (umul w q b) ;; a' <- lift (usub w a qb) ;;
        if unot D then DOk ((C, D), (A', B')) else inner n' C D A' B' b a'
  end.
(** math.hpp:958-989, the outer loop; [--m] on a [size_t].  The sums of lines 986 are of
    temporaries, which are [+=] (ubigint.hpp:1137-1140). *)
Fixpoint outer (n : nat) (m : Z) (x y : list Z) : dres (list Z) :=
  match n with
  | O => DOut
  | S n' =>
      if unot x || unot y then DOk x
      else
        let m' := (m - 1) mod 2 ^ 64 in
        '((A, B), (C, D)) <- inner n [1] [] [] [1] (top_digits x m') (top_digits y m') ;;
        if unot B then
          r <- fmod w ediv lf fuel x y ;; outer n' m' y r
        else
          Ax <- lift (umul w A x) ;; By <- lift (umul w B y) ;; x' <- lift (add_to_base w Ax By) ;;
          Cx <- lift (umul w C x) ;; Dy <- lift (umul w D y) ;; y' <- lift (add_to_base w Cx Dy) ;;
          outer n' m' x' y'
  end.
(** math.hpp:943-949 [base_gcd] with two bits: [binary_gcd] (Math_Model).  What it lacks in
    the model can only be rounds. *)
Definition base_gcd (n : nat) (x y : list Z) : dres (list Z) :=
  match ugcd_loop w n x y 0 with Some g => DOk g | None => DOut end.
(** math.hpp:950-990 [lehmer_gcd] on unsigned big integers. *)
Definition lehmer_gcd (n : nat) (x y : list Z) : dres (list Z) :=
  let '(x, y) := match ucompare x y with Lt => (y, x) | _ => (x, y) end in
  if Nat.leb (length y) 1 then base_gcd n x y
  else outer n (Z.of_nat (length y)) x y.
(** math.hpp:1001-1013 [gcd] on unsigned big integers. *)
Definition big_gcd (n : nat) (x y : list Z) : dres (list Z) :=
  if Nat.leb 256 (Nat.max (length x) (length y)) then lehmer_gcd n x y else base_gcd n x y.
End Lehmer.
