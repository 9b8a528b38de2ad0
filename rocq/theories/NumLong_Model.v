(** Model of the text of big integers of any size: [to_string_base] of
    H/numerical_representation/to_string/_body.hpp:149-174 with the division of
    UBigDiv_Model, which takes the divide-and-conquer path for numbers of more
    than 32 digits.  [print_big] of NumRepr_Model is the same function for
    numbers on which the division stays on its short path. *)
From Verif Require Import Base UBig_Model BigInt_Model NumRepr_Model UBigDiv_Model.
Local Open Scope Z_scope.
Local Open Scope dres_scope.

Section Long.
Variable R : repr.
Variables (w : Z) (nd : nat).
(** ubigint.hpp:803, see UBigDiv_Model. *)
Variable ediv : nat -> nat.

(** to_string/_body.hpp:149-174 for [ubigint].  [fuel] bounds the recursion
    depth; [lf] and [df] are the bounds of the division. *)
Fixpoint print_long (lf df fuel : nat) (a : list Z) : dres (list Z) :=
  if is_safe_size_t w nd a then
    lift (print_native R (Z.to_nat (w * Z.of_nat nd)) (convert_to w (size_t_values w nd) a) [])
  else
    match fuel with
    | O => DOut
    | S f =>
        b0 <- lift (of_uint w nd (radix R)) ;;
        '(bs, len) <- lift (split_base w 64 (length a) b0 1) ;;
        '(hi, lo) <- fdivmod w ediv lf df a bs ;;
        h <- print_long lf df f hi ;;
        l <- print_long lf df f lo ;;
        DOk (h ++ pad_left (get_char R 0) len l)
    end.

(** to_string/_body.hpp:110-121 [to_string] for [bigint]: a signed big integer is its magnitude with the
    sign in front. *)
Definition print_long_signed (lf df fuel : nat) (minus : Z) (x : bi) : dres (list Z) :=
  s <- print_long lf df fuel (mag x) ;;
  DOk (if neg x then minus :: s else s).
End Long.
