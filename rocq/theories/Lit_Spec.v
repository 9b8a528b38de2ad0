(** What number literals mean in C++ ([lex.icon], [lex.fcon]), independently of the
    code. *)
From Verif Require Import Base.
From Coq Require Import Ascii String QArith.
Local Open Scope Z_scope.

(** The digit characters in the order of their values, in both cases. *)
Definition lower_digits : list ascii := list_ascii_of_string "0123456789abcdef".
Definition upper_digits : list ascii := list_ascii_of_string "0123456789ABCDEF".
(** The character [c] stands for the digit [d] in the base. *)
Definition digit_char (base : Z) (c : ascii) (d : Z) : Prop :=
  0 <= d < base /\
  (nth_error lower_digits (Z.to_nat d) = Some c \/ nth_error upper_digits (Z.to_nat d) = Some c).

(** The characters are the digits [ds], with separators anywhere. *)
Inductive digit_seq (base : Z) : list ascii -> list Z -> Prop :=
| ds_nil : digit_seq base [] []
| ds_sep cs ds : digit_seq base cs ds -> digit_seq base ("'"%char :: cs) ds
| ds_digit c d cs ds : digit_char base c d -> digit_seq base cs ds -> digit_seq base (c :: cs) (d :: ds).

(** Their value, each digit with the weight of its position. *)
Fixpoint digits_value (base : Z) (ds : list Z) : Z :=
  match ds with
  | [] => 0
  | d :: ds' => d * base ^ Z.of_nat (List.length ds') + digits_value base ds'
  end.

(** An integer literal with its base and digits. *)
Inductive integer_literal : list ascii -> Z -> list Z -> Prop :=
| il_hex x cs ds : x = "x"%char \/ x = "X"%char -> digit_seq 16 cs ds -> integer_literal ("0"%char :: x :: cs) 16 ds
| il_bin x cs ds : x = "b"%char \/ x = "B"%char -> digit_seq 2 cs ds -> integer_literal ("0"%char :: x :: cs) 2 ds
| il_oct cs ds : digit_seq 8 cs ds -> integer_literal ("0"%char :: cs) 8 ds
| il_dec c cs ds : c <> "0"%char -> digit_seq 10 (c :: cs) ds -> integer_literal (c :: cs) 10 ds.

(** The exponent of a floating-point literal: an optional minus sign and decimal
    digits (the plus sign is treated separately). *)
Inductive exponent_part : list ascii -> bool -> list Z -> Prop :=
| ep_pos cs ds : digit_seq 10 cs ds -> exponent_part cs false ds
| ep_neg cs ds : digit_seq 10 cs ds -> exponent_part ("-"%char :: cs) true ds.
Definition exponent_value (neg : bool) (ds : list Z) : Z :=
  if neg then - digits_value 10 ds else digits_value 10 ds.

(** The digits of the exponent without its sign. *)
Definition exp_digits (es : list ascii) : list ascii :=
  match es with c :: es' => if Ascii.eqb c "-" then es' else es | [] => [] end.
(** The exponent has no superfluous leading zero. *)
Definition no_leading_zero (es : list ascii) : Prop :=
  exp_digits es = ["0"%char] \/ exists c t, exp_digits es = c :: t /\ c <> "0"%char.

(** The parts of a literal: the characters before the point, behind it, and of the
    exponent (without its letter). *)
Inductive float_parts (e1 e2 : ascii) : list ascii -> list ascii -> list ascii -> option (list ascii) -> Prop :=
| fp_int is : float_parts e1 e2 is is [] None
| fp_frac is fs : float_parts e1 e2 (is ++ "."%char :: fs) is fs None
| fp_int_exp is e es : e = e1 \/ e = e2 -> float_parts e1 e2 (is ++ e :: es) is [] (Some es)
| fp_frac_exp is fs e es : e = e1 \/ e = e2 -> float_parts e1 e2 (is ++ "."%char :: fs ++ e :: es) is fs (Some es).

(** The value of a literal with integer digits, fraction digits and an exponent to
    the base [eb] ([eb] is 10 for decimal and 2 for hexadecimal literals). *)
Definition float_value (base eb : Z) (ids fds : list Z) (e : Z) : Q :=
  (inject_Z (digits_value base (ids ++ fds)) * (inject_Z base) ^ (- Z.of_nat (List.length fds))
   * (inject_Z eb) ^ e)%Q.
