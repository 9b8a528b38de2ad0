(** C68: fractions of big integers as text and back. *)
From Coq Require Import QArith Znumtheory.
From Verif Require Import Base NumRepr_Model NumRepr_Spec NumRepr_Proofs
  FracText_Model FracText_Spec FracText_Proofs.
Local Open Scope Z_scope.

(** The representations that ship with the library meet the conditions of the theorems
    below. *)
Theorem C68_library_marks :
  marks_ok decimal decimal_marks /\ marks_ok binary binary_marks /\ marks_ok octal octal_marks /\
  marks_ok trinary trinary_marks /\ marks_ok hexadecimal hexadecimal_marks /\
  marks_ok hexadecimal_upper hexadecimal_upper_marks /\ marks_ok valanlottish valanlottish_marks.
Proof. exact std_usable. Qed.
Print Assumptions C68_library_marks.

Theorem C68_library_primes :
  table_ok decimal decimal_marks /\ table_ok binary binary_marks /\ table_ok octal octal_marks /\
  table_ok trinary trinary_marks /\ table_ok hexadecimal hexadecimal_marks /\
  table_ok hexadecimal_upper hexadecimal_upper_marks /\ table_ok valanlottish valanlottish_marks.
Proof. exact std_tables. Qed.
Print Assumptions C68_library_primes.

(** The text of a fraction, read as numbers are read, says the value of the fraction;
    it has no fraction separator if the expansion ends, and is the fraction in lowest
    terms otherwise. *)
Theorem C68_text_says_value : forall R M, repr_ok R -> marks_ok R M -> table_ok R M ->
  forall num den, 0 <= num -> 0 < den ->
  denotes R M (print_frac R M num den) (inject_Z num / inject_Z den)%Q /\
  (terminating (radix R) num den -> ~ In (m_slash M) (print_frac R M num den)) /\
  (~ terminating (radix R) num den ->
     exists a b, 0 <= a /\ 0 < b /\ Z.gcd a b = 1 /\ num * b = a * den /\
     exists s t, numeral_of R a s /\ numeral_of R b t /\ print_frac R M num den = s ++ m_slash M :: t).
Proof. exact print_frac_spec. Qed.
Print Assumptions C68_text_says_value.

Example C68_text_says_value_case :
  (** 123/8 = "15.375", 1/1000000 = "1e-6", 12/9 = "4/3", 5000 = "5e3" *)
  print_frac decimal decimal_marks 123 8 = [49;53;46;51;55;53] /\
  print_frac decimal decimal_marks 1 1000000 = [49;101;45;54] /\
  print_frac decimal decimal_marks 12 9 = [52;47;51] /\
  print_frac decimal decimal_marks 5000 1 = [53;101;51].
Proof. vm_compute. repeat split. Qed.

(** Reading gives the value that the text says. *)
Theorem C68_reading_value : forall R M, repr_ok R -> marks_ok R M ->
  forall s v, number_text R M s v -> exists n d,
  parse_frac R M s = Got (n, d) /\ 0 <= n /\ frac_is n d v.
Proof. exact parse_frac_value. Qed.
Print Assumptions C68_reading_value.

Example C68_reading_value_case :
  (** "3.25/5e2" *)
  number_text decimal decimal_marks [51;46;50;53;47;53;101;50]
    ((inject_Z 3 + inject_Z 25 / rad decimal ^ 2) / inject_Z 5 * rad decimal ^ 2) /\
  parse_frac decimal decimal_marks [51;46;50;53;47;53;101;50] = Got (32500, 500).
Proof.
  split; [|vm_compute; reflexivity].
  apply (@NT_exp decimal decimal_marks [51;46;50;53;47;53] _ [50] 2);
    [apply NT_ratio, (@RT_over decimal decimal_marks [51;46;50;53] [53])|].
  - apply (@PT_point decimal decimal_marks [51] [50;53]); reflexivity.
  - apply RT_plain, (@PT_int decimal decimal_marks [53]). reflexivity.
  - discriminate.
  - apply (@ET_digits decimal decimal_marks [50]); [discriminate|reflexivity].
Qed.

(** Exactly the numbers and the two special texts are accepted, and reading ends. *)
Theorem C68_accepted : forall R M, repr_ok R -> marks_ok R M -> forall s,
  (exists x, parse_frac R M s = Got x) <-> number_shape R M s \/ s = m_nan M \/ s = m_inf M.
Proof. exact parse_frac_accepts. Qed.
Print Assumptions C68_accepted.

Theorem C68_reading_ends : forall R M s,
  parse_frac R M s <> Deep.
Proof. exact parse_frac_ends. Qed.
Print Assumptions C68_reading_ends.

Example C68_accepted_case :
  (** "1.2.3" and "1e5/3" are refused, ".5e-" is accepted *)
  parse_frac decimal decimal_marks [49;46;50;46;51] = Err /\
  parse_frac decimal decimal_marks [49;101;53;47;51] = Err /\
  parse_frac decimal decimal_marks [46;53;101;45] = Got (5, 10).
Proof. vm_compute. repeat split. Qed.

(** Writing and reading back gives an equal fraction. *)
Theorem C68_round_trip : forall R M, repr_ok R -> marks_ok R M -> table_ok R M ->
  forall num den, 0 <= num -> 0 < den -> exists n d,
  parse_frac R M (print_frac R M num den) = Got (n, d) /\ 0 <= n /\ 0 < d /\ n * den = num * d.
Proof. exact frac_round_trip. Qed.
Print Assumptions C68_round_trip.

Theorem C68_signed_round_trip : forall R M, repr_ok R -> marks_ok R M -> table_ok R M ->
  forall neg num den, 0 <= num -> 0 < den -> exists n d,
  parse_sfrac R M (print_sfrac R M neg num den) = Got (neg, (n, d)) /\
  0 <= n /\ 0 < d /\ n * den = num * d.
Proof. exact sfrac_round_trip. Qed.
Print Assumptions C68_signed_round_trip.

Example C68_round_trip_case :
  parse_sfrac trinary trinary_marks (print_sfrac trinary trinary_marks true 40 81) = Got (true, (40, 81)) /\
  parse_sfrac valanlottish valanlottish_marks
    (print_sfrac valanlottish valanlottish_marks false 7 233) = Got (false, (35, 1165)) /\
  parse_sfrac hexadecimal hexadecimal_marks
    (print_sfrac hexadecimal hexadecimal_marks true 0xe00000000 7) = Got (true, (0x200000000, 1)).
Proof. vm_compute. repeat split. Qed.

Theorem C68_infinity : forall R M, marks_ok R M -> forall num,
  parse_frac R M (print_frac R M num 0) = Got (1, 0) /\
  (forall neg, parse_sfrac R M (print_sfrac R M neg num 0) = Got (neg, (1, 0))).
Proof. exact infinite_round_trip. Qed.
Print Assumptions C68_infinity.

Example C68_infinity_case :
  print_sfrac decimal decimal_marks true 5 0 = [45;73;110;102;105;110;105;116;121].
Proof. reflexivity. Qed.

(** Equal fractions have the same text, whatever their terms. *)
Theorem C68_equal_same_text : forall R M num den num' den',
  0 <= num -> 0 < den -> 0 <= num' -> 0 < den' ->
  num * den' = num' * den -> print_frac R M num den = print_frac R M num' den'.
Proof. exact equal_same_text. Qed.
Print Assumptions C68_equal_same_text.

Example C68_equal_same_text_case :
  print_frac decimal decimal_marks 30 48 = print_frac decimal decimal_marks 5 8 /\
  print_frac decimal decimal_marks 5 8 = [48;46;54;50;53].
Proof. vm_compute. repeat split. Qed.

(** A text that ends in the exponent separator is read outside of its bounds. *)
Theorem C68_dangling_exponent_undefined : forall R M s,
  s ++ [m_exp M] <> m_nan M -> s ++ [m_exp M] <> m_inf M ->
  parse_frac R M (s ++ [m_exp M]) = Bad.
Proof. exact dangling_exponent. Qed.
Print Assumptions C68_dangling_exponent_undefined.

Example C68_dangling_exponent_undefined_case :
  parse_frac decimal decimal_marks ([49] ++ [m_exp decimal_marks]) = Bad.
Proof. reflexivity. Qed.

(** With the same character as point and separator -- the default of the
    representation that is made at run time -- every decimal fraction is read as the
    quotient of its two parts. *)
Theorem C68_runtime_point_wrong : forall R M a b,
  m_slash M = m_point M -> m_exp M <> m_point M ->
  is_valid_char R (m_point M) = false -> is_valid_char R (m_exp M) = false ->
  all_digits R a = true -> all_digits R b = true ->
  a ++ m_point M :: b <> m_nan M -> a ++ m_point M :: b <> m_inf M ->
  parse_frac R M (a ++ m_point M :: b) = Got (text_val R a, text_val R b).
Proof. exact point_read_as_slash. Qed.
Print Assumptions C68_runtime_point_wrong.

Theorem C68_runtime_round_trip_refuted :
  let R := tabled [48;49;50;51;52;53;54;55;56;57] in
  repr_ok R /\ exists num den n d,
    print_frac R runtime_marks num den = [48;46;53] /\ num = 1 /\ den = 2 /\
    parse_frac R runtime_marks (print_frac R runtime_marks num den) = Got (n, d) /\
    n = 0 /\ d = 5.
Proof. exact runtime_round_trip. Qed.
Print Assumptions C68_runtime_round_trip_refuted.
