(** Properties C17, C18, C19: numbers and their texts. *)
From Verif Require Import Base UBig_Model UBig_Spec BigInt_Model NumRepr_Model NumRepr_Spec
  NumRepr_Proofs NumRepr_Big NumRepr_Frac.
Open Scope Z_scope.

(** ** C17: text round trip *)

(** The built-in representations are usable: digits and characters correspond. *)
Theorem C17_representations :
  repr_ok decimal /\ repr_ok binary /\ repr_ok octal /\ repr_ok trinary /\ repr_ok valanlottish /\
  repr_ok hexadecimal /\ repr_ok hexadecimal_upper /\
  (forall t, NoDup t -> (2 <= length t)%nat -> repr_ok (tabled t)).
Proof.
  exact (conj decimal_ok (conj binary_ok (conj octal_ok (conj trinary_ok (conj valanlottish_ok
    (conj hexadecimal_ok (conj hexadecimal_upper_ok tabled_ok))))))).
Qed.
Print Assumptions C17_representations.

(** Characters of a table: those in it are digits and no others are; the index of another
    character is the largest value of [size_t]. *)
Theorem C17_table_characters : forall t c,
  (is_valid_char (tabled t) c = true <-> In c t) /\
  (~ In c t -> is_valid_char (tabled t) c = false /\ get_index (tabled t) c = 18446744073709551615).
Proof.
  intros t c. cbn [tabled is_valid_char get_index].
  assert (H : match index_of c t with Some _ => In c t | None => ~ In c t end).
  { induction t as [|x t IH]; cbn [index_of In]; [tauto|]. destruct (Z.eqb_spec x c) as [-> |N]; [now left|].
    destruct (index_of c t); cbn [option_map]; tauto. }
  destruct (index_of c t); split; try split; intros; try reflexivity; try tauto; try discriminate.
Qed.
Print Assumptions C17_table_characters.
(** Capital A is not a digit of the lower case table, small a is. *)
Example C17_table_characters_case : is_valid_char hexadecimal 65 = false /\ is_valid_char hexadecimal 97 = true /\
  get_index hexadecimal 97 = 10 /\ get_index hexadecimal 65 = 18446744073709551615.
Proof. vm_compute. repeat split. Qed.

(** A number has one numeral only. *)
Theorem C17_numeral_unique : forall R n s t, repr_ok R -> numeral_of R n s -> numeral_of R n t -> s = t.
Proof. exact (fun R n s t H => @numeral_unique R H n s t). Qed.
Print Assumptions C17_numeral_unique.

(** Unsigned built-in type of [d] bits: the text is the numeral and parsing it
    gives the number back. *)
Theorem C17_native_round_trip : forall R d v, repr_ok R -> (1 <= d)%nat -> 0 <= v < 2 ^ Z.of_nat d ->
  exists s, print_native R d v [] = Some s /\ numeral_of R v s /\
            parse_native R (2 ^ Z.of_nat d) 0 s = Some v.
Proof. exact native_round_trip. Qed.
Print Assumptions C17_native_round_trip.

(** Signed built-in type with values [-h .. h-1]. *)
Theorem C17_native_signed_round_trip : forall R minus plus f h v, repr_ok R ->
  is_valid_char R minus = false -> is_valid_char R plus = false ->
  0 < h -> - h <= v < h -> h < 2 ^ Z.of_nat f -> f <> 0%nat ->
  exists s, print_native_signed R f minus v = Some s /\
            parse_native_signed R (2 * h) minus plus s = Some (Some v).
Proof.
  exact (fun R minus plus f h v HR Hm Hp => @native_signed_round_trip R HR minus plus Hm Hp f h v).
Qed.
Print Assumptions C17_native_signed_round_trip.

(** Big integers, every radix: a printed text is the numeral of the number.
    Missing: numbers of more than 32 digits (see P_NumLong)
    and that a text is produced at all, see the theorems below. *)
Theorem C17_big_print_partial : forall R w nd f a s, repr_ok R -> 0 < w -> nd <> 0%nat ->
  radix R < size_t_values w nd -> canon (base w) a -> (length a <= 32)%nat ->
  print_big R w nd f a = Some s -> numeral_of R (val (base w) a) s.
Proof. exact (fun R w nd f a s HR Hw Hn Hr => @print_big_sound R HR w nd Hw Hn Hr f a s). Qed.
Print Assumptions C17_big_print_partial.

(** Big integers, every radix: whatever is printed is parsed back to the same
    number, whenever the parser delivers a result. *)
Theorem C17_big_round_trip_partial : forall R w nd thr f g a s x, repr_ok R -> 0 < w -> nd <> 0%nat ->
  radix R < size_t_values w nd -> radix R ^ Z.of_nat thr <= size_t_values w nd ->
  canon (base w) a -> (length a <= 32)%nat ->
  print_big R w nd f a = Some s -> parse_big R w nd g thr s = Some x -> x = Some a.
Proof.
  exact (fun R w nd thr f g a s x HR Hw Hn Hr Ht => @round_trip_sound R HR w nd Hw Hn Hr thr Ht f g a s x).
Qed.
Print Assumptions C17_big_round_trip_partial.

(** Big integers in any radix whose split bases fit ([splits_fit] is evaluated
    once per radix): every number of at most 32 digits is printed as its numeral
    and parsed back. *)
Theorem C17_big_total_partial : forall R w nd thr f a, repr_ok R -> 0 < w -> nd <> 0%nat ->
  radix R < size_t_values w nd -> radix R ^ Z.of_nat thr <= size_t_values w nd -> (1 <= thr)%nat ->
  (nd <= 31)%nat -> splits_fit R w nd = true ->
  canon (base w) a -> (length a <= 32)%nat -> val (base w) a < 2 ^ Z.of_nat f ->
  exists s, print_big R w nd f a = Some s /\ numeral_of R (val (base w) a) s /\
            parse_big R w nd (length s) thr s = Some (Some a).
Proof.
  exact (fun R w nd thr f a HR Hw Hn Hr Ht => @round_trip_total R HR w nd Hw Hn Hr thr Ht f a).
Qed.
Print Assumptions C17_big_total_partial.

(** Decimal, hexadecimal, octal and binary on 32-bit digits: all numbers up to
    1024 bits, without further condition; the thresholds are those of a 64-bit
    [size_t]. *)
Theorem C17_usual_radices : forall a R thr,
  In (R, thr) [(decimal, 19%nat); (hexadecimal, 15%nat); (octal, 21%nat); (binary, 63%nat)] ->
  canon (base 32) a -> (length a <= 32)%nat ->
  exists s, print_big R 32 2 (Z.to_nat 1024) a = Some s /\ numeral_of R (val (base 32) a) s /\
            parse_big R 32 2 (length s) thr s = Some (Some a).
Proof. exact four_radices. Qed.
Print Assumptions C17_usual_radices.

(** Signed big integers. *)
Theorem C17_bigint_total_partial : forall R w nd minus plus thr f x, repr_ok R -> 0 < w -> nd <> 0%nat ->
  radix R < size_t_values w nd -> is_valid_char R minus = false -> is_valid_char R plus = false ->
  radix R ^ Z.of_nat thr <= size_t_values w nd -> (1 <= thr)%nat -> (nd <= 31)%nat ->
  splits_fit R w nd = true ->
  canon (base w) (mag x) -> (length (mag x) <= 32)%nat -> val (base w) (mag x) < 2 ^ Z.of_nat f ->
  exists s g, print_bigint R w nd f minus x = Some s /\
              parse_bigint R w nd g thr minus plus s = Some (Some x).
Proof.
  exact (fun R w nd minus plus thr f x HR Hw Hn Hr Hm Hp =>
           @bigint_round_trip_total R HR w nd Hw Hn Hr minus plus Hm Hp thr f x).
Qed.
Print Assumptions C17_bigint_total_partial.

(** Not every number can be printed in radix 3: the split base is longer than
    half of the number, the quotient comes out one too large and the subtraction
    runs past the end of its buffer.  Same in radix 1165. *)
Theorem C17_ternary_print_refuted :
  exists a, canon (base 32) a /\ (length a <= 32)%nat /\ forall f, print_big trinary 32 2 f a = None.
Proof.
  exists (match of_uint 32 32 (2 ^ 700 / 3 ^ 256 * 3 ^ 256 - 1) with Some l => l | None => [] end).
  split; [apply UBig_Basics.canonb_ok; vm_compute; reflexivity|].
  split; [apply Nat.leb_le; vm_compute; reflexivity|].
  intros [|f]; vm_compute; reflexivity.
Qed.
Print Assumptions C17_ternary_print_refuted.
Theorem C17_radix_1165_print_refuted :
  exists a, canon (base 32) a /\ (length a <= 32)%nat /\ forall f, print_big valanlottish 32 2 f a = None.
Proof.
  exists (match of_uint 32 32 (2 ^ 600 / 1165 ^ 32 * 1165 ^ 32 - 1) with Some l => l | None => [] end).
  split; [apply UBig_Basics.canonb_ok; vm_compute; reflexivity|].
  split; [apply Nat.leb_le; vm_compute; reflexivity|].
  intros [|f]; vm_compute; reflexivity.
Qed.
Print Assumptions C17_radix_1165_print_refuted.

(** Cases: 2^64 and 2^100 in decimal, -255 in hexadecimal. *)
Example C17_case :
  print_big decimal 32 2 100 [0; 0; 1]
    = Some [49;56;52;52;54;55;52;52;48;55;51;55;48;57;53;53;49;54;49;54] /\
  obind (print_big decimal 32 2 100 [7; 0; 5; 16]) (parse_big decimal 32 2 40 19)
    = Some (Some [7; 0; 5; 16]) /\
  print_bigint hexadecimal 32 2 100 45 (Bi true [255]) = Some [45; 102; 102] /\
  parse_bigint hexadecimal 32 2 5 15 45 43 [45; 102; 102] = Some (Some (Bi true [255])) /\
  print_native valanlottish 64 1166 [] = Some [40961; 40961] /\
  print_native_signed decimal 8 45 (-128) = Some [45; 49; 50; 56] /\
  parse_native_signed decimal 256 45 43 [45; 49; 50; 56] = Some (Some (-128)) /\
  splits_fit decimal 32 2 = true /\ splits_fit decimal 16 4 = true /\ splits_fit decimal 8 8 = true.
Proof. vm_compute. repeat split. Qed.

(** ** C18: parsing rejects exactly malformed text *)

(** Unsigned built-in type with [m] values: an error exactly when some character
    is not a digit; otherwise the positional value -- reduced modulo [m]. *)
Theorem C18_native_partial : forall R m s, repr_ok R -> 0 < m ->
  parse_native R m 0 s = if all_digits R s then Some (text_val R s mod m) else None.
Proof. exact parse_native_exact. Qed.
Print Assumptions C18_native_partial.

(** Full statement for built-in types -- the value or an error -- is false: an
    over-long number is accepted silently. *)
Theorem C18_native_overflow_refuted :
  exists s v, all_digits decimal s = true /\ parse_native decimal (2 ^ 8) 0 s = Some v /\
              v <> text_val decimal s.
Proof. exists [51; 48; 48], 44. vm_compute. repeat split; congruence. Qed.
Print Assumptions C18_native_overflow_refuted.

(** Big integers: a delivered answer is an error exactly when some character is
    not a digit, and otherwise the positional value. *)
Theorem C18_big_exact_partial : forall R w nd thr f s x, repr_ok R -> 0 < w -> nd <> 0%nat ->
  radix R < size_t_values w nd -> radix R ^ Z.of_nat thr <= size_t_values w nd ->
  parse_big R w nd f thr s = Some x ->
  match x with
  | None => all_digits R s = false
  | Some a => all_digits R s = true /\ canon (base w) a /\ val (base w) a = text_val R s
  end.
Proof.
  exact (fun R w nd thr f s x HR Hw Hn Hr Ht => @parse_big_sound R HR w nd Hw Hn Hr thr Ht f s x).
Qed.
Print Assumptions C18_big_exact_partial.

(** An answer is delivered for every text short enough for the schoolbook
    multiplication (2016 bits on 32-bit digits). *)
Theorem C18_big_answers_partial : forall R w nd thr s, repr_ok R -> 0 < w -> nd <> 0%nat ->
  radix R < size_t_values w nd -> radix R ^ Z.of_nat thr <= size_t_values w nd -> (1 <= thr)%nat ->
  radix R ^ Z.of_nat (length s) <= base w ^ 63 ->
  exists x, parse_big R w nd (length s) thr s = Some x.
Proof.
  exact (fun R w nd thr s HR Hw Hn Hr Ht H1 Hb =>
           @parse_big_total R HR w nd Hw Hn Hr thr Ht (length s) H1 s (le_n _) Hb).
Qed.
Print Assumptions C18_big_answers_partial.

(** Parsing an empty text as a signed number reads outside the text. *)
Theorem C18_signed_empty_undefined : forall R w nd f thr m minus plus,
  parse_bigint R w nd f thr minus plus [] = None /\ parse_native_signed R m minus plus [] = None.
Proof. exact (fun R w nd f thr m minus plus => conj eq_refl eq_refl). Qed.
Print Assumptions C18_signed_empty_undefined.

(** A lone sign is accepted as zero. *)
Theorem C18_lone_sign_refuted :
  exists s, s = [45] /\ all_digits decimal [45] = false /\
            parse_bigint decimal 32 2 5 19 45 43 s = Some (Some (Bi true [])).
Proof. exists [45]. vm_compute. repeat split. Qed.
Print Assumptions C18_lone_sign_refuted.

Example C18_case :
  parse_native decimal (2 ^ 32) 0 [49; 50; 51] = Some 123 /\
  parse_native decimal (2 ^ 32) 0 [49; 120; 51] = None /\
  parse_native octal (2 ^ 32) 0 [49; 56] = None /\
  parse_big decimal 32 2 40 19 (repeat 57 30) = Some (of_uint 32 10 (10 ^ 30 - 1)) /\
  parse_big decimal 32 2 40 19 (repeat 57 20 ++ [47]) = Some None.
Proof. vm_compute. repeat split. Qed.

(** ** C19: fractions written out with a repeating group *)

(** Whatever is printed consists of the numeral of the integer part, the point
    and an expansion; it has no group exactly when the expansion ends; and it
    denotes the fraction exactly when the expansion ends or repeats from the
    first digit on. *)
Theorem C19_meaning_partial : forall R w nd f point o c num den s, repr_ok R -> 0 < w -> nd <> 0%nat ->
  radix R < size_t_values w nd -> canon (base w) num -> canon (base w) den -> num <> [] -> den <> [] ->
  (length num <= 32)%nat -> (length den + nd <= 32)%nat ->
  print_fractional R w nd f point o c num den = Some s ->
  let n := val (base w) num in let d := val (base w) den in
  exists i P Q, s = i ++ point :: expansion_text R o c P Q /\
    numeral_of R (n / d) i /\ digits_in (radix R) P /\ (forall q, Q = Some q -> digits_in (radix R) q) /\
    (Q = None <-> terminating (radix R) n d) /\
    (expansion_is (radix R) (n / d) P Q n d <->
       terminating (radix R) n d \/ purely_periodic (radix R) n d).
Proof.
  exact (fun R w nd f point o c num den s HR Hw Hn Hr =>
           @print_fractional_spec R HR w nd Hw Hn Hr f point o c num den s).
Qed.
Print Assumptions C19_meaning_partial.

(** Printing ends with a text when the denominator has at most two digits. *)
Theorem C19_prints_partial : forall R w nd f point o c num den, repr_ok R -> 0 < w -> nd <> 0%nat ->
  radix R < size_t_values w nd -> canon (base w) num -> canon (base w) den -> num <> [] -> den <> [] ->
  (length num <= nd)%nat -> (length den <= 2)%nat -> (length den + nd <= 32)%nat ->
  val (base w) den < Z.of_nat f ->
  exists s, print_fractional R w nd f point o c num den = Some s.
Proof.
  exact (fun R w nd f point o c num den HR Hw Hn Hr =>
           @print_fractional_total R HR w nd Hw Hn Hr f point o c num den).
Qed.
Print Assumptions C19_prints_partial.

(** 1/6 is printed as "0.[1]", which denotes 1/9. *)
Theorem C19_mixed_expansion_refuted :
  exists num den s, print_fractional decimal 32 2 50 46 91 93 num den = Some s /\
    s = [48] ++ 46 :: expansion_text decimal 91 93 [] (Some [1]) /\
    ~ expansion_is 10 0 [] (Some [1]) (val (base 32) num) (val (base 32) den) /\
    expansion_is 10 0 [] (Some [1]) 1 9.
Proof.
  exists [1], [6], [48; 46; 91; 49; 93]. vm_compute. repeat split; try congruence.
  intros [_ H]. congruence.
Qed.
Print Assumptions C19_mixed_expansion_refuted.

Example C19_case :
  (* 22/7 = 3.[142857], 7/8 = 0.875 *)
  print_fractional decimal 32 2 50 46 91 93 [22] [7] = Some [51;46;91;49;52;50;56;53;55;93] /\
  print_fractional decimal 32 2 50 46 91 93 [7] [8] = Some [48;46;56;55;53] /\
  purely_periodic 10 22 7 /\ terminating 10 7 8 /\
  expansion_is 10 3 [] (Some [1;4;2;8;5;7]) 22 7 /\ expansion_is 10 0 [8;7;5] None 7 8.
Proof.
  split; [vm_compute; reflexivity|]. split; [vm_compute; reflexivity|].
  split; [exists 6; split; [lia|exists 3142854; reflexivity]|].
  split; [exists 3; split; [lia|exists 875; reflexivity]|].
  vm_compute. repeat split; congruence.
Qed.
