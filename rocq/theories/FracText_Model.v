(** Fractions as text and back.
    Models H/numerical_representation/to_string/_body.hpp:74-106, 127-148, 251-279,
    428-463, 496-550, 692-706 and get_denominator_complement
    (H/numerical_representation/representations/comn.hpp:62-80).

    Fractions are pairs of a numerator and a denominator, big integers are given by
    their values: that the digit algorithms compute these values, and the texts of
    unsigned integers, is proved elsewhere (C01-C18).  Texts are lists of characters.
    Simplification: exponents (ptrdiff_t, size_t) and lengths do not overflow. *)
From Verif Require Import Base NumRepr_Model.
Local Open Scope Z_scope.

(** comn.hpp:40-58: the other characters of a representation, its special texts and
    the table of prime factors of its radix. *)
Record marks : Type := mkMarks {
  m_point : Z; m_plus : Z; m_minus : Z; m_slash : Z; m_exp : Z;
  m_nan : list Z; m_inf : list Z; m_primes : list Z }.

(** A number of turns that is enough for loops that divide [n] by 2 or more. *)
Definition turns (n : Z) : nat := S (Z.to_nat (Z.log2 n)).

(** What reading gives: a value, a reported error, an access outside of the text
    (undefined), or recursion deeper than allowed for. *)
Inductive read (A : Type) : Type := Got (a : A) | Err | Bad | Deep.
Arguments Got {A} a. Arguments Err {A}. Arguments Bad {A}. Arguments Deep {A}.
Definition rbind {A B} (x : read A) (k : A -> read B) : read B :=
  match x with Got a => k a | Err => Err | Bad => Bad | Deep => Deep end.

Section FracText.
Variable R : repr.
Variable M : marks.

(** _body.hpp:124-126, 149-187: the text of an unsigned integer (by value). *)
Definition utext (n : Z) : list Z :=
  match print_native R (turns n) n [] with Some s => s | None => [] end.
(** _body.hpp:109-122: the text of a signed integer. *)
Definition stext (n : Z) : list Z :=
  if n <? 0 then m_minus M :: utext (- n) else utext n.

(** _body.hpp:95-106 [build_expression_str] with an unsigned exponent. *)
Definition build_up (base : list Z) (exp : Z) : list Z :=
  if exp =? 0 then base
  else
    let exp_str := utext exp in
    if Z.of_nat (length exp_str) + 1 <? exp then base ++ m_exp M :: exp_str
    else base ++ repeat (get_char R 0) (Z.to_nat exp).
(** _body.hpp:74-94 [build_expression_str] with a signed exponent. *)
Definition build (base : list Z) (exp : Z) : list Z :=
  if exp <? 0 then
    let exp_str := stext exp in
    let need_zero := Z.max 0 (- exp + 1 - Z.of_nat (length base)) in
    if Z.of_nat (length exp_str) <? need_zero then base ++ m_exp M :: exp_str
    else
      let base := repeat (get_char R 0) (Z.to_nat need_zero) ++ base in
      let dot_pos := Z.to_nat (Z.of_nat (length base) + exp) in
      firstn dot_pos base ++ m_point M :: skipn dot_pos base
  else if 0 <? exp then build_up base exp
  else base.

(** _body.hpp:138-148 [to_string_and_add_exp]: the loop. *)
Fixpoint strip (f : nat) (n exp : Z) : Z * Z :=
  match f with
  | O => (n, exp)
  | S f' =>
    if n =? 0 then (n, exp)
    else if negb (n mod radix R =? 0) then (n, exp)
    else strip f' (n / radix R) (exp + 1)
  end.
(** _body.hpp:344-352 [string_builder] for big fractions (no threshold, 288), and
    127-132 [to_string_with_exp]. *)
Definition string_builder (n exp : Z) : list Z :=
  let '(n, exp) := strip (turns n) n exp in build (utext n) exp.
Definition to_string_with_exp (n : Z) : list Z := string_builder n 0.

(** comn.hpp:69-77 and _body.hpp:441-447: dividing [d] by [i] as long as it goes; how
    often it went. *)
Fixpoint divide_out (f : nat) (d i : Z) : Z * Z :=
  match f with
  | O => (d, 0)
  | S f' =>
    if negb (d / i =? 0) && (d mod i =? 0) then
      let '(d', k) := divide_out f' (d / i) i in (d', k + 1)
    else (d, 0)
  end.
(** comn.hpp:62-80 [get_denominator_complement]: the remaining denominator, the
    factor, the exponent. *)
Fixpoint complement (table : list Z) (d exp : Z) : Z * Z * Z :=
  match table with
  | [] => (d, 1, exp)
  | i :: table' =>
    let '(d1, k) := divide_out (turns d) d i in
    let '(d2, c, e) := complement table' d1 (exp - k) in
    (d2, (radix R / i) ^ k * c, e)
  end.

(** _body.hpp:428-463 [to_string_base] of a fraction. *)
Definition print_frac_base (num den : Z) : list Z :=
  let g := Z.gcd num den in
  let num := num / g in
  let den := den / g in
  if num =? 0 then [get_char R 0]
  else if den =? 1 then to_string_with_exp num
  else
    let '(d0, k) := divide_out (turns den) den (radix R) in
    let '(d1, complete, exp) := complement (m_primes M) d0 (- k) in
    if negb (d1 =? 1) then utext num ++ m_slash M :: utext den
    else string_builder (num * complete) exp.

(** _body.hpp:251-264 [to_string] of an unsigned fraction (isNaN is never true,
    ubigfloat.hpp:229; isInf is 233) and of a signed one. *)
Definition print_frac (num den : Z) : list Z :=
  if den =? 0 then m_inf M else print_frac_base num den.
Definition print_sfrac (neg : bool) (num den : Z) : list Z :=
  if neg then m_minus M :: print_frac num den else print_frac num den.

(** ** Reading *)

(** The position of the first and of the last occurrence of a character, as the text
    before and the text behind it (find, reverse_find and substr, C61). *)
Fixpoint split_first (c : Z) (s : list Z) : option (list Z * list Z) :=
  match s with
  | [] => None
  | x :: r =>
    if x =? c then Some ([], r)
    else match split_first c r with Some (a, b) => Some (x :: a, b) | None => None end
  end.
Fixpoint split_last (c : Z) (s : list Z) : option (list Z * list Z) :=
  match s with
  | [] => None
  | x :: r =>
    match split_last c r with
    | Some (a, b) => Some (x :: a, b)
    | None => if x =? c then Some ([], r) else None
    end
  end.

(** _body.hpp:610-668: an unsigned integer (by value; exact by C18). *)
Fixpoint uparse (acc : Z) (s : list Z) : read Z :=
  match s with
  | [] => Got acc
  | ch :: r => if is_valid_char R ch then uparse (acc * radix R + get_index R ch) r else Err
  end.
(** _body.hpp:692-706 for bigint. *)
Definition sparse (s : list Z) : read Z :=
  match s with
  | [] => Bad
  | c :: r =>
    if c =? m_minus M then rbind (uparse 0 r) (fun n => Got (- n))
    else if c =? m_plus M then uparse 0 r
    else uparse 0 s
  end.

(** pow(radix,exp): ubigfloat.hpp:519-529 (1/radix^|exp| for a negative exponent,
    operator/ multiplies crosswise). *)
Definition radix_pow (e : Z) : Z * Z :=
  if e <? 0 then (1, radix R ^ (- e)) else (radix R ^ e, 1).

(** _body.hpp:496-541 [from_string_get_base]. *)
Fixpoint parse_base (f : nat) (s : list Z) : read (Z * Z) :=
  match f with
  | O => Deep
  | S f' =>
    match split_last (m_exp M) s with
    | Some (str, expstr) =>
      rbind (sparse expstr) (fun e =>
      rbind (parse_base f' str) (fun b =>
      let p := radix_pow e in Got (fst b * fst p, snd b * snd p)))
    | None =>
      match split_first (m_slash M) s with
      | Some (ns, ds) =>
        rbind (parse_base f' ns) (fun n =>
        rbind (parse_base f' ds) (fun d =>
        Got (fst n * snd d, snd n * fst d)))
      | None =>
        match split_first (m_point M) s with
        | Some (is, fs) =>
          rbind (uparse 0 is) (fun i =>
          rbind (uparse 0 fs) (fun fr =>
          let scale := radix R ^ Z.of_nat (length fs) in
          Got (i * scale + fr, scale)))
        | None => rbind (uparse 0 s) (fun n => Got (n, 1))
        end
      end
    end
  end.

(** Equality of texts (C31). *)
Fixpoint same (a b : list Z) : bool :=
  match a, b with
  | [], [] => true
  | x :: a', y :: b' => (x =? y) && same a' b'
  | _, _ => false
  end.

(** _body.hpp:542-550 [from_string_get_unsigneded<ubigfloat>]: NaN and infinity as
    double turn into 0/1 and 1/0 (C65). *)
Definition parse_frac (s : list Z) : read (Z * Z) :=
  if same s (m_nan M) then Got (0, 1)
  else if same s (m_inf M) then Got (1, 0)
  else parse_base (S (length s)) s.
(** _body.hpp:692-706 for bigfloat. *)
Definition parse_sfrac (s : list Z) : read (bool * (Z * Z)) :=
  match s with
  | [] => Bad
  | c :: r =>
    if c =? m_minus M then rbind (parse_frac r) (fun x => Got (true, x))
    else if c =? m_plus M then rbind (parse_frac r) (fun x => Got (false, x))
    else rbind (parse_frac s) (fun x => Got (false, x))
  end.
End FracText.

(** comn.hpp:86-97 and the representations 215-219: '.', '+', '-', '/', 'e', "NaN",
    "Infinity". *)
Definition std_marks (exp : Z) (primes : list Z) : marks :=
  mkMarks 46 43 45 47 exp [78; 97; 78] [73; 110; 102; 105; 110; 105; 116; 121] primes.
Definition decimal_marks : marks := std_marks 101 [2; 5].
Definition binary_marks : marks := std_marks 101 [2].
Definition octal_marks : marks := std_marks 101 [2].
Definition trinary_marks : marks := std_marks 101 [3].
(** comn.hpp:287-288: exponent separators 'V' and 'v'. *)
Definition hexadecimal_marks : marks := std_marks 86 [2].
Definition hexadecimal_upper_marks : marks := std_marks 118 [2].
(** comn.hpp:220-229. *)
Definition valanlottish_marks : marks :=
  mkMarks 0xA49B 0xA49C 0xA49D 0xA4BC 0xA4AB [0xA498] [0xA4BE] [5; 233].
(** comn.hpp:307-317: the defaults of the representation that is made at run time; the
    fraction separator is '.' as well. *)
Definition runtime_marks : marks :=
  mkMarks 46 43 45 46 101 [78; 97; 78] [73; 110; 102; 105; 110; 105; 116; 121] [2; 5].
