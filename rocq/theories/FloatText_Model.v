(** Built-in floating-point numbers as text and back.
    Models H/numerical_representation/to_string/_body.hpp:233-262, 276-426
    (printing) and 602-606, 693-706 (reading; for NaNs see NanText_Model).

    A floating-point number is the integer that has its bits (Float_Model), big
    unsigned integers are given by their values, texts are lists of characters
    (FracText_Model).
    [Ub]: the conversion of a number to an integer type that it does not fit into,
    or a shift that is too wide; [Out]: a loop ran longer than allowed for. *)
From Coq Require Import QArith Qround.
From Verif Require Import Base NumRepr_Model FracText_Model Float_Model Float_Spec Ref_Model FloatBig_Model.
Local Open Scope Z_scope.

Section FloatText.
Variables (F : finfo) (f : fmt).
(** Widths of size_t and float_exponent_t<T> (FloatBig_Model). *)
Variables sw ew : Z.
Variable R : repr.
Variable M : marks.
(** _body.hpp:296 [info_threshold_of_radix_num]: the logarithm of the greatest
    unsigned number as wide as T to the base of the radix, rounded up; it is computed
    in floating point, so it is a parameter here. *)
Variable limit_digits : Z.
Notation r := (radix R).

(** Turns that are enough for the conversion of a fraction with denominator [d]. *)
Definition enough (d : Z) : nat := S (S (Z.to_nat (Z.log2 d))).

(** math.hpp:276-296 [integer_log] by value. *)
Fixpoint ilog (fuel : nat) (n : Z) : Z :=
  match fuel with
  | O => 0
  | S fuel' => if n <? r then 0 else 1 + ilog fuel' (n / r)
  end.

(** _body.hpp:306-318 [rounding], the part after the zeros. *)
Definition round_digit (num : Z) : Z :=
  if r / 2 <=? num mod r then num / r + 1 else num / r.

(** _body.hpp:320-321: the loop. *)
Fixpoint round_to (fuel : nat) (limit num exp : Z) : res (Z * Z) :=
  if limit <? num then
    match fuel with
    | O => Out
    | S fuel' => round_to fuel' limit (round_digit num) (exp + 1)
    end
  else Ok (num, exp).

(** _body.hpp:330-340: the loop; [pn/pd] is [exp_pows], [bn] and [be] are the backups,
    [check] the bits of the number. *)
Fixpoint shorten (fuel : nat) (check num exp pn pd bn be : Z) : res (Z * Z) :=
  match fuel with
  | O => Out
  | S fuel' =>
    let zero := num mod r =? 0 in
    let '(num, exp, pn, bn, be) :=
      if zero then (num / r, exp + 1, pn * r, num / r, exp + 1) else (num, exp, pn, bn, be) in
    let num := round_digit num in
    let exp := exp + 1 in
    let pn := pn * r in
    match convert_to_float F f ew (enough pd) (num * pn) pd with
    | Ok x => if x =? check then shorten fuel' check num exp pn pd num exp else Ok (bn, be)
    | Ub => Ub
    | Out => Out
    end
  end.

(** _body.hpp:281-342 [apply_info_threshold]; the product of 288 is computed in the
    wider of data_type and size_t. *)
Definition apply_threshold (check num exp : Z) : res (Z * Z) :=
  let base := precision_base F * 2 in
  let limit := base * r mod 2 ^ Z.max (bw F) sw in
  let diff := ilog (turns num) num - limit_digits in
  let '(num, exp) := if 0 <? diff then (num / r ^ diff, exp + diff) else (num, exp) in
  match round_to (turns num) limit num exp with
  | Ok (num, exp) =>
    if base <? num then
      let p := radix_pow R exp in
      shorten (turns num) check num exp (fst p) (snd p) num exp
    else Ok (num, exp)
  | Ub => Ub
  | Out => Out
  end.

(** _body.hpp:344-352 [string_builder] for built-in types. *)
Definition float_builder (check num exp : Z) : res (list Z) :=
  match apply_threshold check num exp with
  | Ok (num, exp) => Ok (string_builder R M num exp)
  | Ub => Ub
  | Out => Out
  end.

(** _body.hpp:397-404: the loop; [more] is [exp]. *)
Fixpoint pull (more : nat) (number new_exp : Z) : Z * nat * Z :=
  match more with
  | O => (number, O, new_exp)
  | S more' =>
    if number mod (r / 2) =? 0 then pull more' (number / (r / 2)) (new_exp + 1)
    else (number, more, new_exp)
  end.

(** _body.hpp:382-425: after the guess. *)
Definition print_parts (num : Z) : res (list Z) :=
  let precision := get_precision F num in
  let exp := get_exponent F num in
  if r mod 2 =? 0 then
    if exp <? 0 then float_builder num (precision * (r / 2) ^ (- exp)) exp
    else if 0 <? exp then
      let '(number, more, new_exp) := pull (Z.to_nat exp) precision 0 in
      float_builder num (number * 2 ^ Z.of_nat more) new_exp
    else float_builder num precision exp
  else if exp <? 0 then
    Ok (to_string_with_exp R M precision ++ m_slash M :: utext R (2 ^ (- exp)))
  else Ok (to_string_with_exp R M (precision * 2 ^ exp)).

(** Language semantics: the greatest size_t converted to T, which is what a number is
    compared with (_body.hpp:369 and 378). *)
Definition max_size : Q := rv f (inject_Z (2 ^ sw - 1)).

(** _body.hpp:368-372: an integer that is a T. *)
Definition print_integer (p : Q) : res (list Z) :=
  if Qle_bool p max_size then
    match to_size_t sw p with Some n => Ok (to_string_with_exp R M n) | None => Ub end
  else Ok (to_string_with_exp R M (ubigint_of_float F f (rn f p))).

(** _body.hpp:353-426 [to_string_base] of a number without sign. *)
Definition print_float_base (num : Z) : res (list Z) :=
  match to_divide f sw (fabs f num) with
  | None => Ub
  | Some None => print_parts num
  | Some (Some (p, q)) =>
    if negb (q =? 1) then
      let '(rest, complete, _) := complement R (m_primes M) q 0 in
      if negb (rest =? 1) then
        match print_integer p with
        | Ok s => Ok (s ++ m_slash M :: utext R (rest * complete))
        | Ub => Ub
        | Out => Out
        end
      else print_parts num
    else if Qle_bool p max_size then
      match to_size_t sw p with Some n => Ok (to_string_with_exp R M n) | None => Ub end
    else print_parts num
  end.

(** _body.hpp:233-262 [to_string] of a number that is not a NaN. *)
Definition print_float (d : Z) : res (list Z) :=
  if isInf f d then
    if d =? inf_bits f then Ok (m_inf M) else Ok (m_minus M :: m_inf M)
  else if is_negative f d then
    match print_float_base (clear_sign f d) with
    | Ok s => Ok (m_minus M :: s)
    | Ub => Ub
    | Out => Out
    end
  else print_float_base (clear_sign f d).

(** _body.hpp:602-606, the end of [from_string_get_unsigneded] for built-in types. *)
Definition parse_ufloat (s : list Z) : read Z :=
  if same s (m_inf M) then Got (inf_bits f)
  else rbind (parse_base R M (S (length s)) s) (fun x =>
    match convert_to_float F f ew (enough (snd x)) (fst x) (snd x) with
    | Ok y => Got y
    | Ub => Bad
    | Out => Deep
    end).
(** _body.hpp:693-706; copy_as_negative (math.hpp:67-80) sets the sign. *)
Definition parse_float (s : list Z) : read Z :=
  match s with
  | [] => Bad
  | c :: t =>
    if c =? m_minus M then
      rbind (parse_ufloat t) (fun x => Got (clear_sign f x + 2 ^ (all_bits f - 1)))
    else if c =? m_plus M then parse_ufloat t
    else parse_ufloat s
  end.
End FloatText.

(** _body.hpp:296 for 64 bits and radix 10: the limit is 20 digits. *)
Definition print_double (d : Z) := print_float float64_info binary64 64 16 decimal decimal_marks 20 d.
Definition parse_double (s : list Z) := parse_float float64_info binary64 16 decimal decimal_marks s.
