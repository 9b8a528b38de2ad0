(** Texts of NaNs.
    Models H/numerical_representation/to_string/_body.hpp:190-232 and 251-262
    (printing), 561-601 and 693-706 (reading), H/base_defs/data.hpp:35-42, 89-149
    (data_block, data_view) and math.hpp:67-80 (copy_as_negative).

    A number is the integer that has its bits, its bytes in memory are in
    little-endian order.  Simplification: only types all of whose bytes belong to the
    value (not the 80-bit long double). *)
From Verif Require Import Base NumRepr_Model FracText_Model Float_Model Float_Spec Ref_Model FloatBig_Model FloatText_Model.
Local Open Scope Z_scope.

(** comn.hpp:44-51: the texts and signs that concern NaNs. *)
Record nan_marks : Type := mkNanMarks {
  n_signaling : list Z; n_quiet : list Z; n_start : Z; n_split : Z; n_end : Z }.

Section NanText.
Variables (F : finfo) (f : fmt).
(** sizeof(T) *)
Variable size : nat.
(** The bits of std::numeric_limits<T>::signaling_NaN() and quiet_NaN()
    (arithmetic_type_info_prover.hpp:68-73). *)
Variables snan qnan : Z.
Variables sw ew : Z.
Variable R : repr.
Variable M : marks.
Variable K : nan_marks.
Variable limit_digits : Z.

(** data.hpp:140-149 [data_view]: the bytes from index [i] on. *)
Fixpoint bytes_from (n : nat) (d : Z) : list Z :=
  match n with O => [] | S n' => d mod 256 :: bytes_from n' (d / 256) end.
(** data.hpp:42 [data_cast]: the number with these bytes. *)
Fixpoint of_bytes (b : list Z) : Z :=
  match b with [] => 0 | x :: b' => x + 256 * of_bytes b' end.

(** math.hpp:67-80 [copy_as_negative] (copysign). *)
Definition negated (d : Z) : Z := clear_sign f d + 2 ^ (all_bits f - 1).

(** _body.hpp:218, 584 [needs_split_sign]: fewer digits than a char has values
    (data.hpp:35). *)
Definition needs_split : bool := radix R <? 256.

(** _body.hpp:220-224: the loop. *)
Fixpoint show_bytes (b : list Z) : list Z :=
  match b with
  | [] => []
  | c :: b' => utext R c ++ (if needs_split then [n_split K] else []) ++ show_bytes b'
  end.
(** _body.hpp:225-228: the last character is replaced, or one is added. *)
Definition close (s : list Z) : list Z :=
  if needs_split then removelast s ++ [n_end K] else s ++ [n_end K].

(** _body.hpp:191-232 [to_string_NaN_handle]. *)
Definition print_nan (d : Z) : list Z :=
  if d =? snan then n_signaling K
  else if d =? negated snan then m_minus M :: n_signaling K
  else if d =? qnan then n_quiet K
  else if d =? negated qnan then m_minus M :: n_quiet K
  else close (m_nan M ++ n_start K :: show_bytes (bytes_from size d)).

(** _body.hpp:251-262 [to_string]. *)
Definition print_any (d : Z) : res (list Z) :=
  if isNaN f d then Ok (print_nan d) else print_float F f sw ew R M limit_digits d.

(** ** Reading *)

(** A block of [size] bytes, those that are not written yet are [None]
    (data.hpp:89-131); writing outside of it is undefined. *)
Fixpoint put (block : list (option Z)) (i : nat) (v : Z) : option (list (option Z)) :=
  match block, i with
  | [], _ => None
  | _ :: b, O => Some (Some v :: b)
  | x :: b, S i' => match put b i' v with Some b' => Some (x :: b') | None => None end
  end.
(** _body.hpp:597 [data_cast<T>(block)]: a number made of bytes that were not written
    is undefined. *)
Fixpoint take_bytes (block : list (option Z)) : option (list Z) :=
  match block with
  | [] => Some []
  | Some x :: b => match take_bytes b with Some l => Some (x :: l) | None => None end
  | None :: _ => None
  end.
Definition block_value (block : list (option Z)) : read Z :=
  match take_bytes block with Some l => Got (of_bytes l) | None => Bad end.

(** _body.hpp:585-596 with split signs; the text gets shorter in every turn. *)
Fixpoint read_split (turns : nat) (block : list (option Z)) (i : nat) (s : list Z) : read Z :=
  match turns with
  | O => Deep
  | S turns' =>
    let '(byte_str, rest) :=
      match split_first (n_split K) s with Some (a, b) => (a, Some b) | None => (s, None) end in
    let value := parse_native R 256 0 byte_str in
    match put block i (match value with Some v => v | None => 0 end) with
    | None => Bad
    | Some block' =>
      match rest with
      | None => match value with Some _ => block_value block' | None => Err end
      | Some str => match value with Some _ => read_split turns' block' (S i) str | None => Err end
      end
    end
  end.
(** _body.hpp:585-596 without split signs: the loop ends with an error only;
    pop_front of an empty text is undefined. *)
Fixpoint read_chars (block : list (option Z)) (i : nat) (s : list Z) : read Z :=
  match s with
  | [] => Bad
  | ch :: s' =>
    let valid := is_valid_char R ch in
    match put block i (if valid then get_index R ch mod 256 else 0) with
    | None => Bad
    | Some block' => if valid then read_chars block' (S i) s' else Err
    end
  end.

(** string/defs.hpp:891-899 [starts_with], and the rest of the text. *)
Fixpoint after (p s : list Z) : option (list Z) :=
  match p, s with
  | [], _ => Some s
  | x :: p', y :: s' => if x =? y then after p' s' else None
  | _, [] => None
  end.

(** _body.hpp:573-600: a text that starts like a NaN; [t] is what follows.  Removing
    the last character of an empty text is undefined. *)
Definition parse_data (t : list Z) : read Z :=
  match t with
  | [] => Got qnan
  | _ :: t' =>
    if last t 0 =? n_end K then
      match t' with
      | [] => Bad
      | _ =>
        let str := removelast t' in
        let block := repeat None size in
        if needs_split then read_split (S (length str)) block 0 str else read_chars block 0 str
      end
    else Got qnan
  end.

(** _body.hpp:563-606 [from_string_get_unsigneded] for built-in types. *)
Definition parse_uany (s : list Z) : read Z :=
  if same s (n_signaling K) then Got snan
  else if same s (n_quiet K) then Got qnan
  else match after (m_nan M) s with
       | Some t => parse_data t
       | None => parse_ufloat F f ew R M s
       end.
(** _body.hpp:693-706. *)
Definition parse_any (s : list Z) : read Z :=
  match s with
  | [] => Bad
  | c :: t =>
    if c =? m_minus M then rbind (parse_uany t) (fun x => Got (negated x))
    else if c =? m_plus M then parse_uany t
    else parse_uany s
  end.
End NanText.

(** comn.hpp:90-96: "signaling_NaN", "quiet_NaN", '[', ',', ']'. *)
Definition std_nan_marks : nan_marks :=
  mkNanMarks [115;105;103;110;97;108;105;110;103;95;78;97;78] [113;117;105;101;116;95;78;97;78] 91 44 93.
(** comn.hpp:220-229. *)
Definition valanlottish_nan_marks : nan_marks := mkNanMarks [0xA497] [0xA496] 0xA4B8 0xA4C4 0xA4B9.

(** double in decimal; the bits of its NaNs are those of usual compilers. *)
Definition show_double (d : Z) :=
  print_any float64_info binary64 8 0x7FF4000000000000 0x7FF8000000000000 64 16 decimal decimal_marks std_nan_marks 20 d.
Definition scan_double (s : list Z) :=
  parse_any float64_info binary64 8 0x7FF4000000000000 0x7FF8000000000000 16 decimal decimal_marks std_nan_marks s.
