(** Reading words, lines, numbers and truth values from a text stream, and writing
    them.  Models H/string/defs.hpp:1045-1127 ([operator>>] of strings, getline)
    and H/_multi/arithmetic_text_io.hpp:39-130
    (H = parts/header_file/files/elc/_files).

    Strings are lists of characters (C31).  [space] is isspace
    (S/char_set/isX.hpp:106-109, Char_Model). *)
From Verif Require Import Base Stream_Model NumRepr_Model.
Local Open Scope Z_scope.

Section Words.
Context {B : Type} (i : istream B).
Variable space : Z -> option bool.

(** H/string/defs.hpp:1049-1050, 1090-1091: leading spaces are skipped. *)
Fixpoint skip (fuel : nat) (st : B) : so B :=
  match fuel with
  | O => Endless
  | S f =>
      sbind (speek i st) (fun r =>
        match space (fst r) with
        | None => Wild
        | Some true => sbind (sget i (snd r)) (fun r2 => skip f (snd r2))
        | Some false => Fine (snd r)
        end)
  end.
(** H/string/defs.hpp:1081-1082: the characters up to the next space or the end. *)
Fixpoint take (fuel : nat) (acc : list Z) (st : B) : so (list Z * B) :=
  match fuel with
  | O => Endless
  | S f =>
      if s_end i st then Fine (acc, st)
      else sbind (speek i st) (fun r =>
        match space (fst r) with
        | None => Wild
        | Some true => Fine (acc, snd r)
        | Some false => sbind (sget i (snd r)) (fun r2 => take f (acc ++ [fst r2]) (snd r2))
        end)
  end.
(** H/string/defs.hpp:1045-1085, [stream>>str]. *)
Definition read_word (fuel : nat) (st : B) : so (list Z * B) :=
  sbind (skip fuel st) (fun st' => take fuel [] st').

(** H/string/defs.hpp:1122-1123: the characters up to CR, LF or the end; the
    stream is looked at twice. *)
Fixpoint take_line (fuel : nat) (acc : list Z) (st : B) : so (list Z * B) :=
  match fuel with
  | O => Endless
  | S f =>
      if s_end i st then Fine (acc, st)
      else sbind (speek i st) (fun r =>
        if fst r =? 13 then Fine (acc, snd r)
        else sbind (speek i (snd r)) (fun r1 =>
          if fst r1 =? 10 then Fine (acc, snd r1)
          else sbind (sget i (snd r1)) (fun r2 => take_line f (acc ++ [fst r2]) (snd r2))))
  end.
(** H/string/defs.hpp:1086-1127, getline. *)
Definition read_line (fuel : nat) (st : B) : so (list Z * B) :=
  sbind (skip fuel st) (fun st1 =>
  sbind (take_line fuel [] st1) (fun r =>
  sbind (endline i fuel (snd r)) (fun st2 => Fine (fst r, st2)))).

(** ** Values *)
(** What is read or written: unsigned and signed integers of [d] bits, bool,
    string. *)
Inductive kind := KU (d : nat) | KS (d : nat) | KB | KW.
Inductive datum := Num (v : Z) | Truth (b : bool) | Text (l : list Z).

(** H/numerical_representation/representations/bool.hpp:46-59. *)
Definition true_text : list Z := [116; 114; 117; 101].
Definition false_text : list Z := [102; 97; 108; 115; 101].
Definition other_prefix : list Z := [111; 116; 104; 101; 114; 40].
Definition other_suffix : list Z := [41].
(** The signs of the number formats (H/numerical_representation/representations/comn.hpp:86-87). *)
Definition plus_sign : Z := 43.
Definition minus_sign : Z := 45.
(** Equality of strings. *)
Definition str_eqb (a b : list Z) : bool := if list_eq_dec Z.eq_dec a b then true else false.

(** H/_multi/arithmetic_text_io.hpp:109-130: a bool from a word.  The variable
    keeps its value [old] if the word means nothing.  A byte other than 0 and 1 is
    no bool. *)
Definition bool_of (w : list Z) (old : bool) : so bool :=
  if str_eqb w true_text then Fine true
  else if str_eqb w false_text then Fine false
  else if str_eqb (firstn (length other_prefix) w) other_prefix then
    let r := skipn (length other_prefix) w in
    if str_eqb (skipn (length r - length other_suffix) r) other_suffix then
      match parse_native decimal 256 0 (firstn (length r - length other_suffix) r) with
      | None => Fine false
      | Some v => if v =? 0 then Fine false else if v =? 1 then Fine true else Wild
      end
    else Fine old
  else Fine old.

(** H/_multi/arithmetic_text_io.hpp:99-130: a value from a word; a word that is
    no number gives zero (to_string/_body.hpp:660: return {}), [old] is the value
    the variable had.  Simplified: the default number format, decimal. *)
Definition value_of (k : kind) (w : list Z) (old : datum) : so datum :=
  match k with
  | KU d =>
      Fine (Num (match parse_native decimal (2 ^ Z.of_nat d) 0 w with Some v => v | None => 0 end))
  | KS d =>
      match parse_native_signed decimal (2 ^ Z.of_nat d) minus_sign plus_sign w with
      | None => Wild
      | Some (Some v) => Fine (Num v)
      | Some None => Fine (Num 0)
      end
  | KB => sbind (bool_of w (match old with Truth b => b | _ => false end)) (fun b => Fine (Truth b))
  | KW => Fine (Text w)
  end.
(** [stream>>variable]. *)
Definition read_value (fuel : nat) (k : kind) (old : datum) (st : B) : so (datum * B) :=
  sbind (read_word fuel st) (fun r =>
  sbind (value_of k (fst r) old) (fun v => Fine (v, snd r))).
(** [stream>>v1>>v2>>...], each variable with its former value. *)
Fixpoint read_values (fuel : nat) (ks : list (kind * datum)) (st : B) : so (list datum * B) :=
  match ks with
  | [] => Fine ([], st)
  | (k, old) :: ks' =>
      sbind (read_value fuel k old st) (fun r =>
      sbind (read_values fuel ks' (snd r)) (fun r2 => Fine (fst r :: fst r2, snd r2)))
  end.

(** H/_multi/arithmetic_text_io.hpp:67-92, [stream<<value]: the text that is
    written. *)
Definition show (k : kind) (v : datum) : option (list Z) :=
  match k, v with
  | KU d, Num n => print_native decimal d n []
  | KS d, Num n => print_native_signed decimal d minus_sign n
  | KB, Truth b => Some (if b then true_text else false_text)
  | KW, Text l => Some l
  | _, _ => None
  end.
End Words.
