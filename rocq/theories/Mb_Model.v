(** Model of S/APIs/str_code_convert.hpp: texts of [char_t] to multibyte texts of
    the current locale and back.

    The locale is a parameter: what [c32rtomb] writes for a character, and what
    [mbrtoc32] makes of the bytes it has seen so far.  Only encodings without
    shift states ([mbstate_t] stays as it is between characters).  Strings grow
    as sequences (C31), so [+=] is list concatenation here. *)
From Verif Require Import Base.
Local Open Scope Z_scope.

(** What a row of bytes at the beginning of a character is: the whole character,
    a beginning, or neither (C standard, [mbrtoc32], used at
    S/APIs/str_code_convert.hpp:70). *)
Inductive mbread := MChar (c : Z) | MMore | MBad.
(** A locale: [c32rtomb] ([None]: not representable), [mbrtoc32] and
    [MB_LEN_MAX] (S/APIs/str_code_convert.hpp:50,54,70). *)
Record locale := mkLoc { l_enc : Z -> option (list Z); l_read : list Z -> mbread; l_max : nat }.

(** Result of [mbrtoc32]: read outside of readable memory, (size_t)-1, (size_t)-2, or a
    character and the count returned (S/APIs/str_code_convert.hpp:70). *)
Inductive mbres := RUb | RErr | RPart | RGot (c : Z) (n : nat).

(** [mbrtoc32(&c,i,MB_LEN_MAX,&stat)] (S/APIs/str_code_convert.hpp:70): takes
    byte after byte, [k] at most, until the character is complete; for the null
    character the count returned is 0 (C standard).  [mem] is the readable
    memory from the first byte of the text on.  Simplified: no byte is touched
    before it is needed. *)
Fixpoint mb_scan (L : locale) (k : nat) (mem : list Z) (i : nat) (p : list Z) : mbres :=
  match k with
  | O => RPart
  | S k' =>
    match nth_error mem i with
    | None => RUb
    | Some b =>
      match l_read L (p ++ [b]) with
      | MChar c => RGot c (if c =? 0 then O else length (p ++ [b]))
      | MMore => mb_scan L k' mem (S i) (p ++ [b])
      | MBad => RErr
      end
    end
  end.

(** What a conversion does: returns a text, ends the program ([die_with]),
    undefined behaviour; [Busy]: still running when the fuel is used up
    (S/APIs/str_code_convert.hpp:46-77). *)
Inductive conv := Text (l : list Z) | Dies | Wild | Busy.

(** [to_char_str] (S/APIs/str_code_convert.hpp:46-60); [aret] is the text so far. *)
Fixpoint to_char_loop (L : locale) (a aret : list Z) : conv :=
  match a with
  | [] => Text aret
  | c :: a' =>
    match l_enc L c with
    | None => Dies
    | Some r => to_char_loop L a' (aret ++ r)
    end
  end.
(** [to_char_str] (S/APIs/str_code_convert.hpp:46-60). *)
Definition to_char_str (L : locale) (a : list Z) : conv := to_char_loop L a [].

(** The loop of [to_char_t_str] (S/APIs/str_code_convert.hpp:69-75): [i] and [e]
    as distances from the first byte. *)
Fixpoint to_char_t_loop (fuel : nat) (L : locale) (mem : list Z) (i e : nat) (aret : list Z) : conv :=
  match fuel with
  | O => Busy
  | S f =>
    if Nat.eqb i e then Text aret
    else match mb_scan L (l_max L) mem i [] with
         | RUb => Wild
         | RErr | RPart => Dies
         | RGot c n => to_char_t_loop f L mem (i + n) e (aret ++ [c])
         end
  end.
(** [to_char_t_str] (S/APIs/str_code_convert.hpp:61-77) on the view of the bytes
    [a]; [after] is the readable memory behind them. *)
Definition to_char_t_str (fuel : nat) (L : locale) (a after : list Z) : conv :=
  to_char_t_loop fuel L (a ++ after) 0 (length a) [].

(** The UTF-8 locale, as the C libraries have it: shortest form, no surrogates
    (RFC 3629; the locale in which S/APIs/str_code_convert.hpp:54 usually runs). *)
Definition utf8_put (c : Z) : option (list Z) :=
  if c <? 0 then None
  else if c <? 0x80 then Some [c]
  else if c <? 0x800 then Some [0xC0 + c / 64; 0x80 + c mod 64]
  else if (0xD800 <=? c) && (c <? 0xE000) then None
  else if c <? 0x10000 then Some [0xE0 + c / 4096; 0x80 + (c / 64) mod 64; 0x80 + c mod 64]
  else if c <? 0x110000 then
    Some [0xF0 + c / 262144; 0x80 + (c / 4096) mod 64; 0x80 + (c / 64) mod 64; 0x80 + c mod 64]
  else None.
(** A continuation byte (RFC 3629; see [utf8_put]). *)
Definition utf8_tail (b : Z) : bool := (0x80 <=? b) && (b <? 0xC0).
(** The second byte after the first byte of a longer character (RFC 3629, UTF8-3
    and UTF8-4; see [utf8_put]). *)
Definition utf8_second (a b : Z) : bool :=
  utf8_tail b && (if a =? 0xE0 then 0xA0 <=? b else if a =? 0xED then b <? 0xA0
                  else if a =? 0xF0 then 0x90 <=? b else if a =? 0xF4 then b <? 0x90 else true).
(** Bytes seen so far (RFC 3629; see [utf8_put]). *)
Definition utf8_read (p : list Z) : mbread :=
  match p with
  | [a] => if (0 <=? a) && (a <? 0x80) then MChar a
           else if (0xC2 <=? a) && (a <? 0xF5) then MMore else MBad
  | [a; b] =>
    if (0xC2 <=? a) && (a <? 0xE0) then
      if utf8_tail b then MChar ((a - 0xC0) * 64 + (b - 0x80)) else MBad
    else if (0xE0 <=? a) && (a <? 0xF5) then if utf8_second a b then MMore else MBad
    else MBad
  | [a; b; c] =>
    if (0xE0 <=? a) && (a <? 0xF0) && utf8_second a b && utf8_tail c
    then MChar (((a - 0xE0) * 64 + (b - 0x80)) * 64 + (c - 0x80))
    else if (0xF0 <=? a) && (a <? 0xF5) && utf8_second a b && utf8_tail c then MMore
    else MBad
  | [a; b; c; d] =>
    if (0xF0 <=? a) && (a <? 0xF5) && utf8_second a b && utf8_tail c && utf8_tail d
    then MChar ((((a - 0xF0) * 64 + (b - 0x80)) * 64 + (c - 0x80)) * 64 + (d - 0x80))
    else MBad
  | _ => MBad
  end.
(** The locale; [MB_LEN_MAX] is 16 in glibc (S/APIs/str_code_convert.hpp:50). *)
Definition utf8_locale : locale := mkLoc utf8_put utf8_read 16.
