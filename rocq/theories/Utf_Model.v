(** Model of S/char_set/convert.hpp: UTF-8/16/32 conversions.  Code units are
    integers in the range of their type. *)
From Verif Require Import Base.
Local Open Scope Z_scope.

(** Outcome of decoding one character: an out-of-range read, [npos], or a code
    and the number of units used. *)
Inductive dres := DUB | DFail | DOk (code : Z) (size : nat).

(** Reading unit [i] of the input; reading past the end is undefined. *)
Definition rd (inp : list Z) (i : nat) (k : Z -> dres) : dres :=
  match nth_error inp i with Some x => k x | None => DUB end.

(** convert.hpp:42-97 [decode_utf8]; [in_size_max] is [end - in], passed by every
    caller as the number of units left. *)
Definition decode_utf8 (inp : list Z) (in_size_max : nat) : dres :=
  rd inp 0 (fun code1 =>
  if code1 <? 0x80 then DOk code1 1
  else if code1 <? 0xC2 then DFail
  else if code1 <? 0xE0 then
    if Nat.ltb in_size_max 2 then DFail else
    rd inp 1 (fun code2 =>
    if negb (Z.land code2 0xC0 =? 0x80) then DFail else
    DOk (Z.shiftl code1 6 + code2 - 0x3080) 2)
  else if code1 <? 0xF0 then
    if Nat.ltb in_size_max 3 then DFail else
    rd inp 1 (fun code2 =>
    if negb (Z.land code2 0xC0 =? 0x80) then DFail else
    if (code1 =? 0xE0) && (code2 <? 0xA0) then DFail else
    rd inp 2 (fun code3 =>
    if negb (Z.land code3 0xC0 =? 0x80) then DFail else
    DOk (Z.shiftl code1 12 + Z.shiftl code2 6 + code3 - 0xE2080) 3))
  else if code1 <? 0xF5 then
    if Nat.ltb in_size_max 4 then DFail else
    rd inp 1 (fun code2 =>
    if negb (Z.land code2 0xC0 =? 0x80) then DFail else
    if (code1 =? 0xF0) && (code2 <? 0x90) then DFail else
    if (code1 =? 0xF4) && (0x90 <=? code2) then DFail else
    rd inp 2 (fun code3 =>
    if negb (Z.land code3 0xC0 =? 0x80) then DFail else
    rd inp 3 (fun code4 =>
    if negb (Z.land code4 0xC0 =? 0x80) then DFail else
    DOk (Z.shiftl code1 18 + Z.shiftl code2 12 + Z.shiftl code3 6 + code4 - 0x3C82080) 4)))
  else DFail).
(** convert.hpp:98-111 [get_decode_utf8_size]; [None] is [npos]. *)
Definition get_decode_utf8_size (x : Z) : option nat :=
  if x <? 0x80 then Some 1%nat
  else if x <? 0xC2 then None
  else if x <? 0xE0 then Some 2%nat
  else if x <? 0xF0 then Some 3%nat
  else if x <? 0xF5 then Some 4%nat
  else None.
(** convert.hpp:112-126 [decode_utf16]. *)
Definition decode_utf16 (inp : list Z) (in_size_max : nat) : dres :=
  rd inp 0 (fun code1 =>
  if (0xD800 <=? code1) && (code1 <? 0xDC00) then
    if Nat.ltb in_size_max 2 then DFail else
    rd inp 1 (fun code2 =>
    if (0xDC00 <=? code2) && (code2 <? 0xE000)
    then DOk (Z.shiftl code1 10 + code2 - 0x35FDC00) 2
    else DFail)
  else DOk code1 1).
(** Reading one UTF-32 unit, [*in] and [++in] in convert.hpp:367-433. *)
Definition decode_utf32 (inp : list Z) (in_size_max : nat) : dres :=
  rd inp 0 (fun c => DOk c 1).

(** convert.hpp:133-157 [encode_utf8]; the units are truncated to [char8_t]. *)
Definition encode_utf8 (c : Z) : option (list Z) :=
  if c <? 0x80 then Some [c mod 256]
  else if c <? 0x800 then
    Some [(Z.shiftr c 6 + 0xC0) mod 256; (Z.land c 0x3F + 0x80) mod 256]
  else if c <? 0x10000 then
    Some [(Z.shiftr c 12 + 0xE0) mod 256; (Z.land (Z.shiftr c 6) 0x3F + 0x80) mod 256;
          (Z.land c 0x3F + 0x80) mod 256]
  else if c <? 0x110000 then
    Some [(Z.shiftr c 18 + 0xF0) mod 256; (Z.land (Z.shiftr c 12) 0x3F + 0x80) mod 256;
          (Z.land (Z.shiftr c 6) 0x3F + 0x80) mod 256; (Z.land c 0x3F + 0x80) mod 256]
  else None.
(** convert.hpp:158-169 [get_encode_utf8_size]. *)
Definition get_encode_utf8_size (c : Z) : option nat :=
  if c <? 0x80 then Some 1%nat
  else if c <? 0x800 then Some 2%nat
  else if c <? 0x10000 then Some 3%nat
  else if c <? 0x110000 then Some 4%nat
  else None.
(** convert.hpp:170-181 [encode_utf16]. *)
Definition encode_utf16 (c : Z) : option (list Z) :=
  if c <? 0x10000 then Some [c mod 65536]
  else if c <? 0x110000 then
    Some [(Z.shiftr c 10 + 0xD7C0) mod 65536; (Z.land c 0x3FF + 0xDC00) mod 65536]
  else None.
(** convert.hpp:182-189 [get_encode_utf16_size]. *)
Definition get_encode_utf16_size (c : Z) : option nat :=
  if c <? 0x10000 then Some 1%nat
  else if c <? 0x110000 then Some 2%nat
  else None.
(** Writing one UTF-32 unit, [*out++ = code] (convert.hpp:277,359). *)
Definition encode_utf32 (c : Z) : option (list Z) := Some [c].

(** The conversion loop shared by convert.hpp:221-243 (8 to 16), 262-281 (8 to
    32), 304-326 (16 to 8), 346-363 (16 to 32), 382-398 (32 to 8), 417-433 (32
    to 16).  The result is (success, length of the processed input, processed
    output).  [None] is an undefined read, or fuel exhausted. *)
Fixpoint conv_loop (dec : list Z -> nat -> dres) (enc : Z -> option (list Z)) (fuel : nat)
    (inp : list Z) (n : nat) (out : list Z) : option (bool * nat * list Z) :=
  match inp with
  | [] => Some (true, n, out)
  | _ =>
      match fuel with
      | O => None
      | S f =>
          match dec inp (length inp) with
          | DUB => None
          | DFail => Some (false, n, out)
          | DOk c sz =>
              match enc c with
              | None => Some (false, n, out)
              | Some u => conv_loop dec enc f (skipn sz inp) (n + sz) (out ++ u)
              end
          end
      end
  end.
Definition conv dec enc (inp : list Z) := conv_loop dec enc (length inp) inp 0 [].
(** convert.hpp:221-243. *)
Definition utf8_to_utf16 := conv decode_utf8 encode_utf16.
(** convert.hpp:262-281. *)
Definition utf8_to_utf32 := conv decode_utf8 encode_utf32.
(** convert.hpp:304-326. *)
Definition utf16_to_utf8 := conv decode_utf16 encode_utf8.
(** convert.hpp:346-363. *)
Definition utf16_to_utf32 := conv decode_utf16 encode_utf32.
(** convert.hpp:382-398. *)
Definition utf32_to_utf8 := conv decode_utf32 encode_utf8.
(** convert.hpp:417-433. *)
Definition utf32_to_utf16 := conv decode_utf32 encode_utf16.
(** convert.hpp:452-464 (32 to 32): copies, checks nothing. *)
Fixpoint utf32_to_utf32_loop (inp : list Z) (n : nat) (out : list Z) : bool * nat * list Z :=
  match inp with
  | [] => (true, n, out)
  | c :: r => utf32_to_utf32_loop r (n + 1) (out ++ [c])
  end.
Definition utf32_to_utf32 (inp : list Z) := Some (utf32_to_utf32_loop inp 0 []).

(** Result of a size prediction: undefined, [npos] or a count.  (Fuel exhausted
    is reported as undefined.) *)
Inductive sres := SUB | SNpos | SLen (n : nat).
(** The size loop shared by convert.hpp:203-217, 285-300, 330-342, 367-378,
    402-413; [fin] is what happens after the loop. *)
Fixpoint size_loop (dec : list Z -> nat -> dres) (encsize : Z -> option nat) (fin : nat -> sres)
    (fuel : nat) (inp : list Z) (out_size : nat) : sres :=
  match inp with
  | [] => fin out_size
  | _ =>
      match fuel with
      | O => SUB
      | S f =>
          match dec inp (length inp) with
          | DUB => SUB
          | DFail => SNpos
          | DOk c sz =>
              match encsize c with
              | None => SNpos
              | Some t => size_loop dec encsize fin f (skipn sz inp) (out_size + t)
              end
          end
      end
  end.
(** convert.hpp:203-217: control falls off the end of the function, undefined. *)
Definition get_utf8_to_utf16_size (inp : list Z) :=
  size_loop decode_utf8 get_encode_utf16_size (fun _ => SUB) (length inp) inp 0.
(** convert.hpp:285-300. *)
Definition get_utf16_to_utf8_size (inp : list Z) :=
  size_loop decode_utf16 get_encode_utf8_size SLen (length inp) inp 0.
(** convert.hpp:330-342. *)
Definition get_utf16_to_utf32_size (inp : list Z) :=
  size_loop decode_utf16 (fun _ => Some 1%nat) SLen (length inp) inp 0.
(** convert.hpp:367-378. *)
Definition get_utf32_to_utf8_size (inp : list Z) :=
  size_loop decode_utf32 get_encode_utf8_size SLen (length inp) inp 0.
(** convert.hpp:402-413. *)
Definition get_utf32_to_utf16_size (inp : list Z) :=
  size_loop decode_utf32 get_encode_utf16_size SLen (length inp) inp 0.
(** convert.hpp:247-258: looks at lead bytes only; advancing past the end stops
    the loop. *)
Fixpoint utf8_lead_loop (fuel : nat) (inp : list Z) (out_size : nat) : sres :=
  match inp with
  | [] => SLen out_size
  | x :: _ =>
      match fuel with
      | O => SUB
      | S f =>
          match get_decode_utf8_size x with
          | None => SNpos
          | Some t => utf8_lead_loop f (skipn t inp) (out_size + 1)
          end
      end
  end.
Definition get_utf8_to_utf32_size (inp : list Z) := utf8_lead_loop (length inp) inp 0.
