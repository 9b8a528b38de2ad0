(** Model of ending the program with a message (S/APIs/die.hpp:51-184), with [char_t]
    of 32 bits (S/default_data_type.hpp:33).

    Two systems: Windows, where wchar_t has 16 bits and the console is written to,
    and Linux, where it has 32 bits and the C stream stderr is written to.
    Simplifications: writing never fails but for the orientation of the stream (C
    standard, fwide); no debugger is present; no window is shown ([_WINMAIN_]); the
    third variant (lines 154-179), for systems where wchar_t has neither width, is left out. *)
From Verif Require Import Base Utf_Model.
From Coq Require Import String Ascii.
Local Open Scope Z_scope.
Local Open Scope list_scope.

(** Texts in the source (language semantics). *)
Definition txt (s : string) : list Z := map (fun a => Z.of_N (N_of_ascii a)) (list_ascii_of_string s).
(** A message: the pointer is null, the text in the view, and the memory that can be
    read behind it (H/base_defs/string_view.hpp:111-121). *)
Record message := mkM { m_null : bool; m_text : list Z; m_after : list Z }.
(** What is seen: characters, the red colour, the colour from before. *)
Inductive dev := DBytes (l : list Z) | DWide (l : list Z) | DRed | DBack.
(** The program aborts after this output, or the effect is undefined. *)
Inductive died := Aborted (l : list dev) | DWild.
(** How stderr was used before (C standard). *)
Inductive orientation := Unset | Byte | Wide.

(** Up to the first zero; [None] if there is none in this memory (C standard, strings). *)
Fixpoint c_string (l : list Z) : option (list Z) :=
  match l with
  | [] => None
  | c :: r => if c =? 0 then Some [] else option_map (cons c) (c_string r)
  end.

(** ** Windows *)
(** [Init_die_state], the text, [ConsoleLogEnd] (S/APIs/die.hpp:63-101). *)
Definition win_show (l : list dev) : died := Aborted (DRed :: l ++ [DBack]).
(** [die] (S/APIs/die.hpp:104-117). *)
Definition win_die : died := win_show [DBytes (10 :: txt "elc died." ++ [10])].
(** [die_with] (S/APIs/die.hpp:120-141,180-184): the text is converted into an array of
    2048 units, without a test of its size, and shown up to its first zero. *)
Definition win_die_with (m : message) : died :=
  if m_null m then win_die
  else match utf32_to_utf16 (m_text m) with
       | None => DWild
       | Some (_, _, us) =>
         if 2048 <=? Z.of_nat (List.length us) then DWild
         else match c_string (us ++ [0]) with
              | None => DWild
              | Some s => win_show [DWide (10 :: txt "elc died because:" ++ [10]); DWide s; DWide [10]]
              end
       end.

(** ** Linux *)
Section Linux.
(** The C library refuses to write characters of the other kind, and goes on (glibc);
    if not, doing so is undefined (C standard). *)
Variable refuses : bool.
(** A stream and what was written ([None]: undefined). *)
Definition lin := option (orientation * list dev).
(** [fputs] (C standard). *)
Definition fputs (l : list Z) (s : lin) : lin :=
  match s with
  | None => None
  | Some (Wide, w) => if refuses then Some (Wide, w) else None
  | Some (_, w) => Some (Byte, w ++ [DBytes l])
  end.
(** [fputws] of what is at this address (C standard). *)
Definition fputws (l : list Z) (s : lin) : lin :=
  match s with
  | None => None
  | Some (Byte, w) => if refuses then Some (Byte, w) else None
  | Some (_, w) => match c_string l with None => None | Some t => Some (Wide, w ++ [DWide t]) end
  end.
(** The end of the program (C standard, abort). *)
Definition lin_end (s : lin) : died := match s with None => DWild | Some (_, w) => Aborted w end.
(** [Init_die_state] (S/APIs/die.hpp:63-75), [ConsoleLogEnd] (91-101). *)
Definition red : list Z := 27 :: txt "[31m".
Definition back : list Z := 27 :: txt "[0m".
(** [die] (S/APIs/die.hpp:104-117). *)
Definition lin_die (o : orientation) : died :=
  lin_end (fputs back (fputs (10 :: txt "elc died." ++ [10]) (fputs red (Some (o, []))))).
(** [die_with] (S/APIs/die.hpp:120-125,142-153,180-184); [fputws] gets the address of
    the text (lines 84-90). *)
Definition lin_die_with (o : orientation) (m : message) : died :=
  if m_null m then lin_die o
  else lin_end (fputs back (fputws [10; 0] (fputws (m_text m ++ m_after m)
    (fputws (10 :: txt "elc died because:" ++ [10; 0]) (fputs red (Some (o, []))))))).
End Linux.
