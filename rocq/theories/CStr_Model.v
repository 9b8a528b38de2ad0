(** Constant strings: the search tables that are computed when the string is
    made, and the searches that use them.
    Models H/base_defs/constexpr_str.hpp (H = parts/header_file/files/elc/_files),
    on top of Range_Model.  Characters are integers, [w] is the width of the
    character type in bits, [idx] is hash(ch) % 256 (arbitrary). *)
From Verif Require Import Base Range_Model.
Local Open Scope nat_scope.

Section CStr.
Variable w : Z.
Variable idx : Z -> nat.

(** constexpr_str.hpp:66-76: the characters and the tables.  [c_marks] holds the
    table of line 73 if is_bitmark_workable (75), [c_places] the table of line 74
    if is_bitmark_for_unindex_workable (76).  Simplified: hash_result (70) is left
    out. *)
Record cstr := CStr {
  c_text : list Z;
  c_fwd : table;
  c_rev : table;
  c_marks : option bmark;
  c_places : option umark
}.

(** constexpr_str.hpp:77-85, the constructor: the second table is only tried if
    the first one could be filled. *)
Definition make (s : list Z) : cstr :=
  let marks := mark w s in
  CStr s (build_fwd idx s) (build_rev idx s) marks
       (match marks with Some _ => unindex_mark w s | None => None end).

(** constexpr_str.hpp:125-128: in_range(pattern,range) is match of the stored
    table (range.hpp:103-118). *)
Definition c_search (c : cstr) (mem : list Z) (base size : nat) : option (option nat) :=
  outer_fwd Z.eqb idx (S size) mem (c_text c) (c_fwd c) base size 0.

(** constexpr_str.hpp:129-132, in_range_but_reverse(pattern,range)
    (range.hpp:145-162). *)
Definition c_search_rev (c : cstr) (mem : list Z) (base size : nat) : option (option nat) :=
  outer_rev Z.eqb idx (S size) mem (c_text c) (c_rev c) base size 0.

(** constexpr_str.hpp:135-141, find_first_of; otherwise the search of range.hpp
    with the characters. *)
Definition c_first_of (c : cstr) (l : list Z) : option (option nat) :=
  match c_marks c with
  | Some b => Some (find_fore (bget w b) 0 l)
  | None => find_first_of w (c_text c) l
  end.

(** constexpr_str.hpp:144-150, find_last_of; find_last_of_bitmark
    (range.hpp:306-311) flows off its end when nothing is found. *)
Definition c_last_of (c : cstr) (l : list Z) : option (option nat) :=
  match c_marks c with
  | Some b => match find_back (bget w b) 0 l with Some k => Some (Some k) | None => None end
  | None => find_last_of w (c_text c) l
  end.

(** constexpr_str.hpp:153-159, find_first_not_of. *)
Definition c_first_not_of (c : cstr) (l : list Z) : option (option nat) :=
  match c_marks c with
  | Some b => Some (find_fore (fun x => negb (bget w b x)) 0 l)
  | None => find_first_not_of w (c_text c) l
  end.

(** constexpr_str.hpp:162-168, find_last_not_of. *)
Definition c_last_not_of (c : cstr) (l : list Z) : option (option nat) :=
  match c_marks c with
  | Some b => Some (find_back (fun x => negb (bget w b x)) 0 l)
  | None => find_last_not_of w (c_text c) l
  end.

(** constexpr_str.hpp:173-181 and 183-189: in_range and in_range_size_t of a
    character in a constant string; a pointer into the string is represented by
    its position, nullptr and npos by [None]. *)
Definition c_place (c : cstr) (x : Z) : option nat :=
  match c_places c with
  | Some b => unindex_get w b x
  | None => find_val Z.eqb 0 x (c_text c)
  end.

(** constexpr_str.hpp:191-199 and 201-207: in_range_but_reverse and
    in_range_but_reverse_size_t. *)
Definition c_place_rev (c : cstr) (x : Z) : option nat :=
  match c_places c with
  | Some b => unindex_get w b x
  | None => find_val_back Z.eqb x (c_text c)
  end.

End CStr.
