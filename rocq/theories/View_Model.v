(** Model of views of arrays and strings, H/base_defs/array_like.hpp:76-172 and
    H/base_defs/string_view.hpp:109-141.  Elements live in one block of memory; a pointer is an
    offset in that block. *)
From Verif Require Import Base.
Local Open Scope Z_scope.

Section View.
Variable A : Type.
(** array_like.hpp:103-104. *)
Record view := { vbegin : Z; vsize : Z }.
(** A [size_t]. *)
Definition W : Z := 2 ^ 64.
Definition size_t (z : Z) : Z := z mod W.
(** [p[0], ..., p[n-1]] of the block; [None]: outside. *)
Definition read (block : list A) (p n : Z) : option (list A) :=
  if (0 <=? p) && (0 <=? n) && (p + n <=? Z.of_nat (length block))
  then Some (firstn (Z.to_nat n) (skipn (Z.to_nat p) block)) else None.
(** array_like.hpp:120-126 [begin], [end]: all elements of a view, as a loop from one to the
    other reads them. *)
Definition items (block : list A) (v : view) : option (list A) := read block (vbegin v) (vsize v).
(** array_like.hpp:138-139 [operator[]]; 131-134 [front], [back]; [size()-1] is a [size_t]. *)
Definition at_ (block : list A) (v : view) (pos : Z) : option A :=
  match read block (vbegin v + pos) 1 with Some [x] => Some x | _ => None end.
Definition front (block : list A) (v : view) : option A := at_ block v 0.
Definition back (block : list A) (v : view) : option A := at_ block v (size_t (vsize v - 1)).
(** array_like.hpp:128-129, 82-101: the loop from [rbegin] to [rend], [n] bounds its rounds in the
    model.  That the address before the first element may be formed is assumed. *)
Fixpoint walk_back (n : nat) (block : list A) (p rend : Z) : option (list A) :=
  if p =? rend then Some []
  else match n with
  | O => None
  | S n' => match read block p 1 with
            | Some [x] => match walk_back n' block (p - 1) rend with Some l => Some (x :: l) | None => None end
            | _ => None end
  end.
Definition reversed (n : nat) (block : list A) (v : view) : option (list A) :=
  walk_back n block (vbegin v + vsize v - 1) (vbegin v - 1).
(** array_like.hpp:148-152 [subview(pos,end_pos)]. *)
Definition subview (v : view) (pos end_pos : Z) : view :=
  let e := if end_pos >? vsize v then vsize v else end_pos in
  let p := if pos >? e then e else pos in
  {| vbegin := vbegin v + p; vsize := e - p |}.
(** array_like.hpp:153-156 [subview(pos)]. *)
Definition subview_from (v : view) (pos : Z) : view :=
  let p := if pos >? vsize v then vsize v else pos in
  {| vbegin := vbegin v + p; vsize := vsize v - p |}.
(** string_view.hpp:124-126 [substr(pos,len)]. *)
Definition substr (v : view) (pos len : Z) : view := {| vbegin := vbegin v + pos; vsize := len |}.
(** string_view.hpp:127-129 [substr(pos)]. *)
Definition substr_from (v : view) (pos : Z) : view :=
  {| vbegin := vbegin v + pos; vsize := size_t (vsize v - pos) |}.
(** string_view.hpp:130-132 [substr(pos,const char_T*end)]. *)
Definition substr_pos_ptr (v : view) (pos e : Z) : view :=
  {| vbegin := vbegin v + pos; vsize := size_t (e - vbegin v) |}.
(** string_view.hpp:133-135 [substr(const char_T*begin,len)]. *)
Definition substr_ptr_len (v : view) (b len : Z) : view := {| vbegin := b; vsize := len |}.
(** string_view.hpp:136-138 [substr(const char_T*begin)]. *)
Definition substr_ptr (v : view) (b : Z) : view := {| vbegin := b; vsize := size_t (vbegin v + vsize v - b) |}.
(** string_view.hpp:139-141 [substr(const char_T*begin,const char_T*end)]. *)
Definition substr_ptr_ptr (v : view) (b e : Z) : view := {| vbegin := b; vsize := size_t (e - b) |}.
(** array_like.hpp:166-169 [get_length_of]; [None]: no zero before the end of the block. *)
Variable is_zero : A -> bool.
Fixpoint get_length_of (l : list A) : option Z :=
  match l with
  | [] => None
  | x :: l' => if is_zero x then Some 0
               else match get_length_of l' with Some n => Some (size_t (n + 1)) | None => None end
  end.
(** array_like.hpp:171, string_view.hpp:118: a view of a string that ends with zero. *)
Definition of_zero_ended (block : list A) (p : Z) : option view :=
  if (0 <=? p) && (p <=? Z.of_nat (length block)) then
    match get_length_of (skipn (Z.to_nat p) block) with Some n => Some {| vbegin := p; vsize := n |} | None => None end
  else None.
End View.
