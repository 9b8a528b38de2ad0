(** Iterators of strings, arrays and views.
    Models H/base_defs/iterator.hpp, the iterators of H/string/defs.hpp:507-553,
    of H/base/container/array/defs.hpp:155-211 and of
    H/base_defs/array_like.hpp:78-129 (H = parts/header_file/files/elc/_files).

    Integers are unbounded [Z] with explicit ranges: ptrdiff_t has 64 bits.
    [None] is undefined behaviour.  The elements of a container are a list. *)
From Verif Require Import Base.
Local Open Scope omonad_scope.
Local Open Scope Z_scope.

(** ptrdiff_t and size_t (defined by the platform; string/defs.hpp:509). *)
Definition pmax : Z := 2 ^ 63 - 1.
(** The least ptrdiff_t (as above). *)
Definition pmin : Z := - 2 ^ 63.
(** A ptrdiff_t result: overflow is undefined (string/defs.hpp:511-512,
    iterator.hpp:315). *)
Definition pd (x : Z) : option Z := if (pmin <=? x) && (x <=? pmax) then Some x else None.
(** A size_t result (string/defs.hpp:463, 539). *)
Definition us (x : Z) : Z := x mod 2 ^ 64.
(** Conversion of a size_t to ptrdiff_t (string/defs.hpp:525, 536). *)
Definition to_pd (x : Z) : Z := if x <=? pmax then x else x - 2 ^ 64.

(** ** Iterators of strings *)
(** string/defs.hpp:507-509, iterator_base_t: which string, which index. *)
Record sit := Sit { s_to : nat; s_index : Z }.
(** string/defs.hpp:512, get_next; operator++ (iterator.hpp:225-232, 297). *)
Definition s_next (i : sit) : option sit := x <- pd (s_index i + 1) ;; Some (Sit (s_to i) x).
(** string/defs.hpp:511, get_before; operator-- (iterator.hpp:242-249, 298). *)
Definition s_before (i : sit) : option sit := x <- pd (s_index i - 1) ;; Some (Sit (s_to i) x).
(** string/defs.hpp:517, operator==. *)
Definition s_eq (i j : sit) : bool := Nat.eqb (s_to i) (s_to j) && (s_index i =? s_index j).
(** string/defs.hpp:518, operator<=>; [None]: unordered. *)
Definition s_cmp (i j : sit) : option comparison :=
  if Nat.eqb (s_to i) (s_to j) then Some (s_index i ?= s_index j) else None.

(** string/defs.hpp:513-514 and 318-324: the character at the index converted to
    size_t, undefined outside of the string. *)
Definition at_z {T} (s : list T) (x : Z) : option T :=
  if (0 <=? x) && (x <? Z.of_nat (length s)) then nth_error s (Z.to_nat x) else None.
(** operator* (iterator.hpp:206-215, 263) of an iterator into the string [s]. *)
Definition s_get {T} (s : list T) (i : sit) : option T := at_z s (us (s_index i)).

(** string/defs.hpp:520 and 525-532: get_iterator_at, begin and end. *)
Definition s_begin (to : nat) : sit := Sit to 0.
(** string/defs.hpp:530-532. *)
Definition s_end {T} (to : nat) (s : list T) : sit := Sit to (to_pd (Z.of_nat (length s))).
(** string/defs.hpp:539-541: rbegin; size()-1 is computed in size_t. *)
Definition s_rbegin {T} (to : nat) (s : list T) : sit :=
  Sit to (to_pd (us (Z.of_nat (length s) - 1))).
(** string/defs.hpp:542-544. *)
Definition s_rend (to : nat) : sit := Sit to (-1).

(** iterator.hpp:304-313, operator+ of an iterator that is not a pointer: [n]
    times ++ or --. *)
Fixpoint steps {I : Type} (f : I -> option I) (n : nat) (i : I) : option I :=
  match n with
  | O => Some i
  | S m => j <- f i ;; steps f m j
  end.
(** iterator.hpp:301-314: num>0 selects the loop.  Simplified: the loop counters
    num-- and num++ stay in range because they stop at zero (306-311). *)
Definition plus {I : Type} (next before : I -> option I) (i : I) (num : Z) : option I :=
  if 0 <? num then steps next (Z.to_nat num) i else steps before (Z.to_nat (- num)) i.
(** iterator.hpp:315, operator-: *this+(-num). *)
Definition minus {I : Type} (next before : I -> option I) (i : I) (num : Z) : option I :=
  m <- pd (- num) ;; plus next before i m.

(** ** Iterators of arrays and views: pointers *)
(** A pointer into an array of [n] elements is its position; positions 0 to n may
    be formed, every other result of pointer arithmetic is undefined (C++,
    [expr.add]).  [strict = false] is a flat memory in which any position may be
    formed, the elements outside still not be read. *)
Section Pointers.
Variable strict : bool.
(** Pointer arithmetic: iterator.hpp:98, 103, 227, 244, 303; array_like.hpp:87-88. *)
Definition padd (n p k : Z) : option Z :=
  if strict then (if (0 <=? p + k) && (p + k <=? n) then Some (p + k) else None)
  else Some (p + k).
(** operator++ of a pointer iterator: iterator.hpp:227, 297. *)
Definition p_next (n p : Z) : option Z := padd n p 1.
(** operator-- of a pointer iterator: iterator.hpp:244, 298. *)
Definition p_before (n p : Z) : option Z := padd n p (-1).
(** array/defs.hpp:164-172 (begin, end), array_like.hpp:121-124. *)
Definition p_begin : Z := 0.
(** array/defs.hpp:167-169, array_like.hpp:122, 124. *)
Definition p_end (n : Z) : option Z := padd n 0 n.
(** array/defs.hpp:182-184, 188-190, array_like.hpp:128: begin+size()-1. *)
Definition p_rbegin (n : Z) : option Z := e <- padd n 0 n ;; padd n e (-1).
(** array/defs.hpp:185-187, 203-205, array_like.hpp:129: begin-1. *)
Definition p_rend (n : Z) : option Z := padd n 0 (-1).
(** ++ of a reverse iterator: iterator.hpp:101-105, array_like.hpp:87. *)
Definition r_next (n p : Z) : option Z := padd n p (-1).
(** -- of a reverse iterator: iterator.hpp:96-100, array_like.hpp:88. *)
Definition r_before (n p : Z) : option Z := padd n p 1.
End Pointers.

(** ** The loop  for(auto i=first; i!=last; ++i) use( *i ); *)
(** What the loop saw; [Endless] is fuel exhaustion. *)
Inductive walked (T : Type) := Seen (l : list T) | Undefined | Endless.
Arguments Seen {T} l.
Arguments Undefined {T}.
Arguments Endless {T}.

(** Compares with operator== (iterator.hpp:261, string/defs.hpp:517), reads with
    operator* (263), goes on with operator++ (297). *)
Fixpoint walk {I T : Type} (eqb : I -> I -> bool) (get : I -> option T)
    (next : I -> option I) (fuel : nat) (cur stop : I) : walked T :=
  match fuel with
  | O => Endless
  | S f =>
      if eqb cur stop then Seen []
      else match get cur, next cur with
           | Some x, Some c =>
               match walk eqb get next f c stop with
               | Seen l => Seen (x :: l)
               | r => r
               end
           | _, _ => Undefined
           end
  end.

(** A loop over a string (string/defs.hpp:527-532). *)
Definition walk_string {T} (fuel : nat) (to : nat) (s : list T) : walked T :=
  walk s_eq (s_get s) s_next fuel (s_begin to) (s_end to s).
(** A loop over a string with rbegin and rend (string/defs.hpp:539-544): ++ is
    get_before (iterator.hpp:101-105). *)
Definition walk_string_back {T} (fuel : nat) (to : nat) (s : list T) : walked T :=
  walk s_eq (s_get s) s_before fuel (s_rbegin to s) (s_rend to).
(** A loop over an array (array/defs.hpp:164-181). *)
Definition walk_array {T} (strict : bool) (fuel : nat) (s : list T) : walked T :=
  match p_end strict (Z.of_nat (length s)) with
  | Some e => walk Z.eqb (at_z s) (p_next strict (Z.of_nat (length s))) fuel p_begin e
  | None => Undefined
  end.
(** A loop over an array or a view with rbegin and rend (array/defs.hpp:182-211,
    array_like.hpp:128-129). *)
Definition walk_array_back {T} (strict : bool) (fuel : nat) (s : list T) : walked T :=
  match p_rbegin strict (Z.of_nat (length s)), p_rend strict (Z.of_nat (length s)) with
  | Some b, Some e => walk Z.eqb (at_z s) (r_next strict (Z.of_nat (length s))) fuel b e
  | _, _ => Undefined
  end.

(** ** A string from two iterators *)
(** string/defs.hpp:462-470, substr: [inl tt] is the result of the branch
    return{} (a string that refers to the empty constant string, 159), [inr l] a
    string with its own data; [None]: reading outside. *)
Definition sub_string {T} (s : list T) (b n : Z) : option (unit + list T) :=
  let m := Z.min n (us (Z.of_nat (length s) - b)) in
  if m =? 0 then Some (inl tt)
  else if b + m <=? Z.of_nat (length s)
       then Some (inr (firstn (Z.to_nat m) (skipn (Z.to_nat b) s)))
       else None.

(** The string made: its characters, or a string whose members were never
    initialised. *)
Inductive made (T : Type) := Made (l : list T) | Uninitialised.
Arguments Made {T} l.
Arguments Uninitialised {T}.

(** string/defs.hpp:547-552: [s] is the string of the first iterator.  Of the
    result of substr the pointer to the data is taken (551); if substr gave the
    constant empty string that member is another one of the union (50-53), and
    using it as a pointer to data is undefined. *)
Definition from_iterators {T} (s : list T) (i j : sit) : option (made T) :=
  if negb (Nat.eqb (s_to i) (s_to j)) then Some Uninitialised
  else
    d <- pd (s_index j - s_index i) ;;
    r <- sub_string s (us (s_index i)) (us d) ;;
    match r with
    | inl _ => None
    | inr l => Some (Made l)
    end.
