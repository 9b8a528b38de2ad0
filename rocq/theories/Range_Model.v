(** Searching in ranges of elements.
    Models H/base_defs/range.hpp (H = parts/header_file/files/elc/_files).

    A searched range is [size] elements at position [base] of a block of memory
    [mem]; reading outside of [mem] is undefined ([None]).  With [base = 0] and
    [size = length mem] every read outside of the range is undefined; a larger
    block models a range that is a part of a larger string.  A found pointer is
    represented by its position in [mem].
    Loops without a syntactic bound carry fuel; running out of fuel is [None]
    and is excluded by the statements. *)
From Verif Require Import Base.
Local Open Scope omonad_scope.
Local Open Scope nat_scope.

Section Search.
(** Elements, their operator== , and get_index_of: hash(ch) % 256
    (range.hpp:88-90, 130-132); the hash is arbitrary. *)
Variable T : Type.
Variable eqb : T -> T -> bool.
Variable idx : T -> nat.

(** Table update skip_table[get_index_of(ch)] = v.  A table is a function of
    the index. *)
Definition table := nat -> nat.
(** range.hpp:98 and 140 (the array store). *)
Definition upd (t : table) (k v : nat) : table :=
  fun j => if Nat.eqb j k then v else t j.

(** range.hpp:97-98: for(i=0;i<m;i++) skip_table[get_index_of(pattern[i])]=m-i;
    [i] is the index of the head of the list. *)
Fixpoint fill_fwd (m i : nat) (pat : list T) (t : table) : table :=
  match pat with
  | [] => t
  | c :: pat' => fill_fwd m (S i) pat' (upd t (idx c) (m - i))
  end.

(** range.hpp:91-99, match_pattern::build_table.  For an empty pattern the
    table keeps its zero initialisation (86, 93-94). *)
Definition build_fwd (pat : list T) : table :=
  match pat with
  | [] => fun _ => 0
  | _ => fill_fwd (length pat) 0 pat (fun _ => S (length pat))
  end.

(** range.hpp:109-113: the inner while loop; [mo] is matching_off_set (>= 1).
    pattern.end()[0-mo] is the element of index m-mo, undefined if mo > m.
    Returns whether the whole pattern matched. *)
Fixpoint inner_fwd (fuel : nat) (mem pat : list T) (base off mo : nat) : option bool :=
  match fuel with
  | O => None
  | S f =>
      p <- (if Nat.leb mo (length pat) then nth_error pat (length pat - mo) else None) ;;
      x <- nth_error mem (base + off + (length pat - mo)) ;;
      if eqb p x then
        if Nat.eqb mo (length pat) then Some true
        else inner_fwd f mem pat base off (S mo)
      else Some false
  end.

(** range.hpp:107-117: the outer loop of match_pattern::match. *)
Fixpoint outer_fwd (fuel : nat) (mem pat : list T) (t : table) (base size off : nat)
  : option (option nat) :=
  match fuel with
  | O => None
  | S f =>
      r <- inner_fwd (S (length pat)) mem pat base off 1 ;;
      if r : bool then Some (Some (base + off))
      else if Nat.leb size (off + length pat) then Some None
      else
        c <- nth_error mem (base + off + length pat) ;;
        outer_fwd f mem pat t base size (off + t (idx c))
  end.

(** range.hpp:103-118 and in_range(pattern,range) 200-205: builds the table and
    matches. *)
Definition search_fwd (mem : list T) (base size : nat) (pat : list T)
  : option (option nat) :=
  outer_fwd (S size) mem pat (build_fwd pat) base size 0.

(** range.hpp:139-140: for(i=0;i<m-1;i++) skip_table[get_index_of(pattern[i])]=i; *)
Fixpoint fill_rev (m i : nat) (pat : list T) (t : table) : table :=
  match pat with
  | [] => t
  | c :: pat' =>
      if Nat.ltb i (m - 1) then fill_rev m (S i) pat' (upd t (idx c) i) else t
  end.

(** range.hpp:133-141, reverse_match_pattern::build_table. *)
Definition build_rev (pat : list T) : table :=
  match pat with
  | [] => fun _ => 0
  | _ => fill_rev (length pat) 0 pat (fun _ => S (length pat))
  end.

(** range.end()[0-k] : the element [k] before the end of the range. *)
Definition before_end (mem : list T) (base size k : nat) : option T :=
  if Nat.leb k (base + size) then nth_error mem (base + size - k) else None.

(** range.hpp:151-155: the inner while loop; [mo] is matching_off_set (>= 0).
    pattern.begin()[mo] is undefined if mo >= m. *)
Fixpoint inner_rev (fuel : nat) (mem pat : list T) (base size off mo : nat) : option bool :=
  match fuel with
  | O => None
  | S f =>
      p <- nth_error pat mo ;;
      x <- before_end mem base size (off + length pat - mo) ;;
      if eqb p x then
        if Nat.eqb mo (length pat - 1) then Some true
        else inner_rev f mem pat base size off (S mo)
      else Some false
  end.

(** range.hpp:149-161: the outer loop of reverse_match_pattern::match. *)
Fixpoint outer_rev (fuel : nat) (mem pat : list T) (t : table) (base size off : nat)
  : option (option nat) :=
  match fuel with
  | O => None
  | S f =>
      r <- inner_rev (S (length pat)) mem pat base size off 0 ;;
      if r : bool then Some (Some (base + size - (off + length pat)))
      else if Nat.leb size (off + length pat) then Some None
      else
        c <- before_end mem base size (off + length pat + 1) ;;
        outer_rev f mem pat t base size (S (off + t (idx c)))
  end.

(** range.hpp:145-162 and in_range_but_reverse(pattern,range) 217-222. *)
Definition search_rev (mem : list T) (base size : nat) (pat : list T)
  : option (option nat) :=
  outer_rev (S size) mem pat (build_rev pat) base size 0.

(** range.hpp:164-171, in_range(value,range): position of the first element
    equal to the value; [i] is the index of the head. *)
Fixpoint find_val (i : nat) (v : T) (l : list T) : option nat :=
  match l with
  | [] => None
  | x :: r => if eqb x v then Some i else find_val (S i) v r
  end.

(** A loop over range|views::reverse that returns the first element satisfying
    [f] (range.hpp:184-188, 307-310, 316-320, 386-390, 396-400). *)
Fixpoint find_back (f : T -> bool) (i : nat) (l : list T) : option nat :=
  match l with
  | [] => None
  | x :: r =>
      match find_back f (S i) r with
      | Some j => Some j
      | None => if f x then Some i else None
      end
  end.

(** A loop over range that returns the first element satisfying [f]
    (range.hpp:267-271, 277-281, 346-350, 356-360). *)
Fixpoint find_fore (f : T -> bool) (i : nat) (l : list T) : option nat :=
  match l with
  | [] => None
  | x :: r => if f x then Some i else find_fore f (S i) r
  end.

(** range.hpp:182-189, in_range_but_reverse(value,range). *)
Definition find_val_back (v : T) (l : list T) : option nat :=
  find_back (fun x => eqb x v) 0 l.

End Search.

(** ** Set searches on integer elements (basic_integer_type<T>)
    Elements are integers; [w] is the width of T in bits.  make_unsigned_t<T>(i)
    is [i mod 2^w], index_type(i) is [i mod 256]. *)
Local Open Scope Z_scope.

Section Sets.
Variable w : Z.

(** number_of_possible_values_per<T> > number_of_possible_values_per<index_type>
    (range.hpp:243, 257). *)
Definition wide : bool := 2 ^ 8 <? 2 ^ w.

(** The mark table: range.hpp:239. *)
Definition bmark := Z -> bool.
(** _bitmark[index] = true (range.hpp:247, 252). *)
Definition bset (b : bmark) (k : Z) : bmark := fun j => if j =? k then true else b j.

(** range.hpp:242-255, bitmark_for_finds::mark; [None]: returned false. *)
Fixpoint mark_loop (pat : list Z) (b : bmark) : option bmark :=
  match pat with
  | [] => Some b
  | i :: pat' =>
      if wide && (256 <=? i mod 2 ^ w) then None
      else mark_loop pat' (bset b (i mod 256))
  end.
(** range.hpp:239-255: from the zero initialised table. *)
Definition mark (pat : list Z) : option bmark := mark_loop pat (fun _ => false).

(** range.hpp:256-261, bitmark_for_finds::operator[]. *)
Definition bget (b : bmark) (i : Z) : bool :=
  if wide && (256 <=? i mod 2 ^ w) then false else b (i mod 256).

(** in_range(i,pattern) used as a truth value (range.hpp:278, 317, 357, 397). *)
Definition mem_of (pat : list Z) (i : Z) : bool :=
  match find_val Z.eqb 0 i pat with Some _ => true | None => false end.

(** The four searches return [Some (Some k)]: pointer to element k,
    [Some None]: nullptr, [None]: undefined behaviour. *)
(** range.hpp:263-293, find_first_of. *)
Definition find_first_of (pat l : list Z) : option (option nat) :=
  match mark pat with
  | Some b => Some (find_fore (bget b) 0 l)
  | None => Some (find_fore (mem_of pat) 0 l)
  end.

(** range.hpp:303-332, find_last_of.  find_last_of_bitmark (306-311) has no
    return statement after the loop: flowing off its end is undefined. *)
Definition find_last_of (pat l : list Z) : option (option nat) :=
  match mark pat with
  | Some b => match find_back (bget b) 0 l with Some k => Some (Some k) | None => None end
  | None => Some (find_back (mem_of pat) 0 l)
  end.

(** range.hpp:342-372, find_first_not_of. *)
Definition find_first_not_of (pat l : list Z) : option (option nat) :=
  match mark pat with
  | Some b => Some (find_fore (fun x => negb (bget b x)) 0 l)
  | None => Some (find_fore (fun x => negb (mem_of pat x)) 0 l)
  end.

(** range.hpp:382-401 and 455-465, find_last_not_of. *)
Definition find_last_not_of (pat l : list Z) : option (option nat) :=
  match mark pat with
  | Some b => Some (find_back (fun x => negb (bget b x)) 0 l)
  | None => Some (find_back (fun x => negb (mem_of pat x)) 0 l)
  end.

(** ** Reverse index: bitmark_for_quick_unindex, range.hpp:406-454 *)
(** _bitmark of size_t; [None] is npos (range.hpp:408-413, 417). *)
Definition umark := Z -> option nat.
(** index = i (range.hpp:429, 441). *)
Definition uset (b : umark) (k : Z) (v : nat) : umark :=
  fun j => if j =? k then Some v else b j.

(** range.hpp:420-445: the marking loops; the result [None] is the failure
    return, after which the table is all npos. *)
Fixpoint umark_loop (i : nat) (pat : list Z) (b : umark) : option umark :=
  match pat with
  | [] => Some b
  | ch :: pat' =>
      if wide && (256 <=? ch mod 2 ^ w) then None
      else match b (ch mod 256) with
           | Some _ => None
           | None => umark_loop (S i) pat' (uset b (ch mod 256) i)
           end
  end.
(** range.hpp:416-447. *)
Definition unindex_mark (pat : list Z) : option umark := umark_loop 0 pat (fun _ => None).

(** range.hpp:448-453, operator[]. *)
Definition unindex_get (b : umark) (i : Z) : option nat :=
  if wide && (256 <=? i mod 2 ^ w) then None else b (i mod 256).

End Sets.
