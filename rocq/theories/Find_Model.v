(** Searching, replacing, splitting and padding of strings.
    Models H/string/defs.hpp:462-470, 652-847, 871-974, 990-1031 and
    H/base_defs/string_view.hpp:125-161 (H = parts/header_file/files/elc/_files)
    on top of the searches of H/base_defs/range.hpp (Range_Model).

    Simplifications: a string is the list of its characters [text]; how it is
    stored (H/string/core/) is modelled elsewhere (Str_Model), joining is list
    concatenation.  What is readable behind the characters of the text is the
    list [tail] (the searches of range.hpp may look there).  Character types are
    integers.  Positions are natural numbers; the differences the code computes
    in size_t are taken modulo 2^64.  Undefined behaviour is [None] / [Ub]; a
    loop that has not ended when its fuel is used up is [Out]. *)
From Verif Require Import Base Ref_Model Range_Model.
Local Open Scope omonad_scope.
Local Open Scope nat_scope.

(** What is searched for: a character, a string_view_t, a constexpr_str_t (a
    literal, or a string_t that still refers to one: _in_str_cso), or a string_t
    that owns its characters.  A string_t of one character (_in_chr_cso) is
    searched as a character. H/string/defs.hpp:652-710, the overloads of find. *)
Inductive needle :=
| NChar (c : Z)
| NView (l : list Z)
| NLit (l : list Z)
| NOwn (l : list Z).

(** The characters searched for. H/string/defs.hpp:652-710. *)
Definition needle_chars (n : needle) : list Z :=
  match n with NChar c => [c] | NView l => l | NLit l => l | NOwn l => l end.

(** size_t values. *)
Definition size_mod : Z := 2 ^ 64.
(** bit::npos, H/string/defs.hpp: static constexpr size_t npos. *)
Definition npos : Z := size_mod - 1.

(** [b]-[a] computed in size_t. *)
Definition size_sub (b a : nat) : Z := ((Z.of_nat b - Z.of_nat a) mod size_mod)%Z.

(** H/string/defs.hpp:462-470, substr(begin,size).  A part that is not inside of
    the text is undefined. *)
Definition substr (text : list Z) (begin : nat) (size : Z) : option (list Z) :=
  let size := Z.min size (size_sub (length text) begin) in
  if (size =? 0)%Z then Some []
  else if (Z.of_nat begin + size <=? Z.of_nat (length text))%Z
       then Some (firstn (Z.to_nat size) (skipn begin text))
       else None.

Section Find.
(** The hash of a character, as in Range_Model. *)
Variable idx : Z -> nat.

(** H/string/defs.hpp:661-663 (character), 673-675 (view), 679-681 (literal),
    685-697 (string_t): find(x, begin).  The first three return the position in
    the part that starts at begin (in_range_size_t, H/base_defs/range.hpp:173-180,
    207-214: result - range.begin()), the last one result - data().  A part that
    starts behind the end (H/base_defs/string_view.hpp:128-130) is undefined.
    [None]: undefined; [Some None]: npos. *)
Definition find_from (text tail : list Z) (n : needle) (begin : nat) : option (option nat) :=
  if Nat.leb begin (length text) then
    match n with
    | NChar c => Some (find_val Z.eqb 0 c (skipn begin text))
    | NView l | NLit l =>
        r <- search_fwd Z.eqb idx (text ++ tail) begin (length text - begin) l ;;
        Some (option_map (fun p => p - begin) r)
    | NOwn l => search_fwd Z.eqb idx (text ++ tail) begin (length text - begin) l
    end
  else None.

(** H/string/defs.hpp:652-660, find(ch), and the default begin=0 of the other
    overloads.  For a text of one character the comparison 657 gives the same. *)
Definition find (text tail : list Z) (n : needle) : option (option nat) :=
  find_from text tail n 0.

(** H/string/defs.hpp:871-887, contains. *)
Definition contains (text tail : list Z) (n : needle) : option bool :=
  r <- find text tail n ;;
  Some (match r with Some _ => true | None => false end).

(** H/string/defs.hpp:993-1031, the three loops of replace; [m] is the number of
    characters searched for (1, 1, str1.size()). *)
Fixpoint replace_loop (fuel : nat) (text tail : list Z) (n : needle) (by_ : list Z)
  (pos : nat) (aret : list Z) : res (list Z) :=
  match fuel with
  | O => Out
  | S f =>
      match find_from text tail n pos with
      | None => Ub
      | Some None =>
          match substr text pos npos with
          | Some rest => Ok (aret ++ rest)
          | None => Ub
          end
      | Some (Some pos2) =>
          match substr text pos (size_sub pos2 pos) with
          | Some part =>
              replace_loop f text tail n by_ (pos2 + length (needle_chars n))
                (aret ++ part ++ by_)
          | None => Ub
          end
      end
  end.
(** H/string/defs.hpp:993-1005 ([n] = NChar ch, [by_] = [ch2]), 1006-1018
    ([n] = NChar ch), 1019-1031 (any [n] but NView). *)
Definition replace_all (fuel : nat) (text tail : list Z) (n : needle) (by_ : list Z)
  : res (list Z) :=
  replace_loop fuel text tail n by_ 0 [].

(** H/string/defs.hpp:990-992, replace(pos,size,str): pos+size in size_t. *)
Definition replace_at (text : list Z) (pos size : nat) (by_ : list Z) : option (list Z) :=
  a <- substr text 0 (Z.of_nat pos) ;;
  c <- substr text (pos + size) npos ;;
  Some (a ++ by_ ++ c).

(** H/string/defs.hpp:814-817, 823-826, 832-835, 841-844: while(index--){pos=end;
    end=find(delimiter,pos);}.  A position that is npos is undefined as a start. *)
Fixpoint arec_loop (index : nat) (text tail : list Z) (n : needle) (pos : nat)
  (end_ : option nat) : option (nat * option nat) :=
  match index with
  | O => Some (pos, end_)
  | S i =>
      match end_ with
      | None => None
      | Some pos =>
          end_ <- find_from text tail n pos ;;
          arec_loop i text tail n pos end_
      end
  end.
(** H/string/defs.hpp:811-846, arec(index, delimiter). *)
Definition arec (text tail : list Z) (n : needle) (index : nat) : option (list Z) :=
  pos <- find text tail n ;;
  match pos with
  | None => None
  | Some pos =>
      end_ <- find_from text tail n pos ;;
      pe <- arec_loop index text tail n pos end_ ;;
      match pe with
      | (pos, Some e) => substr text pos (size_sub e pos)
      | (pos, None) => substr text pos ((npos - Z.of_nat pos) mod size_mod)%Z
      end
  end.
End Find.

(** Comparison of two strings with == (H/string/defs.hpp, C59). *)
Definition str_eqb (a b : list Z) : bool := if list_eq_dec Z.eq_dec a b then true else false.

(** H/string/defs.hpp:890-914, starts_with. *)
Definition starts_with (text : list Z) (n : needle) : option bool :=
  match n with
  | NChar c =>
      if Nat.ltb (length text) 1 then Some false
      else x <- nth_error text 0 ;; Some (Z.eqb x c)
  | _ =>
      let str := needle_chars n in
      if Nat.ltb (length text) (length str) then Some false
      else part <- substr text 0 (Z.of_nat (length str)) ;; Some (str_eqb part str)
  end.

(** H/string/defs.hpp:917-941, 947-949, ends_with. *)
Definition ends_with (text : list Z) (n : needle) : option bool :=
  match n with
  | NChar c =>
      if Nat.ltb (length text) 1 then Some false
      else x <- nth_error text (length text - 1) ;; Some (Z.eqb x c)
  | _ =>
      let str := needle_chars n in
      if Nat.ltb (length text) (length str) then Some false
      else part <- substr text (length text - length str) npos ;; Some (str_eqb part str)
  end.

(** H/string/defs.hpp:942-946, ends_with(ch,count); [w] is the number of bits of
    a character (Range_Model).  find_last_not_of(ch) is 801-803. *)
Definition ends_with_count (w : Z) (text : list Z) (c : Z) (count : nat) : option bool :=
  if Nat.ltb (length text) count then Some false
  else
    r <- find_last_not_of w [c] text ;;
    Some (match r with Some k => Z.of_nat k | None => npos end
          <=? Z.of_nat (length text - count))%Z.

(** H/string/defs.hpp:956-961, pad_left. *)
Definition pad_left (text : list Z) (size : nat) (c : Z) : list Z :=
  if Nat.leb size (length text) then text else repeat c (size - length text) ++ text.
(** H/string/defs.hpp:966-970, pad_right. *)
Definition pad_right (text : list Z) (size : nat) (c : Z) : list Z :=
  if Nat.leb size (length text) then text else text ++ repeat c (size - length text).

(** H/base_defs/string_view.hpp:144-146, string_view_t::starts_with(ch). *)
Definition view_starts_char (text : list Z) (c : Z) : bool :=
  match text with [] => false | x :: _ => Z.eqb x c end.
(** H/base_defs/string_view.hpp:147-151, string_view_t::starts_with(str):
    equal(a,b,n) compares n elements (H/base_defs/equal.hpp, C59). *)
Definition view_starts_view (text str : list Z) : bool :=
  if Nat.ltb (length text) (length str) then false
  else str_eqb (firstn (length str) text) str.
(** H/base_defs/string_view.hpp:152-161, string_view_t::starts_with of a pointer to characters:
    [mem] is the readable memory at str, [i] the loop variable. *)
Fixpoint view_starts_c (fuel : nat) (text mem : list Z) (i : nat) : option bool :=
  match fuel with
  | O => None
  | S f =>
      if Nat.ltb i (length text) then
        c <- nth_error mem i ;;
        if (c =? 0)%Z then Some true
        else
          x <- nth_error text i ;;
          if (x =? c)%Z then view_starts_c f text mem (S i) else Some false
      else c <- nth_error mem i ;; Some (c =? 0)%Z
  end.
