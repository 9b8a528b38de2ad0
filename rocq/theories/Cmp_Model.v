(** Model of the comparison of arrays, H/base_defs/compare.hpp.  A pointer is the
    list of the elements that may be read from it on; reading the empty list is
    undefined ([None]).  Elements are of one type with a three-way comparison
    whose result is a strong ordering; for a partial ordering the overloads with
    two sizes do not compile, as their return statements have different types. *)
From Verif Require Import Base.

Section Cmp.
Variable A : Type.
(** compare.hpp:67 and 72: [==] of two elements. *)
Variable eqb : A -> A -> bool.
(** compare.hpp:190-198 [base_call] of two elements. *)
Variable cmp : A -> A -> comparison.
(** compare.hpp:35: the value [U{0}] that ends a string. *)
Variable zero : A.

(** compare.hpp:69-76 [equal(T*,U*,size)]. *)
Fixpoint equal_n (a b : list A) (size : nat) {struct size} : option bool :=
  match size with
  | O => Some true
  | S n =>
      match a, b with
      | x :: a', y :: b' => if eqb x y then equal_n a' b' n else Some false
      | _, _ => None
      end
  end.
(** compare.hpp:86-92 [equal(T*,size1,U*,size2)]; 77-85 is the same for arrays,
    whose sizes are their lengths. *)
Definition equal_sizes (a : list A) (size1 : nat) (b : list A) (size2 : nat) : option bool :=
  if Nat.eqb size1 size2 then equal_n a b size1 else Some false.
(** compare.hpp:93-102 [equal(T*,size1,U*,end_by_zero)]; 103-106 swaps. *)
Fixpoint equal_size_zero (a : list A) (size1 : nat) (b : list A) {struct size1} : option bool :=
  match size1 with
  | O => match b with [] => None | y :: _ => Some (eqb y zero) end
  | S n =>
      match a, b with
      | x :: a', y :: b' =>
          if negb (eqb x y) || eqb y zero then Some false else equal_size_zero a' n b'
      | _, _ => None
      end
  end.
(** compare.hpp:107-117 [equal(T*,end_by_zero,U*,end_by_zero)]. *)
Fixpoint equal_zero_zero (a b : list A) : option bool :=
  match a, b with
  | x :: a', y :: b' =>
      if negb (eqb x y) then Some false
      else if eqb x zero then Some true
      else equal_zero_zero a' b'
  | _, _ => None
  end.
(** compare.hpp:118-127 [equal(T*,size1,just_an_part,U*,end_by_zero)]. *)
Fixpoint equal_part_zero (a : list A) (size1 : nat) (b : list A) {struct size1} : option bool :=
  match size1 with
  | O => Some true
  | S n =>
      match a, b with
      | x :: a', y :: b' =>
          if negb (eqb x y) || eqb y zero then Some false else equal_part_zero a' n b'
      | _, _ => None
      end
  end.

(** compare.hpp:207-214 [compare(T*,U*,size)]. *)
Fixpoint compare_n (a b : list A) (size : nat) {struct size} : option comparison :=
  match size with
  | O => Some Eq
  | S n =>
      match a, b with
      | x :: a', y :: b' =>
          match cmp x y with Eq => compare_n a' b' n | c => Some c end
      | _, _ => None
      end
  end.
(** compare.hpp:224-231 [compare(T*,size1,U*,size2)]; 215-223 is the same for
    arrays. *)
Definition compare_sizes (a : list A) (size1 : nat) (b : list A) (size2 : nat) : option comparison :=
  match Nat.compare size1 size2 with
  | Eq => compare_n a b size1
  | c => Some c
  end.
(** compare.hpp:238-239 and its copies: the first difference is kept. *)
Definition keep (tmp : comparison) (x y : A) : comparison :=
  match tmp with Eq => cmp x y | _ => tmp end.
(** compare.hpp:232-244 [compare(T*,size1,U*,end_by_zero)]. *)
Fixpoint compare_size_zero (tmp : comparison) (a : list A) (size1 : nat) (b : list A) {struct size1} : option comparison :=
  match size1 with
  | O => match b with [] => None | y :: _ => Some (if eqb y zero then tmp else Lt) end
  | S n =>
      match b with
      | [] => None
      | y :: b' =>
          if eqb y zero then Some Gt
          else match a with
               | [] => None
               | x :: a' => compare_size_zero (keep tmp x y) a' n b'
               end
      end
  end.
(** compare.hpp:245-257 [compare(T*,end_by_zero,U*,size2)]: line 256 looks at [b],
    not at [a], after the loop.  When [tmp] is settled line 252 does not read [*b],
    but line 254 still advances [b], undefined at the end of the array. *)
Fixpoint compare_zero_size (tmp : comparison) (a : list A) (b : list A) (size2 : nat) {struct size2} : option comparison :=
  match size2 with
  | O => match b with [] => None | y :: _ => Some (if eqb y zero then tmp else Lt) end
  | S n =>
      match a with
      | [] => None
      | x :: a' =>
          if eqb x zero then Some Lt
          else match b with
               | [] => None
               | y :: b' => compare_zero_size (keep tmp x y) a' b' n
               end
      end
  end.
(** compare.hpp:258-269 [compare(T*,end_by_zero,U*,end_by_zero)]: the loop looks
    for the end of [a] only. *)
Fixpoint compare_zero_zero (tmp : comparison) (a b : list A) : option comparison :=
  match a with
  | [] => None
  | x :: a' =>
      if eqb x zero then
        match b with [] => None | y :: _ => Some (if eqb y zero then tmp else Lt) end
      else match b with
           | [] => None
           | y :: b' => compare_zero_zero (keep tmp x y) a' b'
           end
  end.
(** compare.hpp:270-282 [compare(T*,size1,just_an_part,U*,end_by_zero)]. *)
Fixpoint compare_part_zero (tmp : comparison) (a : list A) (size1 : nat) (b : list A) {struct size1} : option comparison :=
  match size1 with
  | O => Some tmp
  | S n =>
      match b with
      | [] => None
      | y :: b' =>
          if eqb y zero then Some Gt
          else match a with
               | [] => None
               | x :: a' => compare_part_zero (keep tmp x y) a' n b'
               end
      end
  end.

(** compare.hpp:283-290 [lexicographical(T*,size1,U*,size2)]; 291-294 is the same
    for arrays. *)
Definition lex_sizes (a : list A) (size1 : nat) (b : list A) (size2 : nat) : option comparison :=
  match compare_n a b (Nat.min size1 size2) with
  | None => None
  | Some Eq => Some (Nat.compare size1 size2)
  | Some c => Some c
  end.
(** compare.hpp:295-307 [lexicographical(T*,size1,U*,end_by_zero)]. *)
Fixpoint lex_size_zero (a : list A) (size1 : nat) (b : list A) {struct size1} : option comparison :=
  match size1 with
  | O => match b with [] => None | y :: _ => Some (if eqb y zero then Eq else Lt) end
  | S n =>
      match b with
      | [] => None
      | y :: b' =>
          if eqb y zero then Some Gt
          else match a with
               | [] => None
               | x :: a' => match cmp x y with Eq => lex_size_zero a' n b' | c => Some c end
               end
      end
  end.
(** compare.hpp:308-320 [lexicographical(T*,end_by_zero,U*,size2)]: line 318 looks
    at [b], not at [a]. *)
Fixpoint lex_zero_size (a : list A) (b : list A) (size2 : nat) {struct size2} : option comparison :=
  match size2 with
  | O => match b with [] => None | y :: _ => Some (if eqb y zero then Eq else Lt) end
  | S n =>
      match a with
      | [] => None
      | x :: a' =>
          if eqb x zero then Some Lt
          else match b with
               | [] => None
               | y :: b' => match cmp x y with Eq => lex_zero_size a' b' n | c => Some c end
               end
      end
  end.
(** compare.hpp:321-332 [lexicographical(T*,end_by_zero,U*,end_by_zero)]. *)
Fixpoint lex_zero_zero (a b : list A) : option comparison :=
  match a with
  | [] => None
  | x :: a' =>
      match b with
      | [] => None
      | y :: b' =>
          if eqb x zero then Some (if eqb y zero then Eq else Lt)
          else match cmp x y with Eq => lex_zero_zero a' b' | c => Some c end
      end
  end.
(** compare.hpp:333-344 [lexicographical(T*,size1,just_an_part,U*,end_by_zero)]. *)
Fixpoint lex_part_zero (a : list A) (size1 : nat) (b : list A) {struct size1} : option comparison :=
  match size1 with
  | O => Some Eq
  | S n =>
      match b with
      | [] => None
      | y :: b' =>
          if eqb y zero then Some Gt
          else match a with
               | [] => None
               | x :: a' => match cmp x y with Eq => lex_part_zero a' n b' | c => Some c end
               end
      end
  end.
End Cmp.

(** compare.hpp:346-353 [reverse(partial_ordering)]: [None] is unordered. *)
Definition reverse_partial (o : option comparison) : option comparison :=
  match o with
  | Some Gt => Some Lt
  | Some Lt => Some Gt
  | _ => o
  end.
(** compare.hpp:354-369 [reverse(weak_ordering)], [reverse(strong_ordering)]. *)
Definition reverse (o : comparison) : comparison :=
  match o with Gt => Lt | Lt => Gt | _ => o end.
