(** Exchanging objects (H/base_defs/other.hpp:67-95), the two general overloads of
    [swap].  Objects are cells; a type is given by what an object keeps of a value that
    is assigned to it ([keep], the identity unless the types differ), by what is left of
    a value after it was moved from, and by what moving an object to itself does.
    Simplified: no exceptions, objects do not contain one another. *)
From Verif Require Import Base.

Section Swap.
(** The states of objects (H/base_defs/other.hpp:67-95). *)
Variable V : Type.
(** What the object at a cell makes of a value assigned to it
    (H/base_defs/other.hpp:72-73,92; T1 and T2 may differ). *)
Variable keep : nat -> V -> V.
(** What moving leaves in the source (H/base_defs/other.hpp:71-73,91). *)
Variable left_by_move : V -> V.
(** What assigning an object to itself by moving does (H/base_defs/other.hpp:72 with one
    object for both parameters). *)
Variable self_move : V -> V.

(** An assignment to one cell (H/base_defs/other.hpp:72-73,92). *)
Definition put (m : nat -> V) (c : nat) (v : V) : nat -> V := fun d => if Nat.eqb d c then v else m d.
(** [x=move(y)] (H/base_defs/other.hpp:72). *)
Definition move_to (m : nat -> V) (x y : nat) : nat -> V :=
  if Nat.eqb x y then put m x (self_move (m x))
  else put (put m y (left_by_move (m y))) x (keep x (m y)).
(** [swap(T1&a,T2&b)] (H/base_defs/other.hpp:68-74). *)
Definition swap_refs (m : nat -> V) (a b : nat) : nat -> V :=
  let tmp := m b in
  let m1 := put m b (left_by_move (m b)) in
  let m2 := move_to m1 b a in
  put m2 a (keep a tmp).
(** [T1 swap(T1&a,const T2&b)] (H/base_defs/other.hpp:87-93): the value returned and the
    objects afterwards; copying an object to itself leaves it as it is. *)
Definition swap_const (m : nat -> V) (a b : nat) : V * (nat -> V) :=
  let tmp := m a in
  let m1 := put m a (left_by_move (m a)) in
  (tmp, if Nat.eqb a b then m1 else put m1 a (keep a (m1 b))).
(** A sequence of exchanges (H/base_defs/other.hpp:68-74). *)
Fixpoint swaps (p : list (nat * nat)) (m : nat -> V) : nat -> V :=
  match p with [] => m | (a, b) :: p' => swaps p' (swap_refs m a b) end.
End Swap.
