(** Model of classes that count their objects: [count_able], [the_number_of]
    (H/base_defs/count_able.hpp) and the test whether a collection was a success
    (H/base/memory/gc/gc_t/default_method/defs.hpp:31-33,58-62,85-94), for classes whose copy
    constructor is the one that the language supplies. *)
From Verif Require Import Base.
Open Scope Z_scope.

(** The counter ([size_t] of [w] bits, H/base_defs/count_able.hpp:37), the objects that
    live (language semantics), the next one, and the number kept for the test
    (H/base/memory/gc/gc_t/default_method/defs.hpp:32-33). *)
Record cst := mkC { cnum : Z; clive : list nat; cnext : nat; ckept : Z }.
(** At the start. *)
Definition cst0 : cst := mkC 0 [] 0%nat 0.

(** What a program does: a new object, a copy of an object (or moving it: there is no
    other constructor than the one the language supplies, H/base_defs/count_able.hpp:38-41),
    the end of an object, asking for the number of objects (43-48), and a collection that
    ends some objects followed by the question whether it was a success. *)
Inductive cop := CMake | CCopy (i : nat) | CEnd (i : nat) | CAsk | CCollect (l : list nat).

(** The end of an object (H/base_defs/count_able.hpp:40); of one that does not live it is
    undefined (language semantics). *)
Definition c_end (w : Z) (s : cst) (i : nat) : option cst :=
  if in_dec Nat.eq_dec i (clive s)
  then Some (mkC ((cnum s - 1) mod 2 ^ w) (remove Nat.eq_dec i (clive s)) (cnext s) (ckept s)) else None.
(** The end of several, one after the other
    (H/base/memory/gc/gc_t/default_method/defs.hpp:68-79). *)
Fixpoint c_ends (w : Z) (s : cst) (l : list nat) : option cst :=
  match l with [] => Some s | i :: r => match c_end w s i with Some s1 => c_ends w s1 r | None => None end end.
(** One operation (H/base_defs/count_able.hpp:39-48).
    - the constructor without arguments counts (39);
    - the copy constructor that the language supplies does not;
    - a collection keeps the number before it (default_method/defs.hpp:61-62), and was a
      success if that is greater than the number after it (88-93). *)
Definition c_op (w : Z) (s : cst) (o : cop) : option (cst * Z) :=
  match o with
  | CMake => Some (mkC ((cnum s + 1) mod 2 ^ w) (cnext s :: clive s) (S (cnext s)) (ckept s), 0)
  | CCopy i =>
    if in_dec Nat.eq_dec i (clive s) then Some (mkC (cnum s) (cnext s :: clive s) (S (cnext s)) (ckept s), 0) else None
  | CEnd i => match c_end w s i with Some s1 => Some (s1, 0) | None => None end
  | CAsk => Some (s, cnum s)
  | CCollect l =>
    match c_ends w (mkC (cnum s) (clive s) (cnext s) (cnum s)) l with
    | Some s1 => Some (s1, if ckept s1 >? cnum s1 then 1 else 0)
    | None => None
    end
  end.
(** A program (language semantics). *)
Fixpoint c_run (w : Z) (s : cst) (os : list cop) : option (cst * list Z) :=
  match os with
  | [] => Some (s, [])
  | o :: r =>
    match c_op w s o with
    | Some (s1, a) => match c_run w s1 r with Some (s2, l) => Some (s2, a :: l) | None => None end
    | None => None
    end
  end.
