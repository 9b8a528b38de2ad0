(** Specification of the choice of packages: what it means that a list of packages is
    enough for a tree of dependencies. *)
From Coq Require Import String.
From Verif Require Import Base Pkg_Model.
Open Scope Z_scope.

(** One package stands for another: the same name, the same main version. *)
Definition stands_for (q p : pkg) : Prop := pname q = pname p /\ pmajor q = pmajor p.
(** A list that has a package standing for each needed one. *)
Inductive enough (L : list pkg) : relay -> Prop :=
| E_one p q : In q L -> stands_for q p -> enough L (ROne p)
| E_all l : (forall r, In r l -> enough L r) -> enough L (RAll l)
| E_pick l r : In r l -> enough L r -> enough L (RPick l).
(** The packages that a tree speaks of. *)
Inductive mentions : relay -> pkg -> Prop :=
| M_one p : mentions (ROne p) p
| M_all l r p : In r l -> mentions r p -> mentions (RAll l) p
| M_pick l r p : In r l -> mentions r p -> mentions (RPick l) p.
(** No two packages that stand for each other. *)
Definition all_different (L : list pkg) : Prop := ForallOrdPairs (fun a b => ~ stands_for a b) L.
(** A tree without alternatives. *)
Inductive plain : relay -> Prop :=
| P_one p : plain (ROne p)
| P_all l : (forall r, In r l -> plain r) -> plain (RAll l).
(** A tree in which no alternative has alternatives. *)
Inductive flat : relay -> Prop :=
| F_one p : flat (ROne p)
| F_all l : (forall r, In r l -> flat r) -> flat (RAll l)
| F_pick l : (forall r, In r l -> plain r) -> flat (RPick l).
(** What is needed is there or can be found. *)
Inductive can_be_met (found : pkg -> bool) (L : list pkg) : relay -> Prop :=
| B_have p q : In q L -> stands_for q p -> can_be_met found L (ROne p)
| B_find p : found p = true -> can_be_met found L (ROne p)
| B_all l : (forall r, In r l -> can_be_met found L r) -> can_be_met found L (RAll l)
| B_pick l r : In r l -> can_be_met found L r -> can_be_met found L (RPick l).
(** How many packages of a list have a property. *)
Definition how_many (f : pkg -> bool) (L : list pkg) : nat := length (filter f L).
