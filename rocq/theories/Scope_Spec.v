(** What looking up names in nested namespaces should mean, apart from how it is
    done. *)
From Verif Require Import Base Scope_Model.
Local Open Scope nat_scope.

(** The node [a] answers the name [k] with [v]: nodes that are no namespaces
    answer everything with themselves, namespaces with what was last put there,
    and with the void node (0) if nothing was. *)
Inductive shows (h : heap) (a : nat) (k : name) : nat -> Prop :=
| sh_self : h a = Some Self -> shows h a k a
| sh_has m pre post v : h a = Some (Space m) -> m = pre ++ (k, v) :: post -> ~ In k (map fst pre) -> shows h a k v
| sh_not m : h a = Some (Space m) -> ~ In k (map fst m) -> shows h a k 0.

(** Everything a name leads to is a node, and the special values are no
    namespaces. *)
Record sound (h : heap) : Prop := mkSound {
  snd_special : h 0 = Some Self /\ h 1 = Some Self /\ h 2 = Some Self;
  snd_closed : forall a k v, shows h a k v -> h v <> None }.

(** The name is declared in the namespace: its value or its entry in the type map
    is neither void nor nil. *)
Definition declares (h : heap) (a : nat) (k : name) : Prop :=
  (exists v, shows h a k v /\ 2 <= v) \/
  (exists m ty, shows h a types m /\ shows h m k ty /\ 2 <= ty).

(** The innermost namespace, from [a] outwards, that declares the name; void or
    nil, where the way outwards ended, if there is none. *)
Inductive innermost (h : heap) (k : name) : nat -> nat -> Prop :=
| in_here a : 2 <= a -> declares h a k -> innermost h k a a
| in_outer a p b : 2 <= a -> ~ declares h a k -> shows h a up p -> innermost h k p b -> innermost h k a b
| in_none a : a < 2 -> innermost h k a a.

(** No name has changed its meaning. *)
Definition same (h h' : heap) : Prop := forall a k v, shows h a k v <-> shows h' a k v.
