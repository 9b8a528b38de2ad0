(** What searching means, independently of the code: occurrences of a list in a
    list, first and last positions. *)
From Verif Require Import Base.

(** [occurs p t k]: the elements of [t] from position [k] on start with [p]. *)
Definition occurs {T} (p t : list T) (k : nat) : Prop :=
  exists a c, t = a ++ p ++ c /\ length a = k.

(** The part of a memory block that belongs to a range. *)
Definition part_of {T} (mem : list T) (base size : nat) : list T :=
  firstn size (skipn base mem).

(** [k] is the least / greatest position satisfying [P]. *)
Definition least (P : nat -> Prop) (k : nat) : Prop := P k /\ forall j, P j -> k <= j.
Definition greatest (P : nat -> Prop) (k : nat) : Prop := P k /\ forall j, P j -> j <= k.

(** [r] is the least (greatest) position satisfying [P], or [None] if there is
    no such position. *)
Definition first_with (P : nat -> Prop) (r : option nat) : Prop :=
  match r with Some k => least P k | None => forall k, ~ P k end.
Definition last_with (P : nat -> Prop) (r : option nat) : Prop :=
  match r with Some k => greatest P k | None => forall k, ~ P k end.

(** Position [k] of [l] holds an element with property [Q]. *)
Definition at_pos {T} (l : list T) (Q : T -> Prop) (k : nat) : Prop :=
  exists x, nth_error l k = Some x /\ Q x.
