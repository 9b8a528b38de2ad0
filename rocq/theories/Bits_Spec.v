(** Specification vocabulary for word rotations, bit counts and the sequence
    hash, in terms of individual bits.  Independent of the model. *)
From Verif Require Import Base.
Local Open Scope Z_scope.

Definition word (d v : Z) : Prop := 0 <= v < 2 ^ d.

(** [x] is [v] rotated left by [r] (any integer) within [d] bits. *)
Definition rotated_left (d v r x : Z) : Prop :=
  word d x /\ forall i, 0 <= i < d -> Z.testbit x i = Z.testbit v ((i - r) mod d).

(** Exactly [n] low bits (of [d]) of [v] equal [b]. *)
Definition low_run (d v : Z) (b : bool) (n : Z) : Prop :=
  0 <= n <= d /\ (forall i, 0 <= i < n -> Z.testbit v i = b) /\
  (n < d -> Z.testbit v n = negb b).
(** Exactly [n] high bits (of [d]) of [v] equal [b]. *)
Definition high_run (d v : Z) (b : bool) (n : Z) : Prop :=
  0 <= n <= d /\ (forall i, d - n <= i < d -> Z.testbit v i = b) /\
  (n < d -> Z.testbit v (d - 1 - n) = negb b).

(** Exclusive or of the bits [(j - (s+k)) mod d] of the [k]-th hash, [k] counted
    from 1: what each bit [j] of a sequence hash must be. *)
Fixpoint xor_bits (d j s : Z) (hs : list Z) : bool :=
  match hs with
  | [] => false
  | h :: r => xorb (Z.testbit h ((j - (s + 1)) mod d)) (xor_bits d j (s + 1) r)
  end.
(** [x] is the hash of the sequence of element hashes [hs]. *)
Definition is_seq_hash (d : Z) (hs : list Z) (x : Z) : Prop :=
  word d x /\ forall j, 0 <= j < d -> Z.testbit x j = xor_bits d j 0 hs.
