(** Specification of random big integers: the number whose digits are the words drawn
    from the source, least significant first. *)
From Verif Require Import Base.
Local Open Scope Z_scope.

(** The first [k] words from position [i], read as one number with [w] bits per word. *)
Fixpoint words_value (w : Z) (raw : nat -> Z) (i k : nat) : Z :=
  match k with O => 0 | S k' => raw i + 2 ^ w * words_value w raw (S i) k' end.
(** Every word of the source is a [w]-bit word. *)
Definition words_ok (w : Z) (raw : nat -> Z) : Prop := forall i, 0 <= raw i < 2 ^ w.
(** A width whose top digit is a whole digit. *)
Definition whole_digits (w n : Z) : Prop := 0 < n /\ n mod w = 0.
(** Number of digits of [w] bits holding [n] bits, one at least. *)
Definition digit_count (w n : Z) : nat := S (Z.to_nat ((n - 1) / w)).
(** Bits needed to write [d]. *)
Definition blen (d : Z) : Z := if d =? 0 then 0 else Z.log2 d + 1.
(** The [j]-th candidate of [n] bits: the low [n] bits of the [j]-th group of words. *)
Definition cand (w : Z) (raw : nat -> Z) (n : Z) (j : nat) : Z :=
  words_value w raw (j * digit_count w n) (digit_count w n) mod 2 ^ n.
(** A candidate lies below the width of the range, or may reach it. *)
Definition okc (excl : bool) (x d : Z) : Prop := if excl then x < d else x <= d.
(** Ranges whose width fills whole digits of a full [int] or more. *)
Definition undrawable (w d : Z) : Prop := 32 <= w /\ whole_digits w (blen d).
