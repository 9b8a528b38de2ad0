(** What the text of a pointer should say. *)
From Verif Require Import Base UBig_Model BigInt_Model NumRepr_Model NumRepr_Spec.

(** Behind the last "@" stands the hexadecimal numeral of the address, and [front]
    stands before it. *)
Definition says_at (s front : list Z) (a : Z) : Prop :=
  exists h, s = front ++ 64 :: h /\ ~ In 64 h /\ numeral_of hexadecimal a h.
