(** Model of the random floating-point numbers of H/random/defs.hpp:257-279, 309-336.

    Numbers are given by their rational values, with infinities and not-a-number;
    arithmetic is IEEE 754 in the format of the type, rounding to nearest, ties to even
    (FloatBig_Model, Cast_Model).  The words of the generator (Rand_Model) are any words.
    Simplification: the sign of a zero is not modelled. *)
From Verif Require Import Base Float_Model Float_Spec FloatBig_Model FloatBig_Spec Pow_Model.
From Coq Require Import QArith Qround Qabs Qminmax.
From Verif Require Import Cast_Model.
Local Open Scope Z_scope.

(** [div_num], a double computed during constant evaluation (random/defs.hpp:263, 274). *)
Definition div_num (n : Z) : Q :=
  match pow 20 2 n with Some r => scaled (fst r) (snd r) | None => 0%Q end.

Section Rand.
(** The format of T: float or double. *)
Variable f : fmt.

(** [T(base/div_num)] with [base=T(word)]; the division is one of doubles
    (random/defs.hpp:261-264, 272-275). *)
Definition quotient (u n : Z) : Q :=
  rv f (rv binary64 (rv f (inject_Z u) / div_num n)).
(** random/defs.hpp:259-264 [between_0_and_1_exclusive]; [u] is the word. *)
Definition unit_exclusive (u : Z) : Q := quotient u (all_bits f).

(** The words that follow. *)
Variable raw : nat -> Z.
(** random/defs.hpp:267-276 [between_0_and_1_inclusive]; [None]: not ended after [n]
    calls. *)
Fixpoint unit_inclusive (n i : nat) : option Q :=
  match n with
  | O => None
  | S n' =>
    let is_one := Z.odd (raw i) in
    let rnd := Z.shiftr (raw i) 1 in
    if is_one then if rnd =? 0 then Some 1%Q else unit_inclusive n' (S i)
    else Some (quotient rnd (all_bits f - 1))
  end.

(** Values of the type (random/defs.hpp:316-323). *)
Inductive ext := Fin (q : Q) | Inf (neg : bool) | Nan.
Definition round (x : Q) : ext :=
  if inf_bits f <=? rn f (Qabs x) then Inf (negb (Qle_bool 0 x)) else Fin (rs f x).
(** [a+b] (random/defs.hpp:319, 322). *)
Definition eadd (a b : ext) : ext :=
  match a, b with
  | Fin x, Fin y => round (x + y)
  | Nan, _ | _, Nan => Nan
  | Inf s, Inf t => if Bool.eqb s t then Inf s else Nan
  | Inf s, _ | _, Inf s => Inf s
  end.
(** [a*b] (random/defs.hpp:319, 322). *)
Definition emul (a b : ext) : ext :=
  match a, b with
  | Fin x, Fin y => round (x * y)
  | Nan, _ | _, Nan => Nan
  | Inf s, Inf t => Inf (xorb s t)
  | Inf s, Fin x | Fin x, Inf s =>
      if Qeq_bool x 0 then Nan else Inf (xorb s (negb (Qle_bool 0 x)))
  end.
(** random/defs.hpp:311-323, 327-331 [between(a,b)]: the bounds are ordered, the second
    is replaced by the difference; [x] is a number from 0 to 1. *)
Definition scale (a b x : Q) : ext :=
  let lo := Qmin b a in
  let hi := Qmax b a in
  let diff := round (hi - lo) in
  eadd (Fin lo) (emul (Fin x) diff).
Definition between_exclusive (a b : Q) (u : Z) : ext := scale a b (unit_exclusive u).
Definition between_inclusive (a b : Q) (n : nat) : option ext :=
  match unit_inclusive n 0 with Some x => Some (scale a b x) | None => None end.
(** random/defs.hpp:333-335 [uniform_in_range]: the bounds are lowest() and max()
    (H/base_defs/arithmetic_type_info_prover.hpp:102-110). *)
Definition greatest : Q := fabs f (inf_bits f - 1).
Definition uniform_exclusive (u : Z) : ext := between_exclusive (- greatest) greatest u.
Definition uniform_inclusive (n : nat) : option ext := between_inclusive (- greatest) greatest n.
End Rand.
