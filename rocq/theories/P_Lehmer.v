(** Property theorems C46 for big unsigned integers of every size.  [lf], [fuel] and [k]
    bound the loops of the model, [DOut] says that they were too small, [DUb] is undefined
    behaviour.  [ediv] is the floating-point quotient of a size by Euler's number; only its
    range is used. *)
From Verif Require Import Base UBig_Model UBig_Spec UBig_Basics UBigDiv_Model UBigDiv_Ops Lehmer_Model Lehmer_Proofs.
Local Open Scope Z_scope.

(** [gcd] of two big integers of any size always ends, from some bounds on in the same way.
    What it gives is their greatest common divisor; only when the longer number has 256 digits
    or more and the shorter one two or more can it be undefined instead.  Missing for the
    property: that it is never undefined (false, see below); the first number zero with the
    second one even and of less than 256 digits ([C46_big_gcd_refuted]). *)
Theorem C46_big_gcd_any_size_partial : forall w ediv, 0 < w ->
  (forall n, (21 <= n)%nat -> (1 <= ediv n < n)%nat) ->
  forall x y, canon (base w) x -> canon (base w) y ->
  Z.of_nat (length x) < 2 ^ 64 - 1 -> Z.of_nat (length y) < 2 ^ 64 - 1 ->
  (x = [] -> y <> [] -> Z.odd (val (base w) y) = true \/ (256 <= length y)%nat) ->
  exists N t,
  (forall lf fuel k, (N <= lf)%nat -> (N <= fuel)%nat -> (N <= k)%nat -> big_gcd w ediv lf fuel k x y = t) /\
  ((exists g, t = DOk g /\ canon (base w) g /\ val (base w) g = Z.gcd (val (base w) x) (val (base w) y)) \/
   (t = DUb /\ (256 <= Nat.max (length x) (length y))%nat /\ (2 <= Nat.min (length x) (length y))%nat)).
Proof. intros w ediv Hw Hed x y. exact (@big_gcd_ends w Hw ediv Hed x y). Qed.
Print Assumptions C46_big_gcd_any_size_partial.
Example C46_any_size_case :
  big_gcd 4 e_floor 99 99 99 (repeat 14 256) (repeat 2 256) = DOk (repeat 2 256) /\
  big_gcd 32 e_floor 99 99 99 [] (repeat 4 256) = DOk (repeat 4 256) /\
  big_gcd 32 e_floor 99 99 999 [12; 6] [0; 9] = DOk [36].
Proof. refine (conj _ (conj _ _)); vm_compute; reflexivity. Qed.

(** Finding: two numbers, the longer one of 256 digits or more, the shorter one of two or more
    and at least 32 shorter: [gcd] is always undefined, whatever their order. *)
Theorem C46_uneven_lengths_undefined : forall w ediv, 0 < w -> forall lf fuel k x y,
  canon (base w) x -> canon (base w) y -> (256 <= length x)%nat -> Z.of_nat (length x) < 2 ^ 64 - 1 ->
  (2 <= length y)%nat -> (length y + 32 <= length x)%nat ->
  big_gcd w ediv lf fuel (S k) x y = DUb /\ big_gcd w ediv lf fuel (S k) y x = DUb.
Proof. intros w ediv Hw lf fuel k x y. exact (@uneven_undefined w Hw ediv lf fuel k x y). Qed.
Print Assumptions C46_uneven_lengths_undefined.
Example C46_uneven_case : canon (base 4) (repeat 3 256) /\ canon (base 4) [6; 9] /\
  big_gcd 4 e_floor 99 99 9 [6; 9] (repeat 3 256) = DUb.
Proof. split; [apply canonb_ok; vm_compute; reflexivity|]. split; [apply canonb_ok; vm_compute; reflexivity|].
  vm_compute. reflexivity. Qed.

(** Finding: two numbers, the longer one of 256 digits or more, whose remainder is long (times a
    multiplier of one digit at least 32 digits): [gcd] has no result, whatever their order. *)
Theorem C46_long_remainder_undefined : forall w ediv, 0 < w ->
  (forall n, (21 <= n)%nat -> (1 <= ediv n < n)%nat) ->
  forall lf fuel k x y g, canon (base w) x -> canon (base w) y -> (256 <= length x)%nat ->
  (2 <= length y <= length x)%nat -> val (base w) y <= val (base w) x ->
  base w ^ 32 <= (val (base w) x mod val (base w) y) *
    ((base w * base w - 1) / (val (base w) (skipn (length y - 2) y) + 1)) ->
  big_gcd w ediv lf fuel k x y <> DOk g /\ big_gcd w ediv lf fuel k y x <> DOk g.
Proof. intros w ediv Hw Hed lf fuel k x y g. exact (@long_undefined w Hw ediv Hed lf fuel k x y g). Qed.
Print Assumptions C46_long_remainder_undefined.
Example C46_long_remainder_case : let x := repeat 7 256 in let y := repeat 1 60 ++ repeat 5 196 in
  canonb (base 4) x = true /\ canonb (base 4) y = true /\ (val (base 4) y <=? val (base 4) x) = true /\
  (base 4 ^ 32 <=? (val (base 4) x mod val (base 4) y) *
    ((base 4 * base 4 - 1) / (val (base 4) (skipn (length y - 2) y) + 1))) = true /\
  big_gcd 4 e_floor 99 99 9 x y = DUb.
Proof. cbv zeta. refine (conj _ (conj _ (conj _ (conj _ _)))); vm_compute; reflexivity. Qed.
