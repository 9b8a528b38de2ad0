(** Property theorems C42, C43: random values in a range, period of the generator. *)
From Verif Require Import Base Bits_Model Bits_Spec Math_Model Rand_Model Rand_Proofs.
Local Open Scope Z_scope.

(** ** C42 *)
(** Whatever the generator produces ([raw] is any sequence of words), a returned
    value lies between the bounds, given in either order; the upper one is excluded
    on request.  [in_type k sgn] are the values of the signed or unsigned type of
    [lvl_bits k] = 8, 16, 32, 64, ... bits. *)
Theorem C42_between_in_range : forall k sgn raw f excl a b r, in_type k sgn a -> in_type k sgn b ->
  between k sgn raw f excl a b = Some r ->
  Z.min a b <= r /\ (if excl : bool then r < Z.max a b else r <= Z.max a b).
Proof. exact between_sound. Qed.
Print Assumptions C42_between_in_range.
(** Every value of the range is attainable.  Missing: ranges of half the type or more
    on types of 32 bits or more (false, see below). *)
Theorem C42_between_attains_partial : forall k sgn (excl : bool) a b v, in_type k sgn a -> in_type k sgn b ->
  Z.max a b - Z.min a b < 2 ^ (lvl_bits k - 1) \/ lvl_bits k < 32 ->
  Z.min a b <= v -> (if excl then v < Z.max a b else v <= Z.max a b) ->
  exists x, forall raw f, raw 0%nat = x -> (0 < f)%nat -> between k sgn raw f excl a b = Some v.
Proof.
  intros k sgn excl a b v Ta Tb Hs H1 H2. exists (v - Z.min a b). intros raw f Hr Hf.
  exact (between_hit Ta Tb Hs H1 H2 Hf Hr).
Qed.
Print Assumptions C42_between_attains_partial.
(** On 32-bit and wider types a range of half the type or more (for instance the
    whole type, which [uniform_in_range] requests) always runs into an undefined
    subtraction or shift. *)
Theorem C42_wide_range_refuted : forall k sgn raw f excl a b, in_type k sgn a -> in_type k sgn b ->
  32 <= lvl_bits k -> 2 ^ (lvl_bits k - 1) <= Z.max a b - Z.min a b ->
  between k sgn raw f excl a b = None.
Proof. exact between_wide. Qed.
Print Assumptions C42_wide_range_refuted.
(** The exclusive form with equal bounds never returns. *)
Theorem C42_empty_range_refuted : forall k sgn raw f a, in_type k sgn a ->
  between k sgn raw f true a a = None.
Proof. exact between_empty. Qed.
Print Assumptions C42_empty_range_refuted.
Example C42_case : in_type 2 true (-5) /\ in_type 2 true 7 /\
  Z.max (-5) 7 - Z.min (-5) 7 < 2 ^ (lvl_bits 2 - 1) /\
  between 2 true (fun i => if Nat.eqb i 0 then 15 else 0xFFFFFFF3) 5 false 7 (-5) = Some (-2) /\
  between 2 true (fun i => 12) 5 false (-5) 7 = Some 7 /\ between 2 true (fun i => 12) 5 true (-5) 7 = None /\
  between 0 false (fun i => 200) 5 false 0 255 = Some 200 /\ 32 <= lvl_bits 2 /\
  in_type 2 false (2 ^ 31) /\ between 2 false (fun i => 1) 5 false 0 (2 ^ 31) = None.
Proof. unfold in_type. repeat split; vm_compute; try reflexivity; discriminate. Qed.

(** ** C43 *)
(** The multiplier chosen for any modulus divisible by 4 (0 standing for 2^64), with
    whatever the square root and prime search return, gives the longest possible
    period at every state width: the state recurs exactly after multiples of 2^w
    steps, and every state is visited from every seed. *)
Theorem C43_full_period : forall next sqrt f m a w x, m mod 4 = 0 ->
  multiplier next sqrt f m = Some a -> 0 <= w -> 0 <= x < 2 ^ w ->
  (forall n, lcg_iter w a increment n x = x <-> (2 ^ w | Z.of_nat n)) /\
  (forall y, 0 <= y < 2 ^ w -> exists n, Z.of_nat n < 2 ^ w /\ lcg_iter w a increment n x = y).
Proof.
  intros next sqrt f m a w x Hm Ea Hw Hx. pose proof (multiplier_spec Hm Ea) as Ha.
  exact (conj (fun n => lcg_period Hw Ha (eq_refl : increment mod 2 = 1) n Hx)
              (fun y => lcg_reaches Hw Ha (eq_refl : increment mod 2 = 1) Hx)).
Qed.
Print Assumptions C43_full_period.
(** So does the step that fills the table from the seed. *)
Theorem C43_sowing_full_period : forall w x n, 0 <= w -> 0 <= x < 2 ^ w ->
  (Nat.iter n (sow_step w) x = x <-> (2 ^ w | Z.of_nat n)).
Proof. exact sow_period. Qed.
Print Assumptions C43_sowing_full_period.
(** The multiplier of the 64-bit generator, with the prime search of math.hpp. *)
Example C43_case :
  let next p := match prime_after (2 ^ 64) Z.sqrt 1000 p with Some q => q | None => 0 end in
  multiplier next Z.sqrt 100 0 = Some 44973896861 /\ 44973896861 mod 4 = 1 /\ 0 mod 4 = 0 /\
  map (fun n => lcg_iter 4 44973896861 increment n 3) (seq 0 17) =
    [3; 8; 9; 6; 15; 4; 5; 2; 11; 0; 1; 14; 7; 12; 13; 10; 3].
Proof. repeat split; vm_compute; reflexivity. Qed.
