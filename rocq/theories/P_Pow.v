(** C101: powers of integers during constant evaluation. *)
From Verif Require Import Base Float_Spec Pow_Model Pow_Spec Pow_Proofs.
From Coq Require Import QArith Qabs.
Local Open Scope Z_scope.

(** The arithmetic computed with: sums, differences, products and quotients are nearest
    numbers of 53 binary digits. *)
Theorem C101_arithmetic : forall a b : flt, let v := fun x : flt => scaled (fst x) (snd x) in
  nearest53 (v a + v b) (v (fadd a b)) /\ nearest53 (v a - v b) (v (fsub a b)) /\
  nearest53 (v a * v b) (v (fmul a b)) /\ (fst b <> 0 -> nearest53 (v a / v b) (v (fdiv a b))).
Proof. exact arithmetic_nearest. Qed.
Print Assumptions C101_arithmetic.
(** 1/3 in double is 6004799503160661 * 2^-54, 0.1+0.2 is 0.30000000000000004. *)
Example C101_arithmetic_case : fdiv (1, 0) (3, 0) = (6004799503160661, -54) /\
  fadd (fdiv (1, 0) (10, 0)) (fdiv (2, 0) (10, 0)) = (5404319552844596, -54).
Proof. vm_compute. split; reflexivity. Qed.

(** The power with exponent 0 is 1 if the logarithm ends; powers of 1 are 1. *)
Theorem C101_trivial_partial : (forall f a l, log f a = Value l -> size_pow f a 0 = Some 1) /\
  forall f b, size_pow (S f) 1 b = Some 1.
Proof. exact (conj pow_zero pow_one). Qed.
Print Assumptions C101_trivial_partial.
Example C101_trivial_case : log 20 10 = Value (5184960683398421, -51) /\ size_pow 20 1 1000 = Some 1.
Proof. vm_compute. split; reflexivity. Qed.

(** Powers of two up to the 45th are right: the number of entropy cells of the random
    numbers (2^8) and the bound of static string data (2^9) are such. *)
Theorem C101_two_partial : forall f n, (4 <= f)%nat -> 0 <= n <= 45 -> size_pow f 2 n = Some (2 ^ n).
Proof. exact size_pow_2. Qed.
Print Assumptions C101_two_partial.
Example C101_two_case : size_pow 4 2 8 = Some 256 /\ size_pow 4 2 9 = Some 512.
Proof. vm_compute. split; reflexivity. Qed.

(** The exponential of a number that is not negative is at least 1. *)
Theorem C101_exp_partial : forall x r, (0 <= scaled (fst x) (snd x))%Q -> exp x = Some r ->
  (1 <= scaled (fst r) (snd r))%Q.
Proof. exact exp_ge_1. Qed.
Print Assumptions C101_exp_partial.
Example C101_exp_case : exp (1, 0) = Some (6121026514868074, -51).
Proof. vm_compute. reflexivity. Qed.

(** Powers are not right in general: 10^1 is 9, 10^2 is 99 (the size of the buffer of a
    memory stream), 2^46 is one too large. *)
Theorem C101_power_refuted : exists a b c d, size_pow 20 a b = Some (a ^ b - 1) /\ 1 < a /\ 0 < b /\
  size_pow 20 c d = Some (c ^ d + 1).
Proof. exists 10, 2, 2, 46. vm_compute. repeat split; reflexivity. Qed.
Print Assumptions C101_power_refuted.
Example C101_power_case : size_pow 20 10 1 = Some 9 /\ size_pow 20 10 2 = Some 99 /\ size_pow 20 8 1 = Some 7.
Proof. vm_compute. repeat split; reflexivity. Qed.

(** The logarithm of 16 never ends, so no power of 16 has a value. *)
Theorem C101_log_16_diverges : forall f b, log f 16 = Running /\ pow f 16 b = None.
Proof. exact log_16_pow. Qed.
Print Assumptions C101_log_16_diverges.
Example C101_log_16_case : log 50 16 = Running /\ log 50 15 <> Running.
Proof. vm_compute. split; [reflexivity|discriminate]. Qed.
