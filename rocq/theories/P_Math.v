(** Property theorems C44-C47, C53: primes, factorisation, greatest common divisor,
    powers, logarithm, factorial, ceiling division, absolute value. *)
From Verif Require Import Base Bits_Model Bits_Spec UBig_Model UBig_Spec UBig_Basics
  Math_Model Math_Spec Math_Prime Math_Fact Math_Misc Math_Gcd.
Local Open Scope Z_scope.

(** ** C44 *)
(** [M] is the number of values of the type (0: unbounded); [sq] is any square root
    that is the exact floor or one more; 0 and 1 count as prime by the code's
    documented convention. *)
Theorem C44_is_prime_exact : forall M sq p a, type_ok M -> sqrt_ok sq -> 2 <= p -> fits M a ->
  exists r, is_prime_num M sq p a = Some r /\ (r = true <-> a <= 1 \/ prime a).
Proof. intros M sq p a HM Hs. exact (@is_prime_num_spec M sq HM Hs p a). Qed.
Print Assumptions C44_is_prime_exact.
(** The accuracy of the floating-point square root matters: one less at 25 and 25 is
    reported prime. *)
Theorem C44_square_root_refuted : exists sq, (forall a, Z.sqrt a - 1 <= sq a <= Z.sqrt a) /\
  is_prime_num (2 ^ 32) sq 32 25 = Some true /\ ~ prime 25.
Proof.
  exists (fun a => if a =? 25 then 4 else Z.sqrt a). split; [|split; [vm_compute; reflexivity|]].
  - intros a. destruct (Z.eqb_spec a 25) as [->|]; [vm_compute; split; discriminate|lia].
  - intros [_ H]. specialize (H 5 ltac:(lia)). apply Zgcd_1_rel_prime in H. vm_compute in H. discriminate.
Qed.
(** Missing from the full statement: arguments divisible by 6 and arguments whose
    next prime does not fit the type. *)
Theorem C44_next_prime_partial : forall M sq a, type_ok M -> sqrt_ok sq ->
  fits M a -> 4 <= a -> a mod 6 <> 0 ->
  exists p, least_prime_from a p /\
    (fits M p -> forall f, p - a < 6 * Z.of_nat f -> next_prime M sq f a = Some p).
Proof.
  intros M sq a HM Hs Fa Ha H6. destruct (@least_prime_exists a ltac:(lia)) as (p & Hp).
  exists p. split; [exact Hp|]. intros Fp f Hf. exact (next_prime_spec HM Hs Fa Ha H6 Hp Fp Hf).
Qed.
Print Assumptions C44_next_prime_partial.
(** A multiple of 6: the "next prime" of 24 is 27, the next prime after 131 is said
    to be 139 (131 + 1 = 132 is a multiple of 6). *)
Theorem C44_next_prime_refuted :
  next_prime (2 ^ 32) Z.sqrt 100 24 = Some 27 /\ ~ prime 27 /\
  prime_after (2 ^ 32) Z.sqrt 100 131 = Some 139 /\ prime 137.
Proof.
  split; [vm_compute; reflexivity|]. split.
  - intros [_ H]. specialize (H 3 ltac:(lia)). apply Zgcd_1_rel_prime in H. vm_compute in H. discriminate.
  - split; [vm_compute; reflexivity|exact prime_137].
Qed.
Print Assumptions C44_next_prime_refuted.
(** Missing: arguments below 7 and those congruent to 0 or 5 modulo 6. *)
Theorem C44_previous_prime_partial : forall M sq f a p, type_ok M -> sqrt_ok sq ->
  fits M a -> 7 <= a -> a mod 6 <> 0 -> a mod 6 <> 5 -> greatest_prime_upto a p ->
  a - 7 < 6 * Z.of_nat f -> prev_prime M sq f a = Some p.
Proof. intros M sq f a p HM Hs. exact (@prev_prime_spec M sq HM Hs f a p). Qed.
Print Assumptions C44_previous_prime_partial.
(** The prime 11 is passed over, and the prime 5 gives 1. *)
Theorem C44_previous_prime_refuted :
  prev_prime (2 ^ 32) Z.sqrt 100 11 = Some 7 /\ prime 11 /\
  prev_prime (2 ^ 32) Z.sqrt 100 5 = Some 1.
Proof.
  split; [vm_compute; reflexivity|]. split; [|vm_compute; reflexivity].
  destruct (@is_prime_num_spec 0 Z.sqrt type_ok_0 sqrtZ_ok 32 11) as (r & E & Hr); [lia|split; [lia|auto]|].
  vm_compute in E. injection E as <-. destruct (proj1 Hr eq_refl); [lia|auto].
Qed.
Print Assumptions C44_previous_prime_refuted.
Example C44_case : type_ok (2 ^ 32) /\ type_ok 0 /\ sqrt_ok Z.sqrt /\ fits (2 ^ 32) 1009 /\ fits (2 ^ 32) 10403 /\
  is_prime_num (2 ^ 32) Z.sqrt 32 1009 = Some true /\ is_prime_num (2 ^ 32) Z.sqrt 32 10403 = Some false /\
  fits (2 ^ 32) 115 /\ 115 mod 6 <> 0 /\ next_prime (2 ^ 32) Z.sqrt 3 115 = Some 127 /\
  prev_prime (2 ^ 32) Z.sqrt 20 99 = Some 97.
Proof.
  split; [right; lia|]. split; [left; reflexivity|]. split; [exact sqrtZ_ok|].
  repeat split; try (right; lia); try lia; vm_compute; try reflexivity; discriminate.
Qed.

(** ** C45 *)
(** Missing: that the function returns at all (false, see below). *)
Theorem C45_factorisation_partial : forall M sq f n l, type_ok M -> sqrt_ok sq -> 0 < n -> 
  factorise M sq f n = Some l -> prod l = n /\ Forall prime l.
Proof. intros M sq f n l HM Hs. exact (@factorise_sound M sq HM Hs f n l). Qed.
Print Assumptions C45_factorisation_partial.
Theorem C45_unique_factors_partial : forall M sq f n l, type_ok M -> sqrt_ok sq -> 0 < n -> 
  ufactorise M sq f n = Some l -> NoDup l /\ Forall prime l /\ forall p, prime p -> (p | n) <-> In p l.
Proof. intros M sq f n l HM Hs. exact (@ufactorise_sound M sq HM Hs f n l). Qed.
Print Assumptions C45_unique_factors_partial.
(** It returns for every number without a prime factor above 131. *)
Theorem C45_termination_partial : forall n f, 0 < n -> (forall p, prime p -> (p | n) -> p < 137) ->
  n < 2 ^ (Z.of_nat f - 40) -> (60 <= f)%nat -> exists l, factorise 0 Z.sqrt f n = Some l.
Proof. exact factorise_smooth. Qed.
Print Assumptions C45_termination_partial.
(** 137 is prime, and factorising it never ends, since the search steps over it. *)
Theorem C45_factorisation_refuted : exists n, prime n /\ forall f, factorise 0 Z.sqrt f n = None.
Proof. exists 137. exact (conj prime_137 factorise_137). Qed.
Print Assumptions C45_factorisation_refuted.
Example C45_case : factorise (2 ^ 32) Z.sqrt 100 (2 * 2 * 3 * 5 * 7 * 7 * 131) = Some [2; 2; 3; 5; 7; 7; 131] /\
  ufactorise (2 ^ 32) Z.sqrt 100 (2 * 2 * 3 * 5 * 7 * 7 * 131) = Some [2; 3; 5; 7; 131] /\
  factorise 0 Z.sqrt 100 (2 ^ 50) = Some (repeat 2 50) /\
  (forall p, prime p -> (p | 2 ^ 50) -> p < 137) /\ 2 ^ 50 < 2 ^ (Z.of_nat 100 - 40).
Proof.
  repeat split; try (vm_compute; reflexivity).
  intros p Pp Hd. rewrite (@prime_div_pow2 p 50 ltac:(lia) Pp Hd). reflexivity.
Qed.

(** ** C46 *)
(** Built-in words of [lvl_bits k] = 8, 16, 32, 64 ... bits, on a machine where
    shifting a zero by the whole width gives zero, or for words narrower than 32
    bits with the language's rules. *)
Theorem C46_native_gcd_exact : forall k lenient f x y,
  lenient = true \/ lvl_bits k < 32 -> word (lvl_bits k) x -> word (lvl_bits k) y ->
  x + y + 1 < Z.of_nat f -> exists g, gcd k lenient f x y = Some g /\ Zis_gcd x y g /\ 0 <= g.
Proof.
  intros k lenient f x y Mode Hx Hy Hf. exists (Z.gcd x y).
  exact (conj (gcd_native_spec Mode Hx Hy Hf) (conj (Zgcd_is_gcd x y) (Z.gcd_nonneg x y))).
Qed.
Print Assumptions C46_native_gcd_exact.
(** By the language's rules every call on 32-bit or wider words with a non-zero
    second argument shifts by the whole width, which is undefined. *)
Theorem C46_native_gcd_refuted : forall k f x y, 32 <= lvl_bits k ->
  word (lvl_bits k) x -> word (lvl_bits k) y -> y <> 0 -> gcd k false f x y = None.
Proof. intros k f x y Hk Hx Hy Hy0. exact (gcd_strict_none Hk f 0 Hx Hy Hy0). Qed.
Print Assumptions C46_native_gcd_refuted.
(** Missing: 256 digits and more (Lehmer's algorithm), and a zero first argument
    with an even second one. *)
Theorem C46_big_gcd_partial : forall w f x y, 0 < w -> canon (base w) x -> canon (base w) y ->
  (length x < 256)%nat -> (length y < 256)%nat ->
  (val (base w) x = 0 -> y <> [] -> Z.odd (val (base w) y) = true) ->
  val (base w) x + val (base w) y + 1 < Z.of_nat f ->
  denotes (base w) (ugcd w f x y) (Z.gcd (val (base w) x) (val (base w) y)).
Proof. intros w f x y Hw. exact (ugcd_spec Hw (f := f) (x := x) (y := y)). Qed.
Print Assumptions C46_big_gcd_partial.
(** gcd(0,4) is 1 on big integers. *)
Theorem C46_big_gcd_refuted : ugcd 32 10 [] [4] = Some [1] /\ Z.gcd 0 4 = 4.
Proof. split; vm_compute; reflexivity. Qed.
Print Assumptions C46_big_gcd_refuted.
(** Euclid's algorithm; missing: a zero first argument and arguments of different
    sign. *)
Theorem C46_euclid_partial : forall f x y, (0 < x /\ 0 <= y) \/ (x < 0 /\ y < 0) ->
  Z.abs x + Z.abs y < Z.of_nat f -> euclid_gcd f x y = Some (Z.gcd x y).
Proof. exact euclid_spec. Qed.
Print Assumptions C46_euclid_partial.
(** euclidean_gcd(0,y) divides by zero, and euclidean_gcd(-4,6) never ends. *)
Theorem C46_euclid_refuted : (forall f y, 0 < y -> euclid_gcd f 0 y = None) /\
  (forall f, euclid_gcd f (-4) 6 = None).
Proof. exact (conj euclid_zero euclid_mixed). Qed.
Print Assumptions C46_euclid_refuted.
Example C46_case : word (lvl_bits 2) 84 /\ gcd 2 true 500 84 360 = Some 12 /\ gcd 1 false 500 84 360 = Some 12 /\
  gcd 2 true 500 0 48 = Some 48 /\ gcd 2 true 500 17 0 = Some 17 /\
  canon (base 8) [232; 3] /\ ugcd 8 2000 [232; 3] [88; 2] = Some [200] /\ euclid_gcd 500 84 360 = Some 12 /\
  euclid_gcd 500 (-84) (-360) = Some 12 /\ gcd 2 false 500 84 360 = None.
Proof.
  split; [unfold word; vm_compute; split; [discriminate|reflexivity]|].
  split; [vm_compute; reflexivity|]. split; [vm_compute; reflexivity|].
  split; [vm_compute; reflexivity|]. split; [vm_compute; reflexivity|].
  split; [split; [repeat constructor; lia|cbn; lia]|].
  repeat split; vm_compute; reflexivity.
Qed.

(** ** C47 *)
(** Missing: values whose square does not fit the type. *)
Theorem C47_integer_log_partial : forall M a b f, 2 <= b -> 1 <= a ->
  fits M (Z.max a b * Z.max a b) -> 2 * a + 3 < Z.of_nat f ->
  exists r, integer_log M f a b = Some r /\ 0 <= r /\ b ^ r <= a < b ^ (r + 1).
Proof. intros M a b f Hb Ha R Hf. exact (integer_log_spec Hb Ha R Hf). Qed.
Print Assumptions C47_integer_log_partial.
(** On 32-bit unsigned numbers integer_log(65537,2) never ends. *)
Theorem C47_integer_log_refuted : forall f, integer_log (2 ^ 32) f 65537 2 = None.
Proof. exact log_65537. Qed.
Print Assumptions C47_integer_log_refuted.
(** The product of [n] numbers from [start] on, wrapped to the result type; from 1
    on it is the factorial. *)
Theorem C47_factorial_exact : forall M f n start, 0 <= n -> 1 <= start -> start + n < 2 ^ 32 ->
  (0 < f)%nat -> n <= 15 * 2 ^ (Z.of_nat f - 1) ->
  factorial M f n start = Some (norm M (rising (Z.to_nat n) start)) /\
  rising (Z.to_nat n) 1 = Z.of_nat (fact (Z.to_nat n)).
Proof.
  intros M f n start Hn Hs Hr Hf Hn2.
  exact (conj (factorial_spec M Hn Hs Hr Hf Hn2) (rising_fact (Z.to_nat n))).
Qed.
Print Assumptions C47_factorial_exact.
Theorem C47_factorial_refuted : forall M f start, factorial M f (2 ^ 32 - 1) start = None.
Proof. exact factorial_max_diverges. Qed.
Print Assumptions C47_factorial_refuted.
(** Whatever is returned is the exact power; missing: that something is returned
    beyond 63 digits (the fast multiplication of C03). *)
Theorem C47_big_power_partial : forall w f a b, 0 < w -> canon (base w) a -> 0 <= b ->
  (forall r, upow w f a b = Some r -> canon (base w) r /\ val (base w) r = val (base w) a ^ b) /\
  (2 * b < 2 ^ Z.of_nat f -> (0 < f)%nat -> val (base w) a ^ b < base w ^ 63 ->
   denotes (base w) (upow w f a b) (val (base w) a ^ b)).
Proof.
  intros w f a b Hw Ha Hb.
  exact (conj (fun r => @upow_sound w Hw f a b r Ha Hb) (fun H => @upow_total w Hw f a b Ha (conj Hb H))).
Qed.
Print Assumptions C47_big_power_partial.
(** Unsigned operands. *)
Theorem C47_ceil_div_exact : forall a b, 0 <= a -> 0 < b ->
  exists q, ceil_div a b = Some q /\ b * (q - 1) < a <= b * q.
Proof. exact ceil_div_spec. Qed.
Print Assumptions C47_ceil_div_exact.
(** Signed operands: ceil_div(-7,2) is -2, not -3. *)
Theorem C47_ceil_div_refuted : ceil_div_int (-7) 2 = Some ((-2) mod 2 ^ 32) /\
  ~ (2 * (-2 - 1) < -7 <= 2 * -2) /\ 2 * (-3 - 1) < -7 <= 2 * -3.
Proof. split; [vm_compute; reflexivity|lia]. Qed.
Print Assumptions C47_ceil_div_refuted.
(** Quotients that are not negative are rounded up, also for two negative
    operands. *)
Theorem C47_ceil_div_signed_partial : forall a b, int32 a -> int32 b -> 0 <= a * b -> b <> 0 ->
  ~ (a = - 2 ^ 31 /\ b = -1) ->
  exists q, ceil_div_int a b = Some q /\ Z.abs b * (q - 1) < Z.abs a <= Z.abs b * q.
Proof. exact ceil_div_int_same. Qed.
Print Assumptions C47_ceil_div_signed_partial.
(** Every negative quotient that is not a whole number: one more than the ceiling
    [q], as an unsigned number. *)
Theorem C47_ceil_div_signed_wrong : forall a b, int32 a -> int32 b -> a * b < 0 -> Z.rem a b <> 0 ->
  exists q, ceil_div_int a b = Some ((q + 1) mod 2 ^ 32) /\
            0 <= Z.abs b * - q < Z.abs a /\ Z.abs a < Z.abs b * (1 - q).
Proof. exact ceil_div_int_mixed. Qed.
Print Assumptions C47_ceil_div_signed_wrong.
(** Division by zero, and the least number by -1, are undefined. *)
Theorem C47_ceil_div_undefined : forall a, ceil_div a 0 = None /\ ceil_div_int a 0 = None /\
  ceil_div_int (- 2 ^ 31) (-1) = None.
Proof. intros a. repeat split. Qed.
Print Assumptions C47_ceil_div_undefined.
Example C47_case : fits (2 ^ 32) (Z.max 1000 10 * Z.max 1000 10) /\
  integer_log (2 ^ 32) 2010 1000 10 = Some 3 /\ integer_log 0 2010 999 10 = Some 2 /\
  factorial 0 3 20 1 = Some 2432902008176640000 /\ factorial (2 ^ 32) 3 20 1 = Some (2432902008176640000 mod 2 ^ 32) /\
  canon (base 8) [10] /\ 10 ^ 5 < base 8 ^ 63 /\ upow 8 5 [10] 5 = Some [160; 134; 1] /\
  ceil_div 7 2 = Some 4 /\ ceil_div 8 2 = Some 4 /\ ceil_div 0 3 = Some 0 /\
  int32 (-7) /\ int32 (-2) /\ ceil_div_int (-7) (-2) = Some 4 /\ ceil_div_int 7 (-2) = Some ((-2) mod 2 ^ 32).
Proof.
  split; [split; [lia|right; lia]|].
  split; [vm_compute; reflexivity|]. split; [vm_compute; reflexivity|].
  split; [vm_compute; reflexivity|]. split; [vm_compute; reflexivity|].
  split; [split; [repeat constructor; lia|cbn; lia]|].
  repeat split; vm_compute; try reflexivity; discriminate.
Qed.

(** ** C53 *)
Theorem C53_abs_partial : forall d v, - 2 ^ (d - 1) < v < 2 ^ (d - 1) -> abs_signed d v = Some (Z.abs v).
Proof. exact abs_signed_spec. Qed.
Print Assumptions C53_abs_partial.
(** The absolute value of the smallest 32-bit number overflows. *)
Theorem C53_abs_refuted : abs_signed 32 (- 2 ^ 31) = None.
Proof. vm_compute. reflexivity. Qed.
Print Assumptions C53_abs_refuted.
Example C53_case : - 2 ^ 31 < -2147483647 < 2 ^ 31 /\ abs_signed 32 (-2147483647) = Some 2147483647 /\ abs_signed 32 5 = Some 5.
Proof. repeat split; vm_compute; reflexivity. Qed.
