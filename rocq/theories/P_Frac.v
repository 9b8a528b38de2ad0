(** Property theorems C14-C16 (unsigned fractions) and C56, C57 (signed fractions).
    [qval] is the rational number denoted, [fcanon] canonical digits and a non-zero
    denominator; nothing is assumed about common factors.  [fsmall]: fewer than 64
    digits, so that the multiplication is always defined (C03). *)
From Coq Require Import QArith.
From Verif Require Import Base UBig_Model UBig_Spec UBig_Basics P_UBig Bits_Model BigInt_Model
  Frac_Model Frac_Spec Frac_Proofs.
Local Open Scope Z_scope.

Ltac fcanon_c := split; [canon_c|split; [canon_c|vm_compute; reflexivity]].

(** ** C14.  Every result is exact, whatever the sizes; a result is produced
    whenever one operand is small.  Missing: definedness for large operands
    (C03), x/=x (below). *)
Theorem C14_add_partial : forall w a b, 0 < w -> fcanon (base w) a -> fcanon (base w) b ->
  (forall r, fadd w a b = Some r ->
     fcanon (base w) r /\ (qval (base w) r == qval (base w) a + qval (base w) b)%Q) /\
  (fsmall b -> exists r, fadd w a b = Some r).
Proof. intros w a b Hw Ha Hb. exact (conj (fun r => fadd_sound Hw Ha Hb (r := r)) (fadd_total Hw Ha Hb)). Qed.
Print Assumptions C14_add_partial.
Theorem C14_sub_partial : forall w a b, 0 < w -> fcanon (base w) a -> fcanon (base w) b ->
  (forall r, fsub w a b = Some r -> fcanon (base w) r /\
     ((qval (base w) b <= qval (base w) a)%Q ->
        (qval (base w) r == qval (base w) a - qval (base w) b)%Q) /\
     ((qval (base w) a <= qval (base w) b)%Q -> (qval (base w) r == 0)%Q)) /\
  (fsmall b -> exists r, fsub w a b = Some r).
Proof. intros w a b Hw Ha Hb. exact (conj (fun r => fsub_sound Hw Ha Hb (r := r)) (fsub_total Hw Ha Hb)). Qed.
Print Assumptions C14_sub_partial.
Theorem C14_mul_partial : forall w a b, 0 < w -> fcanon (base w) a -> fcanon (base w) b ->
  (forall r, fmul w a b = Some r ->
     fcanon (base w) r /\ (qval (base w) r == qval (base w) a * qval (base w) b)%Q) /\
  (fsmall b -> exists r, fmul w a b = Some r).
Proof. intros w a b Hw Ha Hb. exact (conj (fun r => fmul_sound Hw Ha Hb (r := r)) (fmul_total Hw Ha Hb)). Qed.
Print Assumptions C14_mul_partial.
(** Division; by zero it gives a zero denominator (an infinity). *)
Theorem C14_div_partial : forall w a b, 0 < w -> fcanon (base w) a -> fcanon (base w) b ->
  (forall r, fdiv w a b = Some r ->
     (~ (qval (base w) b == 0)%Q ->
        fcanon (base w) r /\ (qval (base w) r == qval (base w) a / qval (base w) b)%Q) /\
     ((qval (base w) b == 0)%Q -> den r = [])) /\
  (fsmall b -> exists r, fdiv w a b = Some r).
Proof.
  intros w a b Hw Ha Hb.
  exact (conj (fun r E => conj (fun Hz => fdiv_sound Hw Ha Hb Hz E) (fun Hz => fdiv_zero Hw Ha Hb Hz E))
              (fdiv_total Hw Ha Hb)).
Qed.
Print Assumptions C14_div_partial.
Theorem C14_reciprocal_exact : forall w a, 0 < w -> fcanon (base w) a -> ~ (qval (base w) a == 0)%Q ->
  fcanon (base w) (freciprocal a) /\ (qval (base w) (freciprocal a) == / qval (base w) a)%Q.
Proof. intros w a Hw. exact (freciprocal_ok Hw (a := a)). Qed.
Print Assumptions C14_reciprocal_exact.
(** The operators with an unsigned integer on the right. *)
Theorem C14_integer_operand_partial : forall w a t, 0 < w -> fcanon (base w) a -> canon (base w) t ->
  (forall r, fadd_int w a t = Some r ->
     fcanon (base w) r /\ (qval (base w) r == qval (base w) a + inject_Z (val (base w) t))%Q) /\
  (forall r, fsub_int w a t = Some r -> fcanon (base w) r /\
     ((inject_Z (val (base w) t) <= qval (base w) a)%Q ->
        (qval (base w) r == qval (base w) a - inject_Z (val (base w) t))%Q) /\
     ((qval (base w) a <= inject_Z (val (base w) t))%Q -> (qval (base w) r == 0)%Q)) /\
  (forall r, fmul_int w a t = Some r ->
     fcanon (base w) r /\ (qval (base w) r == qval (base w) a * inject_Z (val (base w) t))%Q) /\
  (forall r, val (base w) t <> 0 -> fdiv_int w a t = Some r ->
     fcanon (base w) r /\ (qval (base w) r == qval (base w) a / inject_Z (val (base w) t))%Q).
Proof.
  intros w a t Hw Ha Ht.
  exact (conj (fun r => fadd_int_sound Hw Ha Ht (r := r))
        (conj (fun r => fsub_int_sound Hw Ha Ht (r := r))
        (conj (fun r => fmul_int_sound Hw Ha Ht (r := r))
              (fun r Hz => fdiv_int_sound Hw Ha Ht Hz (r := r))))).
Qed.
Print Assumptions C14_integer_operand_partial.
(** Integer powers, of either sign. *)
Theorem C14_power_partial : forall w f a e r, 0 < w -> fcanon (base w) a ->
  (e < 0 -> ~ (qval (base w) a == 0)%Q) -> fpow w f a e = Some r ->
  fcanon (base w) r /\ (qval (base w) r == qval (base w) a ^ e)%Q.
Proof. intros w f a e r Hw. exact (fpow_sound Hw (f := f) (a := a) (e := e) (r := r)). Qed.
Print Assumptions C14_power_partial.
(** Integer part and fraction. *)
Theorem C14_split_partial : forall w a q r, 0 < w -> fcanon (base w) a ->
  (length (num a) <= 32)%nat -> fsplit w a = Some (q, r) ->
  canon (base w) q /\ fcanon (base w) r /\
  (qval (base w) a == inject_Z (val (base w) q) + qval (base w) r)%Q /\
  (0 <= qval (base w) r)%Q /\ (qval (base w) r < 1)%Q.
Proof. intros w a q r Hw. exact (fsplit_sound Hw (a := a) (q := q) (r := r)). Qed.
Print Assumptions C14_split_partial.
(** Truncation gives the greatest integer that is not greater.  Missing: numerators of more
    than 32 digits, and denominators of about as many digits as the numerator (C04). *)
Theorem C14_trunc_partial : forall w a, 0 < w -> fcanon (base w) a ->
  (length (num a) <= 32)%nat -> (2 * length (den a) <= length (num a) + 2)%nat ->
  denotes (base w) (ftrunc w a) (Qround.Qfloor (qval (base w) a)).
Proof. intros w a Hw. exact (@ftrunc_floor w Hw a). Qed.
Print Assumptions C14_trunc_partial.
(** 256003/1000 in digits of eight bits. *)
Example C14_trunc_case : fcanon (base 8) (Uf [3; 232; 3] [232; 3]) /\ ftrunc 8 (Uf [3; 232; 3] [232; 3]) = Some [0; 1].
Proof. split; [fcanon_c|vm_compute; reflexivity]. Qed.
(** Reduction keeps the value and reaches lowest terms.  Missing: more than 32
    digits, and zero over an even denominator. *)
Theorem C14_simplify_partial : forall w fuel a, 0 < w -> fcanon (base w) a ->
  (length (num a) <= 32)%nat -> (length (den a) <= 32)%nat ->
  (val (base w) (num a) = 0 -> Z.odd (val (base w) (den a)) = true) ->
  val (base w) (num a) + val (base w) (den a) + 1 < Z.of_nat fuel ->
  exists r, fsimplify w fuel a = Some r /\ fcanon (base w) r /\
    (qval (base w) r == qval (base w) a)%Q /\
    Z.gcd (val (base w) (num r)) (val (base w) (den r)) = 1.
Proof. intros w fuel a Hw. exact (fsimplify_ok Hw (fuel := fuel) (a := a)). Qed.
Print Assumptions C14_simplify_partial.
Theorem C14_simplify_refuted : exists a r, fcanon (base 32) a /\ fsimplify 32 100 a = Some r /\
  Z.gcd (val (base 32) (num r)) (val (base 32) (den r)) <> 1.
Proof. exists (Uf [] [4]), (Uf [] [4]). split; [fcanon_c|]. split; [vm_compute; reflexivity|vm_compute; discriminate]. Qed.
Print Assumptions C14_simplify_refuted.
(** x/=x gives the reciprocal of the denominator. *)
Theorem C14_divide_by_itself_wrong : forall w a r, 0 < w -> fcanon (base w) a ->
  0 < val (base w) (num a) -> fdiv_self w a = Some r ->
  (qval (base w) r == 1 # Z.to_pos (val (base w) (den a)))%Q.
Proof. intros w a r Hw. exact (fdiv_self_value Hw (a := a) (r := r)). Qed.
Print Assumptions C14_divide_by_itself_wrong.
Theorem C14_divide_by_itself_refuted : exists a r, fcanon (base 32) a /\ ~ (qval (base 32) a == 0)%Q /\
  fdiv_self 32 a = Some r /\ ~ (qval (base 32) r == qval (base 32) a / qval (base 32) a)%Q.
Proof.
  exists (Uf [2] [3]), (Uf [6] [18]). split; [fcanon_c|]. split; [vm_compute; discriminate|].
  split; [vm_compute; reflexivity|vm_compute; discriminate].
Qed.
Print Assumptions C14_divide_by_itself_refuted.
Example C14_case :
  let a := Uf [200; 3] [255; 1] in let b := Uf [6] [0; 2] in
  fcanon (base 8) a /\ fcanon (base 8) b /\ fsmall b /\ ~ (qval (base 8) b == 0)%Q /\
  (qval (base 8) b <= qval (base 8) a)%Q /\ canon (base 8) [9] /\
  val (base 8) (num a) + val (base 8) (den a) + 1 < Z.of_nat 1600 /\
  option_map (qval (base 8)) (fadd 8 a b) = Some (498682 # 261632)%Q /\
  option_map (qval (base 8)) (fsub 8 a b) = Some (492550 # 261632)%Q /\
  option_map (qval (base 8)) (fmul 8 a b) = Some (5808 # 261632)%Q /\
  option_map (qval (base 8)) (fdiv 8 a b) = Some (495616 # 3066)%Q /\
  option_map (qval (base 8)) (fpow 8 3 b (-2)) = Some (262144 # 36)%Q /\
  fsimplify 8 700 b = Some (Uf [3] [0; 1]) /\
  fsplit 8 a = Some ([1], Uf [201; 1] [255; 1]) /\
  option_map (qval (base 8)) (fdiv_self 8 b) = Some (3072 # 1572864)%Q.
Proof.
  split; [fcanon_c|]. split; [fcanon_c|]. split; [split; cbn; lia|].
  split; [vm_compute; discriminate|]. split; [vm_compute; discriminate|]. split; [canon_c|].
  vm_compute. auto 12.
Qed.

(** ** C15 *)
Theorem C15_equal_partial : forall w a b, 0 < w -> fcanon (base w) a -> fcanon (base w) b ->
  (forall r, feq w a b = Some r -> (r = true <-> (qval (base w) a == qval (base w) b)%Q)) /\
  (fsmall b -> exists r, feq w a b = Some r).
Proof. intros w a b Hw Ha Hb. exact (conj (fun r => feq_sound Hw Ha Hb (r := r)) (feq_total Hw Ha Hb)). Qed.
Print Assumptions C15_equal_partial.
Theorem C15_order_partial : forall w a b, 0 < w -> fcanon (base w) a -> fcanon (base w) b ->
  (forall r, fcmp w a b = Some r -> r = (qval (base w) a ?= qval (base w) b)%Q) /\
  (fsmall b -> exists r, fcmp w a b = Some r).
Proof. intros w a b Hw Ha Hb. exact (conj (fun r => fcmp_sound Hw Ha Hb (r := r)) (fcmp_total Hw Ha Hb)). Qed.
Print Assumptions C15_order_partial.
Theorem C15_integer_operand_partial : forall w a t, 0 < w -> fcanon (base w) a -> canon (base w) t ->
  (forall r, feq_int w a t = Some r -> (r = true <-> (qval (base w) a == inject_Z (val (base w) t))%Q)) /\
  (forall r, fcmp_int w a t = Some r -> r = (qval (base w) a ?= inject_Z (val (base w) t))%Q).
Proof. intros w a t Hw. exact (fcmp_int_sound Hw (a := a) (t := t)). Qed.
Print Assumptions C15_integer_operand_partial.
Example C15_case :
  let a := Uf [6] [8] in let b := Uf [0; 3] [0; 4] in
  fcanon (base 8) a /\ fcanon (base 8) b /\ fsmall b /\ feq 8 a b = Some true /\
  fcmp 8 a (Uf [3] [5]) = Some Gt /\ canon (base 8) [2] /\
  fcmp_int 8 (Uf [7] [3]) [2] = Some Gt /\ feq_int 8 (Uf [6] [3]) [2] = Some true.
Proof.
  split; [fcanon_c|]. split; [fcanon_c|]. split; [split; cbn; lia|]. split; [reflexivity|].
  split; [reflexivity|]. split; [canon_c|]. vm_compute. auto.
Qed.

(** ** C16.  Holds for fractions in lowest terms.  Missing: the others; the hash
    is computed from the unreduced parts. *)
Theorem C16_hash_partial : forall w d a b, 0 < w -> fcanon (base w) a -> fcanon (base w) b ->
  Z.gcd (val (base w) (num a)) (val (base w) (den a)) = 1 ->
  Z.gcd (val (base w) (num b)) (val (base w) (den b)) = 1 ->
  forall r, feq w a b = Some r -> r = true -> fhash d a = fhash d b.
Proof. intros w d a b Hw Ha Hb Ga Gb r. exact (fhash_reduced Hw d Ha Hb Ga Gb (r := r)). Qed.
Print Assumptions C16_hash_partial.
Theorem C16_hash_refuted : exists a b, fcanon (base 32) a /\ fcanon (base 32) b /\
  feq 32 a b = Some true /\ fhash 64 a = 30 /\ fhash 64 b = 60.
Proof. exists (Uf [1] [2]), (Uf [2] [4]). split; [fcanon_c|]. split; [fcanon_c|]. vm_compute. auto. Qed.
Print Assumptions C16_hash_refuted.
(** The same for signed fractions. *)
Theorem C16_signed_hash_partial : forall w d a b, 0 < w -> scanon (base w) a -> scanon (base w) b ->
  Z.gcd (val (base w) (num (smag a))) (val (base w) (den (smag a))) = 1 ->
  Z.gcd (val (base w) (num (smag b))) (val (base w) (den (smag b))) = 1 ->
  seq_ w a b = Some true -> shash d a = shash d b.
Proof. intros w d a b Hw. exact (shash_reduced Hw d (a := a) (b := b)). Qed.
Print Assumptions C16_signed_hash_partial.
Example C16_signed_case :
  let a := Sf true (Uf [3; 1] [4]) in
  scanon (base 8) a /\ seq_ 8 a a = Some true /\ shash 64 a <> shash 64 (Sf false (Uf [3; 1] [4])).
Proof. split; [fcanon_c|]. split; [vm_compute; reflexivity|vm_compute; discriminate]. Qed.
Example C16_case :
  let a := Uf [3; 1] [4] in
  fcanon (base 8) a /\ Z.gcd (val (base 8) (num a)) (val (base 8) (den a)) = 1 /\ feq 8 a a = Some true /\
  fhash 64 a <> fhash 64 (Uf [3] [4]).
Proof. split; [fcanon_c|]. split; [vm_compute; auto|]. split; [vm_compute; auto|vm_compute; discriminate]. Qed.

(** ** C56.  Signed fractions.  Missing: definedness for large operands, the
    addition of an unsigned operand, negative exponents. *)
Theorem C56_add_sub_partial : forall w a b, 0 < w -> scanon (base w) a -> scanon (base w) b ->
  (forall r, sadd w a b = Some r ->
     scanon (base w) r /\ (sval (base w) r == sval (base w) a + sval (base w) b)%Q) /\
  (forall r, ssub w a b = Some r ->
     scanon (base w) r /\ (sval (base w) r == sval (base w) a - sval (base w) b)%Q) /\
  (fsmall (smag a) -> fsmall (smag b) ->
     (exists r, sadd w a b = Some r) /\ (exists r, ssub w a b = Some r)).
Proof.
  intros w a b Hw Ha Hb.
  exact (conj (fun r => sadd_sound Hw Ha Hb (r := r))
        (conj (fun r => ssub_sound Hw Ha Hb (r := r)) (sadd_total Hw Ha Hb))).
Qed.
Print Assumptions C56_add_sub_partial.
Theorem C56_mul_div_partial : forall w a b, 0 < w -> scanon (base w) a -> scanon (base w) b ->
  (forall r, smul w a b = Some r ->
     scanon (base w) r /\ (sval (base w) r == sval (base w) a * sval (base w) b)%Q) /\
  (forall r, ~ (sval (base w) b == 0)%Q -> sdiv w a b = Some r ->
     scanon (base w) r /\ (sval (base w) r == sval (base w) a / sval (base w) b)%Q).
Proof.
  intros w a b Hw Ha Hb.
  exact (conj (fun r => smul_sound Hw Ha Hb (r := r)) (fun r Hz => sdiv_sound Hw Ha Hb Hz (r := r))).
Qed.
Print Assumptions C56_mul_div_partial.
(** An operand of an unsigned type: products and quotients are exact; addition
    moves a negative number away from zero. *)
Theorem C56_unsigned_operand : forall w a b, 0 < w -> scanon (base w) a -> fcanon (base w) b ->
  (forall r, smul_unsigned w a b = Some r ->
     scanon (base w) r /\ (sval (base w) r == sval (base w) a * qval (base w) b)%Q) /\
  (forall r, ~ (qval (base w) b == 0)%Q -> sdiv_unsigned w a b = Some r ->
     scanon (base w) r /\ (sval (base w) r == sval (base w) a / qval (base w) b)%Q) /\
  (forall r, sadd_unsigned w a b = Some r ->
     (sval (base w) r == if sneg a then sval (base w) a - qval (base w) b
                         else sval (base w) a + qval (base w) b)%Q).
Proof.
  intros w a b Hw Ha Hb.
  exact (conj (fun r => smul_unsigned_sound Hw Ha Hb (r := r))
        (conj (fun r Hz => sdiv_unsigned_sound Hw Ha Hb Hz (r := r))
              (fun r => sadd_unsigned_value Hw Ha Hb (r := r)))).
Qed.
Print Assumptions C56_unsigned_operand.
Theorem C56_add_unsigned_refuted : exists a b r, scanon (base 32) a /\ fcanon (base 32) b /\
  sadd_unsigned 32 a b = Some r /\ (sval (base 32) r == -5)%Q /\
  (sval (base 32) a + qval (base 32) b == -1)%Q.
Proof.
  exists (Sf true (Uf [3] [1])), (Uf [2] [1]), (Sf true (Uf [5] [1])).
  split; [fcanon_c|]. split; [fcanon_c|]. vm_compute. auto.
Qed.
Print Assumptions C56_add_unsigned_refuted.
(** Powers use the absolute value of the exponent. *)
Theorem C56_power_partial : forall w f a e r, 0 < w -> scanon (base w) a -> spow w f a e = Some r ->
  scanon (base w) r /\ (sval (base w) r == sval (base w) a ^ Z.abs e)%Q.
Proof. intros w f a e r Hw. exact (spow_sound Hw (f := f) (a := a) (e := e) (r := r)). Qed.
Print Assumptions C56_power_partial.
Theorem C56_power_refuted : exists a e r, scanon (base 32) a /\ spow 32 10 a e = Some r /\
  ~ (sval (base 32) r == sval (base 32) a ^ e)%Q.
Proof.
  exists (Sf false (Uf [2] [1])), (-3), (Sf false (Uf [8] [1])). split; [fcanon_c|].
  split; [vm_compute; reflexivity|vm_compute; discriminate].
Qed.
Print Assumptions C56_power_refuted.
Example C56_case :
  let a := Sf true (Uf [1] [2]) in let b := Sf false (Uf [1] [3]) in
  scanon (base 8) a /\ scanon (base 8) b /\ fsmall (smag a) /\ fsmall (smag b) /\
  ~ (sval (base 8) b == 0)%Q /\
  sadd 8 a b = Some (Sf true (Uf [1] [6])) /\ ssub 8 a b = Some (Sf true (Uf [5] [6])) /\
  smul 8 a b = Some (Sf true (Uf [1] [6])) /\ sdiv 8 a b = Some (Sf true (Uf [3] [2])) /\
  spow 8 5 a 3 = Some (Sf true (Uf [1] [8])).
Proof.
  split; [fcanon_c|]. split; [fcanon_c|]. split; [split; cbn; lia|]. split; [split; cbn; lia|].
  split; [vm_compute; discriminate|]. vm_compute. auto 10.
Qed.

(** ** C57.  Comparison of signed fractions is that of the rationals, without
    negative zeros.  Missing: negative zeros, which ordinary sums produce. *)
Theorem C57_compare_partial : forall w a b, 0 < w -> scanon (base w) a -> scanon (base w) b ->
  snorm (base w) a -> snorm (base w) b ->
  (forall r, seq_ w a b = Some r -> (r = true <-> (sval (base w) a == sval (base w) b)%Q)) /\
  (forall r, scmp w a b = Some r -> r = (sval (base w) a ?= sval (base w) b)%Q).
Proof. intros w a b Hw. exact (scmp_sound Hw (a := a) (b := b)). Qed.
Print Assumptions C57_compare_partial.
(** The sum of opposite numbers is a negative zero exactly when the left one is
    the positive one. *)
Theorem C57_cancel_sign : forall w a b r, 0 < w -> scanon (base w) a -> scanon (base w) b ->
  sneg a <> sneg b -> (qval (base w) (smag a) == qval (base w) (smag b))%Q ->
  sadd w a b = Some r -> (snorm (base w) r <-> sneg a = true).
Proof. intros w a b r Hw. exact (sadd_cancel Hw (a := a) (b := b) (r := r)). Qed.
Print Assumptions C57_cancel_sign.
(** The minus sign negates; zero becomes a negative zero. *)
Theorem C57_negate_sign : forall w a, 0 < w -> scanon (base w) a ->
  scanon (base w) (sneg_of a) /\ (sval (base w) (sneg_of a) == - sval (base w) a)%Q /\
  (snorm (base w) (sneg_of a) <-> (sneg a = true \/ ~ (sval (base w) a == 0)%Q)).
Proof. intros w a Hw. exact (sneg_of_sound Hw (a := a)). Qed.
Print Assumptions C57_negate_sign.
Example C57_negate_case :
  let a := Sf false (Uf [3] [4]) in
  scanon (base 32) a /\ (sval (base 32) (sneg_of a) == -(3#4))%Q /\
  sneg_of (Sf false (Uf [] [1])) = Sf true (Uf [] [1]).
Proof. split; [fcanon_c|]. split; [vm_compute; reflexivity|reflexivity]. Qed.
Theorem C57_refuted : exists a b r z, scanon (base 32) a /\ scanon (base 32) b /\ scanon (base 32) z /\
  snorm (base 32) a /\ snorm (base 32) b /\ snorm (base 32) z /\
  sadd 32 a b = Some r /\ (sval (base 32) r == sval (base 32) z)%Q /\ seq_ 32 r z = Some false /\
  scmp 32 r z = Some Lt.
Proof.
  exists (Sf false (Uf [1] [2])), (Sf true (Uf [1] [2])), (Sf true (Uf [] [4])), (Sf false (Uf [] [1])).
  split; [fcanon_c|]. split; [fcanon_c|]. split; [fcanon_c|].
  split; [discriminate|]. split; [intros _; vm_compute; reflexivity|]. split; [discriminate|].
  vm_compute. auto.
Qed.
Print Assumptions C57_refuted.
Example C57_case :
  let a := Sf true (Uf [1] [2]) in let b := Sf true (Uf [2] [3]) in let c := Sf false (Uf [2] [4]) in
  scanon (base 8) a /\ scanon (base 8) b /\ scanon (base 8) c /\ snorm (base 8) a /\ snorm (base 8) b /\
  (qval (base 8) (smag a) == qval (base 8) (smag c))%Q /\ sneg a <> sneg c /\
  scmp 8 a b = Some Gt /\ seq_ 8 a b = Some false /\ sadd 8 a c = Some (Sf false (Uf [] [8])) /\
  scmp 8 a c = Some Lt.
Proof.
  split; [fcanon_c|]. split; [fcanon_c|]. split; [fcanon_c|].
  split; [intros _; vm_compute; reflexivity|]. split; [intros _; vm_compute; reflexivity|].
  split; [vm_compute; reflexivity|]. split; [discriminate|]. vm_compute. auto.
Qed.
