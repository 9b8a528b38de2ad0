(** Property theorems C01-C11, C49, C50, C52: arbitrary-precision unsigned integers.
    [w] is the digit width in bits, [base w = 2^w]; [val (base w) l] is the number
    a digit sequence denotes, [canon] that it is the canonical one, and
    [denotes r n] that operation result [r] is defined, canonical and equal to
    [n]. *)
From Verif Require Import Base UBig_Model UBig_Spec UBig_Basics UBig_AddSub UBig_Mul UBig_Kara
  UBig_Div UBig_Shift UBig_Bits UBig_Native.
Local Open Scope Z_scope.

Ltac canon_c := apply canonb_ok; vm_compute; reflexivity.

(** ** C01 *)
Theorem C01_uadd_exact : forall w a b, 0 < w -> canon (base w) a -> canon (base w) b ->
  denotes (base w) (add_base w a b) (val (base w) a + val (base w) b).
Proof. intros w a b Hw. exact (add_base_spec Hw (a := a) (b := b)). Qed.
Print Assumptions C01_uadd_exact.
Theorem C01_uadd_assign_exact : forall w a b, 0 < w -> canon (base w) a -> canon (base w) b ->
  denotes (base w) (add_to_base w a b) (val (base w) a + val (base w) b).
Proof. intros w a b Hw. exact (add_to_base_spec Hw (a := a) (b := b)). Qed.
Print Assumptions C01_uadd_assign_exact.
(** A carry chain through every digit. *)
Example C01_case : canon (base 8) [255; 255; 255] /\ canon (base 8) [1] /\
  add_base 8 [255; 255; 255] [1] = Some [0; 0; 0; 1] /\
  add_to_base 8 [1] [255; 255; 255] = Some [0; 0; 0; 1].
Proof. split; [canon_c|split; [canon_c|vm_compute; auto]]. Qed.

(** ** C02 *)
Theorem C02_usub_exact : forall w a b, 0 < w -> canon (base w) a -> canon (base w) b ->
  denotes (base w) (usub w a b) (Z.max 0 (val (base w) a - val (base w) b)).
Proof. intros w a b Hw. exact (usub_spec Hw (a := a) (b := b)). Qed.
Print Assumptions C02_usub_exact.
Example C02_case : canon (base 8) [0; 0; 0; 1] /\ canon (base 8) [1] /\
  usub 8 [0; 0; 0; 1] [1] = Some [255; 255; 255] /\ usub 8 [1] [0; 0; 0; 1] = Some [].
Proof. split; [canon_c|split; [canon_c|vm_compute; auto]]. Qed.

(** ** C03.  Exactness of every result that is produced; total for operands
    below the fast-path threshold.  Missing for the full statement: the fast path
    is not always defined, see the refutation. *)
Theorem C03_umul_partial : forall w a b, 0 < w -> canon (base w) a -> canon (base w) b ->
  (forall r, umul w a b = Some r ->
     canon (base w) r /\ val (base w) r = val (base w) a * val (base w) b) /\
  ((Nat.min (length a) (length b) < 64)%nat ->
     denotes (base w) (umul w a b) (val (base w) a * val (base w) b)) /\
  (forall fuel, (length a + length b <= fuel)%nat -> fast_mul_f w 64 fuel a b = umul w a b).
Proof.
  intros w a b Hw Ha Hb.
  exact (conj (fun r => umul_sound Hw Ha Hb (r := r))
        (conj (umul_small Hw Ha Hb)
              (fun f Hf => eq_sym (umul_fuel Hw Ha Hb Hf)))).
Qed.
Print Assumptions C03_umul_partial.
(** The schoolbook algorithm alone is exact for all sizes. *)
Theorem C03_schoolbook_exact : forall w a b, 0 < w -> canon (base w) a -> canon (base w) b ->
  denotes (base w) (mul_base w a b) (val (base w) a * val (base w) b).
Proof. intros w a b Hw. exact (mul_base_spec Hw (a := a) (b := b)). Qed.
Print Assumptions C03_schoolbook_exact.
(** Digits of a number, for witnesses. *)
Definition digits_of (w : Z) (n : nat) (v : Z) : list Z :=
  match of_uint w n v with Some l => l | None => [] end.
Definition mul_witness_a (w : Z) : list Z := digits_of w 64 ((2 ^ w) ^ 32 * (2 ^ (w * 63 / 2) - 1) + ((2 ^ w) ^ 32 - 1)).
Definition mul_witness_b (w : Z) : list Z := digits_of w 64 ((2 ^ w) ^ 32 * (2 ^ (w * 63 / 2) + 1) + ((2 ^ w) ^ 32 - 1)).
(** Two 64-digit numbers whose product makes the carry run off the buffer, for
    the digit width of release builds (32) and of debug builds (8). *)
Theorem C03_umul_refuted : exists a b, canon (base 32) a /\ canon (base 32) b /\
  length a = 64%nat /\ length b = 64%nat /\ umul 32 a b = None.
Proof.
  exists (mul_witness_a 32), (mul_witness_b 32).
  split; [canon_c|split; [canon_c|vm_compute; auto]].
Qed.
Print Assumptions C03_umul_refuted.
Theorem C03_umul_debug_refuted : exists a b, canon (base 8) a /\ canon (base 8) b /\ umul 8 a b = None.
Proof.
  exists (mul_witness_a 8), (mul_witness_b 8).
  split; [canon_c|split; [canon_c|vm_compute; auto]].
Qed.
Print Assumptions C03_umul_debug_refuted.
(** The fast path is reached and works on other inputs. *)
Example C03_case :
  let a := digits_of 8 70 (3 ^ 350) in let b := digits_of 8 70 (5 ^ 240) in
  canon (base 8) a /\ canon (base 8) b /\ (64 <= Nat.min (length a) (length b))%nat /\
  option_map (val (base 8)) (umul 8 a b) = Some (3 ^ 350 * 5 ^ 240).
Proof.
  split; [canon_c|split; [canon_c|split]].
  - apply Nat.leb_le. vm_compute. reflexivity.
  - vm_compute. reflexivity.
Qed.

(** ** C04.  Dividends of at most 32 digits.  [%] is exact; [/] is exact or one
    too large, and exact when the divisor is short; whatever [divmod] produces is
    exact.  Missing: dividends of more than 32 digits (Newton-style fast path). *)
Theorem C04_umod_exact_partial : forall w a b, 0 < w -> canon (base w) a -> canon (base w) b ->
  (length a <= 32)%nat ->
  denotes (base w) (umod w a b)
    (if val (base w) b =? 0 then 0 else val (base w) a mod val (base w) b).
Proof. intros w a b Hw. exact (umod_spec Hw (a := a) (b := b)). Qed.
Print Assumptions C04_umod_exact_partial.
Theorem C04_udiv_partial : forall w a b, 0 < w -> canon (base w) a -> canon (base w) b ->
  (length a <= 32)%nat ->
  (exists q, udiv w a b = Some q /\ canon (base w) q /\
     val (base w) a / val (base w) b <= val (base w) q <= val (base w) a / val (base w) b + 1) /\
  ((2 * length b <= length a + 2)%nat ->
     denotes (base w) (udiv w a b) (val (base w) a / val (base w) b)).
Proof.
  intros w a b Hw Ha Hb Hl.
  exact (conj (udiv_bound Hw Ha Hb Hl) (udiv_exact Hw Ha Hb Hl)).
Qed.
Print Assumptions C04_udiv_partial.
Theorem C04_udivmod_partial : forall w a b, 0 < w -> canon (base w) a -> canon (base w) b ->
  (length a <= 32)%nat -> b <> [] ->
  (forall q r, udivmod w a b = Some (q, r) ->
     canon (base w) q /\ canon (base w) r /\
     val (base w) q = val (base w) a / val (base w) b /\
     val (base w) r = val (base w) a mod val (base w) b) /\
  ((2 * length b <= length a + 2)%nat -> exists q r, udivmod w a b = Some (q, r)).
Proof.
  intros w a b Hw Ha Hb Hl Hn. split.
  - exact (fun q r => udivmod_sound Hw Ha Hb Hl Hn (q := q) (r := r)).
  - intros H2. destruct (udivmod_exact Hw Ha Hb Hl Hn H2) as (q & r & E & _). exact (ex_intro _ q (ex_intro _ r E)).
Qed.
Print Assumptions C04_udivmod_partial.
(** The long division core is exact for all sizes. *)
Theorem C04_long_division_exact : forall w a b, 0 < w -> canon (base w) a -> canon (base w) b ->
  b <> [] -> (length b <= length a)%nat ->
  exists q r, long_div w a b = Some (q, r) /\ canon (base w) q /\
    val (base w) q = val (base w) a / val (base w) b /\
    val (base w) r = val (base w) a mod val (base w) b.
Proof.
  intros w a b Hw Ha Hb Hn Hl.
  destruct (long_div_spec Hw (canon_ok Ha) Hb Hn Hl) as (q & r & E & Hq & _ & Hv & Hr).
  exact (ex_intro _ q (ex_intro _ r (conj E (conj Hq (conj Hv Hr))))).
Qed.
Print Assumptions C04_long_division_exact.
(** [/] is exact whenever the division leaves no remainder. *)
Theorem C04_exact_multiple_partial : forall w a b, 0 < w -> canon (base w) a -> canon (base w) b ->
  (length a <= 32)%nat -> (val (base w) b | val (base w) a) ->
  denotes (base w) (udiv w a b) (val (base w) a / val (base w) b).
Proof. intros w a b Hw. exact (udiv_multiple Hw (a := a) (b := b)). Qed.
Print Assumptions C04_exact_multiple_partial.
Example C04_multiple_case :
  let a := digits_of 8 30 (7 ^ 70) in let b := digits_of 8 30 (7 ^ 60) in
  canon (base 8) a /\ canon (base 8) b /\ (length a <= 32)%nat /\
  (val (base 8) b | val (base 8) a) /\
  option_map (val (base 8)) (udiv 8 a b) = Some (7 ^ 10).
Proof.
  split; [canon_c|split; [canon_c|]]. split; [apply Nat.leb_le; vm_compute; reflexivity|].
  split; [|vm_compute; reflexivity]. exists (7 ^ 10). vm_compute. reflexivity.
Qed.
(** [/] returns 2 where the quotient is 1, and [divmod] then runs off the
    buffer, in release and debug builds alike. *)
Theorem C04_udiv_refuted : exists a b, canon (base 32) a /\ canon (base 32) b /\
  udiv 32 a b = Some [2] /\ val (base 32) a / val (base 32) b = 1 /\ udivmod 32 a b = None.
Proof.
  exists [0; 0; 0; 2], [4294967295; 4294967295; 0; 1].
  split; [canon_c|split; [canon_c|vm_compute; auto]].
Qed.
Print Assumptions C04_udiv_refuted.
Example C04_case :
  let a := digits_of 8 30 (7 ^ 70) in let b := digits_of 8 30 (11 ^ 20) in
  canon (base 8) a /\ canon (base 8) b /\ (length a <= 32)%nat /\ b <> [] /\
  (2 * length b <= length a + 2)%nat /\
  option_map (val (base 8)) (udiv 8 a b) = Some (7 ^ 70 / 11 ^ 20) /\
  option_map (val (base 8)) (umod 8 a b) = Some (7 ^ 70 mod 11 ^ 20).
Proof.
  split; [canon_c|split; [canon_c|]].
  split; [apply Nat.leb_le; vm_compute; reflexivity|]. split; [vm_compute; discriminate|].
  split; [apply Nat.leb_le; vm_compute; reflexivity|]. vm_compute. auto.
Qed.

(** ** C05 *)
Theorem C05_ucompare_numeric : forall w a b, 0 < w -> canon (base w) a -> canon (base w) b ->
  ucompare a b = (val (base w) a ?= val (base w) b) /\
  (eq_digits a b = true <-> val (base w) a = val (base w) b) /\
  (val (base w) a = val (base w) b -> a = b).
Proof.
  intros w a b Hw Ha Hb.
  exact (conj (ucompare_spec (base_ge2 Hw) Ha Hb)
        (conj (eq_digits_val (base_ge2 Hw) Ha Hb) (canon_unique (base_ge2 Hw) Ha Hb))).
Qed.
Print Assumptions C05_ucompare_numeric.
Example C05_case : canon (base 8) [1; 2; 3] /\ canon (base 8) [9; 1; 3] /\
  ucompare [1; 2; 3] [9; 1; 3] = Gt /\ eq_digits [1; 2; 3] [1; 2; 3] = true.
Proof. split; [canon_c|split; [canon_c|vm_compute; auto]]. Qed.

(** ** C06 *)
Theorem C06_increment_exact : forall w a, 0 < w -> canon (base w) a ->
  canon (base w) (add_one w a) /\ val (base w) (add_one w a) = val (base w) a + 1.
Proof.
  intros w a Hw Ha. exact (conj (add_one_canon Hw Ha) (proj2 (add_one_val Hw (canon_ok Ha)))).
Qed.
Print Assumptions C06_increment_exact.
Example C06_case : canon (base 8) [255; 255] /\ add_one 8 [255; 255] = [0; 0; 1].
Proof. split; [canon_c|reflexivity]. Qed.

(** ** C07.  Exact when the lowest digit is not zero; otherwise wrong by
    [B-1]. *)
Theorem C07_decrement_partial : forall w x l, 0 < w -> canon (base w) (x :: l) -> x <> 0 ->
  canon (base w) (sub_one w (x :: l)) /\
  val (base w) (sub_one w (x :: l)) = val (base w) (x :: l) - 1.
Proof. intros w x l Hw. exact (sub_one_spec Hw (x := x) (l := l)). Qed.
Print Assumptions C07_decrement_partial.
Example C07_case : canon (base 8) [1; 7] /\ sub_one 8 [1; 7] = [0; 7].
Proof. split; [canon_c|reflexivity]. Qed.
(** Every number whose lowest digit is zero is decremented wrongly. *)
Theorem C07_decrement_always_wrong_refuted : forall w l, 1 < w -> canon (base w) (0 :: l) ->
  val (base w) (sub_one w (0 :: l)) = val (base w) (0 :: l) + (base w - 2).
Proof.
  intros w l Hw Hc.
  assert (H2 : 2 < base w) by (unfold base; apply (Z.pow_lt_mono_r 2 1 w); lia).
  exact (sub_one_zero (ltac:(lia) : 0 < w) Hc H2).
Qed.
Print Assumptions C07_decrement_always_wrong_refuted.
Theorem C07_decrement_refuted : exists l, canon (base 32) l /\ 0 < val (base 32) l /\
  val (base 32) (sub_one 32 l) <> val (base 32) l - 1.
Proof. exists [0; 1]. split; [canon_c|]. vm_compute. split; [reflexivity|discriminate]. Qed.
Print Assumptions C07_decrement_refuted.

(** ** C08 *)
Theorem C08_left_shift_exact : forall w a n, 0 < w -> canon (base w) a -> 0 <= n ->
  canon (base w) (ushl w a n) /\ val (base w) (ushl w a n) = val (base w) a * 2 ^ n.
Proof. intros w a n Hw. exact (ushl_spec Hw (a := a) (n := n)). Qed.
Print Assumptions C08_left_shift_exact.
Theorem C08_right_shift_assign_exact : forall w a n, 0 < w -> canon (base w) a -> 0 <= n ->
  canon (base w) (ushr_assign w a n) /\ val (base w) (ushr_assign w a n) = val (base w) a / 2 ^ n.
Proof. intros w a n Hw. exact (ushr_assign_spec Hw (a := a) (n := n)). Qed.
Print Assumptions C08_right_shift_assign_exact.
(** Shifts by whole digits. *)
Theorem C08_digit_shifts_exact : forall w a n, 0 < w -> canon (base w) a ->
  denotes (base w) (Some (ushl_digits a n)) (val (base w) a * base w ^ Z.of_nat n) /\
  denotes (base w) (Some (ushr_digits a n)) (val (base w) a / base w ^ Z.of_nat n).
Proof. intros w a n Hw Ca. exact (conj (@ushl_digits_spec w a n Hw Ca) (@ushr_digits_spec w a n Hw Ca)). Qed.
Print Assumptions C08_digit_shifts_exact.
Example C08_digit_shifts_case : canon (base 8) [5; 6; 7] /\ ushl_digits [5; 6; 7] 2 = [0; 0; 5; 6; 7] /\
  ushr_digits [5; 6; 7] 2 = [7] /\ ushr_digits [5; 6; 7] 3 = [] /\ ushl_digits [] 4 = [].
Proof. split; [canon_c|vm_compute; repeat split]. Qed.

(** By-value right shift: exact whenever defined; undefined only for a count of
    at least one digit that is not a whole number of digits. *)
Theorem C08_right_shift_partial : forall w a n, 0 < w -> canon (base w) a -> 0 <= n ->
  match ushr w a n with
  | Some r => canon (base w) r /\ val (base w) r = val (base w) a / 2 ^ n
  | None => w <= n /\ n mod w <> 0 /\ 2 ^ n <= base w * val (base w) a
  end.
Proof. intros w a n Hw. exact (ushr_spec Hw (a := a) (n := n)). Qed.
Print Assumptions C08_right_shift_partial.
Theorem C08_right_shift_refuted : exists a n, canon (base 32) a /\ 0 <= n /\ ushr 32 a n = None.
Proof. exists [5; 6; 7], 33. split; [canon_c|]. vm_compute. split; [discriminate|reflexivity]. Qed.
Print Assumptions C08_right_shift_refuted.
Example C08_case : canon (base 8) [200; 3] /\ ushl 8 [200; 3] 11 = [0; 64; 30] /\
  ushr_assign 8 [0; 64; 30] 11 = [200; 3] /\ ushr 8 [200; 3] 3 = Some [121].
Proof. split; [canon_c|vm_compute; auto]. Qed.

(** ** C09: a native type of [f] digits (range [m]) converts to a big integer and
    back without loss; any big integer converts to its value modulo the range. *)
Theorem C09_native_round_trip : forall w f m v, 0 < w -> 0 <= v < base w ^ Z.of_nat f -> v < m ->
  exists l, of_uint w f v = Some l /\ canon (base w) l /\ val (base w) l = v /\ convert_to w m l = v.
Proof. intros w f m v Hw. exact (round_trip_native Hw (f := f) (m := m) (v := v)). Qed.
Print Assumptions C09_native_round_trip.
Theorem C09_convert_modulo : forall w m a, 0 < m -> convert_to w m a = val (base w) a mod m.
Proof. intros w m a. exact (convert_to_spec w a (m := m)). Qed.
Print Assumptions C09_convert_modulo.
Example C09_case : of_uint 8 4 305419896 = Some [120; 86; 52; 18] /\
  convert_to 8 (2 ^ 32) [120; 86; 52; 18] = 305419896 /\ convert_to 8 (2 ^ 16) [120; 86; 52; 18] = 22136.
Proof. vm_compute. auto. Qed.

(** ** C10.  Equal numbers compare equal, and a big integer with more digits than
    the native type compares greater; nothing else holds. *)
Theorem C10_native_compare_partial : forall w a, 0 < w -> canon (base w) a ->
  eq_native w a (val (base w) a) = true /\
  (forall nd t, (nd < length a)%nat -> 0 <= t < base w ^ Z.of_nat nd ->
     cmp_native w nd a t = (val (base w) a ?= t)).
Proof.
  intros w a Hw Ha.
  exact (conj (eq_native_complete Hw (canon_ok Ha)) (fun nd t Hl Ht => cmp_native_long Hw Ha Hl Ht)).
Qed.
Print Assumptions C10_native_compare_partial.
Example C10_case : canon (base 8) [1; 2; 3] /\ (2 < length [1; 2; 3])%nat /\ 0 <= 65535 < base 8 ^ Z.of_nat 2 /\
  cmp_native 8 2 [1; 2; 3] 65535 = Gt.
Proof. split; [canon_c|]. vm_compute. split; [constructor|]. split; [split; [discriminate|reflexivity]|reflexivity]. Qed.
(** A big integer with as many digits as the native type compares greater exactly if
    it is greater, and equal if it is equal. *)
Theorem C10_native_order_partial : forall w nd a t, 0 < w -> canon (base w) a -> length a = nd -> 0 <= t ->
  (cmp_native w nd a t = Gt <-> t < val (base w) a) /\
  (t = val (base w) a -> cmp_native w nd a t = Eq).
Proof. intros w nd a t Hw Ha Hl Ht. destruct (cmp_native_same Hw Ha Hl Ht) as (G & _ & E). exact (conj G E). Qed.
Print Assumptions C10_native_order_partial.
(** It compares equal to every larger number: the rest of every digit is dropped. *)
Theorem C10_native_less_wrong : forall w nd a t, 0 < w -> canon (base w) a -> length a = nd ->
  val (base w) a < t < base w ^ Z.of_nat nd -> cmp_native w nd a t = Eq.
Proof. exact cmp_native_never_less. Qed.
Print Assumptions C10_native_less_wrong.
Example C10_order_case : canon (base 8) [200; 3] /\ cmp_native 8 2 [200; 3] 967 = Gt /\ cmp_native 8 2 [200; 3] 968 = Eq /\
  cmp_native 8 2 [200; 3] 60000 = Eq.
Proof. split; [canon_c|]. vm_compute. repeat split. Qed.
(** 3 == 5 (native) holds; 5 <=> 3 (64-bit native) says "less". *)
Theorem C10_native_equality_refuted : exists a t, canon (base 32) a /\ 0 <= t < 2 ^ 32 /\
  val (base 32) a <> t /\ eq_native 32 a t = true.
Proof. exists [3], 5. split; [canon_c|]. vm_compute. repeat split; discriminate. Qed.
Print Assumptions C10_native_equality_refuted.
Theorem C10_native_order_refuted : exists a t, canon (base 32) a /\ 0 <= t < 2 ^ 64 /\
  val (base 32) a > t /\ cmp_native 32 2 a t = Lt.
Proof. exists [5], 3. split; [canon_c|]. vm_compute. repeat split; discriminate. Qed.
Print Assumptions C10_native_order_refuted.

(** ** C11.  [nd] is the number of digits of the calculation type (at least
    two).  Exact unless the value lies within one digit of the top of that
    type. *)
Theorem C11_add_native_partial : forall w nd a t, 0 < w -> canon (base w) a -> (2 <= nd)%nat ->
  0 <= t -> t + base w <= base w ^ Z.of_nat nd ->
  denotes (base w) (addT w nd a t) (val (base w) a + t).
Proof. intros w nd a t Hw. exact (addT_spec Hw (nd := nd) (a := a) (t := t)). Qed.
Print Assumptions C11_add_native_partial.
Example C11_case : canon (base 8) [255; 255] /\ (2 <= 4)%nat /\ 65535 + base 8 <= base 8 ^ Z.of_nat 4 /\
  addT 8 4 [255; 255] 65535 = Some [254; 255; 1].
Proof. split; [canon_c|]. vm_compute. split; [repeat constructor|]. split; [discriminate|reflexivity]. Qed.
(** 1 += 2^64-1 gives 0. *)
Theorem C11_add_native_refuted : exists a t, canon (base 32) a /\ 0 <= t < 2 ^ 64 /\
  addT 32 2 a t = Some [0] /\ 0 < val (base 32) a + t.
Proof. exists [1], (2 ^ 64 - 1). split; [canon_c|]. vm_compute. repeat split; discriminate. Qed.
Print Assumptions C11_add_native_refuted.

(** ** C49: [x += x].  Exact whenever it does not need to grow the number;
    otherwise the operand view dangles. *)
Theorem C49_self_add_partial : forall w a, 0 < w -> canon (base w) a ->
  (forall r, add_assign_self w a = Some r ->
     canon (base w) r /\ val (base w) r = val (base w) a + val (base w) a) /\
  (a <> [] -> 2 * last a 0 + 1 < base w ->
     denotes (base w) (add_assign_self w a) (val (base w) a + val (base w) a)).
Proof.
  intros w a Hw Ha.
  exact (conj (fun r => add_assign_self_sound Hw Ha (r := r)) (add_assign_self_small Hw Ha)).
Qed.
Print Assumptions C49_self_add_partial.
Example C49_case : canon (base 8) [200; 3] /\ 2 * last [200; 3] 0 + 1 < base 8 /\
  add_assign_self 8 [200; 3] = Some [144; 7].
Proof. split; [canon_c|vm_compute; auto]. Qed.
Theorem C49_self_add_refuted : exists a, canon (base 32) a /\ add_assign_self 32 a = None.
Proof. exists [2 ^ 31]. split; [canon_c|reflexivity]. Qed.
Print Assumptions C49_self_add_refuted.

(** ** C52.  With digits narrower than 64 bits the constructor behaves as in C09;
    with 64-bit digits it divides by zero for every non-zero value. *)
Theorem C52_construct_partial : forall w f v, 0 < w < 64 -> 0 <= v < base w ^ Z.of_nat f ->
  denotes (base w) (of_uint_cfg w f v) v.
Proof. intros w f v. exact (of_uint_cfg_narrow (w := w) (f := f) (v := v)). Qed.
Print Assumptions C52_construct_partial.
Example C52_case : 0 < 32 < 64 /\ 0 <= 2 ^ 40 + 7 < base 32 ^ Z.of_nat 2 /\ of_uint_cfg 32 2 (2 ^ 40 + 7) = Some [7; 256].
Proof. vm_compute. repeat split; discriminate. Qed.
Theorem C52_construct_refuted : exists v, 0 <= v < base 64 ^ Z.of_nat 2 /\ of_uint_cfg 64 2 v = None.
Proof. exists 1. vm_compute. repeat split; discriminate. Qed.
Print Assumptions C52_construct_refuted.
Theorem C52_construct_never_refuted : forall f v, v <> 0 -> of_uint_cfg 64 f v = None.
Proof. exact of_uint_cfg_64. Qed.
Print Assumptions C52_construct_never_refuted.

(** ** C50: bit queries *)
Theorem C50_bit_queries_partial : forall w a, 0 < w -> canon (base w) a ->
  is_odd a = Z.odd (val (base w) a) /\
  (unot a = true <-> val (base w) a = 0) /\
  (a <> [] -> uget_bitnum w a = Z.log2 (val (base w) a) + 1) /\
  (a <> [] -> exists q, val (base w) a = q * 2 ^ ucountr_zero w a /\ Z.odd q = true /\
                        0 <= ucountr_zero w a) /\
  (forall n, 0 <= n -> (w <= 32 \/ n mod w < 32) ->
     bit_at w a n = Some (Z.testbit (val (base w) a) n)).
Proof.
  intros w a Hw Ha.
  exact (conj (is_odd_spec Hw (canon_ok Ha) Hw)
        (conj (unot_spec Hw Ha)
        (conj (uget_bitnum_spec Hw Ha)
        (conj (ucountr_zero_spec Hw Ha)
              (fun n Hn H => bit_at_spec Hw (canon_ok Ha) Hn H))))).
Qed.
Print Assumptions C50_bit_queries_partial.
Example C50_case : canon (base 8) [0; 12; 5] /\ [0; 12; 5] <> [] /\ uget_bitnum 8 [0; 12; 5] = 19 /\
  ucountr_zero 8 [0; 12; 5] = 10 /\ bit_at 8 [0; 12; 5] 18 = Some true /\ bit_at 8 [0; 12; 5] 17 = Some false.
Proof. split; [canon_c|]. split; [discriminate|]. vm_compute. auto. Qed.
(** The single-bit query shifts a 32-bit one: with 64-bit digits bit 40 is out of
    reach. *)
Theorem C50_bit_at_refuted : exists a n, canon (base 64) a /\ 0 <= n /\ Z.testbit (val (base 64) a) n = true /\ bit_at 64 a n = None.
Proof. exists [2 ^ 40], 40. split; [canon_c|]. vm_compute. repeat split; discriminate. Qed.
Print Assumptions C50_bit_at_refuted.
