(** Property theorems C12, C13, C55: signed arbitrary-precision integers.
    [ival (base w) a] is the integer a sign and magnitude denote, [icanon] that the
    magnitude is canonical, [inorm] that it is not a negative zero;
    [idenotes r n]: [r] is defined, canonical, not a negative zero, and equal to [n]. *)
From Verif Require Import Base UBig_Model UBig_Spec UBig_Basics P_UBig BigInt_Model BigInt_Proofs BigIntNat_Model BigIntNat_Proofs.
Local Open Scope Z_scope.

(** ** C12.  Operators that are exact.  Missing: addition of operands of different
    sign and subtraction assignment (below); products whose fast path is undefined
    and quotients that the unsigned division gets wrong (C03, C04). *)
Theorem C12_add_partial : forall w fuel a b, 0 < w -> icanon (base w) a -> icanon (base w) b ->
  neg a = neg b ->
  idenotes (base w) (iadd w fuel a b) (ival (base w) a + ival (base w) b).
Proof. intros w fuel a b Hw. exact (iadd_same_sign Hw fuel (a := a) (b := b)). Qed.
Print Assumptions C12_add_partial.
Theorem C12_add_assign_partial : forall w fuel a b, 0 < w ->
  icanon (base w) a -> icanon (base w) b -> inorm a -> neg a = neg b ->
  idenotes (base w) (iadd_assign w (S fuel) a b) (ival (base w) a + ival (base w) b).
Proof. intros w fuel a b Hw. exact (iadd_assign_same_sign Hw fuel (a := a) (b := b)). Qed.
Print Assumptions C12_add_assign_partial.
(** By-value subtraction is exact (once it is made to compile). *)
Theorem C12_sub_exact : forall w a b, 0 < w -> icanon (base w) a -> icanon (base w) b ->
  idenotes (base w) (isub w a b) (ival (base w) a - ival (base w) b).
Proof. intros w a b Hw. exact (isub_exact Hw (a := a) (b := b)). Qed.
Print Assumptions C12_sub_exact.
Theorem C12_negate_exact : forall w a, 0 < w -> icanon (base w) a ->
  icanon (base w) (ineg a) /\ inorm (ineg a) /\ ival (base w) (ineg a) = - ival (base w) a.
Proof. intros w a Hw. exact (ineg_ok Hw (a := a)). Qed.
Print Assumptions C12_negate_exact.
Theorem C12_mul_partial : forall w a b, 0 < w -> icanon (base w) a -> icanon (base w) b ->
  (forall r, imul w a b = Some r ->
     icanon (base w) r /\ inorm r /\ ival (base w) r = ival (base w) a * ival (base w) b) /\
  ((Nat.min (length (mag a)) (length (mag b)) < 64)%nat ->
     idenotes (base w) (imul w a b) (ival (base w) a * ival (base w) b)).
Proof. intros w a b Hw. exact (imul_sound Hw (a := a) (b := b)). Qed.
Print Assumptions C12_mul_partial.
Theorem C12_div_partial : forall w a b, 0 < w -> icanon (base w) a -> icanon (base w) b ->
  (length (mag a) <= 32)%nat -> (2 * length (mag b) <= length (mag a) + 2)%nat ->
  idenotes (base w) (idiv w a b) (Z.quot (ival (base w) a) (ival (base w) b)).
Proof. intros w a b Hw. exact (idiv_exact Hw (a := a) (b := b)). Qed.
Print Assumptions C12_div_partial.
Theorem C12_mod_partial : forall w a b, 0 < w -> icanon (base w) a -> icanon (base w) b ->
  mag b <> [] -> (length (mag a) <= 32)%nat ->
  idenotes (base w) (imod w a b) (Z.rem (ival (base w) a) (ival (base w) b)).
Proof. intros w a b Hw. exact (imod_exact Hw (a := a) (b := b)). Qed.
Print Assumptions C12_mod_partial.
Theorem C12_shift_left_exact : forall w a n, 0 < w -> icanon (base w) a -> 0 <= n ->
  idenotes (base w) (Some (ishl w a n)) (ival (base w) a * 2 ^ n).
Proof. intros w a n Hw. exact (ishl_exact Hw (a := a) (n := n)). Qed.
Print Assumptions C12_shift_left_exact.
(** Increment and decrement; the condition on the lowest digit is inherited from
    the unsigned decrement (C07). *)
Theorem C12_increment_partial : forall w a, 0 < w -> icanon (base w) a -> inorm a ->
  (neg a = true -> nth 0 (mag a) 0 <> 0) ->
  idenotes (base w) (Some (iinc w a)) (ival (base w) a + 1).
Proof. intros w a Hw. exact (iinc_exact Hw (a := a)). Qed.
Print Assumptions C12_increment_partial.
Theorem C12_decrement_partial : forall w a, 0 < w -> icanon (base w) a -> inorm a ->
  (ival (base w) a > 0 -> nth 0 (mag a) 0 <> 0) ->
  idenotes (base w) (Some (idec w a)) (ival (base w) a - 1).
Proof. intros w a Hw. exact (idec_exact Hw (a := a)). Qed.
Print Assumptions C12_decrement_partial.
(** Adding numbers of different sign never returns, whatever the stack allows. *)
Theorem C12_add_mixed_never_returns : forall w a b, 0 < w ->
  icanon (base w) a -> icanon (base w) b -> inorm a -> inorm b -> neg a <> neg b ->
  forall fuel, iadd w fuel a b = None.
Proof. intros w a b Hw Ca Cb Na Nb D fuel. exact (iadd_diverges fuel Ca Cb Na Nb D). Qed.
Print Assumptions C12_add_mixed_never_returns.
(** [a += b] with [a < 0 <= b] never returns either; with [a >= 0 > b] it leaves
    [a] unchanged. *)
Theorem C12_add_assign_mixed : forall w a b, 0 < w ->
  icanon (base w) a -> icanon (base w) b -> inorm b ->
  (neg a = true -> neg b = false -> forall fuel, iadd_assign w fuel a b = None) /\
  (neg a = false -> neg b = true -> forall fuel, iadd_assign w (S fuel) a b = Some a).
Proof.
  intros w a b Hw Ca Cb Nb.
  exact (conj (fun Na N fuel => iadd_assign_diverges w fuel Na N)
              (fun Na N fuel => iadd_assign_pos_neg Hw fuel Ca Cb Nb Na N)).
Qed.
Print Assumptions C12_add_assign_mixed.
(** [a -= b] gives the difference only when [b] is zero. *)
Theorem C12_sub_assign_wrong : forall w a b, 0 < w ->
  icanon (base w) a -> icanon (base w) b -> inorm a -> inorm b ->
  exists x, isub_assign w a b = Some x /\
    (ival (base w) x = ival (base w) a - ival (base w) b <-> ival (base w) b = 0).
Proof. intros w a b Hw. exact (isub_assign_wrong Hw (a := a) (b := b)). Qed.
Print Assumptions C12_sub_assign_wrong.
(** In place with a native operand that is not zero it is wrong too, for all signs and all
    types of operands, unless the operand is the number itself. *)
Theorem C12_native_sub_assign_wrong : forall w nd a s t, 0 < w -> icanon (base w) a -> inorm a ->
  0 < t < base w ^ Z.of_nat nd -> t + base w <= base w ^ Z.of_nat (Nat.max nd 2) ->
  exists x, isub_assign_native w nd a s t = Some x /\
    (ival (base w) x = ival (base w) a - (if s then - t else t) -> ival (base w) a = (if s then - t else t)).
Proof. intros w nd a s t Hw. exact (@native_sub_wrong w Hw nd a s t). Qed.
Print Assumptions C12_native_sub_assign_wrong.
(** Taking away the zero of a type with more digits than a positive number has makes it zero. *)
Theorem C12_native_sub_zero_wrong : forall w nd a, 0 < w -> icanon (base w) a -> neg a = false ->
  (length (mag a) < nd)%nat -> exists x, isub_assign_native w nd a false 0 = Some x /\ ival (base w) x = 0.
Proof. intros w nd a Hw. exact (@native_sub_zero w Hw nd a). Qed.
Print Assumptions C12_native_sub_zero_wrong.
(** 5 -= 3 is 5, 5 -= -3 is 2, 5 -= 3ull is 0, 5 -= 0ull is 0. *)
Example C12_native_sub_case :
  isub_assign_native 32 1 (Bi false [5]) false 3 = Some (Bi false [5]) /\
  isub_assign_native 32 1 (Bi false [5]) true 3 = Some (Bi false [2]) /\
  isub_assign_native 32 2 (Bi false [5]) false 3 = Some (Bi true []) /\
  isub_assign_native 32 2 (Bi false [5]) false 0 = Some (Bi true []).
Proof. vm_compute. repeat split. Qed.
Theorem C12_refuted : exists a b, icanon (base 32) a /\ icanon (base 32) b /\ inorm a /\ inorm b /\
  iadd 32 1000 a b = None /\ isub_assign 32 b b = Some b /\
  ival (base 32) a + ival (base 32) b = 4 /\ ival (base 32) b - ival (base 32) b <> ival (base 32) b.
Proof.
  exists (Bi true [3]), (Bi false [7]). split; [canon_c|]. split; [canon_c|].
  split; [discriminate|]. split; [discriminate|]. split; [vm_compute; reflexivity|].
  split; [vm_compute; reflexivity|]. split; [vm_compute; reflexivity|vm_compute; discriminate].
Qed.
Print Assumptions C12_refuted.
Example C12_case :
  let a := Bi true (digits_of 8 30 (7 ^ 30)) in let b := Bi false (digits_of 8 30 (11 ^ 9)) in
  icanon (base 8) a /\ icanon (base 8) b /\ inorm a /\ inorm b /\ neg a = neg (ineg b) /\
  (length (mag a) <= 32)%nat /\ (2 * length (mag b) <= length (mag a) + 2)%nat /\ mag b <> [] /\
  nth 0 (mag a) 0 <> 0 /\ nth 0 (mag b) 0 <> 0 /\
  option_map (ival (base 8)) (isub 8 a b) = Some (- 7 ^ 30 - 11 ^ 9) /\
  option_map (ival (base 8)) (iadd 8 0 a (ineg b)) = Some (- 7 ^ 30 - 11 ^ 9) /\
  option_map (ival (base 8)) (imul 8 a b) = Some (- (7 ^ 30 * 11 ^ 9)) /\
  option_map (ival (base 8)) (idiv 8 a b) = Some (- (7 ^ 30 / 11 ^ 9)) /\
  option_map (ival (base 8)) (imod 8 a b) = Some (- (7 ^ 30 mod 11 ^ 9)) /\
  iadd_assign 8 100 b a = Some b.
Proof.
  split; [canon_c|]. split; [canon_c|]. split; [vm_compute; discriminate|].
  split; [vm_compute; discriminate|]. split; [vm_compute; reflexivity|].
  split; [apply Nat.leb_le; vm_compute; reflexivity|].
  split; [apply Nat.leb_le; vm_compute; reflexivity|].
  split; [vm_compute; discriminate|]. split; [vm_compute; discriminate|].
  split; [vm_compute; discriminate|]. vm_compute. auto 10.
Qed.

(** ** C13.  Comparison is numeric, and representation and hash are determined by
    the value, for values without a negative zero.  Missing: negative zero is
    reachable. *)
Theorem C13_order_partial : forall w a b, 0 < w -> icanon (base w) a -> icanon (base w) b ->
  inorm a -> inorm b ->
  (ieq a b = true <-> ival (base w) a = ival (base w) b) /\
  icmp a b = (ival (base w) a ?= ival (base w) b) /\
  (ival (base w) a = ival (base w) b -> a = b).
Proof. intros w a b Hw. exact (ieq_sound Hw (a := a) (b := b)). Qed.
Print Assumptions C13_order_partial.
Theorem C13_hash_partial : forall w d a b, 0 < w -> icanon (base w) a -> icanon (base w) b ->
  inorm a -> inorm b -> ieq a b = true -> ihash d a = ihash d b.
Proof. intros w d a b Hw. exact (ihash_eq Hw d (a := a) (b := b)). Qed.
Print Assumptions C13_hash_partial.
(** Multiplication assignment makes a negative zero exactly when the product is
    zero and the operand signs differ. *)
Theorem C13_mul_assign_zero : forall w a b, 0 < w -> icanon (base w) a -> icanon (base w) b ->
  (Nat.min (length (mag a)) (length (mag b)) < 64)%nat ->
  exists x, imul_assign w a b = Some x /\ icanon (base w) x /\
    ival (base w) x = ival (base w) a * ival (base w) b /\
    (inorm x <-> (ival (base w) a * ival (base w) b <> 0 \/ neg a = neg b)).
Proof. intros w a b Hw. exact (imul_assign_sound Hw (a := a) (b := b)). Qed.
Print Assumptions C13_mul_assign_zero.
(** The other assigning operators: the value is that of the operator, and a result
    of zero is made negative likewise. *)
Theorem C13_div_assign_partial : forall w a b, 0 < w -> icanon (base w) a -> icanon (base w) b ->
  (length (mag a) <= 32)%nat -> (2 * length (mag b) <= length (mag a) + 2)%nat ->
  exists x, idiv_assign w a b = Some x /\ icanon (base w) x /\
    ival (base w) x = Z.quot (ival (base w) a) (ival (base w) b) /\
    (inorm x <-> (Z.quot (ival (base w) a) (ival (base w) b) <> 0 \/ neg a = neg b)).
Proof. intros w a b Hw. exact (idiv_assign_sound Hw (a := a) (b := b)). Qed.
Print Assumptions C13_div_assign_partial.
Theorem C13_mod_assign_partial : forall w a b, 0 < w -> icanon (base w) a -> icanon (base w) b ->
  mag b <> [] -> (length (mag a) <= 32)%nat ->
  exists x, imod_assign w a b = Some x /\ icanon (base w) x /\
    ival (base w) x = Z.rem (ival (base w) a) (ival (base w) b) /\
    (inorm x <-> (Z.rem (ival (base w) a) (ival (base w) b) <> 0 \/ neg a = false)).
Proof. intros w a b Hw. exact (imod_assign_sound Hw (a := a) (b := b)). Qed.
Print Assumptions C13_mod_assign_partial.
Theorem C13_shift_right_assign : forall w a n, 0 < w -> icanon (base w) a -> 0 <= n ->
  icanon (base w) (ishr_assign w a n) /\ ival (base w) (ishr_assign w a n) = Z.quot (ival (base w) a) (2 ^ n) /\
  (inorm (ishr_assign w a n) <-> (Z.quot (ival (base w) a) (2 ^ n) <> 0 \/ neg a = false)).
Proof. intros w a n Hw. exact (ishr_assign_sound Hw (a := a) (n := n)). Qed.
Print Assumptions C13_shift_right_assign.
Example C13_assign_case :
  let a := Bi true [3; 1] in let b := Bi false [2; 1] in
  icanon (base 8) a /\ icanon (base 8) b /\ idiv_assign 8 a b = Some (Bi true [1]) /\
  idiv_assign 8 b a = Some (Bi true []) /\ imod_assign 8 a b = Some (Bi true [1]) /\
  imod_assign 8 a (Bi false [7]) = Some (Bi true []) /\ ishr_assign 8 a 5 = Bi true [8] /\
  ishr_assign 8 a 9 = Bi true [].
Proof. split; [canon_c|]. split; [canon_c|]. vm_compute. repeat split. Qed.
(** -5 times 0 is a zero that differs from zero and is smaller than it; so is the
    result of negating a temporary zero. *)
Theorem C13_refuted : exists a b x, icanon (base 32) a /\ icanon (base 32) b /\ inorm a /\ inorm b /\
  imul_assign 32 a b = Some x /\ ival (base 32) x = 0 /\ ival (base 32) b = 0 /\
  ieq x b = false /\ icmp x b = Lt.
Proof.
  exists (Bi true [5]), (Bi false []), (Bi true []). split; [canon_c|]. split; [canon_c|].
  split; [discriminate|]. split; [discriminate|]. vm_compute. auto.
Qed.
Print Assumptions C13_refuted.
Theorem C13_rvalue_minus_refuted : exists a, icanon (base 32) a /\ inorm a /\
  ival (base 32) (ineg_move a) = ival (base 32) a /\ ieq (ineg_move a) a = false.
Proof. exists (Bi false []). split; [canon_c|]. split; [discriminate|]. vm_compute. auto. Qed.
Print Assumptions C13_rvalue_minus_refuted.
Example C13_case :
  let a := Bi true [3; 1] in let b := Bi true [2; 1] in
  icanon (base 8) a /\ icanon (base 8) b /\ inorm a /\ inorm b /\ icmp a b = Lt /\
  ieq a b = false /\ ieq a a = true /\ ihash 64 a <> ihash 64 b /\
  (Nat.min (length (mag a)) (length (mag b)) < 64)%nat.
Proof.
  split; [canon_c|]. split; [canon_c|]. split; [discriminate|]. split; [discriminate|].
  split; [reflexivity|]. split; [reflexivity|]. split; [reflexivity|].
  split; [vm_compute; discriminate|]. cbn. lia.
Qed.

(** ** C55.  Native signed values.  Missing: the minimum of the type. *)
Theorem C55_round_trip_partial : forall w fuel d v, 0 < w -> 1 <= d ->
  2 ^ d <= base w ^ Z.of_nat fuel -> - 2 ^ (d - 1) < v < 2 ^ (d - 1) ->
  exists x, of_native w fuel d v = Some x /\ icanon (base w) x /\ inorm x /\
    ival (base w) x = v /\ to_native w d x = v.
Proof. intros w fuel d v Hw. exact (native_round_trip Hw (fuel := fuel) (d := d) (v := v)). Qed.
Print Assumptions C55_round_trip_partial.
(** Conversion of an arbitrary value is reduction into the range of the type. *)
Theorem C55_convert_modulo : forall w d a, 1 <= d ->
  (to_native w d a - ival (base w) a) mod 2 ^ d = 0 /\
  - 2 ^ (d - 1) <= to_native w d a < 2 ^ (d - 1).
Proof. intros w d a. exact (to_native_modulo w a (d := d)). Qed.
Print Assumptions C55_convert_modulo.
(** Constructing from the smallest value of a signed type is undefined. *)
Theorem C55_minimum_refuted : exists d v, - 2 ^ (d - 1) <= v < 2 ^ (d - 1) /\
  forall fuel, of_native 32 fuel d v = None.
Proof. exists 64, (- 2 ^ 63). split; [vm_compute; split; congruence|]. intros fuel. reflexivity. Qed.
Print Assumptions C55_minimum_refuted.
Example C55_case :
  2 ^ 64 <= base 32 ^ Z.of_nat 2 /\ of_native 32 2 64 (-1311768467463790320) = Some (Bi true [2596069104; 305419896]) /\
  to_native 32 64 (Bi true [2596069104; 305419896]) = -1311768467463790320 /\
  to_native 32 32 (Bi true [2596069104; 305419896]) = 1698898192.
Proof. vm_compute. split; [discriminate|auto]. Qed.
