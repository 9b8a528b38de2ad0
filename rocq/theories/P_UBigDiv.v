(** Property theorems C04 for dividends of every size: the divide-and-conquer
    division.  [lf] and [fuel] bound the loop and the recursion of the model,
    [DOut] says that they were too small ([C04_any_size_ends]: they never are, once
    large enough), [DUb] is undefined behaviour.  [ediv] is the floating-point
    quotient of a size by Euler's number; only its range is used. *)
From Verif Require Import Base UBig_Model UBig_Spec UBig_Basics UBig_AddSub UBigDiv_Model
  UBigDiv_Proofs UBigDiv_Ops.
Local Open Scope Z_scope.

Ltac canon_c := apply canonb_ok; vm_compute; reflexivity.

(** Every remainder that [%] produces is exact, whatever the sizes.  Missing for
    the full statement: there are operands without a result, see below. *)
Theorem C04_any_size_mod_partial : forall w ediv, 0 < w ->
  (forall n, (21 <= n)%nat -> (1 <= ediv n < n)%nat) ->
  forall lf fuel a b r, canon (base w) a -> canon (base w) b -> b <> [] ->
  fmod w ediv lf fuel a b = DOk r ->
  canon (base w) r /\ val (base w) r = val (base w) a mod val (base w) b.
Proof. intros w ediv Hw Hed lf fuel a b r. exact (fmod_sound Hw Hed (lf := lf) (fuel := fuel) (a := a) (b := b) (r := r)). Qed.
Print Assumptions C04_any_size_mod_partial.

(** Every quotient that [/] produces is at least the true one; for divisors of at
    most 20 digits it is the true one or one more, the true one for exact
    multiples and for dividends about twice as long as the divisor.  Missing: the
    bound for longer divisors, which is false, see below. *)
Theorem C04_any_size_div_partial : forall w ediv, 0 < w ->
  (forall n, (21 <= n)%nat -> (1 <= ediv n < n)%nat) ->
  forall lf fuel a b q, canon (base w) a -> canon (base w) b -> b <> [] ->
  fdiv w ediv lf fuel a b = DOk q ->
  canon (base w) q /\ val (base w) a / val (base w) b <= val (base w) q /\
  ((length b <= 20)%nat ->
     val (base w) q <= val (base w) a / val (base w) b + 1 /\
     ((val (base w) b | val (base w) a) -> val (base w) q = val (base w) a / val (base w) b)) /\
  ((length b <= 20)%nat -> (2 * length b <= length a + 2)%nat ->
     val (base w) q = val (base w) a / val (base w) b).
Proof. intros w ediv Hw Hed lf fuel a b q. exact (fdiv_sound Hw Hed (lf := lf) (fuel := fuel) (a := a) (b := b) (q := q)). Qed.
Print Assumptions C04_any_size_div_partial.

(** [divmod]: the remainder is exact, the quotient at least the true one, and
    exact for divisors of at most 20 digits. *)
Theorem C04_any_size_divmod_partial : forall w ediv, 0 < w ->
  (forall n, (21 <= n)%nat -> (1 <= ediv n < n)%nat) ->
  forall lf fuel a b q r, canon (base w) a -> canon (base w) b -> b <> [] ->
  fdivmod w ediv lf fuel a b = DOk (q, r) ->
  canon (base w) q /\ canon (base w) r /\ val (base w) r = val (base w) a mod val (base w) b /\
  val (base w) a / val (base w) b <= val (base w) q /\
  ((length b <= 20)%nat -> val (base w) q = val (base w) a / val (base w) b).
Proof.
  intros w ediv Hw Hed lf fuel a b q r.
  exact (fdivmod_sound Hw Hed (lf := lf) (fuel := fuel) (a := a) (b := b) (q := q) (r := r)).
Qed.
Print Assumptions C04_any_size_divmod_partial.

(** Divisors of two to nine digits whose two leading digits are not both maximal:
    [/], [%] and [divmod] have a result for dividends of every size above 32
    digits and it is exact. *)
Theorem C04_short_divisor_partial : forall w ediv, 0 < w ->
  (forall n, (21 <= n)%nat -> (1 <= ediv n < n)%nat) ->
  forall lf fuel a b, canon (base w) a -> canon (base w) b -> (2 <= length b <= 9)%nat ->
  (32 < length a)%nat -> (length a + 1 < fuel)%nat ->
  val (base w) (skipn (length b - 2) b) <> base w * base w - 1 ->
  exists q r, fdivmod w ediv lf fuel a b = DOk (q, r) /\ fmod w ediv lf fuel a b = DOk r /\
    canon (base w) q /\ canon (base w) r /\
    val (base w) q = val (base w) a / val (base w) b /\
    val (base w) r = val (base w) a mod val (base w) b.
Proof. intros w ediv Hw Hed lf fuel a b. exact (fdivmod_short Hw Hed lf (fuel := fuel) (a := a) (b := b)). Qed.
Print Assumptions C04_short_divisor_partial.
Theorem C04_short_divisor_quotient_partial : forall w ediv, 0 < w ->
  (forall n, (21 <= n)%nat -> (1 <= ediv n < n)%nat) ->
  forall lf fuel a b, canon (base w) a -> canon (base w) b -> (length b <= 9)%nat -> b <> [] ->
  (16 <= length a)%nat -> (length a + 1 < fuel)%nat ->
  (2 <= length (snd (low_zeros b)))%nat ->
  val (base w) (skipn (length b - 2) b) <> base w * base w - 1 ->
  exists q, fdiv w ediv lf fuel a b = DOk q /\ canon (base w) q /\
    val (base w) q = val (base w) a / val (base w) b.
Proof. intros w ediv Hw Hed lf fuel a b. exact (fdiv_short Hw Hed lf (fuel := fuel) (a := a) (b := b)). Qed.
Print Assumptions C04_short_divisor_quotient_partial.
(** 40 digits by 3 digits, through the divide-and-conquer path. *)
Example C04_short_divisor_case :
  let a := map (fun i => (7 * Z.of_nat i + 5) mod 256) (seq 0 40) in
  let b := [0; 9; 200] in
  canon (base 8) a /\ canon (base 8) b /\ (32 < length a)%nat /\ (2 <= length (snd (low_zeros b)))%nat /\
  val (base 8) (skipn (length b - 2) b) <> base 8 * base 8 - 1 /\
  (forall n, (21 <= n)%nat -> (1 <= e_floor n < n)%nat) /\
  match fdivmod 8 e_floor 0 50 a b, fdiv 8 e_floor 0 50 a b, fmod 8 e_floor 0 50 a b with
  | DOk (q, r), DOk q', DOk r' =>
      val (base 8) a = val (base 8) q * val (base 8) b + val (base 8) r /\
      val (base 8) r < val (base 8) b /\ q = q' /\ r = r' /\ length q = 37%nat
  | _, _, _ => False
  end.
Proof.
  cbv zeta. split; [canon_c|]. split; [canon_c|]. split; [vm_compute; lia|]. split; [vm_compute; lia|].
  split; [vm_compute; discriminate|]. split; [exact e_floor_ok|]. vm_compute. repeat split.
Qed.
(** 70 digits by 12 digits: still a result here. *)
Example C04_any_size_case :
  let a := map (fun i => (11 * Z.of_nat i + 3) mod 256) (seq 0 70) in
  let b := map (fun i => (5 * Z.of_nat i + 1) mod 256) (seq 0 12) in
  canon (base 8) a /\ canon (base 8) b /\
  match fdivmod 8 e_floor 5 90 a b with
  | DOk (q, r) => val (base 8) q = val (base 8) a / val (base 8) b /\
                  val (base 8) r = val (base 8) a mod val (base 8) b
  | _ => False
  end.
Proof. cbv zeta. split; [canon_c|]. split; [canon_c|]. vm_compute. split; reflexivity. Qed.

(** The recursion and the correction loop end: from some bound on the outcome is
    fixed and is not [DOut]; [%] and [divmod] then agree. *)
Theorem C04_any_size_ends : forall w ediv, 0 < w ->
  (forall n, (21 <= n)%nat -> (1 <= ediv n < n)%nat) ->
  forall a b, canon (base w) a -> canon (base w) b ->
  (exists n t, forall lf fuel, (n <= lf)%nat -> (n <= fuel)%nat ->
     fdiv w ediv lf fuel a b = t /\ t <> DOut) /\
  (exists n t, forall lf fuel, (n <= lf)%nat -> (n <= fuel)%nat ->
     fdivmod w ediv lf fuel a b = t /\ t <> DOut /\ fmod w ediv lf fuel a b <> DOut /\
     (forall q r, t = DOk (q, r) -> fmod w ediv lf fuel a b = DOk r)).
Proof. intros w ediv Hw Hed a b Ha Hb. exact (conj (fdiv_ends Hw Hed Ha Hb) (fdivmod_ends Hw Hed Ha Hb)). Qed.
Print Assumptions C04_any_size_ends.

(** Where the short path of C04_udiv_partial and its neighbours has a result, so
    do the operators, and the same one. *)
Theorem C04_short_path_agrees : forall w ediv lf fuel a b,
  (forall q, udiv w a b = Some q -> fdiv w ediv lf fuel a b = DOk q) /\
  (forall r, umod w a b = Some r -> fmod w ediv lf fuel a b = DOk r) /\
  (forall x, udivmod w a b = Some x -> fdivmod w ediv lf fuel a b = DOk x).
Proof.
  intros w ediv lf fuel a b.
  exact (conj (fun q => @fdiv_udiv w ediv lf fuel a b q)
        (conj (fun r => @fmod_umod w ediv lf fuel a b r)
              (fun x => @fdivmod_udivmod w ediv lf fuel a b x))).
Qed.
Print Assumptions C04_short_path_agrees.

(** ** Operands without a result *)

(** No number of more than 32 digits can be divided by a one-digit number. *)
Theorem C04_one_digit_divisor_undefined : forall w ediv lf fuel a d, canon (base w) a -> 0 < d < base w ->
  (32 < length a)%nat ->
  fdiv w ediv lf fuel a [d] = DUb /\ fmod w ediv lf fuel a [d] = DUb /\
  fdivmod w ediv lf fuel a [d] = DUb.
Proof. intros w ediv lf fuel a d. exact (@one_digit_undefined w ediv lf fuel a d). Qed.
Print Assumptions C04_one_digit_divisor_undefined.
Example C04_one_digit_case : canon (base 32) (repeat 1 33) /\ 0 < 10 < base 32 /\
  fdiv 32 e_floor 99 99 (repeat 1 33) [10] = DUb.
Proof. split; [canon_c|]. split; [vm_compute; auto|]. vm_compute. reflexivity. Qed.

(** Nor by one whose two leading digits are both maximal. *)
Theorem C04_top_digits_maximal_undefined : forall w ediv, 0 < w ->
  forall lf fuel a b, canon (base w) a -> canon (base w) b -> (2 <= length b)%nat ->
  (length b <= length a)%nat -> (32 < length a)%nat ->
  val (base w) (skipn (length b - 2) b) = base w * base w - 1 ->
  fmod w ediv lf fuel a b = DUb /\ fdivmod w ediv lf fuel a b = DUb.
Proof. intros w ediv Hw lf fuel a b. exact (@top_max_undefined w Hw ediv lf fuel a b). Qed.
Print Assumptions C04_top_digits_maximal_undefined.
Example C04_top_digits_case : canon (base 32) (repeat 1 40) /\ canon (base 32) [5; 4294967295; 4294967295] /\
  fmod 32 e_floor 99 99 (repeat 1 40) [5; 4294967295; 4294967295] = DUb /\
  fdiv 32 e_floor 99 99 (repeat 1 40) [5; 4294967295; 4294967295] = DUb.
Proof. split; [canon_c|]. split; [canon_c|]. vm_compute. auto. Qed.

(** Nor does [%] have a result when the scaled remainder has more than 32 digits:
    almost always so for a divisor of 33 digits or more. *)
Theorem C04_long_remainder_undefined : forall w ediv, 0 < w ->
  (forall n, (21 <= n)%nat -> (1 <= ediv n < n)%nat) ->
  forall lf fuel a b r, canon (base w) a -> canon (base w) b -> (2 <= length b)%nat ->
  (length b <= length a)%nat -> (32 < length a)%nat ->
  base w ^ 32 <= (val (base w) a mod val (base w) b) *
    ((base w * base w - 1) / (val (base w) (skipn (length b - 2) b) + 1)) ->
  fmod w ediv lf fuel a b <> DOk r /\ forall q, fdivmod w ediv lf fuel a b <> DOk (q, r).
Proof.
  intros w ediv Hw Hed lf fuel a b r.
  exact (long_remainder_undefined Hw Hed lf fuel (a := a) (b := b) r).
Qed.
Print Assumptions C04_long_remainder_undefined.
Example C04_long_remainder_case :
  let a := repeat 3 50 in let b := repeat 7 34 in
  canon (base 32) a /\ canon (base 32) b /\
  base 32 ^ 32 <= (val (base 32) a mod val (base 32) b) *
    ((base 32 * base 32 - 1) / (val (base 32) (skipn (length b - 2) b) + 1)) /\
  fmod 32 e_floor 99 99 a b = DUb.
Proof. cbv zeta. split; [canon_c|]. split; [canon_c|]. split; [vm_compute; discriminate|]. vm_compute. reflexivity. Qed.

(** ** Wrong and missing results for ordinary operands *)

(** The quotient of [/] and [divmod] is 2^32-1 too large: the correction step
    decrements a trial quotient whose lowest digit is zero. *)
Theorem C04_long_quotient_refuted : exists a b q r, canon (base 32) a /\ canon (base 32) b /\
  (forall lf fuel, (9 <= lf)%nat -> (99 <= fuel)%nat ->
     fdiv 32 e_floor lf fuel a b = DOk q /\ fdivmod 32 e_floor lf fuel a b = DOk (q, r)) /\
  val (base 32) q = val (base 32) a / val (base 32) b + (2 ^ 32 - 1) /\
  val (base 32) q * val (base 32) b + val (base 32) r <> val (base 32) a.
Proof.
  let b := eval vm_compute in (repeat (2 ^ 32 - 1) 9 ++ repeat 0 12 ++ [2 ^ 32 - 2]) in
  let a := eval vm_compute in
    (match umul 32 b (repeat 0 40 ++ [1]), sub_base 32 (repeat 0 11 ++ b) [1] with
     | Some x, Some y => match add_base 32 x y with Some z => z | None => [] end
     | _, _ => [] end) in
  let q := eval vm_compute in (match fdivmod 32 e_floor 9 99 a b with DOk (q, _) => q | _ => [] end) in
  let r := eval vm_compute in (match fdivmod 32 e_floor 9 99 a b with DOk (_, r) => r | _ => [] end) in
  exists a, b, q, r.
  split; [canon_c|]. split; [canon_c|]. split.
  - apply div_stable; [vm_compute; reflexivity|vm_compute; reflexivity|discriminate|discriminate].
  - split; [vm_compute; reflexivity|]. vm_compute. discriminate.
Qed.
Print Assumptions C04_long_quotient_refuted.

(** Undefined although the divisor has 22 digits and ordinary leading ones: a
    working dividend with leading zero digits is taken for larger than it is. *)
Theorem C04_long_division_refuted : exists a b, canon (base 32) a /\ canon (base 32) b /\
  length a = 66%nat /\ length b = 22%nat /\
  (forall lf fuel, (9 <= lf)%nat -> (99 <= fuel)%nat ->
     fdiv 32 e_floor lf fuel a b = DUb /\ fdivmod 32 e_floor lf fuel a b = DUb).
Proof.
  let b := eval vm_compute in (repeat 5 21 ++ [2 ^ 32 - 2]) in
  let a := eval vm_compute in
    (match umul 32 b (repeat 0 44 ++ [1]), sub_base 32 b [1] with
     | Some x, Some y => match add_base 32 x y with Some z => z | None => [] end
     | _, _ => [] end) in
  exists a, b. split; [canon_c|]. split; [canon_c|]. split; [vm_compute; reflexivity|].
  split; [vm_compute; reflexivity|].
  apply div_stable; [vm_compute; reflexivity|vm_compute; reflexivity|discriminate|discriminate].
Qed.
Print Assumptions C04_long_division_refuted.
