(** Property C17 for numbers of more than 32 digits. *)
From Verif Require Import Base UBig_Model UBig_Spec BigInt_Model NumRepr_Model NumRepr_Spec
  NumRepr_Proofs NumRepr_Big NumRepr_Frac UBigDiv_Model UBigDiv_Ops NumLong_Model NumLong_Proofs BigInt_Proofs.
Open Scope Z_scope.

Ltac canon_c := apply UBig_Basics.canonb_ok; vm_compute; reflexivity.

(** Where the short printer of C17_big_print_partial has a result, [to_string]
    has the same one. *)
Theorem C17_short_print_agrees : forall R w nd ediv lf df f a s,
  print_big R w nd f a = Some s -> print_long R w nd ediv lf df f a = DOk s.
Proof. exact print_long_big. Qed.
Print Assumptions C17_short_print_agrees.

(** Any radix whose powers split numbers of at most [n] digits at no more than 20
    digits ([splits_short] is evaluated once per radix): a printed text is the
    numeral of the number.  Missing: longer numbers, for which it is false (below),
    and that a text is produced. *)
Theorem C17_long_print_partial : forall R w nd ediv n, repr_ok R -> 0 < w -> nd <> 0%nat ->
  radix R < size_t_values w nd -> (forall k, (21 <= k)%nat -> (1 <= ediv k < k)%nat) ->
  splits_short R w nd n = true ->
  forall lf df f a s, canon (base w) a -> (length a <= n)%nat ->
  print_long R w nd ediv lf df f a = DOk s -> numeral_of R (val (base w) a) s.
Proof.
  exact (fun R w nd ediv n HR Hw Hn Hr He => @print_long_sound R HR w nd Hw Hn Hr ediv He n).
Qed.
Print Assumptions C17_long_print_partial.

(** Instances on 32-bit digits: decimal up to 1344 bits, hexadecimal and binary up
    to 1632 bits, octal up to 1248 bits. *)
Theorem C17_long_usual_partial : forall ediv lf df f a s R n,
  (forall k, (21 <= k)%nat -> (1 <= ediv k < k)%nat) ->
  In (R, n) [(decimal, 42%nat); (hexadecimal, 51%nat); (binary, 51%nat); (octal, 39%nat)] ->
  canon (base 32) a -> (length a <= n)%nat ->
  print_long R 32 2 ediv lf df f a = DOk s -> numeral_of R (val (base 32) a) s.
Proof. exact long_usual. Qed.
Print Assumptions C17_long_usual_partial.

(** Signed numbers of these sizes: the sign in front of the numeral of the
    absolute value, and only for negative numbers. *)
Theorem C17_long_signed_partial : forall ediv lf df f minus x s R n,
  (forall k, (21 <= k)%nat -> (1 <= ediv k < k)%nat) ->
  In (R, n) [(decimal, 42%nat); (hexadecimal, 51%nat); (binary, 51%nat); (octal, 39%nat)] ->
  icanon (base 32) x -> inorm x -> (length (mag x) <= n)%nat ->
  print_long_signed R 32 2 ediv lf df f minus x = DOk s ->
  exists t, numeral_of R (Z.abs (ival (base 32) x)) t /\
    s = if ival (base 32) x <? 0 then minus :: t else t.
Proof. exact long_signed. Qed.
Print Assumptions C17_long_signed_partial.
(** -255 and 255 in hexadecimal. *)
Example C17_long_signed_case :
  print_long_signed hexadecimal 32 2 (fun k => k - 1)%nat 5 5 9 45 (Bi true [255]) = DOk [45; 102; 102] /\
  print_long_signed hexadecimal 32 2 (fun k => k - 1)%nat 5 5 9 45 (Bi false [255]) = DOk [102; 102].
Proof. vm_compute. auto. Qed.

(** Any radix, same sizes: a text that the parser accepts is parsed back to the
    same number. *)
Theorem C17_long_round_trip_partial : forall R w nd ediv thr n, repr_ok R -> 0 < w -> nd <> 0%nat ->
  radix R < size_t_values w nd -> (forall k, (21 <= k)%nat -> (1 <= ediv k < k)%nat) ->
  radix R ^ Z.of_nat thr <= size_t_values w nd -> splits_short R w nd n = true ->
  forall lf df f g a s x, canon (base w) a -> (length a <= n)%nat ->
  print_long R w nd ediv lf df f a = DOk s -> parse_big R w nd g thr s = Some x -> x = Some a.
Proof.
  exact (fun R w nd ediv thr n HR Hw Hn Hr He Ht Hs lf df f g a s x =>
           @long_round_trip R HR w nd Hw Hn Hr ediv He thr Ht n lf df f g a s x Hs).
Qed.
Print Assumptions C17_long_round_trip_partial.

(** Hexadecimal, binary and octal: up to those sizes every number has a text, it is
    the numeral, and it is parsed back. *)
Theorem C17_long_power_radices : forall ediv lf df f a R n thr,
  (forall k, (21 <= k)%nat -> (1 <= ediv k < k)%nat) ->
  In (R, n, thr) [(hexadecimal, 51%nat, 15%nat); (binary, 51%nat, 63%nat); (octal, 39%nat, 21%nat)] ->
  canon (base 32) a -> (length a <= n)%nat -> (n + 1 < df)%nat -> val (base 32) a < 2 ^ Z.of_nat f ->
  exists s, print_long R 32 2 ediv lf df f a = DOk s /\ numeral_of R (val (base 32) a) s /\
            parse_big R 32 2 (length s) thr s = Some (Some a).
Proof. exact long_power_radices. Qed.
Print Assumptions C17_long_power_radices.

(** Case: a number of 40 digits in decimal and one of 45 digits in hexadecimal. *)
Example C17_long_case :
  let a := map (fun i => (7919 * Z.of_nat i + 104729) mod 2 ^ 32) (seq 1 40) in
  let b := map (fun i => (2654435761 * Z.of_nat i) mod 2 ^ 32) (seq 1 45) in
  canon (base 32) a /\ canon (base 32) b /\
  (exists s, print_long decimal 32 2 e_floor 9 99 40 a = DOk s /\ text_val decimal s = val (base 32) a) /\
  (exists s, print_long hexadecimal 32 2 e_floor 9 99 40 b = DOk s /\
             text_val hexadecimal s = val (base 32) b).
Proof.
  cbv zeta. split; [canon_c|]. split; [canon_c|].
  split; eexists; (split; [vm_compute; reflexivity|vm_compute; reflexivity]).
Qed.

(** ** Numbers that are not printed right *)

(** In decimal a wrong text is produced: 2^640*10^256-1 (1491 bits). *)
Theorem C17_decimal_text_refuted : exists a s, canon (base 32) a /\
  val (base 32) a = 2 ^ 640 * 10 ^ 256 - 1 /\
  (forall lf df f, (9 <= lf)%nat -> (99 <= df)%nat -> (40 <= f)%nat ->
     print_long decimal 32 2 e_floor lf df f a = DOk s) /\
  ~ numeral_of decimal (val (base 32) a) s.
Proof.
  let a := eval vm_compute in (match of_uint 32 60 (2 ^ 640 * 10 ^ 256 - 1) with Some l => l | None => [] end) in
  let s := eval vm_compute in (match print_long decimal 32 2 e_floor 9 99 40 a with DOk s => s | _ => [] end) in
  exists a, s.
  split; [canon_c|]. split; [vm_compute; reflexivity|]. split.
  - intros lf df f H1 H2 H3. refine (@print_long_stable decimal 32 2 e_floor 9 99 40 _ _ _ _ lf df f H1 H2 H3); [|discriminate].
    vm_compute. reflexivity.
  - apply not_numeral; [exact decimal_ok|]. vm_compute. discriminate.
Qed.
Print Assumptions C17_decimal_text_refuted.

(** In decimal there is no text: 2^448*10^256-1 (1299 bits). *)
Theorem C17_decimal_undefined_refuted : exists a, canon (base 32) a /\ (length a <= 42)%nat /\
  val (base 32) a = 2 ^ 448 * 10 ^ 256 - 1 /\
  forall lf df f, (9 <= lf)%nat -> (99 <= df)%nat -> (40 <= f)%nat ->
    print_long decimal 32 2 e_floor lf df f a = DUb.
Proof.
  let a := eval vm_compute in (match of_uint 32 60 (2 ^ 448 * 10 ^ 256 - 1) with Some l => l | None => [] end) in
  exists a.
  split; [canon_c|]. split; [apply Nat.leb_le; vm_compute; reflexivity|]. split; [vm_compute; reflexivity|].
  intros lf df f H1 H2 H3. refine (@print_long_stable decimal 32 2 e_floor 9 99 40 _ _ _ _ lf df f H1 H2 H3); [|discriminate].
  vm_compute. reflexivity.
Qed.
Print Assumptions C17_decimal_undefined_refuted.

(** In hexadecimal there is no text: 7^600 (1685 bits). *)
Theorem C17_hexadecimal_undefined_refuted : exists a, canon (base 32) a /\
  val (base 32) a = 7 ^ 600 /\
  forall lf df f, (9 <= lf)%nat -> (99 <= df)%nat -> (40 <= f)%nat ->
    print_long hexadecimal 32 2 e_floor lf df f a = DUb.
Proof.
  let a := eval vm_compute in (match of_uint 32 60 (7 ^ 600) with Some l => l | None => [] end) in
  exists a.
  split; [canon_c|]. split; [vm_compute; reflexivity|].
  intros lf df f H1 H2 H3. refine (@print_long_stable hexadecimal 32 2 e_floor 9 99 40 _ _ _ _ lf df f H1 H2 H3); [|discriminate].
  vm_compute. reflexivity.
Qed.
Print Assumptions C17_hexadecimal_undefined_refuted.

(** Every radix: a number of more than 96 digits has a text only if, at some power
    of the radix of more than 32 digits, its lower part fits in 32 digits. *)
Theorem C17_huge_text_undefined : forall R w nd ediv, repr_ok R -> 0 < w -> nd <> 0%nat ->
  radix R < size_t_values w nd -> (forall k, (21 <= k)%nat -> (1 <= ediv k < k)%nat) ->
  forall lf df f a s, canon (base w) a -> (96 < length a)%nat -> (nd <= 32)%nat ->
  print_long R w nd ediv lf df f a = DOk s ->
  exists len, (1 <= len)%nat /\ base w ^ 32 <= radix R ^ Z.of_nat len <= val (base w) a /\
    val (base w) a mod radix R ^ Z.of_nat len < base w ^ 32.
Proof.
  exact (fun R w nd ediv HR Hw Hn Hr He => @print_long_condition R HR w nd Hw Hn Hr ediv He).
Qed.
Print Assumptions C17_huge_text_undefined.
(** A number of 97 digits without a text, and one with. *)
Example C17_huge_case :
  canon (base 32) (repeat 1 97) /\ print_long decimal 32 2 e_floor 9 200 40 (repeat 1 97) = DUb /\
  canon (base 32) (repeat 0 96 ++ [1]) /\
  exists s, print_long binary 32 2 e_floor 9 200 40 (repeat 0 96 ++ [1]) = DOk s /\
            text_val binary s = val (base 32) (repeat 0 96 ++ [1]).
Proof.
  split; [canon_c|]. split; [vm_compute; reflexivity|]. split; [canon_c|].
  eexists. split; [vm_compute; reflexivity|vm_compute; reflexivity].
Qed.
