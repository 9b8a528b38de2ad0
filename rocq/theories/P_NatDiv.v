(** C100: built-in integers divided by signed big integers. *)
From Verif Require Import Base UBig_Model UBig_Spec UBig_Basics BigInt_Model BigInt_Proofs MinMax_Model MinMax_Spec Cast_Model
  NatDiv_Model NatDiv_Proofs.
Local Open Scope Z_scope.
Ltac canon_c := apply UBig_Basics.canonb_ok; vm_compute; reflexivity.
Local Notation value w := (BigInt_Proofs.ival (base w)).

(** Signed dividend, divisor not negative: the quotient is right.  The native type has at
    most two digits ([fuel]). *)
Theorem C100_div_partial : forall w fuel a b, 0 < w -> (fuel <= 2)%nat ->
  fits a -> sgn (vty a) = true -> 32 <= bits (vty a) -> num a <> - 2 ^ (bits (vty a) - 1) ->
  2 ^ bits (vty a) <= base w ^ Z.of_nat fuel -> icanon (base w) b -> neg b = false ->
  exists r, native_div w fuel a b = Some r /\ num r = Z.quot (num a) (value w b).
Proof. exact div_right. Qed.
Print Assumptions C100_div_partial.
(** -1000000000000 / 7. *)
Example C100_div_case : fits {| vty := {| sgn := true; bits := 64 |}; num := -1000000000000 |} /\
  2 ^ 64 <= base 32 ^ Z.of_nat 2 /\ icanon (base 32) (Bi false [7]) /\
  native_div 32 2 {| vty := {| sgn := true; bits := 64 |}; num := -1000000000000 |} (Bi false [7]) =
    Some {| vty := {| sgn := true; bits := 64 |}; num := -142857142857 |}.
Proof.
  split; [split; vm_compute; [reflexivity|split; congruence]|]. split; [vm_compute; congruence|].
  split; [canon_c|]. vm_compute. reflexivity.
Qed.

(** Divisor negative: the sign of the quotient is wrong, always. *)
Theorem C100_div_wrong : forall w fuel a b, 0 < w -> (fuel <= 2)%nat ->
  fits a -> sgn (vty a) = true -> 32 <= bits (vty a) -> num a <> - 2 ^ (bits (vty a) - 1) ->
  2 ^ bits (vty a) <= base w ^ Z.of_nat fuel -> icanon (base w) b -> neg b = true ->
  exists r, native_div w fuel a b = Some r /\ num r = - Z.quot (num a) (value w b).
Proof. exact div_opposite. Qed.
Print Assumptions C100_div_wrong.
(** 7 / -2 is 3, -7 / -2 is -3. *)
Example C100_div_wrong_case :
  native_div 32 1 {| vty := {| sgn := true; bits := 32 |}; num := 7 |} (Bi true [2]) =
    Some {| vty := {| sgn := true; bits := 32 |}; num := 3 |} /\
  native_div 32 1 {| vty := {| sgn := true; bits := 32 |}; num := -7 |} (Bi true [2]) =
    Some {| vty := {| sgn := true; bits := 32 |}; num := -3 |} /\
  value 32 (Bi true [2]) = -2 /\ Z.quot 7 (-2) = -3.
Proof. vm_compute. repeat split. Qed.

(** The remainder is right for every divisor but zero. *)
Theorem C100_mod : forall w fuel a b, 0 < w -> (fuel <= 2)%nat ->
  fits a -> sgn (vty a) = true -> 32 <= bits (vty a) -> num a <> - 2 ^ (bits (vty a) - 1) ->
  2 ^ bits (vty a) <= base w ^ Z.of_nat fuel -> icanon (base w) b -> mag b <> [] ->
  exists r, native_mod w fuel a b = Some r /\ num r = Z.rem (num a) (value w b).
Proof. exact mod_right. Qed.
Print Assumptions C100_mod.
Example C100_mod_case : icanon (base 32) (Bi true [7]) /\
  native_mod 32 1 {| vty := {| sgn := true; bits := 32 |}; num := -100 |} (Bi true [7]) =
    Some {| vty := {| sgn := true; bits := 32 |}; num := -2 |}.
Proof. split; [canon_c|]. vm_compute. reflexivity. Qed.

(** The smallest number of a signed type is undefined with every divisor. *)
Theorem C100_smallest_undefined : forall w fuel t b, sgn t = true -> 0 < bits t ->
  native_div w fuel {| vty := t; num := - 2 ^ (bits t - 1) |} b = None /\
  native_mod w fuel {| vty := t; num := - 2 ^ (bits t - 1) |} b = None.
Proof. exact smallest_undefined. Qed.
Print Assumptions C100_smallest_undefined.
Example C100_smallest_case :
  native_div 32 1 {| vty := {| sgn := true; bits := 32 |}; num := -2147483648 |} (Bi false [5]) = None.
Proof. vm_compute. reflexivity. Qed.

(** Unsigned dividend: the quotient modulo 2^d, hence never a negative number. *)
Theorem C100_unsigned_partial : forall w fuel a b, 0 < w -> (fuel <= 2)%nat ->
  fits a -> sgn (vty a) = false -> 32 <= bits (vty a) ->
  2 ^ bits (vty a) <= base w ^ Z.of_nat fuel -> icanon (base w) b ->
  native_div w fuel a b = Some {| vty := vty a; num := Z.quot (num a) (value w b) mod 2 ^ bits (vty a) |}.
Proof. exact div_unsigned_all. Qed.
Print Assumptions C100_unsigned_partial.
(** 7u / -2 is 4294967293. *)
Example C100_unsigned_case : fits {| vty := {| sgn := false; bits := 32 |}; num := 7 |} /\
  native_div 32 1 {| vty := {| sgn := false; bits := 32 |}; num := 7 |} (Bi true [2]) =
    Some {| vty := {| sgn := false; bits := 32 |}; num := 4294967293 |}.
Proof. vm_compute. repeat split; congruence. Qed.

(** Hence division is not division. *)
Theorem C100_div_refuted : exists a b r, fits a /\ icanon (base 32) b /\
  native_div 32 1 a b = Some r /\ num r <> Z.quot (num a) (value 32 b).
Proof.
  exists {| vty := {| sgn := true; bits := 32 |}; num := 7 |}, (Bi true [2]), {| vty := {| sgn := true; bits := 32 |}; num := 3 |}.
  split; [vm_compute; repeat split; congruence|]. split; [canon_c|].
  split; [vm_compute; reflexivity|vm_compute; discriminate].
Qed.
Print Assumptions C100_div_refuted.
