(** C66: number literals mean what the same literal means in C++. *)
From Verif Require Import Base Lit_Model Lit_Spec Lit_Proofs.
From Coq Require Import Ascii String QArith.
Local Open Scope Z_scope.

(** With a 64-bit size_t every integer literal has the value C++ gives it, however
    long it is. *)
Theorem C66_integer_literals cs b ds : integer_literal cs b ds ->
  ubigint_literal 64 cs = Some (digits_value b ds).
Proof. exact (@ubigint_literal_64 cs b ds). Qed.
Print Assumptions C66_integer_literals.

Theorem C66_signed_integer_literals cs b ds : integer_literal cs b ds ->
  bigint_literal 64 cs = Some (digits_value b ds).
Proof. exact (@bigint_literal_64 cs b ds). Qed.
Print Assumptions C66_signed_integer_literals.

(** Nothing but an integer literal is accepted. *)
Theorem C66_only_integer_literals cs v : cs <> [] -> ubigint_literal 64 cs = Some v ->
  exists b ds, integer_literal cs b ds /\ v = digits_value b ds.
Proof. exact (@ubigint_literal_only_64 cs v). Qed.
Print Assumptions C66_only_integer_literals.

(** With a 32-bit size_t literals that are not decimal have their value too ... *)
Theorem C66_integer_literals_32_partial cs b ds : integer_literal cs b ds -> b <> 10 ->
  ubigint_literal 32 cs = Some (digits_value b ds).
Proof. exact (@ubigint_literal_32 cs b ds). Qed.
Print Assumptions C66_integer_literals_32_partial.

(** ... but long decimal ones do not: 9999999999 is a different number. *)
Theorem C66_integer_literals_32_refuted : exists cs ds, integer_literal cs 10 ds /\ digits_value 10 ds = 9999999999 /\
  exists v, ubigint_literal 32 cs = Some v /\ v <> 9999999999.
Proof. exact ubigint_literal_32_dec. Qed.
Print Assumptions C66_integer_literals_32_refuted.

Example C66_integer_case :
  ubigint_literal 64 (list_ascii_of_string "123'456'789'012'345'678'901'234'567'890") = Some 123456789012345678901234567890
  /\ ubigint_literal 64 (list_ascii_of_string "0xFFFF'ffff'FFFF'ffff'FFFF'ffff") = Some (2 ^ 96 - 1)
  /\ ubigint_literal 64 (list_ascii_of_string "0b1011") = Some 11
  /\ ubigint_literal 64 (list_ascii_of_string "0755") = Some 493
  /\ ubigint_literal 64 (list_ascii_of_string "0") = Some 0
  /\ ubigint_literal 64 (list_ascii_of_string "0789") = None.
Proof. vm_compute. repeat split. Qed.
Example C66_integer_literal_case : integer_literal (list_ascii_of_string "0x1'F") 16 [1; 15].
Proof.
  apply il_hex; [left; reflexivity|]. apply ds_digit; [split; [lia|left; reflexivity]|].
  apply ds_sep. apply ds_digit; [split; [lia|right; reflexivity]|]. constructor.
Qed.

(** The 128-bit literals are taken modulo the range of their type. *)
Theorem C66_native_literals n cs b ds : 0 <= n -> integer_literal cs b ds ->
  native_literal n cs = Some (digits_value b ds mod 2 ^ n).
Proof. exact (@native_literal_spec n cs b ds). Qed.
Print Assumptions C66_native_literals.
Example C66_native_case :
  native_literal 128 (list_ascii_of_string "340282366920938463463374607431768211455") = Some (2 ^ 128 - 1)
  /\ native_literal 128 (list_ascii_of_string "0x1'0000'0000'0000'0000") = Some (2 ^ 64).
Proof. vm_compute. split; reflexivity. Qed.

(** A decimal literal with a point has the exact value it denotes, ... *)
Theorem C66_decimal_literals cs is fs ids fds :
  float_parts "e" "E" cs is fs None -> digit_seq 10 is ids -> digit_seq 10 fs fds ->
  exists q, ubigfloat_literal 64 cs = Some q /\ (q == float_value 10 10 ids fds 0)%Q.
Proof. exact (@decimal_literal_no_exp cs is fs ids fds). Qed.
Print Assumptions C66_decimal_literals.

(** ... and so has one with an exponent that has no plus sign and no leading zero. *)
Theorem C66_decimal_exponents_partial cs is fs es ids fds neg eds :
  float_parts "e" "E" cs is fs (Some es) -> digit_seq 10 is ids -> digit_seq 10 fs fds ->
  exponent_part es neg eds -> no_leading_zero es ->
  exists q, ubigfloat_literal 64 cs = Some q /\ (q == float_value 10 10 ids fds (exponent_value neg eds))%Q.
Proof. exact (@decimal_literal_spec cs is fs es ids fds neg eds). Qed.
Print Assumptions C66_decimal_exponents_partial.

Example C66_decimal_case :
  exists q, ubigfloat_literal 64 (list_ascii_of_string "12.5e-3") = Some q /\ (q == 125 # 10000)%Q.
Proof. eexists. split; [vm_compute; reflexivity|]. vm_compute. reflexivity. Qed.
Example C66_decimal_parts_case :
  float_parts "e" "E" (list_ascii_of_string "12.5e-3") (list_ascii_of_string "12") (list_ascii_of_string "5")
    (Some (list_ascii_of_string "-3"))
  /\ exponent_part (list_ascii_of_string "-3") true [3] /\ no_leading_zero (list_ascii_of_string "-3")
  /\ (float_value 10 10 [1; 2]%Z [5]%Z (exponent_value true [3]%Z) == 125 # 10000)%Q.
Proof.
  split; [|split; [|split]].
  - apply (@fp_frac_exp "e" "E" (list_ascii_of_string "12") (list_ascii_of_string "5") "e" (list_ascii_of_string "-3")).
    left. reflexivity.
  - apply ep_neg. apply ds_digit; [split; [lia|left; reflexivity]|constructor].
  - right. do 2 eexists. split; [reflexivity|discriminate].
  - vm_compute. reflexivity.
Qed.

(** An exponent with a leading zero is taken for an octal number: whenever it is 10
    or more the value is wrong, ... *)
Theorem C66_leading_zero_exponent_wrong cs is fs es ids fds neg eds t ods :
  float_parts "e" "E" cs is fs (Some es) -> digit_seq 10 is ids -> digit_seq 10 fs fds ->
  exponent_part es neg eds -> exp_digits es = "0"%char :: t -> digit_seq 8 t ods ->
  10 <= digits_value 10 eds -> digits_value 10 (ids ++ fds) <> 0 ->
  exists q, ubigfloat_literal 64 cs = Some q /\ ~ (q == float_value 10 10 ids fds (exponent_value neg eds))%Q.
Proof. exact (@octal_exponent_wrong cs is fs es ids fds neg eds t ods). Qed.
Print Assumptions C66_leading_zero_exponent_wrong.

(** ... and the literal is refused if it has a digit 8 or 9. *)
Theorem C66_leading_zero_exponent_refused cs is fs es ids fds neg eds t :
  float_parts "e" "E" cs is fs (Some es) -> digit_seq 10 is ids -> digit_seq 10 fs fds ->
  exponent_part es neg eds -> exp_digits es = "0"%char :: t -> (forall ods, ~ digit_seq 8 t ods) ->
  ubigfloat_literal 64 cs = None.
Proof. exact (@octal_exponent_refused cs is fs es ids fds neg eds t). Qed.
Print Assumptions C66_leading_zero_exponent_refused.

(** A plus sign in the exponent is refused. *)
Theorem C66_plus_sign_refused cs is fs t ids fds : float_parts "e" "E" cs is fs (Some ("+"%char :: t)) ->
  digit_seq 10 is ids -> digit_seq 10 fs fds -> ubigfloat_literal 64 cs = None.
Proof. exact (@plus_refused cs is fs t ids fds). Qed.
Print Assumptions C66_plus_sign_refused.

(** A hexadecimal literal with an exponent other than zero is wrong: the exponent is
    read in base 16 and taken to the base 16. *)
Theorem C66_hexadecimal_exponent_wrong x cs is fs es ids fds neg eds : x = "x"%char \/ x = "X"%char ->
  float_parts "p" "P" cs is fs (Some es) -> digit_seq 16 is ids -> digit_seq 16 fs fds ->
  exponent_part es neg eds -> no_leading_zero es ->
  digits_value 10 eds <> 0 -> digits_value 16 (ids ++ fds) <> 0 ->
  exists q, ubigfloat_literal 64 ("0"%char :: x :: cs) = Some q /\
    ~ (q == float_value 16 2 ids fds (exponent_value neg eds))%Q.
Proof. exact (@hex_exponent_wrong x cs is fs es ids fds neg eds). Qed.
Print Assumptions C66_hexadecimal_exponent_wrong.

(** With the exponent zero it is right. *)
Theorem C66_hexadecimal_zero_exponent x cs is fs es ids fds neg eds : x = "x"%char \/ x = "X"%char ->
  float_parts "p" "P" cs is fs (Some es) -> digit_seq 16 is ids -> digit_seq 16 fs fds ->
  exponent_part es neg eds -> no_leading_zero es -> digits_value 16 eds = 0 ->
  exists q, ubigfloat_literal 64 ("0"%char :: x :: cs) = Some q /\ (q == float_value 16 2 ids fds 0)%Q.
Proof. exact (@hex_exponent_zero x cs is fs es ids fds neg eds). Qed.
Print Assumptions C66_hexadecimal_zero_exponent.

Example C66_exponent_case :
  ubigfloat_literal 64 (list_ascii_of_string "1e010") = Some (inject_Z (10 ^ 8))
  /\ ubigfloat_literal 64 (list_ascii_of_string "1e08") = None
  /\ ubigfloat_literal 64 (list_ascii_of_string "1e+8") = None
  /\ ubigfloat_literal 64 (list_ascii_of_string "0x1p10") = Some (inject_Z (16 ^ 16))
  /\ (float_value 16 2 [1]%Z [] (exponent_value false [1; 0]%Z) == 1024)%Q
  /\ exists q, ubigfloat_literal 64 (list_ascii_of_string "0x1.8p0") = Some q /\ (q == 3 # 2)%Q.
Proof.
  split; [vm_compute; reflexivity|]. split; [vm_compute; reflexivity|]. split; [vm_compute; reflexivity|].
  split; [vm_compute; reflexivity|]. split; [vm_compute; reflexivity|].
  eexists. split; [vm_compute; reflexivity|]. vm_compute. reflexivity.
Qed.
