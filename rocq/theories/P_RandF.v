(** C102: random floating-point numbers. *)
From Coq Require Import QArith Qminmax.
From Verif Require Import Base Float_Spec RandF_Model RandF_Spec RandF_Proofs.
Local Open Scope Z_scope.

(** [0,1) for double: below 1 for every word of the generator. *)
Theorem C102_unit_double : forall u, 0 <= u < 2 ^ 64 ->
  (0 <= unit_exclusive binary64 u)%Q /\ (unit_exclusive binary64 u < 1)%Q.
Proof. exact unit_double. Qed.
Print Assumptions C102_unit_double.
(** The greatest word gives the greatest result, below 1; half of the range is not
    exactly one half because the divisor is not exactly 2^64. *)
Example C102_unit_double_case :
  Qeq_bool (unit_exclusive binary64 (2 ^ 64 - 1)) (1 - (22 # 2 ^ 50)) = true /\
  Qeq_bool (unit_exclusive binary64 (2 ^ 63)) (1 # 2) = false.
Proof. vm_compute. split; reflexivity. Qed.

(** [0,1) for float: from 0 to 1, and 1 for exactly the 128 greatest of the 2^32 words. *)
Theorem C102_unit_float_partial : forall u, 0 <= u < 2 ^ 32 ->
  (0 <= unit_exclusive binary32 u)%Q /\ (unit_exclusive binary32 u <= 1)%Q /\
  ((unit_exclusive binary32 u == 1)%Q <-> 2 ^ 32 - 128 <= u).
Proof. exact unit_float. Qed.
Print Assumptions C102_unit_float_partial.
Theorem C102_unit_float_refuted : exists u, 0 <= u < 2 ^ 32 /\ (unit_exclusive binary32 u == 1)%Q.
Proof. exists (2 ^ 32 - 1). vm_compute. repeat split; congruence. Qed.
Print Assumptions C102_unit_float_refuted.
Example C102_unit_float_case : Qeq_bool (unit_exclusive binary32 (2 ^ 31)) (1 # 2) = true /\
  Qeq_bool (unit_exclusive binary32 (2 ^ 32 - 129)) (1 - (1 # 2 ^ 24)) = true.
Proof. vm_compute. split; reflexivity. Qed.

(** [0,1]: from 0 to 1 whatever the words are; it ends with the first word that is even
    or 1. *)
Theorem C102_unit_inclusive : forall f raw, In f [binary32; binary64] ->
  (forall i, 0 <= raw i < 2 ^ all_bits f) ->
  (forall n x, unit_inclusive f raw n 0 = Some x -> (0 <= x <= 1)%Q) /\
  (forall k, Z.odd (raw k) = false \/ raw k = 1 -> unit_inclusive f raw (S k) 0 <> None).
Proof. exact unit_inclusive_spec. Qed.
Print Assumptions C102_unit_inclusive.
(** Words 3, 5, 1: 1 at the third; words 3, 2^31: one half at the second. *)
Example C102_unit_inclusive_case :
  unit_inclusive binary32 (fun i => nth i [3; 5; 1] 0) 3 0 = Some 1%Q /\
  option_map (fun x => Qeq_bool x (1 # 2)) (unit_inclusive binary32 (fun i => nth i [3; 2 ^ 31] 0) 2 0) = Some true.
Proof. vm_compute. split; reflexivity. Qed.
(** It does not end as long as the words are odd and not 1. *)
Theorem C102_unit_inclusive_diverges : forall f raw, (forall i, Z.odd (raw i) = true /\ 1 < raw i) ->
  forall n i, unit_inclusive f raw n i = None.
Proof. exact unit_inclusive_runs. Qed.
Print Assumptions C102_unit_inclusive_diverges.
Example C102_unit_inclusive_diverges_case : let raw := fun i => 2 * Z.of_nat i + 3 in
  (Z.odd (raw 5%nat) = true /\ 1 < raw 5%nat) /\ unit_inclusive binary64 raw 10 0 = None.
Proof. vm_compute. repeat split; reflexivity. Qed.

(** between(a,b): if the difference of the bounds is a number of the type, every result
    is a number from the lower to the upper bound, whatever the order of the bounds. *)
Theorem C102_between_partial : forall f a b, In f [binary32; binary64] -> number f a -> number f b ->
  number f (Qmax b a - Qmin b a) ->
  (forall u, 0 <= u < 2 ^ all_bits f -> exists y, between_exclusive f a b u = Fin y /\ number f y /\
    (Qmin b a <= y)%Q /\ (y <= Qmax b a)%Q) /\
  (forall raw n r, (forall i, 0 <= raw i < 2 ^ all_bits f) -> between_inclusive f raw a b n = Some r ->
    exists y, r = Fin y /\ number f y /\ (Qmin b a <= y)%Q /\ (y <= Qmax b a)%Q).
Proof. exact between_spec. Qed.
Print Assumptions C102_between_partial.
(** 5 and -1, difference 6: a word in the middle gives 2. *)
Example C102_between_case : number binary32 (5 # 1) /\ number binary32 (-1 # 1) /\
  match between_exclusive binary32 (5 # 1) (-1 # 1) (2 ^ 31) with Fin y => Qeq_bool y (2 # 1) | _ => false end = true.
Proof.
  split; [exists 0x40A00000; split; [vm_compute; split; congruence|left; vm_compute; reflexivity]|].
  split; [exists 0x3F800000; split; [vm_compute; split; congruence|right; vm_compute; reflexivity]|].
  vm_compute. reflexivity.
Qed.

(** Without that: a result above both bounds. *)
Theorem C102_above_refuted : exists a b u, number binary32 a /\ number binary32 b /\ 0 <= u < 2 ^ 32 /\
  exists y, between_exclusive binary32 a b u = Fin y /\ (a < y)%Q /\ (b < y)%Q.
Proof.
  exists (-16777215 # 1)%Q, (3 # 4)%Q, (2 ^ 32 - 1).
  split; [exists 0x4B7FFFFF; split; [vm_compute; split; congruence|right; vm_compute; reflexivity]|].
  split; [exists 0x3F400000; split; [vm_compute; split; congruence|left; vm_compute; reflexivity]|].
  split; [vm_compute; split; congruence|]. eexists. split; [vm_compute; reflexivity|]. split; reflexivity.
Qed.
Print Assumptions C102_above_refuted.
(** The upper bound itself is a result of the exclusive range, for double too. *)
Theorem C102_bound_refuted : exists a b u, number binary64 a /\ number binary64 b /\ 0 <= u < 2 ^ 64 /\ (a < b)%Q /\
  exists y, between_exclusive binary64 a b u = Fin y /\ (y == b)%Q.
Proof.
  exists 1%Q, (1 + (1 # 2 ^ 52))%Q, (3 * 2 ^ 62).
  split; [exists 0x3FF0000000000000; split; [vm_compute; split; congruence|left; vm_compute; reflexivity]|].
  split; [exists 0x3FF0000000000001; split; [vm_compute; split; congruence|left; vm_compute; reflexivity]|].
  split; [vm_compute; split; congruence|]. split; [reflexivity|].
  eexists. split; [vm_compute; reflexivity|]. vm_compute. reflexivity.
Qed.
Print Assumptions C102_bound_refuted.

(** The whole range of the type: no result is a finite number. *)
Theorem C102_whole_range_wrong : forall f, In f [binary32; binary64] ->
  (forall u, uniform_exclusive f u = Inf false \/ uniform_exclusive f u = Inf true \/ uniform_exclusive f u = Nan) /\
  (forall raw n r, uniform_inclusive f raw n = Some r -> r = Inf false \/ r = Inf true \/ r = Nan).
Proof. exact uniform_wrong. Qed.
Print Assumptions C102_whole_range_wrong.
Example C102_whole_range_case : uniform_exclusive binary32 0 = Nan /\ uniform_exclusive binary32 7 = Inf false.
Proof. vm_compute. split; reflexivity. Qed.
