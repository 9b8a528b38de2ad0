(** Property theorems C20-C22, C51: word rotations, bit counts, sequence hash. *)
From Verif Require Import Base Bits_Model Bits_Spec Bits_Proofs.
Local Open Scope Z_scope.

(** ** C20 *)
(** Every amount, of either sign and any size, rotates as specified. *)
Theorem C20_rotations_exact : forall d v r, 0 < d -> word d v ->
  rotated_left d v r (rotl d v r) /\ rotated_left d v (- r) (rotr d v r).
Proof. intros d v r Hd Hv. exact (conj (rotl_spec r Hd Hv) (rotr_spec r Hd Hv)). Qed.
Print Assumptions C20_rotations_exact.
Theorem C20_rotations_group : forall d v r s, 0 < d -> word d v ->
  rotr d (rotl d v r) r = v /\ rotl d (rotr d v r) r = v /\ rotl d (rotl d v r) s = rotl d v (r + s).
Proof.
  intros d v r s Hd Hv.
  exact (conj (rotr_rotl r Hd Hv) (conj (rotl_rotr r Hd Hv) (rotl_add r s Hd Hv))).
Qed.
Print Assumptions C20_rotations_group.
(** Stepping the rotation iterator is adding or subtracting one modulo the width. *)
Theorem C20_rot_iterator : forall d n, 0 < d ->
  rot_inc d (rot_it d n) = rot_it d (n + 1) /\ rot_dec d (rot_it d n) = rot_it d (n - 1).
Proof. exact rot_it_step. Qed.
Print Assumptions C20_rot_iterator.
(** Widths are [lvl_bits k] = 8, 16, 32, 64, 128, ... bits. *)
Theorem C20_bit_counts_exact : forall k v, word (lvl_bits k) v ->
  get_bitnum k v = Some (if v =? 0 then 0 else Z.log2 v + 1) /\
  (exists n, countl_zero k v = Some n /\ high_run (lvl_bits k) v false n) /\
  (exists n, countl_one k v = Some n /\ high_run (lvl_bits k) v true n) /\
  (exists n, countr_zero k v = Some n /\ low_run (lvl_bits k) v false n) /\
  (exists n, countr_one k v = Some n /\ low_run (lvl_bits k) v true n).
Proof.
  intros k v Hv.
  exact (conj (get_bitnum_spec Hv) (conj (countl_zero_spec Hv) (conj (countl_one_spec Hv)
        (conj (countr_zero_spec Hv) (countr_one_spec Hv))))).
Qed.
Print Assumptions C20_bit_counts_exact.
Example C20_case : word 16 0x8001 /\ rotl 16 0x8001 1 = 3 /\ rotl 16 0x8001 (-15) = 3 /\ rotr 16 0x8001 1 = 0xC000 /\
  rotl 16 0x8001 16 = 0x8001 /\ rotl 16 0x8001 1601 = 3 /\ rot_inc 16 (rot_it 16 15) = 0 /\
  word (lvl_bits 1) 0x00F0 /\ get_bitnum 1 0x00F0 = Some 8 /\ countl_zero 1 0x00F0 = Some 8 /\
  countr_zero 1 0x00F0 = Some 4 /\ countl_one 1 0xFFF0 = Some 12 /\ countr_one 1 0x0FFF = Some 12.
Proof. unfold word. vm_compute. repeat split; discriminate. Qed.

(** ** C21 *)
(** [is_seq_hash] is the bit-level definition; word sizes are those dividing
    2^width (8, 16, 32, 64, ...). *)
Theorem C21_hash_exact : forall d hs, 0 < d -> (d | 2 ^ d) -> Forall (word d) hs ->
  is_seq_hash d hs (hash_seq d hs).
Proof. exact hash_seq_spec. Qed.
Print Assumptions C21_hash_exact.
Theorem C21_hash_compositional : forall d a b, 0 < d -> (d | 2 ^ d) -> Forall (word d) a -> Forall (word d) b ->
  merge_hash d (hash_seq d a) (Z.of_nat (length a)) (hash_seq d b) = hash_seq d (a ++ b) /\
  with_calculated_before d (hash_seq d a) (Z.of_nat (length a)) b = hash_seq d (a ++ b).
Proof. exact hash_compositional. Qed.
Print Assumptions C21_hash_compositional.
Example C21_case : (64 | 2 ^ 64) /\ Forall (word 64) [97; 98; 99; 2 ^ 63] /\
  hash_seq 64 [97; 98; 99] = Z.lxor (97 * 2) (Z.lxor (98 * 4) (99 * 8)) /\
  merge_hash 64 (hash_seq 64 [97; 98]) 2 (hash_seq 64 [99; 2 ^ 63]) = hash_seq 64 [97; 98; 99; 2 ^ 63].
Proof.
  split; [exists (2 ^ 58); reflexivity|]. split; [|split; vm_compute; reflexivity].
  unfold word. repeat constructor; vm_compute; try discriminate; reflexivity.
Qed.

(** ** C22 *)
Theorem C22_repeat_hash : forall d v n, 0 < d -> (d | 2 ^ d) -> word d v ->
  repeat_times d v (Z.of_nat n) = hash_seq d (repeat v n).
Proof. exact repeat_times_nat. Qed.
Print Assumptions C22_repeat_hash.
Example C22_case : (8 | 2 ^ 8) /\ word 8 0x35 /\ repeat_times 8 0x35 11 = hash_seq 8 (repeat 0x35 11) /\
  repeat_times 8 0x35 11 = 23 /\ repeat_times 8 0x37 8 = 255.
Proof. split; [exists (2 ^ 5); reflexivity|]. unfold word. vm_compute. repeat split; discriminate. Qed.

(** ** C51.  The all-ones query is right; the all-zeros query answers the opposite
    for every value. *)
Theorem C51_all_one_partial : forall d v, 0 <= d -> word d v ->
  (all_bit_is_one d v = true <-> forall i, 0 <= i < d -> Z.testbit v i = true).
Proof. exact all_bit_is_one_spec. Qed.
Print Assumptions C51_all_one_partial.
Theorem C51_all_zero_inverted : forall d v, 0 <= d -> word d v ->
  (all_bit_is_zero v = false <-> forall i, 0 <= i < d -> Z.testbit v i = false).
Proof. exact all_bit_is_zero_inverted. Qed.
Print Assumptions C51_all_zero_inverted.
Theorem C51_all_zero_refuted : exists v, word 32 v /\ (forall i, 0 <= i < 32 -> Z.testbit v i = false) /\
  all_bit_is_zero v = false.
Proof. exists 0. split; [split; [discriminate|reflexivity]|]. split; [intros; apply Z.bits_0|reflexivity]. Qed.
Print Assumptions C51_all_zero_refuted.
Example C51_case : word 8 255 /\ all_bit_is_one 8 255 = true /\ all_bit_is_one 8 254 = false /\ all_bit_is_zero 5 = true.
Proof. unfold word. vm_compute. repeat split; discriminate. Qed.
