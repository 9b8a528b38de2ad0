(** Property theorems C48: the bit set. *)
From Verif Require Import Base UBig_Spec Bitset_Model Bitset_Proofs.
Local Open Scope Z_scope.

(** Reading, and changing one bit: exactly that bit changes. *)
Theorem C48_single_bit_exact : forall s i b, bytes s -> 0 <= i < nbits s ->
  bs_get s i = Some (bit s i) /\ updated s i b (bs_set s i b) /\
  updated s i (bit s i && b) (bs_and_bit s i b) /\ updated s i (bit s i || b) (bs_or_bit s i b) /\
  updated s i (xorb (bit s i) b) (bs_xor_bit s i b).
Proof.
  intros s i b Hs Hi. exact (conj (bs_get_spec Hs Hi) (conj (bs_set_spec b Hs Hi) (bs_bit_ops_spec b Hs Hi))).
Qed.
Print Assumptions C48_single_bit_exact.
Theorem C48_bulk_exact : forall s t, bytes s -> bytes t -> length s = length t ->
  bitwise s (bs_and s t) (fun i => bit s i && bit t i) /\
  bitwise s (bs_or s t) (fun i => bit s i || bit t i) /\
  bitwise s (bs_xor s t) (fun i => xorb (bit s i) (bit t i)) /\
  bitwise s (bs_not s) (fun i => negb (bit s i)).
Proof. exact bs_bulk_spec. Qed.
Print Assumptions C48_bulk_exact.
(** Conversions from and to [t]-bit native integers. *)
Theorem C48_conversion_exact : forall t n s, 0 <= t ->
  (0 <= n < 2 ^ t -> n < 256 ^ Z.of_nat (length s) -> bs_to t (bs_assign (length s) n) = n) /\
  (bytes s -> 256 ^ Z.of_nat (length s) <= 2 ^ t -> bs_assign (length s) (bs_to t s) = s) /\
  bs_to t s = val 256 s mod 2 ^ t.
Proof.
  intros t n s Ht. destruct (bs_round_trip n s Ht) as [H1 H2]. exact (conj H1 (conj H2 (bs_to_spec s Ht))).
Qed.
Print Assumptions C48_conversion_exact.
(** Missing: sizes that are not a multiple of 8 (false, see below). *)
Theorem C48_equality_partial : forall n s t, n mod 8 = 0 -> s <> [] -> bytes s -> bytes t -> length s = length t ->
  exists r, bs_eq n s t = Some r /\ (r = true <-> forall i, 0 <= i < nbits s -> bit s i = bit t i).
Proof.
  intros n s t Hn Hne Hs Ht L. destruct (@bs_eq_spec n s t Hn Hne L) as (r & E & H).
  exact (ex_intro _ r (conj E (iff_trans H (bits_eq Hs Ht L)))).
Qed.
Print Assumptions C48_equality_partial.
(** A 4-bit set: {0} equals the empty set; a padding bit left by the complement makes
    sets with the same four bits differ. *)
Theorem C48_equality_refuted :
  bs_eq 4 (bs_assign 1 1) (bs_assign 1 0) = Some true /\
  bit (bs_assign 1 1) 0 <> bit (bs_assign 1 0) 0 /\
  bs_eq 4 (bs_not (bs_assign 1 0)) (bs_assign 1 15) = Some false /\
  forall i, 0 <= i < 4 -> bit (bs_not (bs_assign 1 0)) i = bit (bs_assign 1 15) i.
Proof.
  split; [vm_compute; reflexivity|]. split; [vm_compute; discriminate|]. split; [vm_compute; reflexivity|].
  intros i Hi. assert (i = 0 \/ i = 1 \/ i = 2 \/ i = 3) as [->|[->|[->| ->]]] by lia; vm_compute; reflexivity.
Qed.
Print Assumptions C48_equality_refuted.
(** Missing: sets of more than one byte (false, see below). *)
Theorem C48_shift_partial : forall b n, 0 <= b < 256 -> 0 <= n < 16 ->
  bs_shl [b] n = Some [(b * 2 ^ n) mod 256] /\ bs_shr [b] n = Some [b / 2 ^ n].
Proof. exact shift_one. Qed.
Print Assumptions C48_shift_partial.
(** 16 bits: 0x80 << 1 is 0, 1 << 8 is 0, 0x100 >> 1 and 0x100 >> 8 are
    0; shifting 8 bits by 16 writes out of bounds. *)
Theorem C48_shift_refuted :
  bs_shl [128; 0] 1 = Some [0; 0] /\ bs_shl [1; 0] 8 = Some [0; 0] /\
  bs_shr [0; 1] 1 = Some [0; 0] /\ bs_shr [0; 1] 8 = Some [0; 0] /\ bs_shl [1] 16 = None.
Proof. repeat split; vm_compute; reflexivity. Qed.
Print Assumptions C48_shift_refuted.
(** What the shifts do on any set: bits leaving a byte go into the byte on the wrong
    side; whole bytes are cleared but the others do not move. *)
Theorem C48_shift_bits_wrong : forall s n, bytes s -> 0 <= n < 8 ->
  (exists r, bs_shl s n = Some r /\ length r = length s /\ forall i, (i < length s)%nat ->
     nth i r 0 = (nth i s 0 * 2 ^ n) mod 256 + nth (S i) s 0 / 2 ^ (8 - n)) /\
  (exists r, bs_shr s n = Some r /\ length r = length s /\ forall i, (i < length s)%nat ->
     nth i r 0 = nth i s 0 / 2 ^ n + (nth i (0 :: s) 0 * 2 ^ (8 - n)) mod 256).
Proof. exact shift_bits. Qed.
Print Assumptions C48_shift_bits_wrong.
Theorem C48_shift_bytes_wrong : forall s k, bytes s -> (k <= length s)%nat ->
  bs_shl s (8 * Z.of_nat k) = Some (repeat 0 k ++ skipn k s) /\
  bs_shr s (8 * Z.of_nat k) = Some (firstn (length s - k) s ++ repeat 0 k).
Proof. exact shift_bytes. Qed.
Print Assumptions C48_shift_bytes_wrong.
(** The bytes reserved hold every bit, and no byte is superfluous. *)
Theorem C48_storage : forall n i, 0 <= i < n -> i / 8 < bs_size n /\ 8 * bs_size n < n + 8.
Proof. exact storage. Qed.
Print Assumptions C48_storage.
(** A range-for over a bit set never reaches the end, whose index is -1. *)
Theorem C48_iteration_refuted : forall f s, bs_walk f s 0 = None.
Proof. intros f s. exact (@bs_walk_none f s 0 ltac:(lia)). Qed.
Print Assumptions C48_iteration_refuted.
Example C48_case : bytes [0; 128; 7] /\ nbits [0; 128; 7] = 24 /\ bs_get [0; 128; 7] 15 = Some true /\
  bs_set [0; 128; 7] 17 false = Some [0; 128; 5] /\ bs_xor_bit [0; 128; 7] 0 true = Some [1; 128; 7] /\
  bs_and [0; 128; 7] [1; 192; 2] = [0; 128; 2] /\ bs_not [0; 128; 7] = [255; 127; 248] /\
  bs_to 32 [0; 128; 7] = 491520 /\ bs_assign 3 491520 = [0; 128; 7] /\
  bs_eq 24 [0; 128; 7] [0; 128; 7] = Some true /\ bs_eq 24 [0; 128; 7] [0; 128; 6] = Some false.
Proof.
  split; [repeat constructor; lia|]. repeat split; vm_compute; reflexivity.
Qed.
