(** Model of H/base_defs/bit.hpp (rotations, bit counts) and of the sequence
    hash of H/base_defs/hash.hpp.  A word of [d] bits is an integer in
    [0, 2^d). *)
From Verif Require Import Base.
Local Open Scope Z_scope.

(** bit.hpp:43 [rot_base(<<,>>)] for [0 < r < d]. *)
Definition rotl_base (d v r : Z) : Z :=
  Z.lor (Z.shiftl v r mod 2 ^ d) (Z.shiftr v (d - r)).
(** bit.hpp:43 [rot_base(>>,<<)] for [0 < r < d]. *)
Definition rotr_base (d v r : Z) : Z :=
  Z.lor (Z.shiftr v r) (Z.shiftl v (d - r) mod 2 ^ d).
(** bit.hpp:67-83 [rotl_nomod]: a zero amount is the identity, a negative amount
    (signed argument types only) rotates the other way.  Amounts of [d] or more
    would shift by a negative count; no caller passes one. *)
Definition rotl_nomod (d v r : Z) : Z :=
  if 0 <? r then rotl_base d v r else if r =? 0 then v else rotr_base d v (0 - r).
(** bit.hpp:47-63 [rotr_nomod]. *)
Definition rotr_nomod (d v r : Z) : Z :=
  if 0 <? r then rotr_base d v r else if r =? 0 then v else rotl_base d v (0 - r).
(** bit.hpp:96-100 [rotl]: [mod] is C++ [%] (math.hpp:124-129), i.e. truncating. *)
Definition rotl (d v r : Z) : Z := rotl_nomod d v (Z.rem r d).
(** bit.hpp:88-92 [rotr]. *)
Definition rotr (d v r : Z) : Z := rotr_nomod d v (Z.rem r d).

(** bit.hpp:106 [rot_iterator(offset)]. *)
Definition rot_it (d off : Z) : Z := off mod d.
(** bit.hpp:107-112 [operator++]. *)
Definition rot_inc (d off : Z) : Z := if off + 1 =? d then 0 else off + 1.
(** bit.hpp:113-118 [operator--]. *)
Definition rot_dec (d off : Z) : Z := (if off =? 0 then d else off) - 1.

(** Width in bytes of the type at recursion level [k] (1, 2, 4, 8, ... bytes):
    the functions below halve the type until it is one byte. *)
Definition lvl_bits (k : nat) : Z := 8 * 2 ^ Z.of_nat k.

(** bit.hpp:171: byte case of [get_bitnum]; [fuel] bounds the recursion, a byte
    needs at most 8 steps (9 calls). *)
Fixpoint bitnum_byte (fuel : nat) (v : Z) : option Z :=
  if v =? 0 then Some 0
  else match fuel with
       | O => None
       | S f => option_map (fun x => x + 1) (bitnum_byte f (v / 2))
       end.
(** bit.hpp:159-172 [get_bitnum]. *)
Fixpoint get_bitnum (k : nat) (v : Z) : option Z :=
  match k with
  | O => bitnum_byte 8 v
  | S k' =>
      let h := lvl_bits k' in
      let high := (Z.shiftr v h) mod 2 ^ h in
      if high =? 0 then get_bitnum k' (v mod 2 ^ h)
      else option_map (fun x => h + x) (get_bitnum k' high)
  end.
(** bit.hpp:180-193 [countl_zero]. *)
Fixpoint countl_zero (k : nat) (v : Z) : option Z :=
  match k with
  | O => option_map (fun x => 8 - x) (bitnum_byte 8 v)
  | S k' =>
      let h := lvl_bits k' in
      let high := (Z.shiftr v h) mod 2 ^ h in
      if high =? 0 then option_map (fun x => h + x) (countl_zero k' (v mod 2 ^ h))
      else countl_zero k' high
  end.
(** bit.hpp:208: byte case of [countr_one]. *)
Fixpoint cro_byte (fuel : nat) (v : Z) : option Z :=
  if Z.land v 1 =? 0 then Some 0
  else match fuel with
       | O => None
       | S f => option_map (fun x => x + 1) (cro_byte f (v / 2))
       end.
(** bit.hpp:196-209 [countr_one]. *)
Fixpoint countr_one (k : nat) (v : Z) : option Z :=
  match k with
  | O => cro_byte 8 v
  | S k' =>
      let h := lvl_bits k' in
      let low := v mod 2 ^ h in
      if low =? 2 ^ h - 1
      then option_map (fun x => h + x) (countr_one k' (Z.shiftr v h mod 2 ^ h))
      else countr_one k' low
  end.
(** bit.hpp:225-226: byte case of [countl_one]. *)
Fixpoint clo_byte (fuel : nat) (v : Z) : option Z :=
  if Z.land v 128 =? 0 then Some 0
  else match fuel with
       | O => None
       | S f => option_map (fun x => x + 1) (clo_byte f (Z.shiftl v 1 mod 256))
       end.
(** bit.hpp:212-228 [countl_one]. *)
Fixpoint countl_one (k : nat) (v : Z) : option Z :=
  match k with
  | O => clo_byte 8 v
  | S k' =>
      let h := lvl_bits k' in
      let high := (Z.shiftr v h) mod 2 ^ h in
      if high =? 2 ^ h - 1
      then option_map (fun x => h + x) (countl_one k' (v mod 2 ^ h))
      else countl_one k' high
  end.
(** bit.hpp:231-244 [countr_zero]; byte case is [countr_one] of the complement. *)
Fixpoint countr_zero (k : nat) (v : Z) : option Z :=
  match k with
  | O => cro_byte 8 (255 - v)
  | S k' =>
      let h := lvl_bits k' in
      let low := v mod 2 ^ h in
      if low =? 0
      then option_map (fun x => h + x) (countr_zero k' (Z.shiftr v h mod 2 ^ h))
      else countr_zero k' low
  end.
(** bit.hpp:247-249 [all_bit_is_one]. *)
Definition all_bit_is_one (d v : Z) : bool := v =? 2 ^ d - 1.
(** bit.hpp:252-254 [all_bit_is_zero]: returns [v] converted to [bool]. *)
Definition all_bit_is_zero (v : Z) : bool := negb (v =? 0).

(** ** hash.hpp *)

(** hash.hpp:182-185: the loop of [with_calculated_before], [size] elements
    left; [off] is the rotation iterator, [hs] the element hashes. *)
Fixpoint wcb_loop (d : Z) (hs : list Z) (size : nat) (off acc : Z) : Z :=
  match size with
  | O => acc
  | S s => wcb_loop d hs s (rot_dec d off) (Z.lxor acc (rotl_nomod d (nth s hs 0) off))
  end.
(** hash.hpp:179-187 [with_calculated_before]; [d] is also the width of
    [size_t], in which [before_size+size] wraps. *)
Definition with_calculated_before (d before before_size : Z) (hs : list Z) : Z :=
  wcb_loop d hs (length hs)
    (rot_it d ((before_size + Z.of_nat (length hs)) mod 2 ^ d)) before.
(** hash.hpp:247-249 [hash(const T*,size_t)]; [hash(nothing)] is 0 (118-120). *)
Definition hash_seq (d : Z) (hs : list Z) : Z := with_calculated_before d 0 0 hs.
(** hash.hpp:260-264 [merge_array_hash_results]. *)
Definition merge_hash (d before before_size after : Z) : Z :=
  Z.lxor before (rotl d after before_size).
(** [std::popcount], trusted: number of set bits. *)
Fixpoint popcount (f : nat) (v : Z) : Z :=
  match f with
  | O => 0
  | S f' => b2z (Z.odd v) + popcount f' (v / 2)
  end.
(** hash.hpp:220-223: loop of [repeat_times]. *)
Fixpoint rep_loop (d value : Z) (size : nat) (off acc : Z) : Z :=
  match size with
  | O => acc
  | S s => rep_loop d value s (rot_dec d off) (Z.lxor acc (rotl_nomod d value off))
  end.
(** hash.hpp:196-225 [repeat_times]. *)
Definition repeat_times (d value size : Z) : Z :=
  let size := size mod (d * 2) in
  if (value =? 0) || (size =? 0) then 0
  else
    let '(aret, size) :=
      if d <=? size
      then ((if popcount (Z.to_nat d) value mod 2 =? 0 then 0 else 2 ^ d - 1), size - d)
      else (0, size) in
    if size =? 0 then aret
    else rep_loop d value (Z.to_nat size) (rot_it d size) aret.
