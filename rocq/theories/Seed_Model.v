(** Model of the random generator of H/random/defs.hpp: its state, drawing words and
    filling objects.  [seed_type] is [uint64_t] (S/default_data_type.hpp:40). *)
From Verif Require Import Base Bits_Model Rand_Model.
Local Open Scope Z_scope.
Local Open Scope omonad_scope.

(** random/defs.hpp:117-123: current and original seed, and the entropy table of
    256 words of 8 bytes, as bytes. *)
Record gen : Type := Gen { g_seed : Z; g_origin : Z; g_table : list Z }.
(** random/defs.hpp:121-122 [pow(2,8)*sizeof(seed_type)]. *)
Definition table_bytes : nat := 256 * 8.

(** Little-endian bytes of a word of [n] bytes, and back: the representation
    [data_ptr_cast] and [data_cast] expose on the supported machines. *)
Fixpoint to_bytes (n : nat) (x : Z) : list Z :=
  match n with O => [] | S n' => x mod 256 :: to_bytes n' (x / 256) end.
Fixpoint of_bytes (l : list Z) : Z :=
  match l with [] => 0 | b :: r => b + 256 * of_bytes r end.
(** Reading and writing [n] bytes at [off]; outside the array is undefined ([None]). *)
Definition load {A : Type} (l : list A) (off n : nat) : option (list A) :=
  if (off + n <=? length l)%nat then Some (firstn n (skipn off l)) else None.
Definition store {A : Type} (l : list A) (off : nat) (bs : list A) : option (list A) :=
  if (off + length bs <=? length l)%nat
  then Some (firstn off l ++ bs ++ skipn (off + length bs) l) else None.

(** random/defs.hpp:133-137: one table word per step, from the last to the first. *)
Fixpoint sow (i : nat) (seed : Z) (table : list Z) : option (Z * list Z) :=
  match i with
  | O => Some (seed, table)
  | S i' =>
      t <- store table (i' * 8) (to_bytes 8 (Z.lxor seed (Z.shiftr seed 32))) ;;
      sow i' (sow_step 64 seed) t
  end.
(** random/defs.hpp:128-138 [set]. *)
Definition set_seed (g : gen) (seed : Z) : option gen :=
  r <- sow 256 seed (g_table g) ;;
  Some (Gen (fst r) seed (snd r)).
(** random/defs.hpp:127 [get_origin]. *)
Definition get_origin (g : gen) : Z := g_origin g.
(** random/defs.hpp:141-149: the copy constructor, byte by byte from the last
    ([memcpy] at run time), into a table of unspecified content. *)
Fixpoint copy_bytes (i : nat) (src dst : list Z) : option (list Z) :=
  match i with
  | O => Some dst
  | S i' => b <- load src i' 1 ;; d <- store dst i' b ;; copy_bytes i' src d
  end.
Definition copy_gen (fresh : list Z) (g : gen) : option gen :=
  t <- copy_bytes table_bytes (g_table g) fresh ;; Some (Gen (g_seed g) (g_origin g) t).

Section Draw.
  (** random/defs.hpp:160: the multiplier computed at compile time (see [multiplier]
      in Rand_Model). *)
  Variable mult : Z.
  (** random/defs.hpp:155-179 [base_gen_randbit] for a result of [lvl_bits k] bits,
      [k <= 2]: advance the seed, cut the top of the new and of the old seed, rotate,
      exclusive-or with a table word and put the result there. *)
  Definition draw_small (k : nat) (g : gen) : option (Z * gen) :=
    let half := lvl_bits k in
    let old := g_seed g in
    let seed := lcg_step 64 mult increment old in
    let cut := 64 - 2 * half in
    let new_result := Z.shiftr seed cut mod 2 ^ (2 * half) in
    let old_base := Z.shiftr old cut mod 2 ^ (2 * half) in
    let result_base := Z.shiftr new_result half mod 2 ^ half in
    let rot := Z.shiftr old_base half mod 2 ^ half in
    let size := Nat.pow 2 k in
    let off := (Z.to_nat (rot mod Z.of_nat (table_bytes / size)) * size)%nat in
    x <- load (g_table g) off size ;;
    let result := Z.lxor (rotl half result_base rot) (of_bytes x) in
    t <- store (g_table g) off (to_bytes size result) ;;
    Some (result, Gen seed (g_origin g) t).
  (** random/defs.hpp:180-190 [gen_randbit] for unsigned types of [lvl_bits k] bits: types
      wider than half the seed are made of two halves, the high one first. *)
  Fixpoint draw_word (k : nat) (g : gen) : option (Z * gen) :=
    match k with
    | S k' =>
        if (3 <=? k)%nat then
          h <- draw_word k' g ;;
          l <- draw_word k' (snd h) ;;
          Some (Z.lor (Z.shiftl (fst h) (lvl_bits k')) (fst l), snd l)
        else draw_small k g
    | O => draw_small k g
    end.
  (** random/defs.hpp:194-197: [sand_num] words of [2^k] bytes at successive offsets; a
      store that is not aligned is undefined. *)
  Fixpoint fill_words (n k off : nat) (g : gen) (mem : list (option Z)) : option (nat * gen * list (option Z)) :=
    match n with
    | O => Some (off, g, mem)
    | S n' =>
        d <- draw_word k g ;;
        if (off mod Nat.pow 2 k =? 0)%nat then
          m <- store mem off (map Some (to_bytes (Nat.pow 2 k) (fst d))) ;;
          fill_words n' k (off + Nat.pow 2 k) (snd d) m
        else None
    end.
  (** random/defs.hpp:191-200 [gen_randbit_with_sand_size_to_pointer]: then the rest in
      words half as long; words of half a byte do not exist ([None]). *)
  Fixpoint fill (k size off : nat) (g : gen) (mem : list (option Z)) : option (gen * list (option Z)) :=
    r <- fill_words (size / Nat.pow 2 k) k off g mem ;;
    let '(off', g', mem') := r in
    let rest := (size mod Nat.pow 2 k)%nat in
    if (rest =? 0)%nat then Some (g', mem') else
    match k with
    | O => None
    | S k' => fill k' rest off' g' mem'
    end.
  (** random/defs.hpp:201-212 [gen_randbit] for other types of more than 4 bytes: an
      uninitialised block aligned like the seed is filled. *)
  Definition draw_object (size : nat) (g : gen) : option (gen * list (option Z)) :=
    fill 3 size 0 g (repeat None size).
End Draw.
