(** Model of H/base_defs/bitset.hpp: a fixed-size bit set stored in bytes.  A set is
    its list of bytes (each 0..255), index 0 first; the list length is [data_size].
    The base class (data.hpp:88-120) forbids copies, so the by-value operators only
    compile with a compiler that elides them; they are modelled as copies. *)
From Verif Require Import Base.
Local Open Scope Z_scope.
Local Open Scope omonad_scope.

(** bitset.hpp:34 [data_size]. *)
Definition bs_size (bit_num : Z) : Z := (bit_num + 7) / 8.

(** bitset.hpp:46-53, 98-99: reading through the accessor at [index]. *)
Definition bs_get (s : list Z) (i : Z) : option bool :=
  if i <? 0 then None else
  b <- nth_error s (Z.to_nat (i / 8)) ;;
  Some (negb (Z.land b (2 ^ (i mod 8)) =? 0)).
(** A read-modify-write of the byte at [i / 8] (bitset.hpp:54-76). *)
Definition bs_upd (s : list Z) (i : Z) (f : Z -> Z -> Z) : option (list Z) :=
  if i <? 0 then None else
  b <- nth_error s (Z.to_nat (i / 8)) ;;
  set_nth (Z.to_nat (i / 8)) (f b (2 ^ (i mod 8))) s.
(** [|= (byte)1<<mod]. *)
Definition byte_or (b m : Z) : Z := Z.lor b m.
(** [&= ~byte(1<<mod)]. *)
Definition byte_clear (b m : Z) : Z := Z.land b (255 - m).
(** [^= (byte)1<<mod]. *)
Definition byte_xor (b m : Z) : Z := Z.lxor b m.
(** bitset.hpp:54-60 [operator=(bool)]. *)
Definition bs_set (s : list Z) (i : Z) (b : bool) : option (list Z) :=
  bs_upd s i (if b then byte_or else byte_clear).
(** bitset.hpp:61-65 [operator&=(bool)]. *)
Definition bs_and_bit (s : list Z) (i : Z) (b : bool) : option (list Z) :=
  if b then Some s else bs_upd s i byte_clear.
(** bitset.hpp:66-70 [operator|=(bool)]. *)
Definition bs_or_bit (s : list Z) (i : Z) (b : bool) : option (list Z) :=
  if b then bs_upd s i byte_or else Some s.
(** bitset.hpp:71-75 [operator^=(bool)]. *)
Definition bs_xor_bit (s : list Z) (i : Z) (b : bool) : option (list Z) :=
  if b then bs_upd s i byte_xor else Some s.

(** bitset.hpp:100-105 [operator~]. *)
Definition bs_not (s : list Z) : list Z := map (fun b => 255 - b) s.
(** The loops of bitset.hpp:106-120 over two sets of the same size. *)
Fixpoint bs_map2 (f : Z -> Z -> Z) (s t : list Z) : list Z :=
  match s, t with
  | x :: s', y :: t' => f x y :: bs_map2 f s' t'
  | _, _ => []
  end.
(** bitset.hpp:106-110, 111-115, 116-120. *)
Definition bs_and := bs_map2 Z.land.
Definition bs_or := bs_map2 Z.lor.
Definition bs_xor := bs_map2 Z.lxor.

(** bitset.hpp:121-131 [operator=(T n)] and 132-133, the constructor. *)
Fixpoint bs_assign (size : nat) (n : Z) : list Z :=
  match size with O => [] | S k => n mod 256 :: bs_assign k (n / 256) end.
(** bitset.hpp:134-144 [operator T], [t] bits wide: from the last byte down.  256
    does not fit an 8-bit type, so there the multiplication clears the result. *)
Definition bs_to (t : Z) (s : list Z) : Z :=
  fold_left (fun r b => ((r * 256) mod 2 ^ t + b) mod 2 ^ t) (rev s) 0.

(** bitset.hpp:148-149: the loop of [operator<<=] from index [k - 1] down to 0;
    the bytes below index [k], last one first, are [l]. *)
Fixpoint shl_loop (l : list Z) (off carry : Z) : list Z :=
  match l with
  | [] => []
  | b :: r => Z.lor (Z.shiftl b off mod 256) carry :: shl_loop r off (Z.shiftr b (8 - off))
  end.
(** bitset.hpp:145-153 [operator<<=].  With [n / 8 > data_size] the start index
    wraps around: out of bounds. *)
Definition bs_shl (s : list Z) (n : Z) : option (list Z) :=
  let k := Z.of_nat (length s) in
  let step := n / 8 in
  if k <? step then None else
  let cut := Z.to_nat (k - step) in
  let moved := rev (shl_loop (rev (firstn cut s)) (n mod 8) 0) ++ skipn cut s in
  Some (repeat 0 (Z.to_nat step) ++ skipn (Z.to_nat step) moved).
(** bitset.hpp:157-158: the loop of [operator>>=] from index [step] up. *)
Fixpoint shr_loop (l : list Z) (off carry : Z) : list Z :=
  match l with
  | [] => []
  | b :: r => Z.lor (Z.shiftr b off) carry :: shr_loop r off (Z.shiftl b (8 - off) mod 256)
  end.
(** bitset.hpp:154-162 [operator>>=]; out of bounds as above. *)
Definition bs_shr (s : list Z) (n : Z) : option (list Z) :=
  let k := Z.of_nat (length s) in
  let step := n / 8 in
  if k <? step then None else
  let moved := firstn (Z.to_nat step) s ++ shr_loop (skipn (Z.to_nat step) s) (n mod 8) 0 in
  Some (firstn (Z.to_nat (k - step)) moved ++ repeat 0 (Z.to_nat step)).

(** bitset.hpp:168-174 [operator==]: all bytes but the last, then the last ones
    shifted right by [bit_num % 8].  With no byte the loop bound wraps around. *)
Fixpoint bs_eq (bit_num : Z) (s t : list Z) : option bool :=
  match s, t with
  | [x], [y] => Some (Z.shiftr x (bit_num mod 8) =? Z.shiftr y (bit_num mod 8))
  | x :: s', y :: t' => if x =? y then bs_eq bit_num s' t' else Some false
  | _, _ => None
  end.

(** bitset.hpp:92-97 with iterator.hpp: the positions a range-for visits, from
    index 0 upwards until the end index -1; [None]: the first position outside. *)
Fixpoint bs_walk (f : nat) (s : list Z) (i : Z) : option (list bool) :=
  match f with
  | O => None
  | S f' => if i =? -1 then Some [] else
            b <- bs_get s i ;; r <- bs_walk f' s (i + 1) ;; Some (b :: r)
  end.
