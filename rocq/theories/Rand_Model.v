(** Model of H/random/defs.hpp: the state of the generator and values in a range. *)
From Verif Require Import Base Bits_Model.
Local Open Scope Z_scope.
Local Open Scope omonad_scope.

(** random/defs.hpp:165 [_seed = multiplier*_seed+increment], [w] bits. *)
Definition lcg_step (w a c x : Z) : Z := (a * x + c) mod 2 ^ w.
Fixpoint lcg_iter (w a c : Z) (n : nat) (x : Z) : Z :=
  match n with O => x | S n' => lcg_step w a c (lcg_iter w a c n' x) end.
(** random/defs.hpp:125 [sowing_seed_one_step]. *)
Definition sow_step (w x : Z) : Z := lcg_step w 13 7 x.

Section Multiplier.
  (** math.hpp:579-581 [get_prime_num_big_than] and the floating-point [sqrt] are
      oracles here: whatever they return, the result below holds. *)
  Variable next : Z -> Z.
  Variable sqrt : Z -> Z.
  (** random/defs.hpp:63-75: factors of [prime_test]. *)
  Fixpoint factor_loop (f : nat) (t tester off : Z) : option Z :=
    match f with
    | O => None
    | S f' =>
        if t =? 1 then Some off else
        if tester =? 0 then None else
        if t mod tester =? 0
        then factor_loop f' (t / tester) 2 (if off mod tester =? 0 then off else (off * tester) mod 2 ^ 64)
        else factor_loop f' t (next tester) off
    end.
  (** random/defs.hpp:80-81. *)
  Fixpoint four_loop (f : nat) (m off : Z) : option Z :=
    match f with
    | O => None
    | S f' =>
        if (m mod 4 =? 0) && negb (off mod 4 =? 0) then four_loop f' m ((off * 2) mod 2 ^ 64) else Some off
    end.
  (** random/defs.hpp:86-90. *)
  Fixpoint grow_loop (f : nat) (sm off : Z) : option Z :=
    match f with
    | O => None
    | S f' =>
        let off' := (off * next off) mod 2 ^ 64 in
        if off' <? sm then grow_loop f' sm off' else Some off'
    end.
  (** random/defs.hpp:54-94 [get_multiplier_by_modulus]: [m] is a 64-bit word, zero
      standing for 2^64. *)
  Definition multiplier (f : nat) (m : Z) : option Z :=
    let m := if m =? 0 then 2 ^ 64 - 4 else m in
    off <- factor_loop f 2 2 1 ;;
    off <- four_loop f m off ;;
    off <- grow_loop f (sqrt m) off ;;
    Some ((off + 1) mod 2 ^ 64).
End Multiplier.
(** random/defs.hpp:100-106 [get_increment_by_modulus]. *)
Definition increment : Z := 1.

Section Between.
  (** Word level of the type ([lvl_bits k] bits) and its signedness. *)
  Variable k : nat.
  Variable sgn : bool.
  Notation d := (lvl_bits k).
  (** Successive results of [gen_randbit]: any words. *)
  Variable raw : nat -> Z.
  (** random/defs.hpp:228 [gen_randbit<T>()&((T{1}<<bitnum)-1)]: shifting by the
      width is undefined, except on types narrower than [int] (32 bits). *)
  Definition masked (i : nat) (bitnum : Z) : option Z :=
    if bitnum <? Z.max 32 d then Some (Z.land (raw i) (2 ^ bitnum - 1)) else None.
  (** random/defs.hpp:293 [_diff(amax-amin)]: the subtraction overflows for signed
      types of at least 32 bits when the difference is not representable. *)
  Definition difference (lo hi : Z) : option Z :=
    if sgn && (32 <=? d) && (2 ^ (d - 1) <=? hi - lo) then None else Some ((hi - lo) mod 2 ^ d).
  (** A value of the type from a [d]-bit word. *)
  Definition wrap_T (x : Z) : Z :=
    let y := x mod 2 ^ d in if sgn && (2 ^ (d - 1) <=? y) then y - 2 ^ d else y.
  (** random/defs.hpp:298-307: the rejection loops; [i] counts the generator calls. *)
  Fixpoint reject (f i : nat) (excl : bool) (bitnum diff : Z) : option Z :=
    match f with
    | O => None
    | S f' =>
        x <- masked i bitnum ;;
        if (if excl then diff <=? x else diff <? x) then reject f' (S i) excl bitnum diff else Some x
    end.
  (** random/defs.hpp:285-308, 325-327 [between(a,b)]: the bounds are ordered first. *)
  Definition between (f : nat) (excl : bool) (a b : Z) : option Z :=
    let lo := Z.min b a in
    let hi := Z.max b a in
    diff <- difference lo hi ;;
    bitnum <- get_bitnum k diff ;;
    x <- reject f 0 excl bitnum diff ;;
    Some (wrap_T (lo + x)).
End Between.
