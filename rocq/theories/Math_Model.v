(** Model of the integer part of H/base_defs/math.hpp.  A type is described by its
    number of values [M]; [M = 0] stands for an ideal type with exact unbounded
    arithmetic (the templates instantiated with the big integer type additionally
    inherit that type's own errors, e.g. C10, which are not repeated here). *)
From Verif Require Import Base Bits_Model UBig_Model.
Local Open Scope Z_scope.
Local Open Scope omonad_scope.

(** Conversion of an exact result to the type: wrap-around of unsigned types. *)
Definition norm (M x : Z) : Z := if M =? 0 then x else x mod M.

Section Prime.
  Variable M : Z.
  (** math.hpp:480 [safe_arithmetic_cast<T>(sqrt(a))]: the floating-point square
      root is an oracle. *)
  Variable sq : Z -> Z.

  (** math.hpp:492-494: the loop over candidate divisors.  Remainder by zero is
      undefined. *)
  Fixpoint npc_loop (f : nat) (a b c : Z) : option bool :=
    match f with
    | O => None
    | S f' =>
        if c <=? b then
          if c =? 0 then None else
          if a mod c =? 0 then Some false else
          let c2 := norm M (c + 2) in
          if c2 =? 0 then None else
          if a mod c2 =? 0 then Some false else
          npc_loop f' a b (norm M (c + 6))
        else Some true
    end.
  (** math.hpp:475-502 [is_prime_num_no_pre_check]. *)
  Definition npc (a : Z) : option bool := npc_loop (S (Z.to_nat (sq a))) a (sq a) 5.

  (** math.hpp:505-529 [is_prime_num] for built-in unsigned arguments.
      [mod(b,6)-1u] is computed in [p] bits, the width after promotion. *)
  Definition is_prime_num (p a : Z) : option bool :=
    if a <? 4 then Some true
    else if ((a mod 6 - 1) mod 2 ^ p) mod 4 =? 0 then npc a else Some false.

  (** math.hpp:548-553: the search loop. *)
  Fixpoint next_loop (f : nat) (a : Z) : option Z :=
    match f with
    | O => None
    | S f' =>
        r <- npc a ;;
        if r : bool then Some a else
        let a2 := norm M (a + 2) in
        r2 <- npc a2 ;;
        if r2 : bool then Some a2 else next_loop f' (norm M (a + 6))
    end.
  (** math.hpp:535-554 [get_prime_num_big_or_eq_than], unsigned integer types. *)
  Definition next_prime (f : nat) (a : Z) : option Z :=
    if a <? 4 then Some a else
    let b := a mod 6 in
    r <- (if b =? 1 then npc a else Some false) ;;
    if r : bool then Some a
    else next_loop f (norm M (a + (if b =? 0 then 1 else 5 - b))).
  (** math.hpp:579-581 [get_prime_num_big_than]. *)
  Definition prime_after (f : nat) (a : Z) : option Z := next_prime f (norm M (a + 1)).

  (** math.hpp:571-575: the downward search loop. *)
  Fixpoint prev_loop (f : nat) (a : Z) : option Z :=
    match f with
    | O => None
    | S f' =>
        r <- npc a ;;
        if r : bool then Some a else
        let a2 := norm M (a - 2) in
        r2 <- npc a2 ;;
        if r2 : bool then Some a2 else prev_loop f' (norm M (a - 6))
    end.
  (** math.hpp:557-576 [get_prime_num_less_or_eq_than], unsigned integer types. *)
  Definition prev_prime (f : nat) (a : Z) : option Z :=
    if a <? 4 then Some a else
    let b := a mod 6 in
    r <- (if b =? 1 then npc a else Some false) ;;
    if r : bool then Some a
    else prev_loop f (norm M (a - (if b =? 0 then 5 else b - 1))).

  (** math.hpp:643-646: divide out the factor [i]. *)
  Fixpoint strip (f : nat) (m i : Z) : option (list Z * Z) :=
    match f with
    | O => None
    | S f' =>
        if i =? 0 then None else
        if m mod i =? 0 then ' (l, m') <- strip f' (m / i) i ;; Some (i :: l, m')
        else Some ([], m)
    end.
  (** math.hpp:641-649 [get_prime_factorization(n).to()], from factor [i] on; also
      the tables 696-722. *)
  Fixpoint fact_loop (f : nat) (m i : Z) : option (list Z) :=
    match f with
    | O => None
    | S f' =>
        if m =? 1 then Some [] else
        ' (l, m') <- strip f m i ;;
        i' <- prime_after f i ;;
        r <- fact_loop f' m' i' ;;
        Some (l ++ r)
    end.
  Definition factorise (f : nat) (n : Z) : option (list Z) := fact_loop f n 2.
  (** math.hpp:666-675 [get_prime_factorization(n).unique().to()], tables 764-790. *)
  Fixpoint ufact_loop (f : nat) (m i : Z) : option (list Z) :=
    match f with
    | O => None
    | S f' =>
        if m =? 1 then Some [] else
        ' (l, m') <- strip f m i ;;
        i' <- prime_after f i ;;
        r <- ufact_loop f' m' i' ;;
        Some ((match l with [] => [] | _ => [i] end) ++ r)
    end.
  Definition ufactorise (f : nat) (n : Z) : option (list Z) := ufact_loop f n 2.
End Prime.

(** math.hpp:157-162 [ceil_div] for unsigned operands. *)
Definition ceil_div (a b : Z) : option Z :=
  if b =? 0 then None else Some (a / b + (if a mod b =? 0 then 0 else 1)).
(** The same for 32-bit signed operands: C++ division truncates, and adding an
    unsigned 1 or 0 makes the result unsigned.  The quotient of the least number
    by -1 does not fit: undefined. *)
Definition ceil_div_int (a b : Z) : option Z :=
  if b =? 0 then None
  else if (a =? - 2 ^ 31) && (b =? -1) then None
  else Some ((Z.quot a b + (if Z.rem a b =? 0 then 0 else 1)) mod 2 ^ 32).

(** math.hpp:190-200 [abs] of a signed [d]-bit value (no integer promotion, i.e.
    [d >= 32]): negating the smallest value overflows, which is undefined. *)
Definition abs_signed (d v : Z) : option Z :=
  if v <? 0 then if v =? - 2 ^ (d - 1) then None else Some (- v) else Some v.

Section Log.
  Variable M : Z.
  (** math.hpp:285-290: the loop [tester*=this_lv, aret+=num] while not above
      [a]. *)
  Fixpoint log_scan (f : nat) (a tester lv : Z) (num aret : Z) : option (Z * Z) :=
    match f with
    | O => None
    | S f' =>
        let tmp := norm M (tester * lv) in
        if a <? tmp then Some (aret, tester)
        else log_scan f' a tmp lv num (aret + num)
    end.
  (** math.hpp:279-291 [integer_log_impl]. *)
  Fixpoint log_impl (f : nat) (a tester lv num : Z) : option (Z * Z) :=
    match f with
    | O => None
    | S f' =>
        let next := norm M (lv * lv) in
        ' (aret, t) <- (if next <? a then log_impl f' a tester next (num * 2) else Some (0, tester)) ;;
        log_scan f a t lv num aret
    end.
  (** math.hpp:277-296 [integer_log(a,b)]. *)
  Definition integer_log (f : nat) (a b : Z) : option Z :=
    option_map fst (log_impl f a 1 b 1).
End Log.

Section Factorial.
  (** The result type. *)
  Variable M : Z.
  (** math.hpp:841-843: [s *= start++] until [end]; the counter is a 32-bit
      unsigned. *)
  Fixpoint fac_loop (f : nat) (s start e : Z) : option Z :=
    match f with
    | O => None
    | S f' =>
        if start <? e then fac_loop f' (norm M (s * start)) ((start + 1) mod 2 ^ 32) e
        else Some s
    end.
  (** math.hpp:837-848 [factorial<T>(n,start)]. *)
  Fixpoint factorial (f : nat) (n start : Z) : option Z :=
    match f with
    | O => None
    | S f' =>
        if n <? 16 then fac_loop 17 (norm M 1) start ((start + n) mod 2 ^ 32)
        else
          let m := (n + 1) mod 2 ^ 32 / 2 in
          x <- factorial f' m start ;;
          y <- factorial f' (n - m) ((start + m) mod 2 ^ 32) ;;
          Some (norm M (x * y))
    end.
End Factorial.

Section UPow.
  Variable w : Z.
  (** math.hpp:317-323: [pow(T a,U b)] for unsigned big integers. *)
  Fixpoint upow_loop (f : nat) (aret a : list Z) (b : Z) : option (list Z) :=
    match f with
    | O => None
    | S f' =>
        if b =? 0 then Some aret else
        aret' <- (if Z.odd b then umul w aret a else Some aret) ;;
        a' <- umul w a a ;;
        upow_loop f' aret' a' (b / 2)
    end.
  Definition upow (f : nat) (a : list Z) (b : Z) : option (list Z) := upow_loop f [1] a b.

  (** math.hpp:913-930 [binary_gcd] on unsigned big integers; [x<<shift] is the
      by-value left shift. *)
  Fixpoint ugcd_loop (f : nat) (x y : list Z) (shift : Z) : option (list Z) :=
    match f with
    | O => None
    | S f' =>
        if unot y then Some (ushl w x shift) else
        let xr := ucountr_zero w x in
        let yr := ucountr_zero w y in
        let x1 := ushr_assign w x xr in
        let y1 := ushr_assign w y yr in
        let '(x2, y2) := match ucompare x1 y1 with Lt => (y1, x1) | _ => (x1, y1) end in
        x3 <- usub w x2 y2 ;;
        ugcd_loop f' x3 y2 (shift + Z.min xr yr)
    end.
  (** math.hpp:1002-1013 [gcd]: from 256 digits on Lehmer's algorithm is used,
      which is not modelled ([None]). *)
  Definition ugcd (f : nat) (x y : list Z) : option (list Z) :=
    if Nat.leb 256 (Nat.max (length x) (length y)) then None else ugcd_loop f x y 0.
End UPow.

Section Gcd.
  (** Word level as in Bits_Model: [lvl_bits k] bits. *)
  Variable k : nat.
  (** [true]: shifting a zero by its whole width gives zero, as common hardware
      does; [false]: it is undefined, as the language says. *)
  Variable lenient : bool.
  (** math.hpp:922-923 [x>>=n] after promotion to at least 32 bits. *)
  Definition gshr (x n : Z) : option Z :=
    if n <? Z.max 32 (lvl_bits k) then Some (Z.shiftr x n)
    else if lenient && (x =? 0) then Some 0 else None.
  (** math.hpp:913-930 [binary_gcd] on built-in unsigned types. *)
  Fixpoint gcd_loop (f : nat) (x y shift : Z) : option Z :=
    match f with
    | O => None
    | S f' =>
        if y =? 0 then
          if shift <? Z.max 32 (lvl_bits k) then Some ((x * 2 ^ shift) mod 2 ^ (Z.max 32 (lvl_bits k))) else None
        else
          xr <- countr_zero k x ;;
          yr <- countr_zero k y ;;
          x1 <- gshr x xr ;;
          y1 <- gshr y yr ;;
          let '(x2, y2) := if x1 <? y1 then (y1, x1) else (x1, y1) in
          gcd_loop f' (x2 - y2) y2 (shift + Z.min xr yr)
    end.
  Definition gcd (f : nat) (x y : Z) : option Z := gcd_loop f x y 0.
End Gcd.

(** math.hpp:938-941: the loop of [euclidean_gcd]; [%] truncates. *)
Fixpoint euclid_loop (f : nat) (x y : Z) : option Z :=
  match f with
  | O => None
  | S f' =>
      if y =? 0 then Some x else
      let '(x1, y1) := if x <? y then (y, x) else (x, y) in
      if y1 =? 0 then None else euclid_loop f' y1 (Z.rem x1 y1)
  end.
(** math.hpp:933-942 [euclidean_gcd]: both negative are replaced by their absolute
    values; the signed overflow of the smallest value is ignored. *)
Definition euclid_gcd (f : nat) (x y : Z) : option Z :=
  if (x <? 0) && (y <? 0) then euclid_loop f (- x) (- y) else euclid_loop f x y.
