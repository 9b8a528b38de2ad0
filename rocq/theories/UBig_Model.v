(** Model of the arbitrary precision unsigned integer
    H/bignum/bignum/ubigint.hpp (H = parts/header_file/files/elc/_files).

    A number is the array [_data] of digits, least significant first
    (ubigint.hpp:39,46).  The digit type [base_type] is [unsigned char] in
    debug builds and half of [uintmax_t] otherwise (ubigint.hpp:33-37), so the
    digit width [w] (in bits) is a parameter.  [calc_type] is twice as wide
    (ubigint.hpp:251).  Array allocation is assumed to succeed; reading or
    writing outside an array is [None]. *)
From Verif Require Import Base.
Local Open Scope Z_scope.
Local Open Scope omonad_scope.

Section UBig.
Variable w : Z.

(** ubigint.hpp:44 [base_type_mod]. *)
Definition base : Z := 2 ^ w.
(** Conversion to [base_type]. *)
Definition tr (x : Z) : Z := x mod base.
(** Conversion to [calc_type], ubigint.hpp:251. *)
Definition trc (x : Z) : Z := x mod (base * base).

(** ** Carry primitives: _share/basic_environment/add_sub_carry.hpp.
    The portable branch is modelled; the compiler intrinsics of the other
    branches have the documented same result and are not modelled. *)

(** add_sub_carry.hpp:82-83 (also 59): result and overflow flag. *)
Definition add_carry2 (a b : Z) : Z * bool :=
  let c := tr (a + b) in (c, c <? a).
(** add_sub_carry.hpp:95-105. *)
Definition add_carry3 (a b : Z) (o : bool) : Z * bool :=
  let c := tr (a + b2z o) in
  if c =? 0 then (b, o) else add_carry2 c b.
(** add_sub_carry.hpp:118-121. *)
Definition add_carry1 (a : Z) (o : bool) : Z * bool :=
  let c := tr (a + b2z o) in
  (c, if c =? 0 then o else false).
(** add_sub_carry.hpp:152-153. *)
Definition sub_borrow2 (a b : Z) : Z * bool :=
  let c := tr (a - b) in (c, a <? c).
(** add_sub_carry.hpp:165-175. *)
Definition sub_borrow3 (a b : Z) (u : bool) : Z * bool :=
  let c := tr (b + b2z u) in
  if c =? 0 then (a, u) else sub_borrow2 a c.
(** add_sub_carry.hpp:188-193. *)
Definition sub_borrow1 (a : Z) (u : bool) : Z * bool :=
  if u then (tr (a - 1), a =? 0) else (a, u).

(** ** Shrinking *)

(** ubigint.hpp:142-150 [shrink_to_fit] and 157-163
    [get_shrinked_data_view_of_data]: drop high zero digits (both loops scan
    from the top; [i+1] wraps to 0 when every digit is zero). *)
Fixpoint shrink (l : list Z) : list Z :=
  match l with
  | [] => []
  | x :: r =>
      match shrink r with
      | [] => if x =? 0 then [] else [x]
      | r' => x :: r'
      end
  end.

(** ubigint.hpp:456-467 [shrink_of_end_zeros]: number of low zero digits and
    the remaining view. *)
Fixpoint low_zeros (l : list Z) : nat * list Z :=
  match l with
  | [] => (O, [])
  | x :: r => if x =? 0 then let '(n, r') := low_zeros r in (S n, r') else (O, l)
  end.

(** ** Comparison *)

(** ubigint.hpp:205-214 [compare], the digit loop: from the top down. *)
Fixpoint cmp_digits (a b : list Z) : comparison :=
  match a, b with
  | x :: a', y :: b' =>
      match cmp_digits a' b' with Eq => x ?= y | c => c end
  | _, _ => Eq
  end.
(** ubigint.hpp:205-214 [compare]; also 225-227 [operator<=>]. *)
Definition ucompare (a b : list Z) : comparison :=
  match Nat.compare (length a) (length b) with
  | Eq => cmp_digits a b
  | c => c
  end.
(** ubigint.hpp:181-183 [operator==]: [equal] on the two views
    (H/base_defs/compare.hpp:87-92: sizes then elements). *)
Fixpoint eq_digits (a b : list Z) : bool :=
  match a, b with
  | [], [] => true
  | x :: a', y :: b' => (x =? y) && eq_digits a' b'
  | _, _ => false
  end.

(** ** Construction from / conversion to native integers *)

(** ubigint.hpp:64-78: constructor from an unsigned value.  [fuel] is the
    number of digits of the buffer, [base_type_size_of<T>]; writing one digit
    more would be out of bounds. *)
Fixpoint of_uint (fuel : nat) (v : Z) : option (list Z) :=
  if v =? 0 then Some []
  else match fuel with
       | O => None
       | S f => r <- of_uint f (v / base) ;; Some (v mod base :: r)
       end.
(** ubigint.hpp:44 [base_type_mod] = data.hpp:35 [number_of_possible_values_per]:
    [uintmax_index_t(max)+1], where [uintmax_index_t] is the standard 64-bit
    [uintmax_t] (S/basic_environment/pre_math.hpp:67,87).  Everywhere else this
    model writes [base] for it, which is right for digits of fewer than 64
    bits. *)
Definition base_type_mod : Z := ((2 ^ w - 1) mod 2 ^ 64 + 1) mod 2 ^ 64.
(** ubigint.hpp:64-78 again, with the constant as computed; division by zero is
    undefined.  The digit has 64 bits on compilers with a 128-bit integer
    (ubigint.hpp:33-37, pre_math.hpp:49-51,70-77). *)
Definition of_uint_cfg (fuel : nat) (v : Z) : option (list Z) :=
  if (base_type_mod =? 0) && negb (v =? 0) then None else of_uint fuel v.
(** ubigint.hpp:109-122 [convert_to<T>] for an unsigned [T] of [m] possible
    values: Horner from the most significant digit, wrapping in [T]. *)
Definition convert_to (m : Z) (a : list Z) : Z :=
  fold_right (fun d v => ((v * base) mod m + d) mod m) 0 a.

(** ubigint.hpp:190-199: [operator==(T)], unsigned [T]. *)
Fixpoint eq_native (a : list Z) (t : Z) : bool :=
  match a with
  | [] => t =? 0
  | d :: r => if t <? d then false else eq_native r ((t - d) / base)
  end.
(** ubigint.hpp:237-246: the digit loop of [operator<=>(T)]. *)
Fixpoint cmp_native_loop (a : list Z) (t : Z) : comparison :=
  match a with
  | [] => if t =? 0 then Eq else Lt
  | d :: r => if t <? d then Gt else cmp_native_loop r ((t - d) / base)
  end.
(** ubigint.hpp:229-248 for a basic type of [nd] digits
    ([base_type_size_of<T>]). *)
Definition cmp_native (nd : nat) (a : list Z) (t : Z) : comparison :=
  match Nat.compare (length a) nd with
  | Eq => cmp_native_loop a t
  | c => c
  end.

(** ** Addition *)

(** ubigint.hpp:316-317: the carry propagation loop; the buffer is not
    bounds-checked, running off its end is undefined. *)
Fixpoint add_tail (buf : list Z) (o : bool) : option (list Z) :=
  if o then
    match buf with
    | [] => None
    | x :: r =>
        let '(c, o') := add_carry1 x o in
        r' <- add_tail r o' ;; Some (c :: r')
    end
  else Some buf.
(** ubigint.hpp:309-318 [add_to_base(base_type*buf, view b)]. *)
Fixpoint add_buf (buf b : list Z) (o : bool) : option (list Z) :=
  match b with
  | [] => add_tail buf o
  | y :: b' =>
      match buf with
      | [] => None
      | x :: r =>
          let '(c, o') := add_carry3 x y o in
          r' <- add_buf r b' o' ;; Some (c :: r')
      end
  end.
(** ubigint.hpp:256-260: are all digits of [a] above index [n] maximal? *)
Definition all_max_from (n : nat) (a : list Z) : bool :=
  forallb (fun x => x =? base - 1) (skipn n a).
(** ubigint.hpp:253-267 [get_safety_add_buf_size_diff]; [a.back()] of an
    empty view is undefined. *)
Definition size_diff (a b : list Z) : option nat :=
  if Nat.eqb (length a) (length b) then
    match a, b with
    | [], _ | _, [] => None
    | _, _ => Some (Z.to_nat (trc (last a 0 + last b 0 + 1) / base))
    end
  else Some (if all_max_from (length b) a then 1%nat else 0%nat).
(** ubigint.hpp:277-290, after the swap of 277-278. *)
Definition add_base_ord (a b : list Z) : option (list Z) :=
  match b with
  | [] => Some a
  | _ =>
      d <- size_diff a b ;;
      t <- add_buf (a ++ repeat 0 d) b false ;;
      Some (if Nat.eqb d 0 then t else shrink t)
  end.
(** ubigint.hpp:276-291 [add_base]; also 863-865 [operator+]. *)
Definition add_base (a b : list Z) : option (list Z) :=
  if Nat.ltb (length a) (length b) then add_base_ord b a else add_base_ord a b.
(** ubigint.hpp:271-275. *)
Definition size_need (a b : list Z) : option nat :=
  if Nat.ltb (length a) (length b)
  then d <- size_diff b a ;; Some (length b + d)%nat
  else d <- size_diff a b ;; Some (length a + d)%nat.
(** ubigint.hpp:292-305 [add_to_base(data_type&, view)]; also 1020-1024
    [operator+=]. *)
Definition add_to_base (a b : list Z) : option (list Z) :=
  match b, a with
  | [], _ => Some a
  | _, [] => Some b
  | _, _ =>
      n <- size_need a b ;;
      let d := (n - length a)%nat in
      t <- add_buf (a ++ repeat 0 d) b false ;;
      Some (if Nat.eqb d 0 then t else shrink t)
  end.
(** ubigint.hpp:292-305 reached from [x += x] (1020-1024): [b] is a view of the
    very array [a].  [a.insert] (301-302) may move the array, after which the
    view is dangling: undefined.  Without growth both operands are read at each
    index before it is written. *)
Definition add_assign_self (a : list Z) : option (list Z) :=
  match a with
  | [] => Some a
  | _ =>
      n <- size_need a a ;;
      if Nat.eqb (n - length a) 0 then add_buf a a false else None
  end.
(** ubigint.hpp:355-365 [offset_add_to_base] (and 352-354). *)
Definition offset_add (buf b : list Z) (off : nat) : option (list Z) :=
  let buf' :=
    if Nat.leb (length buf) (off + length b)
    then buf ++ repeat 0 (off + length b + 1 - length buf)
    else buf in
  r <- add_buf (skipn off buf') b false ;;
  Some (shrink (firstn off buf' ++ r)).

(** ubigint.hpp:331-335: first loop of [add_to_base(data_type&,T)]; [m] is the
    number of values of [calc_t].  Returns the digits written, the remaining
    digits, [tmp] and the overflow flag. *)
Definition add_carry3_in (m : Z) (a b : Z) (o : bool) : Z * bool :=
  let c := (a + b2z o) mod m in
  if c =? 0 then (b, o) else let c' := (c + b) mod m in (c', c' <? c).
Fixpoint addT_loop1 (m : Z) (buf : list Z) (tmp : Z) (o : bool)
  : list Z * list Z * Z * bool :=
  match buf with
  | [] => ([], [], tmp, o)
  | x :: r =>
      if tmp =? 0 then ([], buf, tmp, o)
      else
        let '(t1, o1) := add_carry3_in m x tmp o in
        let '(done, rest, tf, oF) := addT_loop1 m r (t1 / base) o1 in
        (tr t1 :: done, rest, tf, oF)
  end.
(** ubigint.hpp:342-346: second loop (writes into the grown part). *)
Fixpoint addT_loop2 (fuel : nat) (tmp : Z) (o : bool) : option (list Z) :=
  if tmp =? 0 then Some []
  else match fuel with
       | O => None
       | S f =>
           let '(c, o') := add_carry1 (tr tmp) o in
           r <- addT_loop2 f (tmp / base) o' ;; Some (c :: r)
       end.
(** ubigint.hpp:323-349 [add_to_base(data_type&,T)]; [m = base^nd] is the range
    of [calc_t]. *)
Definition addT (nd : nat) (a : list Z) (t : Z) : option (list Z) :=
  let m := base ^ Z.of_nat nd in
  let '(done, rest, tf, oF) := addT_loop1 m a t false in
  if tf =? 0 then Some (done ++ rest)
  else r <- addT_loop2 nd tf oF ;; Some (done ++ r).

(** ** Subtraction *)

(** ubigint.hpp:394-395. *)
Fixpoint sub_tail (buf : list Z) (u : bool) : option (list Z) :=
  if u then
    match buf with
    | [] => None
    | x :: r =>
        let '(c, u') := sub_borrow1 x u in
        r' <- sub_tail r u' ;; Some (c :: r')
    end
  else Some buf.
(** ubigint.hpp:386-396 [sub_with_base(base_type*, view)]. *)
Fixpoint sub_buf (buf b : list Z) (u : bool) : option (list Z) :=
  match b with
  | [] => sub_tail buf u
  | y :: b' =>
      match buf with
      | [] => None
      | x :: r =>
          let '(c, u') := sub_borrow3 x y u in
          r' <- sub_buf r b' u' ;; Some (c :: r')
      end
  end.
(** ubigint.hpp:400-403 [sub_with_base(data_type&, view)] and 377-385
    [sub_base]. *)
Definition sub_base (a b : list Z) : option (list Z) :=
  r <- sub_buf a b false ;; Some (shrink r).
(** ubigint.hpp:867-873 [operator-]; 1038-1046 [operator-=]. *)
Definition usub (a b : list Z) : option (list Z) :=
  match ucompare a b with
  | Lt => Some []
  | _ => sub_base a b
  end.

(** ** Increment and decrement *)

(** ubigint.hpp:418-429 [add_one_to_base]. *)
Fixpoint add_one (buf : list Z) : list Z :=
  match buf with
  | [] => [1]
  | x :: r =>
      let x' := tr (x + 1) in
      if x' =? 0 then x' :: add_one r else x' :: r
  end.
(** ubigint.hpp:435-447 [sub_one_from_base].  The loop body does not advance
    [iter]: when the lowest digit is zero it is set to the maximum and the
    second iteration decrements the same digit. *)
Definition sub_one (buf : list Z) : list Z :=
  match buf with
  | [] => []
  | x :: r =>
      let x1 := if x =? 0 then base - 1 else x in
      let x2 := tr (x1 - 1) in
      if (x2 =? 0) && (match r with [] => true | _ => false end)
      then removelast buf else x2 :: r
  end.

(** ** Multiplication *)

(** ubigint.hpp:489-498 [muti_with_base_no_optimisation]: returns the
    [length a + 1] digits written. *)
Fixpoint mul_digit_loop (a : list Z) (b num : Z) : list Z :=
  match a with
  | [] => [tr num]
  | x :: r =>
      let n := trc (num + trc (x * b)) in
      tr (n mod base) :: mul_digit_loop r b (n / base)
  end.
Definition mul_digit_raw (a : list Z) (b : Z) : list Z := mul_digit_loop a b 0.
(** ubigint.hpp:499-510 [muti_with_base(buf, view, digit)]. *)
Definition mul_digit (a : list Z) (b : Z) : list Z :=
  if b =? 0 then repeat 0 (length a + 1)
  else let '(z, a') := low_zeros a in repeat 0 z ++ mul_digit_raw a' b.
(** ubigint.hpp:519-525: the row loop of the schoolbook product.  [buf] is the
    buffer from [buf+muti_scale] on; advancing [muti_scale] leaves the lowest
    digit of it untouched by the later rows. *)
Fixpoint mul_rows (buf a b : list Z) : option (list Z) :=
  match b with
  | [] => Some buf
  | d :: b' =>
      buf1 <- (if d =? 0 then Some buf
               else add_buf buf (shrink (mul_digit_raw a d)) false) ;;
      match buf1 with
      | [] => None
      | x :: r => r' <- mul_rows r a b' ;; Some (x :: r')
      end
  end.
(** ubigint.hpp:511-526 [muti_with_base(buf, view, view)]. *)
Definition mul_buf (buf a b : list Z) : option (list Z) :=
  let '(za, a') := low_zeros a in
  let '(zb, b') := low_zeros b in
  let z := (za + zb)%nat in
  r <- mul_rows (skipn z buf) a' b' ;;
  Some (repeat 0 z ++ r).
(** ubigint.hpp:529-531. *)
Definition mul_base_ord (a b : list Z) : option (list Z) :=
  r <- mul_buf (repeat 0 (length a + length b)) a b ;; Some (shrink r).
(** ubigint.hpp:527-533 [muti_base]. *)
Definition mul_base (a b : list Z) : option (list Z) :=
  if Nat.ltb (length a) (length b) then mul_base_ord b a else mul_base_ord a b.

(** ubigint.hpp:536: the threshold is 64 digits; it is a parameter here so that
    the theorem does not depend on its value. *)
Definition split_point (m n : nat) : nat :=
  Nat.max (Nat.min ((m + 1) / 2) (n - 1)) (Nat.min (m - 1) ((n + 1) / 2)).

(** ubigint.hpp:535-559 [fast_muti_base].  [None] is also returned when [fuel]
    is exhausted; [fast_mul] supplies enough fuel (proved in UBig_Mul). *)
Fixpoint fast_mul_f (thr fuel : nat) (a b : list Z) : option (list Z) :=
  if Nat.ltb (Nat.min (length a) (length b)) thr then mul_base a b
  else
    match fuel with
    | O => None
    | S f =>
        let s := split_point (length a) (length b) in
        let a_low := shrink (firstn s a) in
        let a_high := skipn s a in
        let b_low := shrink (firstn s b) in
        let b_high := skipn s b in
        high <- fast_mul_f thr f a_high b_high ;;
        low <- fast_mul_f thr f a_low b_low ;;
        sa <- add_base a_high a_low ;;
        sb <- add_base b_high b_low ;;
        mid0 <- fast_mul_f thr f sa sb ;;
        hl <- add_base high low ;;
        mid <- usub mid0 hl ;;
        r1 <- offset_add low high (s * 2) ;;
        offset_add r1 mid s
    end.
Definition fast_mul_thr (thr : nat) (a b : list Z) : option (list Z) :=
  fast_mul_f thr (length a + length b) a b.
(** ubigint.hpp:875-879 [operator*]; 1048 [operator*=]. *)
Definition umul (a b : list Z) : option (list Z) := fast_mul_thr 64 a b.

(** ** Division *)

(** ubigint.hpp:580-598 [no_mod_optimisation_of_div] (and 599-617 on an owned
    buffer): drop the low zero digits of the divisor, then, when the divisor is
    long, drop low digits of both operands.  The recursive call of line 595 is
    bounded by [fuel].  Sizes are [size_t]; the guard [length b <= length a]
    is what every caller establishes. Returns the number of digits dropped. *)
Fixpoint no_mod_opt_f (fuel : nat) (a b : list Z) : option (nat * list Z * list Z) :=
  let '(z, b1) := low_zeros b in
  let a1 := skipn z a in
  if Nat.ltb (length a1) ((length b1 - 1) * 2) then
    match fuel with
    | O => None
    | S f =>
        let ans_len := (length a1 - length b1 + 2)%nat in
        let shr := (length b1 - ans_len)%nat in
        '(k, a2, b2) <- no_mod_opt_f f (skipn shr a1) (skipn shr b1) ;;
        Some ((z + shr + k)%nat, a2, b2)
    end
  else Some (z, a1, b1).
Definition no_mod_opt (a b : list Z) := no_mod_opt_f (length b) a b.

(** ubigint.hpp:633-649: the binary search of one quotient digit. *)
Fixpoint bsearch (fuel : nat) (tryto b : list Z) (left right last_work : Z)
  : option Z :=
  if left <=? right then
    match fuel with
    | O => None
    | S f =>
        let test := trc (left + right) / 2 in
        match ucompare tryto (shrink (mul_digit b (tr test))) with
        | Eq => Some (tr test)
        | Gt =>
            if tr (test + 1) =? 0 then Some (tr test)
            else bsearch f tryto b (test + 1) right (tr test)
        | Lt => bsearch f tryto b left (trc (test - 1)) last_work
        end
    end
  else Some last_work.
(** ubigint.hpp:619-654 [div_with_base_no_optimisation]: one quotient digit;
    [a] is the buffer from the current position to its end.  Returns the digit
    and the buffer with the multiple subtracted. *)
Definition div_digit (a b : list Z) : option (Z * list Z) :=
  let n := length b in
  if Nat.ltb (length a) (n + 1) then None else
  match b with
  | [] => None
  | _ =>
    let tryto := firstn (n + 1) a in
    let dividend := trc (trc (nth n a 0 * base) + nth (n - 1) a 0) in
    let divisor := last b 0 in
    if divisor =? 0 then None else
    let left := dividend / (divisor + 1) in
    let right := Z.min (dividend / divisor) (base - 1) in
    if right =? 0 then Some (0, a)
    else
      q <- bsearch (Z.to_nat (w + 2)) (shrink tryto) b left right 0 ;;
      if q =? 0 then Some (0, a)
      else
        a' <- sub_buf a (shrink (mul_digit b q)) false ;;
        Some (q, a')
  end.
(** ubigint.hpp:668-673: the loop over positions, from the top; [cnt] positions
    remain.  Returns the quotient digits (least significant first) and the
    buffer, which then holds the remainder. *)
Fixpoint div_loop (cnt : nat) (a b : list Z) : option (list Z * list Z) :=
  match cnt with
  | O => Some ([], a)
  | S pos =>
      '(d, hi) <- div_digit (skipn pos a) b ;;
      '(q, a') <- div_loop pos (firstn pos a ++ hi) b ;;
      Some (q ++ [d], a')
  end.
(** ubigint.hpp:662-676 with the pushed zero of 678 (or 689-692); quotient
    shrunk (674) and the buffer left holding the remainder. *)
Definition long_div (a b : list Z) : option (list Z * list Z) :=
  '(q, r) <- div_loop (length a + 1 - length b) (a ++ [0]) b ;;
  Some (shrink q, r).
(** ubigint.hpp:695-698 [div_base] (and 681-684). *)
Definition div_base (a b : list Z) : option (list Z) :=
  '(_, a1, b1) <- no_mod_opt a b ;;
  '(q, _) <- long_div a1 b1 ;; Some q.
(** ubigint.hpp:709-721 [mod_with_base], [mod_base]. *)
Definition mod_base (a b : list Z) : option (list Z) :=
  '(_, r) <- long_div a b ;; Some (shrink r).
(** ubigint.hpp:731-749 [divmod_with_base], [divmod_base]. *)
Definition divmod_base (a b : list Z) : option (list Z * list Z) :=
  '(k, _, _) <- no_mod_opt a b ;;
  if Nat.eqb k 0 then
    '(q, r) <- long_div a b ;; Some (q, shrink r)
  else
    '(q, _) <- long_div (skipn k a) (skipn k b) ;;
    p <- fast_mul_thr 64 q b ;;
    r <- sub_base a p ;;
    Some (q, r).

(** ubigint.hpp:881-887 [operator/] for dividends on which [fast_div_base]
    (776-781) takes its first branch, i.e. at most [fast_div_base_threshold]
    (32, line 751) digits after the optimisation; [None] otherwise. *)
Definition udiv (a b : list Z) : option (list Z) :=
  match b with
  | [] => Some []
  | _ =>
      if Nat.ltb (length a) (length b) then Some []
      else
        '(_, a1, b1) <- no_mod_opt a b ;;
        if Nat.leb (length a1) 32 then
          '(q, _) <- long_div a1 b1 ;; Some q
        else None
  end.
(** ubigint.hpp:889-895 [operator%] with 789-790; same restriction. *)
Definition umod (a b : list Z) : option (list Z) :=
  match b with
  | [] => Some []
  | _ =>
      if Nat.ltb (length a) (length b) then Some a
      else if Nat.leb (length a) 32 then mod_base a b else None
  end.
(** ubigint.hpp:897-913 [divmod] with 766-767; same restriction. *)
Definition udivmod (a b : list Z) : option (list Z * list Z) :=
  match b with
  | [] => Some ([], [])
  | _ =>
      if Nat.ltb (length a) (length b) then Some ([], a)
      else if Nat.leb (length a) 32 then divmod_base a b else None
  end.

(** ** Shifts *)

(** ubigint.hpp:956-961 and 1094-1099: in-digit left shift; the final carry is
    pushed only when non-zero. *)
Fixpoint shl_loop (a : list Z) (off carry : Z) : list Z :=
  match a with
  | [] => if carry =? 0 then [] else [carry]
  | x :: r =>
      Z.lor (tr (Z.shiftl x off)) carry
        :: shl_loop r off (Z.shiftr x (w - off))
  end.
(** ubigint.hpp:935-967 [operator<<] and 1074-1103 [operator<<=], unsigned
    count. *)
Definition ushl (a : list Z) (n : Z) : list Z :=
  match a with
  | [] => []
  | _ =>
      let k := Z.to_nat (n / w) in
      let n' := if Nat.eqb k 0 then n else n mod w in
      repeat 0 k ++ (if n' =? 0 then a else shl_loop a n' 0)
  end.
(** ubigint.hpp:916-932 [left_shift_in_base_type]. *)
Definition ushl_digits (a : list Z) (n : nat) : list Z :=
  match a with [] => [] | _ => repeat 0 n ++ a end.
(** ubigint.hpp:970-985 [right_shift_in_base_type]. *)
Definition ushr_digits (a : list Z) (n : nat) : list Z :=
  if Nat.leb (length a) n then [] else skipn n a.
(** ubigint.hpp:1126-1130: in-digit right shift, from the top digit; returns
    the digits and the carry handed to the next lower digit. *)
Fixpoint shr_loop (a : list Z) (off : Z) : list Z * Z :=
  match a with
  | [] => ([], 0)
  | x :: r =>
      let '(r', carry) := shr_loop r off in
      (Z.lor (Z.shiftr x off) carry :: r', tr (Z.shiftl x (w - off)))
  end.
(** ubigint.hpp:1106-1135 [operator>>=], unsigned count. *)
Definition ushr_assign (a : list Z) (n : Z) : list Z :=
  match a with
  | [] => []
  | _ =>
      let k := Z.to_nat (n / w) in
      if Nat.eqb k 0 then
        (if n =? 0 then a else shrink (fst (shr_loop a n)))
      else if Nat.leb (length a) k then []
      else
        let a' := skipn k a in
        let n' := n mod w in
        if n' =? 0 then a' else shrink (fst (shr_loop a' n'))
  end.
(** ubigint.hpp:988-1018 [operator>>] by value, unsigned count.  The loop of
    1007-1011 runs [i] down to 0 although [aret] starts at digit
    [newsize_diff]: for [i < newsize_diff] the index [i-newsize_diff] wraps and
    the write is out of bounds. *)
Definition ushr (a : list Z) (n : Z) : option (list Z) :=
  match a with
  | [] => Some []
  | _ =>
      let k := Z.to_nat (n / w) in
      if Nat.leb (length a) k then Some []
      else
        let n' := if Nat.eqb k 0 then n else n mod w in
        if n' =? 0 then Some (skipn k a)
        else if Nat.eqb k 0 then Some (shrink (fst (shr_loop a n')))
        else None
  end.

(** ** Bit queries *)

(** ubigint.hpp:1209-1214 [bit_at]; [1u] is a 32-bit [unsigned int], shifting it
    by 32 or more is undefined. *)
Definition bit_at (a : list Z) (n : Z) : option bool :=
  let i := Z.to_nat (n / w) in
  if Nat.leb (length a) i then Some false
  else if 32 <=? n mod w then None
  else Some (negb (Z.land (nth i a 0) (Z.shiftl 1 (n mod w)) =? 0)).
(** ubigint.hpp:1193-1207 [countr_zero]; the count within a digit is
    [countr_zero] of H/base_defs/bit.hpp (modelled in Bits_Model). *)
Fixpoint ctz_fuel (f : nat) (x : Z) : Z :=
  match f with
  | O => 0
  | S f' => if Z.odd x then 0 else 1 + ctz_fuel f' (x / 2)
  end.
Fixpoint ucountr_zero (a : list Z) : Z :=
  match a with
  | [] => 0
  | x :: r => if x =? 0 then w + ucountr_zero r else ctz_fuel (Z.to_nat w) x
  end.
(** ubigint.hpp:1216-1220 [get_bitnum]: [size*w - countl_zero(back)]; for a digit
    [x<>0] the leading zero count is [w - 1 - log2 x]. *)
Definition uget_bitnum (a : list Z) : Z :=
  match a with
  | [] => 0
  | _ => Z.of_nat (length a) * w - (w - 1 - Z.log2 (last a 0))
  end.
(** ubigint.hpp:1166-1171 [operator!], [operator bool]. *)
Definition unot (a : list Z) : bool := match shrink a with [] => true | _ => false end.
(** ubigint.hpp:1249-1251 [is_odd]. *)
Definition is_odd (a : list Z) : bool :=
  match a with [] => false | x :: _ => negb (Z.land x 1 =? 0) end.

End UBig.
