(** Model of the conversions between integers, fractions and text
    (H/numerical_representation/to_string/_body.hpp and
    H/numerical_representation/representations/comn.hpp).

    Characters are code points (Z).  Strings are lists of characters: that the
    rope behind [string] behaves like a list is the subject of C31, not of this
    module.  A numerical representation is given by its radix and its three
    functions [get_char], [get_index] and [is_valid_char]; the representations
    the library ships are at the end of the file. *)
From Verif Require Import Base UBig_Model BigInt_Model.
Open Scope Z_scope.
Open Scope omonad_scope.

(** comn.hpp:180-210, 230-262: what a representation provides. *)
Record repr : Type := {
  radix : Z;
  get_char : Z -> Z;
  get_index : Z -> Z;
  is_valid_char : Z -> bool
}.

Section Text.
Variable R : repr.

(** ** Unsigned built-in integers *)

(** to_string/_body.hpp:175-187: the do/while loop of [to_string_base] for a
    built-in unsigned type; [acc] is [aret], characters are pushed in front. *)
Fixpoint print_native (fuel : nat) (v : Z) (acc : list Z) : option (list Z) :=
  match fuel with
  | O => None
  | S f =>
      let acc := get_char R (v mod radix R) :: acc in
      if v / radix R =? 0 then Some acc else print_native f (v / radix R) acc
  end.

(** to_string/_body.hpp:644-661: [from_string_get_unsigneded] for a built-in
    unsigned type with [m] possible values.  [None] is "the state reports an
    error"; [aret*=radix] and [aret+=index] wrap. *)
Fixpoint parse_native (m acc : Z) (s : list Z) : option Z :=
  match s with
  | [] => Some acc
  | ch :: r =>
      let acc := (acc * radix R) mod m in
      if is_valid_char R ch then parse_native m ((acc + get_index R ch) mod m) r else None
  end.

(** ** Unsigned big integers *)

(** H/string/defs.hpp:956-959 [pad_left(ch,len)]. *)
Definition pad_left (c : Z) (len : nat) (s : list Z) : list Z :=
  repeat c (len - length s) ++ s.

Section Big.
Variables (w : Z) (nd : nat).
(** [nd] digits make up a [size_t] of [w * nd] bits. *)
Definition size_t_values : Z := 2 ^ (w * Z.of_nat nd).

(** ubigint.hpp:89-107 [is_safe_convert_to<size_t>]: the number of digits (the
    code compares numbers of bytes, both multiples of the digit size), then the
    comparison with the greatest [size_t]. *)
Definition is_safe_size_t (a : list Z) : bool :=
  if Nat.ltb nd (length a) then false
  else match cmp_native w nd a (size_t_values - 1) with Gt => false | _ => true end.

(** to_string/_body.hpp:167-170: doubling the exponent of the split base until
    it has at least a third of the digits of the number. *)
Fixpoint split_base (fuel : nat) (size : nat) (bs : list Z) (len : nat) : option (list Z * nat) :=
  if Nat.ltb (3 * length bs) size then
    match fuel with
    | O => None
    | S f => b2 <- umul w bs bs ;; split_base f size b2 (2 * len)
    end
  else Some (bs, len).

(** to_string/_body.hpp:149-174 [to_string_base] for [ubigint].  [fuel] bounds
    the recursion depth (exhaustion is [None]); 64 steps suffice for the loop of
    the split base and for a [size_t]. *)
Fixpoint print_big (fuel : nat) (a : list Z) : option (list Z) :=
  if is_safe_size_t a then
    print_native (Z.to_nat (w * Z.of_nat nd)) (convert_to w size_t_values a) []
  else
    match fuel with
    | O => None
    | S f =>
        b0 <- of_uint w nd (radix R) ;;
        '(bs, len) <- split_base 64 (length a) b0 1 ;;
        '(hi, lo) <- udivmod w a bs ;;
        h <- print_big f hi ;;
        l <- print_big f lo ;;
        Some (h ++ pad_left (get_char R 0) len l)
    end.

(** to_string/_body.hpp:627-631: the split of the text. *)
Fixpoint split_len (fuel : nat) (size : nat) (bs : list Z) (len : nat) : option (list Z * nat) :=
  if Nat.ltb (3 * len) size then
    match fuel with
    | O => None
    | S f => b2 <- umul w bs bs ;; split_len f size b2 (2 * len)
    end
  else Some (bs, len).

(** to_string/_body.hpp:615-643 [from_string_get_unsigneded<ubigint>].  [thr]
    is [trunc(log(max(size_t),radix))], computed in floating point by the code
    and left open here.  The outer option is definedness, the inner one "the
    state reports an error". *)
Fixpoint parse_big (fuel : nat) (thr : nat) (s : list Z) : option (option (list Z)) :=
  if Nat.ltb thr (length s) then
    match fuel with
    | O => None
    | S f =>
        b0 <- of_uint w nd (radix R) ;;
        '(bs, len) <- split_len (length s) (length s) b0 1 ;;
        let pos := (length s - len)%nat in
        h <- parse_big f thr (firstn pos s) ;;
        match h with
        | None => Some None
        | Some hi =>
            l <- parse_big f thr (skipn pos s) ;;
            match l with
            | None => Some None
            | Some lo => p <- umul w hi bs ;; r <- add_base w p lo ;; Some (Some r)
            end
        end
    end
  else
    match parse_native size_t_values 0 s with
    | None => Some None
    | Some v => r <- of_uint w nd v ;; Some (Some r)
    end.

(** ** Signed big integers *)

(** to_string/_body.hpp:110-121 [to_string] for [bigint]. *)
Definition print_bigint (fuel : nat) (minus : Z) (x : bi) : option (list Z) :=
  s <- print_big fuel (mag x) ;;
  Some (if neg x then minus :: s else s).

(** to_string/_body.hpp:694-706 [from_string_get<bigint>]; [str[0]] of an empty
    string is an access out of bounds.  [copy_as_negative] sets the sign. *)
Definition parse_bigint (fuel thr : nat) (minus plus : Z) (s : list Z) : option (option bi) :=
  match s with
  | [] => None
  | c :: r =>
      let sg := c =? minus in
      u <- parse_big fuel thr (if sg then r else if c =? plus then r else s) ;;
      Some (option_map (fun m => {| mag := m; neg := sg |}) u)
  end.

(** to_string/_body.hpp:694-706 for a built-in signed type with [m] possible
    values: the unsigned value of the same width, negated when the sign says
    so, reinterpreted as signed. *)
Definition wrap_signed (m v : Z) : Z := (v + m / 2) mod m - m / 2.
Definition parse_native_signed (m : Z) (minus plus : Z) (s : list Z) : option (option Z) :=
  match s with
  | [] => None
  | c :: r =>
      let sg := c =? minus in
      Some (option_map (fun u => wrap_signed m (if (sg : bool) then - u else u))
              (parse_native m 0 (if sg then r else if c =? plus then r else s)))
  end.
(** to_string/_body.hpp:110-121 for a built-in signed type: sign and the text of
    the absolute value, which is unsigned. *)
Definition print_native_signed (fuel : nat) (minus v : Z) : option (list Z) :=
  s <- print_native fuel (Z.abs v) [] ;;
  Some (if v <? 0 then minus :: s else s).

(** ** Fractions as expansions with a repeating group *)

(** array_t::find (H/base/container/array/defs.hpp): first index holding an
    equal element. *)
Fixpoint find_rem (x : list Z) (l : list (list Z)) : option nat :=
  match l with
  | [] => None
  | y :: r => if eq_digits y x then Some 0%nat else option_map S (find_rem x r)
  end.

(** The layout of the produced text: characters after the point and, when the
    loop found a repeated remainder, the index where the group opens. *)
Definition layout (open_ close_ : Z) (ds : list Z) (rep : option nat) : list Z :=
  match rep with
  | None => ds
  | Some i => firstn i ds ++ open_ :: skipn i ds ++ [close_]
  end.

(** to_string/_body.hpp:477-489: the loop of [to_string_fractional_base];
    [rems] is [numerator_array] and [out] the characters after the point.  The
    product with the built-in [radix] is modelled as the product with the big
    integer of that value. *)
Fixpoint frac_loop (fuel : nat) (rb den num : list Z) (rems : list (list Z)) (out : list Z)
  : option (list Z * option nat) :=
  match num with
  | [] => Some (out, None)
  | _ =>
      match fuel with
      | O => None
      | S f =>
          n2 <- umul w num rb ;;
          '(q, r) <- udivmod w n2 den ;;
          match find_rem r rems with
          | Some i => Some (out, Some i)
          | None => frac_loop f rb den r (rems ++ [r])
                      (out ++ [get_char R (convert_to w size_t_values q)])
          end
      end
  end.

(** to_string/_body.hpp:465-492 [to_string_fractional_base] for a fraction
    with numerator [num] and denominator [den]; the result is the text of the
    integer part and the layout of the rest. *)
Definition print_fractional (fuel : nat) (point open_ close_ : Z) (num den : list Z) : option (list Z) :=
  match num with
  | [] => Some [get_char R 0]
  | _ =>
      '(q, r) <- udivmod w num den ;;
      i <- print_big fuel q ;;
      rb <- of_uint w nd (radix R) ;;
      '(ds, rep) <- frac_loop fuel rb den r [] [] ;;
      Some (i ++ point :: layout open_ close_ ds rep)
  end.

End Big.
End Text.

(** ** The representations that ship with the library *)

(** comn.hpp:196-210: consecutive characters from [zero]; [char_t] is 32 bits
    wide and [get_index] subtracts in an unsigned type. *)
Definition continuous (zero r : Z) : repr := {|
  radix := r;
  get_char := fun i => (zero + i) mod 2 ^ 32;
  get_index := fun c => (c - zero) mod 2 ^ 64;
  is_valid_char := fun c => (zero <=? c) && (c <? zero + r)
|}.
(** comn.hpp:212-228 *)
Definition decimal : repr := continuous 48 10.
Definition binary : repr := continuous 48 2.
Definition octal : repr := continuous 48 8.
Definition trinary : repr := continuous 48 3.
Definition valanlottish : repr := continuous 40960 1165.

Fixpoint index_of (c : Z) (t : list Z) : option nat :=
  match t with
  | [] => None
  | x :: r => if x =? c then Some 0%nat else option_map S (index_of c r)
  end.
(** comn.hpp:230-262: characters from a table; the index is found by search
    ([npos] when absent). *)
Definition tabled (t : list Z) : repr := {|
  radix := Z.of_nat (length t);
  get_char := fun i => nth (Z.to_nat i) t 0;
  get_index := fun c => match index_of c t with Some i => Z.of_nat i | None => 2 ^ 64 - 1 end;
  is_valid_char := fun c => match index_of c t with Some _ => true | None => false end
|}.
(** comn.hpp:284-289: "0123456789abcdef" and "0123456789ABCDEF". *)
Definition hexadecimal : repr := tabled
  [48;49;50;51;52;53;54;55;56;57;97;98;99;100;101;102].
Definition hexadecimal_upper : repr := tabled
  [48;49;50;51;52;53;54;55;56;57;65;66;67;68;69;70].
