(** Model of [exp], [log] and [pow] of built-in numbers during constant evaluation
    (H/base_defs/math.hpp:203-209, 224-270, 298-309).  The type computed with is double:
    std::exp, std::log and std::pow of integers have this type.

    A number is its significand and its exponent, m*2^e.
    Simplification: the range of the exponent of double is not modelled (no number that
    is reached in the cases shown leaves it); infinities, not-a-number and the sign of a
    zero are left out. *)
From Verif Require Import Base.
Local Open Scope Z_scope.
Local Open Scope omonad_scope.

Definition flt : Type := (Z * Z)%type.

(** Rounding to the 53 bits of double, to nearest, ties to even (language semantics of
    the arithmetic in H/base_defs/math.hpp:235-262). *)
Definition rnd (m e : Z) : flt :=
  let k := Z.log2 (Z.abs m) - 52 in
  if k <=? 0 then (m, e) else
  let q := Z.shiftr m k in
  (match m - Z.shiftl q k ?= Z.shiftl 1 (k - 1) with
   | Lt => q
   | Eq => if Z.even q then q else q + 1
   | Gt => q + 1 end, e + k).
(** [a+b], [a-b] (H/base_defs/math.hpp:235, 262). *)
Definition fadd (a b : flt) : flt :=
  let e := Z.min (snd a) (snd b) in
  rnd (Z.shiftl (fst a) (snd a - e) + Z.shiftl (fst b) (snd b - e)) e.
Definition fsub (a b : flt) : flt := fadd a (- fst b, snd b).
(** [a*b] (H/base_defs/math.hpp:239, 262, 304). *)
Definition fmul (a b : flt) : flt := rnd (fst a * fst b) (snd a + snd b).
(** [a/b], b not zero (H/base_defs/math.hpp:235, 262): the quotient to more bits than
    needed; one bit behind them says whether there is a rest. *)
Definition fdiv (a b : flt) : flt :=
  let s := 55 + Z.log2 (Z.abs (fst b)) in
  let (q, r) := Z.div_eucl (Z.shiftl (fst a) s) (fst b) in
  if r =? 0 then rnd q (snd a - snd b - s)
  else rnd (2 * q + 1) (snd a - snd b - s - 1).
(** An integer as a double ([RT{1u}], [(RT)a], [n*i], [b*log(a)];
    H/base_defs/math.hpp:242, 239, 268, 304). *)
Definition of_int (n : Z) : flt := rnd n 0.
(** [a<=b] (H/base_defs/math.hpp:206). *)
Definition fle (a b : flt) : bool :=
  let e := Z.min (snd a) (snd b) in
  Z.shiftl (fst a) (snd a - e) <=? Z.shiftl (fst b) (snd b - e).
(** [is_close]: epsilon of double is 2^-52 (H/base_defs/math.hpp:203-209). *)
Definition is_close (a b : flt) : bool :=
  let d := fsub a b in fle (Z.abs (fst d), snd d) (1, -52).

(** [exp_impl] (H/base_defs/math.hpp:234-240); [None]: not ended after [f] calls. *)
Fixpoint exp_loop (f : nat) (x sum n : flt) (i : Z) (t : flt) : option flt :=
  match f with
  | O => None
  | S f' =>
    let e := fadd sum (fdiv t n) in
    if is_close sum e then Some sum
    else exp_loop f' x e (fmul n (of_int i)) (i + 1) (fmul t x)
  end.
(** [exp] (H/base_defs/math.hpp:227-243).  Compilers limit the depth of the recursion
    to 512 by default; more calls than that are [None]. *)
Definition exp (x : flt) : option flt := exp_loop 512 x (of_int 1) (of_int 1) 2 x.

(** What [log] does: a value, still running, or stopped because [exp] did not end
    (H/base_defs/math.hpp:251-268). *)
Inductive run := Value (y : flt) | Running | No_exp.
(** [log_iter] (H/base_defs/math.hpp:260-263). *)
Definition log_iter (x y : flt) : option flt :=
  exp_y <- exp y ;;
  Some (fadd y (fdiv (fmul (of_int 2) (fsub x exp_y)) (fadd x exp_y))).
(** [log_impl] (H/base_defs/math.hpp:259-266). *)
Fixpoint log_loop (f : nat) (x y : flt) : run :=
  match f with
  | O => Running
  | S f' =>
    match log_iter x y with
    | None => No_exp
    | Some y' => if is_close y y' then Value y else log_loop f' x y'
    end
  end.
(** [log] of an integer (H/base_defs/math.hpp:251-268). *)
Definition log (f : nat) (a : Z) : run := log_loop f (of_int a) (of_int 0).

(** [pow] of integers (H/base_defs/math.hpp:301-305). *)
Definition pow (f : nat) (a b : Z) : option flt :=
  match log f a with Value l => exp (fmul (of_int b) l) | _ => None end.
(** [size_t(x)] of a number that is not negative
    (H/random/defs.hpp:121, H/string/string_data_t/same_value_compress_string_data_t.hpp:56,
    H/memory_stream/memory_stream.hpp:32). *)
Definition to_size (x : flt) : Z := Z.shiftl (fst x) (snd x).
Definition size_pow (f : nat) (a b : Z) : option Z := r <- pow f a b ;; Some (to_size r).
