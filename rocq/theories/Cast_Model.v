(** Model of conversions and roundings of native numbers in H/base_defs/math.hpp:
    [safe_arithmetic_cast], the compile-time versions of [trunc], [ceil] and
    [floor], [copy_as_negative], [reverse_sign], [sub].

    A floating-point number is the integer that has its bits (Float_Model);
    arithmetic is IEEE 754 in the format of the type, rounding to nearest
    (FloatBig_Model).  [None] is undefined behaviour (during constant evaluation
    it is a compile error). *)
From Verif Require Import Base Float_Model Float_Spec FloatBig_Model FloatBig_Spec.
From Coq Require Import QArith Qround Qabs.
From Verif Require Import MinMax_Model.
Local Open Scope Z_scope.
Local Open Scope omonad_scope.

Section Cast.
Variable f : fmt.
(** Width of intmax_t and uintmax_t (H/base_defs/math.hpp:103-106). *)
Variable sw : Z.

(** C++ [conv.fpint], behind the casts in H/base_defs/math.hpp:103-110: the fraction is
    dropped; undefined if the rest is not a number from [lo] to [hi]. *)
Definition drop_fraction (lo hi : Z) (x : Q) : option Z :=
  let z := if Qle_bool 0 x then Qfloor x else - Qfloor (- x)%Q in
  if (lo <=? z) && (z <=? hi) then Some z else None.
(** The same of a floating-point number: not-a-number and infinities are undefined
    (C++ [conv.fpint]; H/base_defs/math.hpp:103-110). *)
Definition float_to_int (lo hi d : Z) : option Z :=
  if special f d then None else drop_fraction lo hi (fsigned f d).

(** [safe_arithmetic_cast<T>(x)], T unsigned of [n] bits, x floating-point
    (H/base_defs/math.hpp:100-108). *)
Definition cast_unsigned (n d : Z) : option Z :=
  if is_negative f d then z <- float_to_int (- 2 ^ (sw - 1)) (2 ^ (sw - 1) - 1) d ;; Some (z mod 2 ^ n)
  else z <- float_to_int 0 (2 ^ sw - 1) d ;; Some (z mod 2 ^ n).
(** The same for T signed (H/base_defs/math.hpp:109-110). *)
Definition cast_signed (n d : Z) : option Z := float_to_int (- 2 ^ (n - 1)) (2 ^ (n - 1) - 1) d.

(** Rounding of a number of either sign (language semantics of the arithmetic in
    H/base_defs/math.hpp:331-358). *)
Definition rs (x : Q) : Q := if Qle_bool 0 x then rv f x else (- rv f (- x))%Q.
(** Compile-time [trunc] (H/base_defs/math.hpp:329-333). *)
Definition const_trunc (d : Z) : option Q :=
  z <- float_to_int (- 2 ^ (sw - 1)) (2 ^ (sw - 1) - 1) d ;; Some (rs (inject_Z z)).
(** [to_uintmax_t] of a number not negative (H/base_defs/math.hpp:119-121). *)
Definition to_uintmax (x : Q) : option Z := drop_fraction 0 (2 ^ sw - 1) x.
(** Compile-time [ceil] (H/base_defs/math.hpp:341-346); the sign of a zero is not
    modelled. *)
Definition const_ceil (d : Z) : option Q :=
  if special f d then None else
  let v := fsigned f d in
  if is_negative f d then z <- to_uintmax (- v) ;; Some (- rs (inject_Z z))%Q
  else z <- to_uintmax v ;;
       let y := rs (inject_Z z) in
       Some (if is_close f v y then y else rs (y + 1)).
(** Compile-time [floor] (H/base_defs/math.hpp:354-359). *)
Definition const_floor (d : Z) : option Q :=
  if special f d then None else
  let v := fsigned f d in
  if is_negative f d then z <- to_uintmax (rs (- v + 1)) ;; Some (- rs (inject_Z z))%Q
  else z <- to_uintmax v ;;
       let y := rs (inject_Z z) in
       Some (if is_close f v y then y else rs (y - 1)).
End Cast.

(** Integers: a type is its signedness and its width (MinMax_Model).  [a-b] in the
    common type; signed overflow is undefined (C++ [expr.add], [expr.pre]). *)
Definition minus_in (t u : ity) (a b : Z) : option ival :=
  let c := common t u in
  let r := conv c a - conv c b in
  if sgn c then if conv c r =? r then Some {| vty := c; num := r |} else None
  else Some {| vty := c; num := conv c r |}.
(** [copy_as_negative] of a native integer (H/base_defs/math.hpp:68-81).  The cast in
    [(T)negative?T{}-x:x] belongs to [negative] only; T is the signed type of the
    same width. *)
Definition copy_as_negative (x : ival) (negative : bool) : option ival :=
  let s := {| sgn := true; bits := bits (vty x) |} in
  let c := cond_type (common s (vty x)) (vty x) in
  if negative then r <- minus_in s (vty x) 0 (num x) ;; Some {| vty := c; num := conv c (num r) |}
  else Some {| vty := c; num := conv c (num x) |}.
(** [is_negative] of a native integer (H/base_defs/math.hpp:57-65). *)
Definition int_negative (x : ival) : bool := sgn (vty x) && (num x <? 0).
(** [reverse_sign] (H/base_defs/math.hpp:84-87). *)
Definition reverse_sign (x : ival) : option ival := copy_as_negative x (negb (int_negative x)).
(** [sub] of native integers (H/base_defs/math.hpp:211-221); [signed char] has 8 bits. *)
Definition sub_ints (a b : ival) : option ival :=
  let s := {| sgn := true; bits := bits (cond_type (cond_type (vty a) (vty b)) {| sgn := true; bits := 8 |}) |} in
  minus_in s s (conv s (num a)) (conv s (num b)).
