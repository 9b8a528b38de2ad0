(** Model of [max] and [min], H/base_defs/min_max.hpp, and of [compare] on two values,
    H/base_defs/compare.hpp:188-204. *)
From Verif Require Import Base.
Local Open Scope Z_scope.

(** Arguments of one type, compared by a three-way comparison that may find no order ([None]:
    [partial_ordering::unordered]). *)
Section OneType.
Variable A : Type.
Variable cmp : A -> A -> option comparison.
(** min_max.hpp:98-102 [base_call(a,b)]: [v<0?b:a]. *)
Definition max2 (a b : A) : A := match cmp a b with Some Lt => b | _ => a end.
(** min_max.hpp:207-211: [v<0?a:b]. *)
Definition min2 (a b : A) : A := match cmp a b with Some Lt => a | _ => b end.
(** min_max.hpp:103-106, 212-215: the arguments after the first one first. *)
Fixpoint fold_args (op : A -> A -> A) (a : A) (l : list A) : A :=
  match l with [] => a | b :: l' => op a (fold_args op b l') end.
(** min_max.hpp:108-111: [max(v1,v2...)] of at least two arguments ([base_call] of a single one
    is not defined). *)
Definition max_args (a b : A) (l : list A) : A := fold_args max2 a (b :: l).
(** min_max.hpp:217-220. *)
Definition min_args (a b : A) (l : list A) : A := fold_args min2 a (b :: l).
(** min_max.hpp:114-122: the scan of an initializer list; the first element is compared with
    itself.  [None]: [*l.begin()] of an empty list. *)
Fixpoint scan (better : comparison) (best : A) (l : list A) : A :=
  match l with
  | [] => best
  | x :: l' => scan better (match cmp best x with Some c => if match c, better with Lt, Lt | Gt, Gt => true | _, _ => false end then x else best | None => best end) l'
  end.
Definition max_list (l : list A) : option A := match l with [] => None | a :: _ => Some (scan Lt a l) end.
(** min_max.hpp:223-231. *)
Definition min_list (l : list A) : option A := match l with [] => None | a :: _ => Some (scan Gt a l) end.
End OneType.

(** Arguments of different integer types.  A type is its signedness and its width; a value
    has a type and a number. *)
Record ity := { sgn : bool; bits : Z }.
Record ival := { vty : ity; num : Z }.
(** C++ [expr.arith.conv]: integral promotion, then the common type.  Types of one width and
    different rank are one type here. *)
Definition promote (t : ity) : ity := if bits t <? 32 then {| sgn := true; bits := 32 |} else t.
Definition common (t u : ity) : ity :=
  let t := promote t in let u := promote u in
  if Bool.eqb (sgn t) (sgn u) then {| sgn := sgn t; bits := Z.max (bits t) (bits u) |}
  else let s := if sgn t then t else u in let n := if sgn t then u else t in
    if bits s <=? bits n then n else s.
(** C++ [conv.integral]. *)
Definition conv (t : ity) (z : Z) : Z :=
  let r := z mod 2 ^ bits t in
  if sgn t && (2 ^ (bits t - 1) <=? r) then r - 2 ^ bits t else r.
(** compare.hpp:170-171 [r_able]: [<=>] on integers is ill-formed when the conversion to the
    common type narrows ([dcl.init.list]): from a signed to an unsigned type. *)
Definition r_able (t u : ity) : bool :=
  let c := common t u in negb ((sgn (promote t) || sgn (promote u)) && negb (sgn c)).
(** compare.hpp:190-199 [base_call]; [None] is unordered. *)
Definition compare_ints (a b : ival) : option comparison :=
  let c := common (vty a) (vty b) in
  let x := conv c (num a) in let y := conv c (num b) in
  if r_able (vty a) (vty b) then Some (x ?= y)
  else if x =? y then Some Eq else if x <? y then Some Lt else if y <? x then Some Gt else None.
(** C++ [expr.cond]: two operands of one type keep it, others are converted to the common one. *)
Definition cond_type (t u : ity) : ity :=
  if Bool.eqb (sgn t) (sgn u) && (bits t =? bits u) then t else common t u.
Definition choose (first : bool) (a b : ival) : ival :=
  let c := cond_type (vty a) (vty b) in
  {| vty := c; num := conv c (num (if first then a else b)) |}.
(** min_max.hpp:98-102, 207-211 with different types. *)
Definition imax2 (a b : ival) : ival := choose (match compare_ints a b with Some Lt => false | _ => true end) a b.
Definition imin2 (a b : ival) : ival := choose (match compare_ints a b with Some Lt => true | _ => false end) a b.
(** min_max.hpp:103-111, 212-220. *)
Definition imax_args (a b : ival) (l : list ival) : ival := fold_args imax2 a (b :: l).
Definition imin_args (a b : ival) (l : list ival) : ival := fold_args imin2 a (b :: l).
(** min_max.hpp:123-126, 232-235 [for_type<T>(v1,v2...)]: every argument converted to [T]
    first; on values of one integer type [compare] is the order of the numbers. *)
Definition to_type (t : ity) (v : ival) : Z := conv t (num v).
Definition max_for (t : ity) (a b : ival) (l : list ival) : Z :=
  max_args (fun x y => Some (x ?= y)) (to_type t a) (to_type t b) (map (to_type t) l).
Definition min_for (t : ity) (a b : ival) (l : list ival) : Z :=
  min_args (fun x y => Some (x ?= y)) (to_type t a) (to_type t b) (map (to_type t) l).
