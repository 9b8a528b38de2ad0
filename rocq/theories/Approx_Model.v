(** Model of the functions of H/base_defs/math.hpp that approximate to a given ε:
    [sqrt], [invsqrt], [sin], [cos], [arctan], [arccos], [arcsin], [exp], [log], for
    the big types.  Big floats are exact fractions (C56, C57), so they are
    rationals here; counters of type [size_t] are unbounded.  A division by zero
    has no value here ([NoValue]); in the code it makes a fraction with the
    denominator 0. *)
From Verif Require Import Base.
From Coq Require Import QArith Qabs.
Local Open Scope Q_scope.

(** What a call does: returns, divides by zero, or is still running when the fuel
    is used up (H/base_defs/math.hpp:224-472, 1111-1214). *)
Inductive approx (A : Type) := Got (a : A) | NoValue | Running.
Arguments Got {A} a.
Arguments NoValue {A}.
Arguments Running {A}.

(** [next_ret-num] and [abs] of it (H/base_defs/math.hpp:374, 428).  Unsigned
    fractions subtract to 0 when the result would be negative (C56). *)
Definition step_size (signed : bool) (next num : Q) : Q :=
  if signed then Qabs (next - num)
  else if Qle_bool num next then next - num else 0.

(** [sqrt_iteration] (H/base_defs/math.hpp:421-424). *)
Definition sqrt_iteration (num v : Q) : Q := (num + v / num) / 2.
(** [sqrt_to_new_ε] with [ε_saver] (H/base_defs/math.hpp:425-433): the result and
    the new [ε_saver]. *)
Fixpoint sqrt_to_new (signed : bool) (fuel : nat) (num v eps saver : Q) : approx (Q * Q) :=
  match fuel with
  | O => Running
  | S f =>
    if Qle_bool saver eps then Got (num, saver)
    else if Qeq_bool num 0 then NoValue
    else let next := sqrt_iteration num v in
         sqrt_to_new signed f next v eps (step_size signed next num)
  end.
(** [sqrt(v,ε)] (H/base_defs/math.hpp:434-438, 459-465), with
    [BIT_POSSIBILITY] 2; [start] is what [quick_sqrt] gives (439-451). *)
Definition sqrt_eps (signed : bool) (fuel : nat) (start v eps : Q) : approx (Q * Q) :=
  sqrt_to_new signed fuel start v eps (eps * 2).

(** [invsqrt_iteration] (H/base_defs/math.hpp:367-370). *)
Definition invsqrt_iteration (num v : Q) : Q := num * (3 - v * num * num) / 2.
(** [invsqrt_to_new_ε] (H/base_defs/math.hpp:371-379). *)
Fixpoint invsqrt_to_new (fuel : nat) (num v eps saver : Q) : approx (Q * Q) :=
  match fuel with
  | O => Running
  | S f =>
    if Qle_bool saver eps then Got (num, saver)
    else let next := invsqrt_iteration num v in
         invsqrt_to_new f next v eps (step_size true next num)
  end.
(** [quick_invsqrt] without the bit trick (H/base_defs/math.hpp:390); [v] not 0. *)
Definition quick_invsqrt (v : Q) : Q := 2 / v.

(** The loop of [sin] (H/base_defs/math.hpp:1115-1120); [reverse_sign] of a big
    float is its negation (C57). *)
Fixpoint sin_loop (fuel : nat) (base result pw i eps : Q) (negation : bool) : approx Q :=
  match fuel with
  | O => Running
  | S f =>
    if Qle_bool (Qabs base) eps then Got result
    else let base' := base * (pw / ((i + 1) * (i + 2))) in
         let negation' := negb negation in
         sin_loop f base' (result + (if negation' then - base' else base')) pw (i + 2) eps negation'
  end.
(** [sin] (H/base_defs/math.hpp:1111-1122). *)
Definition sin_eps (fuel : nat) (num eps : Q) : approx Q :=
  sin_loop fuel num num (num * num) 1 eps false.
(** [cos] (H/base_defs/math.hpp:1156-1159); [p] is the value of [π_with_ε(ε)]. *)
Definition cos_eps (fuel : nat) (p num eps : Q) : approx Q := sin_eps fuel (p / 2 - num) eps.

(** The loop of [arctan] (H/base_defs/math.hpp:1141-1147). *)
Fixpoint atan_loop (fuel : nat) (numerator result pw i eps : Q) (negation : bool) : approx Q :=
  match fuel with
  | O => Running
  | S f =>
    let numerator' := numerator * pw in
    let negation' := negb negation in
    let sum := numerator' / i in
    let result' := result + (if negation' then - sum else sum) in
    if Qle_bool (Qabs sum) eps then Got result'
    else atan_loop f numerator' result' pw (i + 2) eps negation'
  end.
(** [arctan] of an argument from 0 to 1 (H/base_defs/math.hpp:1138-1148). *)
Definition atan_series (fuel : nat) (num eps : Q) : approx Q :=
  atan_loop fuel num num (num * num) 1 eps false.
(** [arctan] of an argument not negative (H/base_defs/math.hpp:1136-1148). *)
Definition atan_pos (fuel : nat) (p num eps : Q) : approx Q :=
  if Qle_bool num 1 then atan_series fuel num eps
  else match atan_series fuel (/ num) eps with Got r => Got (p / 2 - r) | e => e end.
(** [arctan] (H/base_defs/math.hpp:1128-1149); [p] as in [cos_eps]. *)
Definition atan_eps (fuel : nat) (p num eps : Q) : approx Q :=
  if Qle_bool 0 num then atan_pos fuel p num eps
  else match atan_pos fuel p (Qabs num) eps with Got r => Got (- r) | e => e end.
(** [arccos] (H/base_defs/math.hpp:1200-1203) and [arccot] (1218-1221). *)
Definition acos_eps (fuel : nat) (p num eps : Q) : approx Q :=
  match atan_eps fuel p num eps with Got r => Got (p / 2 - r) | e => e end.
(** [arcsin] (H/base_defs/math.hpp:1209-1212); [start] as in [sqrt_eps]. *)
Definition asin_eps (fuel : nat) (p start num eps : Q) : approx Q :=
  match sqrt_eps true fuel start (1 - num * num) eps with
  | Got (r, _) => if Qeq_bool r 0 then NoValue else atan_eps fuel p (num / (/ r)) eps
  | NoValue => NoValue
  | Running => Running
  end.

(** [is_close] of big types is equality (H/base_defs/math.hpp:203-209); [exp_impl]
    (232-239).  The running time is what matters here: recursion is taken to be
    unbounded. *)
Fixpoint exp_impl (fuel : nat) (x sum n i t : Q) : approx Q :=
  match fuel with
  | O => Running
  | S f =>
    if Qeq_bool n 0 then NoValue
    else let next := sum + t / n in
         if Qeq_bool sum next then Got sum else exp_impl f x next (n * i) (i + 1) (t * x)
  end.
(** [exp] (H/base_defs/math.hpp:224-247). *)
Definition exp_big (fuel : nat) (v : Q) : approx Q := exp_impl fuel v 1 1 2 v.
(** [log_iter] (H/base_defs/math.hpp:259-262). *)
Definition log_iter (fuel : nat) (x y : Q) : approx Q :=
  match exp_big fuel y with
  | Got e => if Qeq_bool (x + e) 0 then NoValue else Got (y + 2 * (x - e) / (x + e))
  | r => r
  end.
(** [log_impl] (H/base_defs/math.hpp:258-264). *)
Fixpoint log_impl (fuel : nat) (x y : Q) : approx Q :=
  match fuel with
  | O => Running
  | S f =>
    match log_iter fuel x y with
    | Got y' => if Qeq_bool y y' then Got y else log_impl f x y'
    | r => r
    end
  end.
(** [log] (H/base_defs/math.hpp:250-271). *)
Definition log_big (fuel : nat) (a : Q) : approx Q := log_impl fuel a 0.
