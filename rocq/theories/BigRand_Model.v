(** Model of the random big integers of H/random/defs.hpp. *)
From Verif Require Import Base UBig_Model.
Local Open Scope Z_scope.

(** Outcome of a draw: a value, an undefined shift, or still rejecting when the fuel
    of the model runs out. *)
Inductive drawn (A : Type) : Type := Got (a : A) | Undefined | Running.
Arguments Got {A} a.
Arguments Undefined {A}.
Arguments Running {A}.

Section Draw.
  (** Bits of a digit of the big integer. *)
  Variable w : Z.
  (** Successive results of [gen_randbit<base_type>()]: any digits. *)
  Variable raw : nat -> Z.
  (** random/defs.hpp:227-228 [gen_randbit<T>()&((T{1}<<bitnum)-1)] for the digit type:
      shifting by the width is undefined, except on types narrower than [int]
      (32 bits), which are promoted. *)
  Definition top_digit (i : nat) (bitnum : Z) : drawn Z :=
    if bitnum <? Z.max 32 w then Got (Z.land (raw i) (2 ^ bitnum - 1)) else Undefined.
  (** random/defs.hpp:215-226 [gen_randbit_with_bitnum<ubigint>]: whole digits while more
      bits than a digit remain, then the last one; ubigint.hpp:135-137
      [apply_basetype_to_head] appends a digit, 138-140 [end_apply_basetypes] drops the
      high zero digits.  Simplification: the draws are indexed by [i]; the fuel is the
      number of bits, which each round lowers by [w]. *)
  Fixpoint draw_digits (f i : nat) (bitnum : Z) (acc : list Z) : drawn (list Z * nat) :=
    match f with
    | O => Running
    | S f' =>
        if w <? bitnum then draw_digits f' (S i) (bitnum - w) (acc ++ [raw i])
        else match top_digit i bitnum with
             | Got d => Got (shrink (acc ++ [d]), S i)
             | Undefined => Undefined
             | Running => Running
             end
    end.
  (** random/defs.hpp:215-226: the same from an empty number. *)
  Definition draw (i : nat) (bitnum : Z) : drawn (list Z * nat) :=
    draw_digits (S (Z.to_nat bitnum)) i bitnum [].
  (** random/defs.hpp:298-307: the rejection loops of [exclusive] and [inclusive]. *)
  Fixpoint reject_big (f i : nat) (excl : bool) (bitnum : Z) (diff : list Z) : drawn (list Z) :=
    match f with
    | O => Running
    | S f' =>
        match draw i bitnum with
        | Got (x, i') =>
            if (match ucompare x diff with Lt => false | Eq => excl | Gt => true end)
            then reject_big f' i' excl bitnum diff
            else Got x
        | Undefined => Undefined
        | Running => Running
        end
    end.
  (** random/defs.hpp:285-308, 325-332 [between(a,b)] for [ubigint]: the bounds are
      ordered, the difference and its bit length are taken once, a drawn difference is
      added to the lower bound. *)
  Definition between_big (f : nat) (excl : bool) (a b : list Z) : drawn (list Z) :=
    let lo := match ucompare b a with Gt => a | _ => b end in
    let hi := match ucompare b a with Gt => b | _ => a end in
    match usub w hi lo with
    | None => Undefined
    | Some diff =>
        match reject_big f 0 excl (uget_bitnum w diff) diff with
        | Got x => match add_base w lo x with Some r => Got r | None => Undefined end
        | Undefined => Undefined
        | Running => Running
        end
    end.
End Draw.
