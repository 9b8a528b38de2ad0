(** Model of the loops [for times(n) ...]
    (H/base_defs/other.hpp:95-118, the macro in S/_defs.hpp:144).
    Simplifications: integer types only; the body is any function of what it works
    on, the two numbers it is given and whether it ends the loop; a body that does
    not end, throws or returns from the function around it is left out. *)
From Verif Require Import Base.
Local Open Scope Z_scope.

(** The type of the number (language semantics): unsigned; signed and narrower than
    [int], where a number that does not fit wraps when it is stored; other signed
    types, where overflow is undefined. *)
Inductive tkind := KUnsigned | KNarrow | KSigned.
(** [times_provider_t] (H/base_defs/other.hpp:96-99): [loop_times] and
    [loop_end_value]. *)
Record provider := mkP { loop_times : Z; loop_end : Z }.
(** A result; undefined; not finished in the given number of turns. *)
Inductive tres (A : Type) := TOk (a : A) | TUb | TOut.
Arguments TOk {A}. Arguments TUb {A}. Arguments TOut {A}.

Section Type_.
Variable k : tkind.
Variable w : Z.
(** [++_m->loop_times] (H/base_defs/other.hpp:102-105). *)
Definition next (t : Z) : option Z :=
  match k with
  | KUnsigned => Some ((t + 1) mod 2 ^ w)
  | KNarrow => Some (if t + 1 =? 2 ^ (w - 1) then - 2 ^ (w - 1) else t + 1)
  | KSigned => if t + 1 =? 2 ^ (w - 1) then None else Some (t + 1)
  end.

Variable St : Type.
Variable body : St -> Z -> Z -> St * bool.
(** The loop over a provider (language semantics of the range-based [for] with
    [begin], [end], [*] and [==], H/base_defs/other.hpp:106-116); the body gets
    copies of the two numbers ([auto [loop_times,loop_end_value]], S/_defs.hpp:144). *)
Fixpoint loop (fuel : nat) (p : provider) (st : St) : tres (provider * St) :=
  if loop_times p =? loop_end p then TOk (p, st)
  else match fuel with
       | O => TOut
       | S fuel' =>
         let '(st1, go) := body st (loop_times p) (loop_end p) in
         if go then match next (loop_times p) with
                    | None => TUb
                    | Some t => loop fuel' (mkP t (loop_end p)) st1
                    end
         else TOk (p, st1)
       end.
(** [times(n)] (H/base_defs/other.hpp:117). *)
Definition times (fuel : nat) (n : Z) (st : St) : tres (provider * St) := loop fuel (mkP 0 n) st.
End Type_.
