(** Control flow as a machine with a stack, independently of the evaluation by
    recursion and exceptions. *)
From Verif Require Import Base Ctl_Model.

(** The lists being executed, innermost first: the cell to execute next (none: the
    list is over) and the value of the last statement. *)
Definition frame := (option nat * option Z)%type.
Inductive machine :=
| Run (stack : list frame) (tr : list Z)
| Stop (v : option Z) (tr : list Z)
| Broken (x : Z) (tr : list Z).

Inductive step (P : prog) : machine -> machine -> Prop :=
| S_do c e nx v k tr : nth_error P c = Some (Do e, nx) ->
    step P (Run ((Some c, v) :: k) tr) (Run ((nx, Some e) :: k) (tr ++ [e]))
| S_return c nx v k tr : nth_error P c = Some (Ret, nx) ->
    step P (Run ((Some c, v) :: k) tr) (Run ((None, v) :: k) tr)
| S_jump c a nx v k tr : nth_error P c = Some (Jump a, nx) ->
    step P (Run ((Some c, v) :: k) tr) (Run ((Some a, v) :: k) tr)
| S_raise c x nx v k tr : nth_error P c = Some (Raise x, nx) ->
    step P (Run ((Some c, v) :: k) tr) (Broken x tr)
| S_enter c a nx v k tr : nth_error P c = Some (Sub a, nx) ->
    step P (Run ((Some c, v) :: k) tr) (Run ((Some a, None) :: (nx, v) :: k) tr)
| S_leave v c w k tr :
    step P (Run ((None, v) :: (c, w) :: k) tr) (Run ((c, v) :: k) tr)
| S_end v tr : step P (Run [(None, v)] tr) (Stop v tr).

(** Any number of steps. *)
Inductive steps (P : prog) : nat -> machine -> machine -> Prop :=
| S_none m : steps P 0 m m
| S_more n m m1 m2 : step P m m1 -> steps P n m1 m2 -> steps P (S n) m m2.

(** [line P c es last]: from the cell [c] the statements [es] stand one after the
    other; [last] is the cell behind them. *)
Fixpoint line (P : prog) (c : option nat) (es : list Z) (last : option nat) : Prop :=
  match es with
  | [] => c = last
  | e :: es' => exists a nx, c = Some a /\ nth_error P a = Some (Do e, nx) /\ line P nx es' last
  end.
