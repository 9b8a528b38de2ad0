(** Copy-on-write handles as independent values (C36). *)
From Verif Require Import Base Ref_Model Cow_Model.
Local Open Scope nat_scope.

Section Spec.
Variable T : Type.
Variable def : T.
Variable eqb : T -> T -> bool.

(** Variables with values of their own. *)
Notation vals := (list (option T)).
Definition val (l : vals) (i : nat) : option T := match nth_error l i with Some (Some v) => Some v | _ => None end.

Definition clegal (l : vals) (o : cop T) : Prop :=
  match o with
  | CNew => True
  | CNewFrom _ => False
  | CCopy i | CRead i | CDrop i => val l i <> None
  | CAssign i j | CSwap i j | CEq i j => val l i <> None /\ val l j <> None
  | CUpdate i _ => val l i <> None
  end.

(** The effect on the values.  [==] does not change any value. *)
Definition s_op (l : vals) (o : cop T) : vals * cans T :=
  match o with
  | CNew => (l ++ [Some def], ANone T)
  | CNewFrom v => (l ++ [Some v], ANone T)
  | CCopy i => (l ++ [val l i], ANone T)
  | CAssign i j => (upd l i (val l j), ANone T)
  | CSwap i j => (upd (upd l i (val l j)) j (val l i), ANone T)
  | CUpdate i f => (upd l i (option_map f (val l i)), ANone T)
  | CEq i j => (l, ABool T (match val l i, val l j with Some v, Some w => eqb v w | _, _ => false end))
  | CRead i => (l, match val l i with Some v => AVal v | None => ANone T end)
  | CDrop i => (upd l i None, ANone T)
  end.
Fixpoint s_run (l : vals) (os : list (cop T)) : vals * list (cans T) :=
  match os with
  | [] => (l, [])
  | o :: r => let '(l1, a) := s_op l o in let '(l2, q) := s_run l1 r in (l2, a :: q)
  end.
Fixpoint clegal_run (l : vals) (os : list (cop T)) : Prop :=
  match os with
  | [] => True
  | o :: r => clegal l o /\ clegal_run (fst (s_op l o)) r
  end.

(** The value seen through a handle of the implementation. *)
Definition seen (s : cow T) (i : nat) : option T :=
  match blk_of s i with
  | Some o => match getB (bl s) o with Some (_, v) => Some v | None => None end
  | None => None
  end.

(** The handle an operation is applied to; the handles it may change. *)
Definition target (o : cop T) (i : nat) : Prop :=
  match o with
  | CAssign k _ | CEq k _ | CDrop k => i = k
  | CUpdate k _ => i = k
  | CSwap k m => i = k \/ i = m
  | _ => False
  end.
(** The handles an operation uses. *)
Definition mentions (o : cop T) (i : nat) : Prop :=
  match o with
  | CNew | CNewFrom _ => False
  | CCopy k | CRead k | CDrop k => i = k
  | CUpdate k _ => i = k
  | CAssign k m | CSwap k m | CEq k m => i = k \/ i = m
  end.
End Spec.
