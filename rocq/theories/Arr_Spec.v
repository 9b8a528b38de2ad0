(** Specification of arrays: finite sequences.  Nothing here mentions blocks or
    pointers.  An element is [Some x], or [None] when its value is
    indeterminate (trivially constructible types are left uninitialised). *)
From Verif Require Import Base Arr_Model.
Local Open Scope nat_scope.

Section ArrSpec.
Variable T : Type.
(** Whether default construction does nothing, the default value, equality. *)
Variable tc : bool.
Variable def : T.
Variable eqb : T -> T -> bool.

Definition seqv := list (option T).
(** The value of a default-constructed element. *)
Definition dv : option T := if tc then None else Some def.
Definition store_t := nat -> seqv.
Definition store0 : store_t := fun _ => [].
Definition put (m : store_t) (i : nat) (l : seqv) : store_t := fun x => if Nat.eqb x i then l else m x.
Definition known (vs : list T) : seqv := map (@Some T) vs.

(** What every operation does to the sequences. *)
Definition effect (m : store_t) (o : aop T) : store_t :=
  match o with
  | ANew i n => put m i (repeat dv n)
  | AOf i vs => put m i (known vs)
  | ACopy i j => put m i (m j)
  | ASwap i j => put (put m i (m j)) j (m i)
  | AClear i => put m i []
  | AResize i n => put m i (firstn n (m i) ++ repeat dv (n - length (m i)))
  | AFResize i n => put m i (repeat dv (n - length (m i)) ++ skipn (length (m i) - n) (m i))
  | AInsertD i pos n => put m i (firstn pos (m i) ++ repeat dv n ++ skipn pos (m i))
  | AInsert i pos vs => put m i (firstn pos (m i) ++ known vs ++ skipn pos (m i))
  | AInsertR i pos vs to =>
      put m i (firstn pos (m i) ++ known vs ++ skipn pos (m i) ++ repeat dv (to - (length (m i) + length vs)))
  | AFInsertR i pos vs to =>
      put m i (repeat dv (to - (length (m i) + length vs)) ++ firstn pos (m i) ++ known vs ++ skipn pos (m i))
  | AInsertU i pos vs to used =>
      put m i (firstn pos (m i) ++ known vs ++ firstn (used - pos) (skipn pos (m i)) ++
               repeat None (to - (used + length vs)))
  | AFInsertU i pos vs to used =>
      put m i (repeat None (to - (used + length vs)) ++
               firstn (pos - (length (m i) - used)) (skipn (length (m i) - used) (m i)) ++ known vs ++ skipn pos (m i))
  | APush i x => put m i (m i ++ [Some x])
  | ASet i k x => put m i (firstn k (m i) ++ Some x :: skipn (S k) (m i))
  | ASize _ | AGet _ _ | AFind _ _ => m
  end.

(** The first position of an element equal to [x]. *)
Definition first_at (l : seqv) (x : T) (k : nat) : Prop :=
  (exists y, nth_error l k = Some (Some y) /\ eqb y x = true) /\
  forall j y, j < k -> nth_error l j = Some (Some y) -> eqb y x = false.

(** What every operation answers. *)
Definition answer_ok (m : store_t) (o : aop T) (a : aans T) : Prop :=
  match o with
  | ASize i => a = RSize T (length (m i))
  | AGet i k => exists x, nth_error (m i) k = Some (Some x) /\ a = RElem x
  | AFind i x => (exists k, a = RPos T (Some k) /\ first_at (m i) x k) \/
                 (a = RPos T None /\ forall k y, nth_error (m i) k = Some (Some y) -> eqb y x = false)
  | _ => a = RNone T
  end.

(** The callers' obligations: positions inside the array, new sizes large
    enough, no use of elements that were never given a value; the operations
    that are told how much of the array is in use need a type without
    constructor, and inserting at the front with a new size needs something to
    insert. *)
Definition legal (m : store_t) (o : aop T) : Prop :=
  match o with
  | AInsertD i pos _ => pos <= length (m i)
  | AInsert i pos _ => pos <= length (m i)
  | AInsertR i pos vs to => pos <= length (m i) /\ length (m i) + length vs <= to
  | AFInsertR i pos vs to => vs <> [] /\ pos <= length (m i) /\ length (m i) + length vs <= to
  | AInsertU i pos vs to used =>
      tc = true /\ pos <= used <= length (m i) /\ used + length vs <= to
  | AFInsertU i pos vs to used =>
      tc = true /\ vs <> [] /\ used <= length (m i) <= to /\ used + length vs <= to /\
      length (m i) - used <= pos <= length (m i)
  | AGet i k => exists x, nth_error (m i) k = Some (Some x)
  | ASet i k _ => k < length (m i)
  | AFind i _ => ~ In None (m i)
  | _ => True
  end.

(** A history all of whose operations are legal. *)
Fixpoint legal_run (m : store_t) (os : list (aop T)) : Prop :=
  match os with [] => True | o :: r => legal m o /\ legal_run (effect m o) r end.

Fixpoint answers_ok (m : store_t) (os : list (aop T)) (l : list (aans T)) : Prop :=
  match os, l with
  | [], [] => True
  | o :: os', a :: l' => answer_ok m o a /\ answers_ok (effect m o) os' l'
  | _, _ => False
  end.

(** The sequences after a history. *)
Definition final (os : list (aop T)) : store_t := fold_left effect os store0.
End ArrSpec.
