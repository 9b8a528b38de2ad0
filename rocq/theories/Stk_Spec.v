(** What programs on stacks should do: a stack is a list, its top the first. *)
From Verif Require Import Base Stk_Model.

Section Lists.
Variable T : Type.
Variable eqb : T -> T -> bool.
(** The first element with a property, and the others. *)
Fixpoint first_out (p : T -> bool) (l : list T) : option (T * list T) :=
  match l with
  | [] => None
  | d :: r => if p d then Some (d, r) else match first_out p r with Some (e, q) => Some (e, d :: q) | None => None end
  end.
(** Changing one list. *)
Definition with_list (f : nat -> list T) (i : nat) (l : list T) : nat -> list T :=
  fun j => if Nat.eqb j i then l else f j.
(** One operation on lists; no answer where there is no top to move. *)
Definition on_lists (f : nat -> list T) (o : kop T) : option ((nat -> list T) * kans T) :=
  match o with
  | KAdd i x => Some (with_list f i (x :: f i), ANothing)
  | KRemove i x =>
    match first_out (eqb x) (f i) with Some (_, r) => Some (with_list f i r, AYes true) | None => Some (f, AYes false) end
  | KFind i x => Some (f, AElem (option_map fst (first_out (fun d => eqb d x) (f i))))
  | KAuto i x =>
    match first_out (fun d => eqb d x) (f i) with
    | Some (d, r) => Some (with_list f i (d :: r), AElem (Some d))
    | None => Some (f, AElem None)
    end
  | KVisit i => Some (f, AAll (f i))
  | KSize i => Some (f, ANumber (Z.of_nat (length (f i))))
  | KEmpty i => Some (f, AYes (match f i with [] => true | _ => false end))
  | KClear i => Some (with_list f i [], ANothing)
  | KCopy i j => Some (with_list f j (f i), ANothing)
  | KSwap i j => Some (with_list (with_list f i (f j)) j (f i), ANothing)
  | KTop i j =>
    match f i with
    | [] => None
    | x :: r => let g := with_list f i r in Some (with_list g j (x :: g j), ANothing)
    end
  end.
Fixpoint on_lists_all (f : nat -> list T) (os : list (kop T)) : option ((nat -> list T) * list (kans T)) :=
  match os with
  | [] => Some (f, [])
  | o :: r =>
    match on_lists f o with
    | None => None
    | Some (g, a) => match on_lists_all g r with None => None | Some (k, l) => Some (k, a :: l) end
    end
  end.
(** The stacks a program puts something on. *)
Definition fills (o : kop T) : list nat :=
  match o with KAdd i _ => [i] | KCopy _ j => [j] | KSwap i j => [i; j] | KTop _ j => [j] | _ => [] end.
End Lists.
