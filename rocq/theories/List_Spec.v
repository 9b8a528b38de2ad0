(** The intrusive list as a sequence of its elements (C58). *)
From Verif Require Import Base List_Model.
Local Open Scope nat_scope.

(** Elements in the list in the order of insertion; elements that exist but
    are in no list; the number the next element gets. *)
Record lst := mkLst { inl : list nat; outl : list nat; fresh : nat }.
Definition lst0 : lst := mkLst [] [] 2.

Definition rem (x : nat) (l : list nat) : list nat := filter (fun y => negb (Nat.eqb y x)) l.

(** Only elements in no list may be added, only elements in the list be
    destroyed. *)
Definition llegal (s : lst) (o : lop) : Prop :=
  match o with
  | LAdd x => In x (outl s)
  | LDel x => In x (inl s)
  | _ => True
  end.
Definition ls_op (s : lst) (o : lop) : lst * list nat :=
  match o with
  | LNew => (mkLst (inl s) (fresh s :: outl s) (S (fresh s)), [fresh s])
  | LAdd x => (mkLst (inl s ++ [x]) (rem x (outl s)) (fresh s), [])
  | LDel x => (mkLst (rem x (inl s)) (outl s) (fresh s), [])
  | LFwd => (s, inl s)
  | LBack => (s, rev (inl s))
  | LSweep p => (mkLst (filter (fun x => negb (p x)) (inl s)) (outl s) (fresh s), inl s)
  end.
Fixpoint ls_run (s : lst) (os : list lop) : lst * list (list nat) :=
  match os with
  | [] => (s, [])
  | o :: r => let '(s1, a) := ls_op s o in let '(s2, l) := ls_run s1 r in (s2, a :: l)
  end.
Fixpoint llegal_run (s : lst) (os : list lop) : Prop :=
  match os with
  | [] => True
  | o :: r => llegal s o /\ llegal_run (fst (ls_op s o)) r
  end.
