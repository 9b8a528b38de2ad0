(** Property theorems C113: stacks. *)
From Verif Require Import Base Table_Model Stk_Model Stk_Spec Stk_Proofs.

(** ** C113 *)
(** Every program on any number of stacks sees what it would see if the stacks were
    lists, in order, whatever the comparison; it is undefined exactly where the top
    of an empty stack is moved.  Each stack is separate from all others: no
    operation on one is seen in another, copies included. *)
Theorem C113_lists : forall (T : Type) (eqb : T -> T -> bool) fuel os, length os < fuel ->
  match on_lists_all eqb (fun _ => []) os with
  | Some (_, l) => exists w, k_run eqb fuel (sworld0 T) os = Done (w, l)
  | None => k_run eqb fuel (sworld0 T) os = Bad
  end.
Proof. exact as_lists. Qed.
Print Assumptions C113_lists.
(** After every program that clears its stacks at the end no memory is in use. *)
Theorem C113_no_leak : forall (T : Type) (eqb : T -> T -> bool) fuel os is L l,
  on_lists_all eqb (fun _ => []) os = Some (L, l) ->
  (forall o k, In o os -> In k (fills o) -> In k is) -> length os + length is < fuel ->
  exists w a, k_run eqb fuel (sworld0 T) (os ++ map KClear is) = Done (w, a) /\ forall x, cell (sh w) x = None.
Proof. exact no_leak. Qed.
Print Assumptions C113_no_leak.
Example C113_case :
  let os := [KAdd 0 1; KAdd 0 2; KAdd 0 3; KAdd 0 2; KCopy 0 1; KRemove 0 2; KVisit 0; KVisit 1; KFind 1 1; KAuto 1 1; KVisit 1;
             KTop 0 1; KTop 1 1; KSwap 0 1; KVisit 0; KSize 1; KEmpty 2; KRemove 2 7] in
  match on_lists_all Nat.eqb (fun _ => []) os, k_run Nat.eqb 30 (sworld0 nat) os with
  | Some (_, l), Done (_, a) => a = l /\
      l = [ANothing; ANothing; ANothing; ANothing; ANothing; AYes true; AAll [3; 2; 1]; AAll [2; 3; 2; 1];
           AElem (Some 1); AElem (Some 1); AAll [1; 2; 3; 2]; ANothing; ANothing; ANothing; AAll [3; 1; 2; 3; 2];
           ANumber 2; AYes true; AYes false]
  | _, _ => False
  end.
Proof. vm_compute. split; reflexivity. Qed.

(** The top of an empty stack cannot be moved. *)
Theorem C113_empty_top_undefined : forall (T : Type) (eqb : T -> T -> bool) fuel os L l i j,
  on_lists_all eqb (fun _ => []) os = Some (L, l) -> L i = [] -> S (length os) < fuel ->
  k_run eqb fuel (sworld0 T) (os ++ [KTop i j]) = Bad.
Proof. exact empty_top. Qed.
Print Assumptions C113_empty_top_undefined.
(** Asking a self-ordering stack whether it has an element changes its order,
    although the call is one for constant stacks. *)
Theorem C113_asking_refuted : exists (os : list (kop nat)) a b, a <> b /\
  match k_run Nat.eqb 10 (sworld0 nat) (os ++ [KVisit 0; KAuto 0 a; KVisit 0]) with
  | Done (_, l) => l = [ANothing; ANothing; AAll [b; a]; AElem (Some a); AAll [a; b]]
  | _ => False
  end.
Proof. exists [KAdd 0 1; KAdd 0 2], 1, 2. split; [discriminate|]. vm_compute. reflexivity. Qed.
Print Assumptions C113_asking_refuted.
Example C113_top_case :
  on_lists_all Nat.eqb (fun _ => []) [KAdd 0 5; KTop 0 1] <> None /\
  k_run Nat.eqb 10 (sworld0 nat) [KAdd 0 5; KTop 0 1; KTop 0 1] = Bad.
Proof. split; [vm_compute; discriminate|vm_compute; reflexivity]. Qed.
