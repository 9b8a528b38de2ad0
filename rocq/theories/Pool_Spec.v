(** What is expected of a pool of objects (C39). *)
From Verif Require Import Base Pool_Model.
Local Open Scope nat_scope.

Section Spec.
(** Slots per unit; pointers the pool recognises as its own. *)
Variable n : nat.
Variable known : nat * nat -> Prop.
Variable step : pool -> pop -> option (pool * pans).

(** The allocations not yet released. *)
Notation live := (list (nat * nat)).

(** A program releases, and asks about, live allocations only. *)
Definition plegal (l : live) (o : pop) : Prop :=
  match o with PFree p | PSize p => In p l /\ known p | _ => True end.

Definition remove_ptr (p : nat * nat) (l : live) : live :=
  filter (fun q => negb (Nat.eqb (fst q) (fst p) && Nat.eqb (snd q) (snd p))) l.

(** The live allocations after an operation. *)
Definition live_after (l : live) (o : pop) (a : pans) : live :=
  match o, a with
  | PGet, PPtr (Some p) => p :: l
  | PFree p, _ => remove_ptr p l
  | _, _ => l
  end.

(** Expected of the answer of one operation, and of the number of units:
    - an allocation is a slot of a unit that is not live; a new unit is made
      only if every slot of every unit is live, so released slots are used
      again;
    - a release keeps the units;
    - shrinking keeps exactly the units with a live slot;
    - the size of an allocation is 1. *)
Definition pgood (l : live) (s : pool) (o : pop) (s' : pool) (a : pans) : Prop :=
  match o with
  | PGet => exists p, a = PPtr (Some p) /\ ~ In p l /\ snd p < n /\ In (fst p) (map mid (ms s')) /\
             ((map mid (ms s') = map mid (ms s)) \/
              (length l = n * length (ms s) /\ length (ms s') = S (length (ms s)) /\ ~ In (fst p) (map mid (ms s))))
  | PFree _ => a = PNone /\ map mid (ms s') = map mid (ms s)
  | PShrink => a = PNone /\ forall i, In i (map mid (ms s')) <-> exists k, In (i, k) l
  | PSize _ => a = PNum 1 /\ s' = s
  end.

(** Every operation of a legal program is defined and answers as expected. *)
Fixpoint behaves (l : live) (s : pool) (os : list pop) : Prop :=
  match os with
  | [] => True
  | o :: r => plegal l o -> exists s' a, step s o = Some (s', a) /\ pgood l s o s' a /\
                behaves (live_after l o a) s' r
  end.

(** States and live allocations a program reaches. *)
Inductive preach : pool -> live -> Prop :=
| preach0 : preach pool0 []
| preach1 : forall s l o s' a, preach s l -> plegal l o -> step s o = Some (s', a) -> preach s' (live_after l o a).
End Spec.
