(** What a user expects of pointers to replaceable objects, stated without
    counters and without chains: a variable denotes a thing; replacing the
    thing that [x] denotes makes every variable that denotes it denote the
    other thing. *)
From Verif Require Import Base.
From Verif Require Import Ref_Model Repl_Model.
Local Open Scope nat_scope.

(** The contents of every thing, and what each variable denotes (this is a
    specification; it models no lines). *)
Record world := mkW { things : list Z; denotes : list (option nat) }.

(** The thing that a variable denotes (specification). *)
Definition thing (w : world) (x : nat) : option nat :=
  match nth_error (denotes w) x with Some (Some t) => Some t | _ => None end.
(** Every variable that denoted [t] denotes [u] (specification). *)
Definition redirect (t u : nat) (d : list (option nat)) : list (option nat) :=
  map (fun o => match o with Some v => Some (if Nat.eqb v t then u else v) | None => None end) d.
(** The number of variables that denote [t] (specification). *)
Definition users (d : list (option nat)) (t : nat) : nat :=
  length (filter (fun o => match o with Some v => Nat.eqb v t | None => false end) d).

(** What each operation means; [None] if a variable is not in scope, or if the
    operation replaces by a bare address (specification). *)
Definition meant (w : world) (o : pop) : option (world * seen) :=
  match o with
  | PNew v => Some (mkW (things w ++ [v]) (denotes w ++ [Some (length (things w))]), SawNothing)
  | PCopy x => match thing w x with
               | Some t => Some (mkW (things w) (denotes w ++ [Some t]), SawNothing)
               | None => None end
  | PAssign x y => match thing w x, thing w y with
                   | Some _, Some u => Some (mkW (things w) (upd (denotes w) x (Some u)), SawNothing)
                   | _, _ => None end
  | PMove x y => match thing w x, thing w y with
                 | Some t, Some u => Some (mkW (things w) (upd (upd (denotes w) x (Some u)) y (Some t)), SawNothing)
                 | _, _ => None end
  | PDrop x => match thing w x with
               | Some _ => Some (mkW (things w) (upd (denotes w) x None), SawNothing)
               | None => None end
  | PRead x => match thing w x with
               | Some t => Some (w, SawVal (nth t (things w) 0%Z))
               | None => None end
  | PWrite x v => match thing w x with
                  | Some t => Some (mkW (upd (things w) t v) (denotes w), SawNothing)
                  | None => None end
  | PEq x y => match thing w x, thing w y with
               | Some t, Some u => Some (w, SawBool (Nat.eqb t u))
               | _, _ => None end
  | PUnique x => match thing w x with
                 | Some t => Some (w, SawBool (Nat.eqb (users (denotes w) t) 1))
                 | None => None end
  | PReplace x y => match thing w x, thing w y with
                    | Some t, Some u => Some (mkW (things w) (redirect t u (denotes w)), SawNothing)
                    | _, _ => None end
  | PReplaceAddr _ _ => None
  end.

(** The meaning of a program (specification). *)
Fixpoint meaning (w : world) (l : list pop) : option (world * list seen) :=
  match l with
  | [] => Some (w, [])
  | o :: r => match meant w o with
              | Some (w1, b) => match meaning w1 r with Some (w2, bs) => Some (w2, b :: bs) | None => None end
              | None => None
              end
  end.
(** The start (specification). *)
Definition empty_world : world := mkW [] [].

(** A program that only uses variables in scope and replaces by pointers only
    (specification). *)
Definition well_formed (l : list pop) : Prop := exists w bs, meaning empty_world l = Some (w, bs).

(** The variables that were used since the last replacement, after one more
    operation; [n] is the number of variables declared so far
    (specification). *)
Definition used_after (n : nat) (F : list nat) (o : pop) : list nat :=
  match o with
  | PNew _ => n :: F
  | PCopy x => if existsb (Nat.eqb x) F then n :: F else F
  | PAssign x y => x :: y :: F
  | PMove x y =>
      (if existsb (Nat.eqb y) F then [x] else []) ++ (if existsb (Nat.eqb x) F then [y] else []) ++
      filter (fun z => negb (Nat.eqb z x) && negb (Nat.eqb z y)) F
  | PDrop x => F
  | PRead x | PWrite x _ | PUnique x => x :: F
  | PEq x y => x :: y :: F
  | PReplace x y => [x; y]
  | PReplaceAddr _ _ => []
  end.
(** The number of variables declared (specification). *)
Definition declared (n : nat) (o : pop) : nat := match o with PNew _ | PCopy _ => S n | _ => n end.
(** The program replaces through [x] only if [x] was used since the last
    replacement (specification). *)
Fixpoint careful (n : nat) (F : list nat) (l : list pop) : bool :=
  match l with
  | [] => true
  | o :: r =>
    match o with PReplace x _ => existsb (Nat.eqb x) F | _ => true end &&
    careful (declared n o) (used_after n F o) r
  end.

(** The object was not freed (specification). *)
Definition alive (s : pstate) (b : nat) : Prop := exists y, getC (cells s) b = Some y.
(** From [a] the replacements lead to [b] (specification). *)
Inductive leads (h : list (option cell)) : nat -> nat -> Prop :=
| leads_here : forall a, leads h a a
| leads_next : forall a x b c, getC h a = Some x -> fwd x = Some b -> leads h b c -> leads h a c.
