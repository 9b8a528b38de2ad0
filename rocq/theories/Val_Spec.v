(** What a user expects of values, stated without pointers, without copies of
    values and without chains of replaced objects. *)
From Verif Require Import Base.
From Verif Require Import Ref_Model Val_Model.
Local Open Scope nat_scope.

(** Every thing has a kind and holds a node; each value denotes a thing
    (specification). *)
Record vworld := mkVw { vthings : list (dkind * Z); vdenotes : list nat }.

(** Every value that denoted [t] denotes [u] (specification). *)
Definition vredirect (t u : nat) (d : list nat) : list nat := map (fun v => if Nat.eqb v t then u else v) d.
(** A value to a new thing (specification). *)
Definition vfresh (w : vworld) (k : dkind) (p : Z) : vworld :=
  mkVw (vthings w ++ [(k, p)]) (vdenotes w ++ [length (vthings w)]).
(** The thing of a value, with its contents (specification). *)
Definition vthing (w : vworld) (x : nat) : option (nat * dkind * Z) :=
  match nth_error (vdenotes w) x with
  | Some t => match nth_error (vthings w) t with Some (k, p) => Some (t, k, p) | None => None end
  | None => None
  end.

(** What each operation means: [x = p] is seen through every value that denotes
    the same variable and has no effect on constants and on null values;
    [x.ref_to(y)] and [y >> x] make every value that denotes the thing of [x]
    denote that of [y]; [x.re_ref_to(y)] only [x]; [x.un_ref()] gives [x] a
    thing of its own.  Every null value is a thing of its own
    (specification). *)
Definition vmeant (w : vworld) (o : vop) : option (vworld * vseen) :=
  match o with
  | VNew => Some (vfresh w KVar 0%Z, VNothing)
  | VNull => Some (vfresh w KNull 0%Z, VNothing)
  | VConst p => Some (vfresh w KConst p, VNothing)
  | VCopy x => match vthing w x with
               | Some (t, _, _) => Some (mkVw (vthings w) (vdenotes w ++ [t]), VNothing)
               | None => None end
  | VSet x p => match vthing w x with
                | Some (t, KVar, _) => Some (mkVw (upd (vthings w) t (KVar, p)) (vdenotes w), VNothing)
                | Some _ => Some (w, VNothing)
                | None => None end
  | VGet x => match vthing w x with Some (_, _, p) => Some (w, VSaw p) | None => None end
  | VRefTo x y | VShift y x =>
    match vthing w x, vthing w y with
    | Some (t, _, _), Some (u, _, _) => Some (mkVw (vthings w) (vredirect t u (vdenotes w)), VNothing)
    | _, _ => None end
  | VUnRef x => match vthing w x with
                | Some (_, k, p) => Some (mkVw (vthings w ++ [(k, p)]) (upd (vdenotes w) x (length (vthings w))), VNothing)
                | None => None end
  | VReRef x y => match vthing w x, vthing w y with
                  | Some _, Some (u, _, _) => Some (mkVw (vthings w) (upd (vdenotes w) x u), VNothing)
                  | _, _ => None end
  end.

(** The meaning of a program (specification). *)
Fixpoint vmeaning (w : vworld) (l : list vop) : option (vworld * list vseen) :=
  match l with
  | [] => Some (w, [])
  | o :: r => match vmeant w o with
              | Some (w1, b) => match vmeaning w1 r with Some (w2, bs) => Some (w2, b :: bs) | None => None end
              | None => None
              end
  end.
(** The start (specification). *)
Definition vempty : vworld := mkVw [] [].
(** A program that uses only values it made (specification). *)
Definition vwell_formed (l : list vop) : Prop := exists w bs, vmeaning vempty l = Some (w, bs).

(** The values that were used since the last [ref_to] or [>>], after one more
    operation; [n] is the number of values so far (specification). *)
Definition vused (n : nat) (F : list nat) (o : vop) : list nat :=
  match o with
  | VNew | VNull | VConst _ => n :: F
  | VCopy x => if existsb (Nat.eqb x) F then n :: F else F
  | VSet x _ | VGet x | VUnRef x | VReRef x _ => x :: F
  | VRefTo x _ => [x]
  | VShift _ _ => []
  end.
(** The number of values made (specification). *)
Definition vmade (n : nat) (o : vop) : nat :=
  match o with VNew | VNull | VConst _ | VCopy _ => S n | _ => n end.
(** The program redirects a value only if it used that value since the last
    redirection, and never redirects a null value (specification). *)
Definition vguard (w : vworld) (F : list nat) (o : vop) : bool :=
  match o with
  | VRefTo x _ | VShift _ x =>
    existsb (Nat.eqb x) F && match vthing w x with Some (_, KNull, _) => false | _ => true end
  | _ => true
  end.
(** The same for a whole program (specification). *)
Fixpoint vcareful (w : vworld) (F : list nat) (l : list vop) : bool :=
  match l with
  | [] => true
  | o :: r => vguard w F o &&
              match vmeant w o with
              | Some (w', _) => vcareful w' (vused (length (vdenotes w)) F o) r
              | None => true
              end
  end.

(** The value of a list of statements is that of its last one (specification). *)
Fixpoint last_value (c : code) : Z :=
  match c with
  | Leaf p => p
  | Block first rest => last (map last_value rest) (last_value first)
  end.
