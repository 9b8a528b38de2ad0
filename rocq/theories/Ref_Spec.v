(** What users rely on for handles, without counters (C37, C38). *)
From Verif Require Import Base Ref_Model.
Local Open Scope nat_scope.

(** A handle of the given kind refers to object [t]: a variable, or a member of
    an object that exists. *)
Definition refers (b : bool) (s : state) (t : nat) : Prop :=
  In (Some (b, t)) (env s) \/
  exists o x, getO (hp s) o = Some x /\ In (b, t) (flds x).

(** The memory of the object is still there. *)
Definition exists_ (s : state) (o : nat) : Prop := getO (hp s) o <> None.
(** Neither destroyed nor told to wait for destruction. *)
Definition alive (s : state) (o : nat) : Prop := exists_ s o /\ ~ In o (clog s).
(** Created at some time (the null object is not counted). *)
Definition created (s : state) (o : nat) : Prop := 0 < o < length (hp s).

(** The name of a handle the program may use: a variable, or a member of an
    object that still has strong handles. *)
Definition usable (s : state) (l : loc) : Prop :=
  rd s l <> None /\
  match l with
  | LVar _ => True
  | LFld i _ => exists b t, nth_error (env s) i = Some (Some (b, t)) /\ refers true s t
  end.

(** Obligations of the program: it uses handles that it has; members are strong
    handles; a strong handle is assigned from a weak one only while the object
    still has strong handles; moving is between handles of one kind. *)
Definition legal (s : state) (o : op) : Prop :=
  match o with
  | ONew ks => Forall (fun k => k = true) ks
  | ONull _ => True
  | OCopy _ l => usable s l
  | OAssign l1 l2 => usable s l1 /\ usable s l2 /\ exists b1 t1 b2 t2, rd s l1 = Some (b1, t1) /\ rd s l2 = Some (b2, t2) /\
      (b1 = true -> b2 = false -> t2 = 0 \/ refers true s t2)
  | OMove l1 l2 => usable s l1 /\ usable s l2 /\ exists b t1 t2, rd s l1 = Some (b, t1) /\ rd s l2 = Some (b, t2)
  | OReset l => usable s l
  | ODrop i => rd s (LVar i) <> None
  end.

(** States reached by programs that meet their obligations. *)
Inductive reach : state -> Prop :=
| reach0 : reach st0
| reach1 : forall s o fuel s', reach s -> legal s o -> do_op fuel s o = Ok s' -> reach s'.

(** ** What an operation does to the handles *)
Definition slot_eqb (a b : slot) : bool :=
  match a, b with
  | SVar i, SVar j => Nat.eqb i j
  | SFld o k, SFld p m => andb (Nat.eqb o p) (Nat.eqb k m)
  | _, _ => false
  end.
(** The place of a variable, or of a member of a live object. *)
Definition live_slot (s : state) (sl : slot) : Prop :=
  match sl with SVar _ => True | SFld o _ => alive s o end.

(** [effect s o sl v]: after operation [o] the place [sl] holds [v]. *)
Definition effect (s : state) (o : op) (sl : slot) (v : option handle) : Prop :=
  match o with
  | ONew ks =>
    v = if slot_eqb sl (SVar (length (env s))) then Some (true, length (hp s))
        else match sl with
             | SFld p k => if Nat.eqb p (length (hp s)) then option_map (fun b => (b, 0)) (nth_error ks k) else rdS s sl
             | _ => rdS s sl
             end
  | ONull b => v = if slot_eqb sl (SVar (length (env s))) then Some (b, 0) else rdS s sl
  | OCopy b l =>
    if slot_eqb sl (SVar (length (env s)))
    then exists b0 t, rd s l = Some (b0, t) /\
      ((b = false \/ refers true s t) -> v = Some (b, t)) /\
      (~ (b = false \/ refers true s t) -> v = Some (b, 0))
    else v = rdS s sl
  | OAssign l1 l2 => exists sl1 b1 t1 b2 t2,
      slot_of s l1 = Some sl1 /\ rdS s sl1 = Some (b1, t1) /\ rd s l2 = Some (b2, t2) /\
      v = if slot_eqb sl sl1 then Some (b1, t2) else rdS s sl
  | OMove l1 l2 => exists sl1 sl2,
      slot_of s l1 = Some sl1 /\ slot_of s l2 = Some sl2 /\
      v = if slot_eqb sl sl1 then rdS s sl2 else if slot_eqb sl sl2 then rdS s sl1 else rdS s sl
  | OReset l => exists sl1 b1 t1, slot_of s l = Some sl1 /\ rdS s sl1 = Some (b1, t1) /\
      v = if slot_eqb sl sl1 then Some (b1, 0) else rdS s sl
  | ODrop i => v = if slot_eqb sl (SVar i) then None else rdS s sl
  end.

(** A sequence of operations, each legal where it is done. *)
Fixpoint legal_ops (fuel : nat) (s : state) (os : list op) : Prop :=
  match os with
  | [] => True
  | o :: r => legal s o /\ match do_op fuel s o with Ok s' => legal_ops fuel s' r | _ => False end
  end.
