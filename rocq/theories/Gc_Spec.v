(** Reachability and what a collection should do (C40). *)
From Verif Require Import Base Ref_Model List_Model Gc_Model.
Local Open Scope nat_scope.

(** Objects reachable from [o]. *)
Inductive reach (h : list (option gobj)) : nat -> nat -> Prop :=
| reach_refl : forall o, reach h o o
| reach_step : forall o x r y, getG h o = Some x -> In r (grefs x) -> reach h r y -> reach h o y.

Definition alive (h : list (option gobj)) (o : nat) : Prop := getG h o <> None.
Definition marked (h : list (option gobj)) (o : nat) : Prop := exists x, getG h o = Some x /\ gmark x = true.
(** Pointers in live objects lead to live objects. *)
Definition closed (h : list (option gobj)) : Prop := forall o x r, getG h o = Some x -> In r (grefs x) -> alive h r.
(** Objects marked, and their pointers, are marked. *)
Definition marks_closed (h : list (option gobj)) : Prop :=
  forall o x r, getG h o = Some x -> gmark x = true -> In r (grefs x) -> marked h r.
(** Same objects with the same pointers; marks may differ. *)
Definition same_graph (h h' : list (option gobj)) : Prop :=
  forall o, option_map grefs (getG h o) = option_map grefs (getG h' o).

(** What a marker has to do: mark what is reachable from its argument, in
    addition to what is marked already, and nothing else. *)
Definition marker_ok (mk : list (option gobj) -> nat -> res (list (option gobj))) : Prop :=
  forall h o, closed h -> marks_closed h -> alive h o ->
  exists h', mk h o = Ok h' /\ same_graph h h' /\ forall x, marked h' x <-> marked h x \/ reach h o x.

(** A program uses objects that exist, and a root pointer is not destroyed. *)
Definition glegal (s : gst) (c : gop) : Prop :=
  match c with
  | GNew refs => forall r, In r refs -> alive (objs s) r \/ r = length (objs s)
  | GLink o refs => alive (objs s) o /\ forall r, In r refs -> alive (objs s) r
  | GRoot o => alive (objs s) o
  | GSet i o => alive (objs s) o /\ exists p, nth_error (rvars s) i = Some (Some p)
  | GCollect => True
  | GCopy _ | GDrop _ => False
  end.
(** States a program reaches. *)
Inductive greach (mk : list (option gobj) -> nat -> res (list (option gobj))) : gst -> Prop :=
| greach0 : greach mk gst0
| greach1 : forall s c s', greach mk s -> glegal s c -> g_op mk (fun o => [o]) s c = Ok s' -> greach mk s'.

(** Reachable from a root pointer variable that exists. *)
Definition rooted (s : gst) (o : nat) : Prop := exists i r, nth_error (rvars s) i = Some (Some r) /\ reach (objs s) r o.
