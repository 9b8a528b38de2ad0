(** The conditions on the representation under which the string theorems hold.
    Each excludes a defect of the code; P_Str.v refutes the statements without
    them. *)
From Verif Require Import Base Ref_Model List_Model Str_Model Str_Heap Str_Own Str_Read Str_Ctx Str_Edit Str_Cut Str_Api_Model Str_Obs Str_Cmp Str_Merge.
Local Open Scope nat_scope.

(** The handle [o] leads to node [p] after following replacements. *)
Definition tgt (H : heap) (o p : nat) : Prop := fwds H o p /\ resolved H p.
(** [P] holds of the node of variable [i], if it has one. *)
Definition at_node (s : st) (i : nat) (P : nat -> Prop) : Prop :=
  forall o p, nth_error (vs s) i = Some (Some (VPtr o)) -> tgt (hp s) o p -> P p.
(** Nodes without handles to other nodes. *)
Definition leafk (H : heap) (p : nat) (Q : kind -> Prop) : Prop := exists k c, nth_error H p = Some (k, c) /\ Q k.
Definition leafy (k : kind) : Prop := match k with KNull | KConst _ | KComn _ | KSame _ _ => True | _ => False end.
Definition wholev (s : st) (i : nat) : Prop := forall o, nth_error (vs s) i = Some (Some (VPtr o)) -> whole (hp s) o.

(** A small string compared with [d]. *)
Definition small_cmp (q : bool) (v : var) (d : list Z) : Prop :=
  length (cso_data v) = length d \/
  q = true /\ exists k x y, nth_error (cso_data v) k = Some x /\ nth_error d k = Some y /\ x <> y.
(** Variable [i] compared with the characters [d]. *)
Definition view_cmp (q : bool) (s : st) (i : nat) (d : list Z) : Prop :=
  forall v, nth_error (vs s) i = Some (Some v) ->
  match v with VPtr o => allk blkk (hp s) o | _ => small_cmp q v d end.
(** Two nodes compared. *)
Definition node_cmp (g : orc) (q : bool) (H : heap) (o p : nat) : Prop :=
  let R r := reach H o r \/ reach H p r in
  (forall r k c, R r -> nth_error H r = Some (k, c) -> cmpk q k) /\
  (q = false -> forall p1 p2 t1 t2 b n c1 c2 f n1 n2, R p1 -> R p2 -> nth_error H p1 = Some (KSub t1 b n, c1) -> nth_error H p2 = Some (KSub t2 b n, c2) ->
     size f H t1 = Ok n1 -> size f H t2 = Ok n2 -> (n1 = b + n <-> n2 = b + n)) /\
  ((forall r k c, R r -> nth_error H r = Some (k, c) -> nosub k) \/ Acyc (dear g)).

Definition guard (g : orc) (s : st) (x : op) : Prop :=
  match x with
  | OSet i j => i = j -> forall o, nth_error (vs s) i <> Some (Some (VPtr o))
  | OPush e i j =>
    (i = j -> forall c, nth_error (vs s) i = Some (Some (VChr c)) -> worth g 1 = true) /\
    (forall v, nth_error (vs s) i = Some (Some v) -> is_cso v = true -> worth g (length (cso_data v)) = false -> cso_data v <> [] ->
       at_node s j (fun p => leafk (hp s) p leafy \/ uq g (hp s) (p :: others j (vs s)) p = false))
  | OPlus i j => i = j -> forall c, nth_error (vs s) i = Some (Some (VChr c)) -> worth g 1 = true
  | OAssign i p c => at_node s i (fun q => allk setk (hp s) q)
  | OInsertV i p d => at_node s i (fun q => allk insk (hp s) q \/ leafk (hp s) q (fun k =>
      match k with
      | KIns _ _ _ _ _ => uq g (hp s) (q :: others i (vs s)) q = false
      | KHead _ _ _ _ | KEnd _ _ _ _ => uq g (hp s) (q :: others i (vs s)) q = false \/ p = 0 \/ ksize k = Ok p
      | _ => True
      end))
  | OInsert i p j => wholev s j /\ at_node s i (fun q =>
      leafk (hp s) q (fun k => match k with KIns _ _ _ _ _ | KHead _ _ _ _ | KEnd _ _ _ _ => False | _ => True end) /\
      ((forall o, nth_error (vs s) j = Some (Some (VPtr o)) -> ~ reach (hp s) o q) \/ at_node s j (fun p => leafk (hp s) p arr_leaf)))
  | ORemove e i n => at_node s i (fun q => rmok e (hp s) (q :: others i (vs s)) q \/ allk viewk (hp s) q)
  | OPop e i n => at_node s i (fun q => allk (popk e n) (hp s) q /\ (one_level e (hp s) q \/ n = 0))
  | OData i | OCStr i => wholev s i
  | OHash i => wholev s i /\ forall c, nth_error (vs s) i <> Some (Some (VChr c))
  | OCmp q i j => forall v u, nth_error (vs s) i = Some (Some v) -> nth_error (vs s) j = Some (Some u) ->
    match v, u with
    | VPtr o, VPtr p => node_cmp g q (hp s) o p
    | VPtr o, _ => allk blkk (hp s) o
    | _, VPtr p => allk blkk (hp s) p
    | _, _ => small_cmp q v (cso_data u)
    end
  | OCmpV q i d | OCmpL q i d => view_cmp q s i d
  | _ => True
  end.
(** What is left open is used as in the code: a node reported unique has exactly
    one handle, and capacities are large enough. *)
Definition Sound (g : orc) : Prop :=
  (forall H rts o, uq g H rts o = true -> single H rts o) /\ (forall n, n <= gold g n).
(** Every operation of the program meets its condition in the state it is run in. *)
Section Safe.
Variable hd : Z.
Variable hc : Z -> Z.
Inductive Safe : st -> list (orc * op) -> Prop :=
| safe_nil : forall s, Safe s []
| safe_cons : forall s g x t, guard g s x ->
    (forall s' o, (exists f0, forall f, f0 <= f -> step hd hc g f s x = Ok (s', o)) -> Safe s' t) ->
    Safe s ((g, x) :: t).
End Safe.
