(** Properties of the garbage collector (C40). *)
From Verif Require Import Base Ref_Model List_Model Gc_Model Gc_Spec Gc_Proofs.
Local Open Scope nat_scope.

(** For every marker that marks what is reachable from its argument, and every
    program that creates objects, changes pointers, creates and assigns root
    pointers and collects: after a collection the objects that remain are
    exactly those reachable from the root pointers, unchanged (and unmarked);
    [gc.success()] tells whether an object was unreachable.
    Missing: root pointers that are copied or destroyed (below), destruction
    of an object that destroys others (below), several types. *)
Theorem C40_collect_partial : forall mk, marker_ok mk -> forall s, greach mk s ->
  exists s', g_op mk (fun o => [o]) s GCollect = Ok s' /\
    (forall o x, getG (objs s') o = Some x <-> getG (objs s) o = Some x /\ rooted s o) /\
    rvars s' = rvars s /\
    (gc_success s s' = true <-> exists o, alive (objs s) o /\ ~ rooted s o).
Proof. exact collection. Qed.
Print Assumptions C40_collect_partial.

(** All operations of such programs are defined. *)
Theorem C40_defined_partial : forall mk, marker_ok mk -> forall s c, greach mk s -> glegal s c ->
  exists s', g_op mk (fun o => [o]) s c = Ok s'.
Proof. exact legal_defined. Qed.
Print Assumptions C40_defined_partial.

(** The usual depth-first marker is such a marker, for all graphs. *)
Theorem C40_marker : marker_ok mark_dfs.
Proof. exact dfs_marker. Qed.
Print Assumptions C40_marker.

(** Once a root pointer has been destroyed no collection succeeds. *)
Theorem C40_dead_root_undefined : forall mk, marker_ok mk -> forall s i s', greach mk s ->
  g_op mk (fun o => [o]) s (GDrop i) = Ok s' -> forall s'', g_op mk (fun o => [o]) s' GCollect <> Ok s''.
Proof. exact after_drop. Qed.
Print Assumptions C40_dead_root_undefined.

(** A cycle 1-2 that is garbage, a cycle 0-3 that is not. *)
Example C40_case :
  let cs := [GNew []; GNew []; GNew [1]; GNew [0]; GLink 1 [2]; GLink 0 [3]; GRoot 3; GNew [0]; GRoot 1; GSet 1 0; GCollect] in
  match g_run mark_dfs (fun o => [o]) gst0 cs with
  | Ok s => objs s = [Some (mkG false [3]); None; None; Some (mkG false [0]); None] /\ order s = [0; 3]
  | _ => False
  end.
Proof. vm_compute. repeat split. Qed.
Example C40_case_reached : exists s, greach mark_dfs s /\ objs s = [Some (mkG false [0])] /\ rvars s = [] /\ glegal s (GRoot 0).
Proof.
  eexists. split; [|split; [|split]].
  - eapply greach1 with (c := GNew [0]); [apply greach0| |reflexivity].
    intros r [<-|[]]. right. reflexivity.
  - reflexivity.
  - reflexivity.
  - vm_compute. discriminate.
Qed.

(** A root pointer made by copying another is not registered: the object it
    points to is destroyed. *)
Theorem C40_copied_root_refuted : exists s,
  g_run mark_dfs (fun o => [o]) gst0 [GNew []; GNew []; GRoot 0; GCopy 0; GSet 0 1; GCollect] = Ok s /\
  nth_error (rvars s) 1 = Some (Some 0) /\ getG (objs s) 0 = None.
Proof. eexists. vm_compute. repeat split. Qed.
Print Assumptions C40_copied_root_refuted.

(** If destroying object 0 destroys object 1, to which it was the only owner,
    the sweep goes on at the destroyed object. *)
Theorem C40_cascade_refuted : exists kills, kills 0 = [0; 1] /\
  g_run mark_dfs kills gst0 [GNew []; GNew []; GLink 0 [1]; GCollect] = Ub.
Proof. exists (fun o => if Nat.eqb o 0 then [0; 1] else [o]). vm_compute. repeat split. Qed.
Print Assumptions C40_cascade_refuted.
