(** C37 and C38: strong and weak handles. *)
From Verif Require Import Base Ref_Model Ref_Spec Ref_Proofs.
Local Open Scope nat_scope.

(** C37.  Every operation a program may do in a reachable state succeeds with
    enough fuel: no freed object is touched, nothing is destroyed twice.  It
    leads to a reachable state again, and every variable and every member of a
    live object then holds what the operation says.  Partial: members are
    strong handles (see [C37_weak_member_refuted]), objects are not replaced,
    one thread. *)
Theorem C37_operations_partial : forall s o, reach s -> legal s o ->
  exists n s', (forall fuel, n < fuel -> do_op fuel s o = Ok s') /\ reach s' /\
    forall sl, live_slot s' sl -> effect s o sl (rdS s' sl).
Proof. exact op_reach. Qed.
Print Assumptions C37_operations_partial.

(** C37.  In every reachable state an object is alive exactly while a strong
    handle refers to it (from a variable or from a member of an existing
    object), its memory exists exactly while any handle refers to it, its
    destructor has run exactly when its memory is gone, and no destructor runs
    twice. *)
Theorem C37_lifetime_partial : forall s o, reach s -> created s o ->
  (alive s o <-> refers true s o) /\
  (exists_ s o <-> refers true s o \/ refers false s o) /\
  (In o (dlog s) <-> ~ exists_ s o) /\
  NoDup (dlog s) /\ NoDup (clog s).
Proof. exact lifetime. Qed.
Print Assumptions C37_lifetime_partial.

(** The null object is never destroyed. *)
Theorem C37_null_stays : forall s, reach s -> exists_ s 0.
Proof. exact never_null_gone. Qed.
Print Assumptions C37_null_stays.

(** C37 is false when members may be weak handles: a parent with two members
    and a child that refers back weakly.  When the last strong handle of the
    parent goes, its [clear] drops the child, the child's destructor drops the
    last weak handle, so the parent is destroyed and freed in the middle of
    its own [clear], which then touches freed memory. *)
Theorem C37_weak_member_refuted : exists os fuel, do_ops fuel st0 os = Ub.
Proof.
  exists [ONew [true; true]; ONew [false]; OAssign (LFld 0 0) (LVar 1); OAssign (LFld 1 0) (LVar 0); ODrop 1; ODrop 0], 100.
  vm_compute. reflexivity.
Qed.
Print Assumptions C37_weak_member_refuted.

(** Objects that refer to each other strongly stay for ever, even when no
    variable is left (the handles of the cycle count as strong handles). *)
Example C37_cycle_stays : exists os fuel s, do_ops fuel st0 os = Ok s /\
  env s = [None; None] /\ getO (hp s) 1 <> None /\ getO (hp s) 2 <> None.
Proof.
  exists [ONew [true]; ONew [true]; OAssign (LFld 0 0) (LVar 1); OAssign (LFld 1 0) (LVar 0); ODrop 1; ODrop 0], 100.
  eexists. split; [vm_compute; reflexivity|]. split; [reflexivity|]. split; vm_compute; discriminate.
Qed.

(** C38.  A strong handle made from any handle (weak or strong) refers to the
    object if some strong handle refers to it, and to null otherwise.
    Partial: by construction only; assignment and direct use are refuted
    below. *)
Theorem C38_lock_partial : forall s l b t, reach s -> usable s l -> rd s l = Some (b, t) ->
  exists s', (forall fuel, do_op fuel s (OCopy true l) = Ok s') /\ reach s' /\
    ((refers true s t -> rd s' (LVar (length (env s))) = Some (true, t)) /\
     (~ refers true s t -> rd s' (LVar (length (env s))) = Some (true, 0))).
Proof. exact lock_ok. Qed.
Print Assumptions C38_lock_partial.

(** C38.  Without any handle left the memory is released, the destructor has
    run. *)
Theorem C38_released_partial : forall s o, reach s -> created s o -> ~ refers true s o -> ~ refers false s o ->
  getO (hp s) o = None /\ In o (dlog s).
Proof. exact released. Qed.
Print Assumptions C38_released_partial.

(** An object that has weak handles only: its members have all been reset. *)
Theorem C38_waiting_is_empty : forall s o x, reach s -> getO (hp s) o = Some x -> o <> 0 -> ~ refers true s o ->
  In o (clog s) /\ forall v, In v (flds x) -> v = (true, 0).
Proof. exact waiting_empty. Qed.
Print Assumptions C38_waiting_is_empty.

(** C38 is false for assignment: [strong = weak] makes an object that was
    already told to wait for destruction reachable through a strong handle. *)
Theorem C38_assign_refuted : exists os fuel s o, do_ops fuel st0 os = Ok s /\
  rd s (LVar 2) = Some (true, o) /\ o <> 0 /\ In o (clog s).
Proof.
  exists [ONew [true]; OCopy false (LVar 0); ONull true; ODrop 0; OAssign (LVar 2) (LVar 1)], 100.
  eexists _, 1. split; [vm_compute; reflexivity|]. split; [reflexivity|]. split; [discriminate|]. cbn. auto.
Qed.
Print Assumptions C38_assign_refuted.

(** C38 is false for direct use: [get()] and [->] of an expired weak handle
    still give the object. *)
Theorem C38_get_refuted : exists os fuel s o, do_ops fuel st0 os = Ok s /\ reach s /\
  deref s (LVar 1) = Some o /\ o <> 0 /\ ~ refers true s o /\ In o (clog s).
Proof.
  exists [ONew [true]; OCopy false (LVar 0); ODrop 0], 100.
  eexists _, 1. split; [vm_compute; reflexivity|]. split.
  - apply (@reach_ops 100 [ONew [true]; OCopy false (LVar 0); ODrop 0] st0); [apply reach0| |vm_compute; reflexivity].
    vm_compute. repeat split; auto; discriminate.
  - split; [reflexivity|]. split; [discriminate|]. split; [|cbn; auto].
    intros [H|(o & x & G & H)].
    + cbn in H. intuition discriminate.
    + destruct o as [|[|[|o]]]; cbn in G; try discriminate; injection G as <-; cbn in H; intuition discriminate.
Qed.
Print Assumptions C38_get_refuted.

(** A case: a list of two cells, a weak handle on the first; when the variable
    goes, the second is destroyed and the first waits; a lock gives null; when
    the weak handle goes the memory is released. *)
Example C37_case : exists s, reach s /\ created s 1 /\ created s 2 /\
  ~ exists_ s 2 /\ exists_ s 1 /\ ~ alive s 1 /\ rd s (LVar 3) = Some (true, 0) /\
  exists s', do_op 100 s (ODrop 2) = Ok s' /\ ~ exists_ s' 1 /\ dlog s' = [1; 2].
Proof.
  eexists. split.
  - apply (@reach_ops 100 [ONew [true]; ONew [true]; OAssign (LFld 0 0) (LVar 1); ODrop 1; OCopy false (LVar 0);
                           ODrop 0; OCopy true (LVar 2)] st0); [apply reach0| |vm_compute; reflexivity].
    vm_compute. repeat split; auto; try discriminate.
    + exists true, 1. split; [reflexivity|]. left. auto.
    + exists true, 0, true, 2. split; [reflexivity|]. split; [reflexivity|]. discriminate.
  - split; [vm_compute; lia|]. split; [vm_compute; lia|].
    split; [intros H; apply H; reflexivity|]. split; [discriminate|].
    split; [intros [_ H]; apply H; left; reflexivity|]. split; [reflexivity|].
    eexists. split; [vm_compute; reflexivity|]. split; [|reflexivity]. intros H. apply H. reflexivity.
Qed.
