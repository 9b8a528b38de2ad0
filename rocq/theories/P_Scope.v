(** Property theorems C111: names in namespaces.  [s] is the state of a program:
    the nodes and the current namespace; 0 is the void node, 1 is nil; see
    Scope_Spec.v for [shows], [declares], [innermost] and [same].  [reached]
    says that a program can come to the state. *)
From Verif Require Import Base Scope_Model Scope_Spec Scope_Proofs.
Local Open Scope nat_scope.

(** ** C111 *)
(** Value and type of a name are those in the innermost namespace that declares
    it, the name is said to exist exactly if there is one, and asking changes
    nothing. *)
Theorem C111_lookup : forall s k b v m ty, reached s -> innermost (nodes s) k (now s) b ->
  shows (nodes s) b k v -> shows (nodes s) b types m -> shows (nodes s) m k ty ->
  exists f0, forall f, f0 <= f -> exists s1 s2 s3,
    (get_symbol f s k = Ret (s1, v) /\ now s1 = now s /\ same (nodes s) (nodes s1)) /\
    (get_symbol_type f s k = Ret (s2, ty) /\ now s2 = now s /\ same (nodes s) (nodes s2)) /\
    (has_symbol f s k = Ret (s3, 2 <=? b) /\ now s3 = now s /\ same (nodes s) (nodes s3)).
Proof. exact reached_lookup. Qed.
Print Assumptions C111_lookup.
(** If the way outwards has no end and no namespace on it declares the name, the
    calls do not return. *)
Theorem C111_lookup_diverges : forall f s k, reached s -> (forall b, ~ innermost (nodes s) k (now s) b) ->
  get_symbol f s k = Out /\ get_symbol_type f s k = Out /\ has_symbol f s k = Out /\ enter f s k = Out.
Proof. intros f s k R. destruct (reached_fine R) as [G N]. exact (calls_endless f G N). Qed.
Print Assumptions C111_lookup_diverges.
(** No call ever uses something that is not a node. *)
Theorem C111_defined : forall f s k, reached s ->
  get_symbol f s k <> Bad /\ get_symbol_type f s k <> Bad /\ has_symbol f s k <> Bad /\ enter f s k <> Bad.
Proof. intros f s k R. exact (calls_not_bad f k (reached_fine R)). Qed.
Print Assumptions C111_defined.
(** Defining a name in the current namespace makes it have that value there, if
    the value is neither void nor nil, and touches no other name. *)
Theorem C111_define_partial : forall s k p m, reached s -> 2 <= now s -> nodes s (now s) = Some (Space m) ->
  nodes s p <> None -> 2 <= p ->
  exists h, assign (nodes s) (now s) k p = Ret h /\
    (forall b j v, (b, j) <> (now s, k) -> (shows h b j v <-> shows (nodes s) b j v)) /\
    exists f0, forall f, f0 <= f -> exists s', get_symbol f (mkN h (now s)) k = Ret (s', p).
Proof. exact define_then_get. Qed.
Print Assumptions C111_define_partial.
(** Entering a namespace whose outer namespace is the current one and leaving it
    again comes back. *)
Theorem C111_enter_leave : forall s k b c, reached s -> 2 <= now s -> innermost (nodes s) k (now s) b ->
  shows (nodes s) b k c -> 2 <= c -> shows (nodes s) c up (now s) ->
  exists f0, forall f, f0 <= f -> exists h1 h2, enter f s k = Ret (mkN h1 c) /\
    leave f (mkN h1 c) = Ret (mkN h2 (now s)) /\ same (nodes s) h2.
Proof.
  intros [h a] k b c R La I V Lc U. destruct (reached_fine R) as [G N]. exact (there_and_back G N La I V Lc U).
Qed.
Print Assumptions C111_enter_leave.
(** At the start the names ".", "t", "nil", "void" and ".." have their values. *)
Theorem C111_start : exists s, build = Ret s /\ now s = 3 /\ shows (nodes s) 3 up 0 /\ shows (nodes s) 3 here 3 /\
  shows (nodes s) 3 name_t 2 /\ shows (nodes s) 3 name_nil 1 /\ shows (nodes s) 3 name_void 0 /\
  shows (nodes s) 3 types 4 /\ shows (nodes s) 4 name_void 5 /\
  (forall k v, shows (nodes s) 4 k v -> k <> name_void -> v = 0).
Proof. exact built. Qed.
Print Assumptions C111_start.
(** A namespace 6 inside the first one, with a value 7 of its own for "x". *)
Example C111_case :
  cthen build (fun s =>
  cthen (assign (put (put (nodes s) 6 (Space [])) 7 Self) 3 [97%Z] 6) (fun h1 =>
  cthen (assign h1 6 up 3) (fun h2 => cthen (assign h2 6 [120%Z] 7) (fun h3 => cthen (assign h3 3 [120%Z] 2) (fun h4 =>
  cthen (enter 9 (mkN h4 3) [97%Z]) (fun s1 =>
  cthen (get_symbol 9 s1 [120%Z]) (fun '(s2, x) => cthen (get_symbol 9 s2 name_t) (fun '(s3, t) =>
  cthen (leave 9 s3) (fun s4 => cthen (get_symbol 9 s4 [120%Z]) (fun '(_, outer) =>
  Ret (now s1, x, t, now s4, outer))))))))))) = Ret (6, 7, 2, 3, 2).
Proof. vm_compute. reflexivity. Qed.

(** A name whose value is nil or void and that has no type is looked for
    outwards, as if it were not there. *)
Theorem C111_nil_hidden_wrong : forall f s k p, reached s -> 2 <= now s -> ~ declares (nodes s) (now s) k ->
  shows (nodes s) (now s) up p ->
  forall v, (exists s', get_symbol (S f) s k = Ret (s', v)) <-> (exists s', get_symbol f (mkN (nodes s) p) k = Ret (s', v)).
Proof.
  intros f [h a] k p R L D U. destruct (reached_fine R) as [G N]. exact (undeclared_passes f G N L D U).
Qed.
Print Assumptions C111_nil_hidden_wrong.
(** The first namespace defines nil, and nil is not found in it. *)
Theorem C111_nil_refuted : exists s s1 s2, build = Ret s /\ shows (nodes s) (now s) name_nil 1 /\
  has_symbol 9 s name_nil = Ret (s1, false) /\ get_symbol 9 s name_nil = Ret (s2, 0).
Proof.
  destruct (call_ret (r := build) eq_refl) as [s E].
  assert (E1 : exists s1, has_symbol 9 s name_nil = Ret (s1, false)).
  { apply val_ret. injection E as <-. vm_compute. reflexivity. }
  assert (E2 : exists s2, get_symbol 9 s name_nil = Ret (s2, 0)).
  { apply val_ret. injection E as <-. vm_compute. reflexivity. }
  destruct E1 as [s1 E1], E2 as [s2 E2]. exists s, s1, s2. split; [exact E|]. split; [|split; [exact E1|exact E2]].
  injection E as <-. apply reads_shows. vm_compute. reflexivity.
Qed.
Print Assumptions C111_nil_refuted.

(** Entering a name that is declared nowhere, and leaving the first namespace,
    loses all names for good: no name exists any more, and neither entering nor
    leaving changes that. *)
Theorem C111_lost_wrong : forall s k b, reached s -> innermost (nodes s) k (now s) b -> b < 2 ->
  exists f0, forall f, f0 <= f -> exists h', enter f s k = Ret (mkN h' b) /\ same (nodes s) h' /\
    forall j f', get_symbol (S f') (mkN h' b) j = Ret (mkN h' b, b) /\
      has_symbol (S f') (mkN h' b) j = Ret (mkN h' b, false) /\ enter (S f') (mkN h' b) j = Ret (mkN h' b).
Proof.
  intros [h a] k b R I L. destruct (reached_fine R) as [G N]. exact (lost G N I L).
Qed.
Print Assumptions C111_lost_wrong.
(** Leaving the first namespace: t exists before and not after. *)
Theorem C111_leave_refuted : exists s s1 s2 s3, build = Ret s /\ has_symbol 9 s name_t = Ret (s1, true) /\
  leave 9 s = Ret s2 /\ has_symbol 9 s2 name_t = Ret (s3, false).
Proof.
  destruct (call_ret (r := build) eq_refl) as [s E].
  assert (E1 : exists s1, has_symbol 9 s name_t = Ret (s1, true)).
  { apply val_ret. injection E as <-. vm_compute. reflexivity. }
  assert (E2 : exists s2, leave 9 s = Ret s2).
  { apply call_ret. injection E as <-. vm_compute. reflexivity. }
  destruct E1 as [s1 E1], E2 as [s2 E2].
  assert (E3 : exists s3, has_symbol 9 s2 name_t = Ret (s3, false)).
  { apply val_ret. injection E as <-. injection E2 as <-. vm_compute. reflexivity. }
  destruct E3 as [s3 E3]. exists s, s1, s2, s3. auto.
Qed.
Print Assumptions C111_leave_refuted.
(** After entering a name whose value is no namespace, every name exists, has that
    value, and cannot be left. *)
Theorem C111_no_namespace_wrong : forall s k b v, reached s -> innermost (nodes s) k (now s) b ->
  shows (nodes s) b k v -> nodes s v = Some Self -> 2 <= v ->
  exists f0, forall f, f0 <= f -> exists h', enter f s k = Ret (mkN h' v) /\ same (nodes s) h' /\
    forall j f', get_symbol (S f') (mkN h' v) j = Ret (mkN h' v, v) /\
      has_symbol (S f') (mkN h' v) j = Ret (mkN h' v, true) /\ enter (S f') (mkN h' v) j = Ret (mkN h' v).
Proof.
  intros [h a] k b v R I V E L. destruct (reached_fine R) as [G N]. exact (no_namespace G N I V E L).
Qed.
Print Assumptions C111_no_namespace_wrong.
Example C111_wrong_case :
  cthen build (fun s => cthen (enter 9 s name_t) (fun s1 => cthen (get_symbol 1 s1 [120%Z]) (fun '(s2, x) =>
  cthen (leave 1 s2) (fun s3 => Ret (x, now s3))))) = Ret (2, 2).
Proof. vm_compute. reflexivity. Qed.
Example C111_diverges_case : exists s h1 h2, build = Ret s /\ reached s /\
  assign (nodes s) 3 up 3 = Ret h1 /\ reached (mkN h1 3) /\ get_symbol 50 (mkN h1 3) [120%Z] = h2 /\ h2 = Out.
Proof.
  destruct build as [s| |] eqn:E; [|vm_compute in E; discriminate E|vm_compute in E; discriminate E].
  pose proof (r_build E) as R. assert (W : exists h1, assign (nodes s) 3 up 3 = Ret h1).
  { injection E as <-. eexists. vm_compute. reflexivity. }
  destruct W as [h1 Eh]. exists s, h1, Out. split; [reflexivity|]. split; [exact R|]. split; [exact Eh|].
  assert (R1 : reached (mkN h1 3)).
  { replace 3 with (now s) at 1 by (injection E as <-; reflexivity). apply (@r_assign s 3 up 3 h1 R); [|exact Eh].
    injection E as <-. vm_compute. discriminate. }
  split; [exact R1|]. split; [|reflexivity]. injection E as <-. injection Eh as <-. vm_compute. reflexivity.
Qed.
