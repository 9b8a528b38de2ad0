(** C71: comparing the nodes of the interpreter's data. *)
From Verif Require Import Base.
From Verif Require Import Node_Model Node_Spec Node_Proofs.

(** [==] of two pointers to nodes: boxed objects are the same when they hold
    equal objects, any other node is the same as itself only.
    Missing: boxes of different types, see below. *)
Theorem C71_same_partial : forall comparable teq h a b, ~ mixed comparable h a b ->
  eq_with comparable teq h a b = Some (of_bool (same_node comparable teq h a b)).
Proof. exact eq_right. Qed.
Print Assumptions C71_same_partial.
(** Numbers 5, 5 and 6, a pair of the first two, nil. *)
Example C71_same_case :
  let h := fun a => nth a [NBox 0 5; NBox 0 5; NBox 0 6; NPair 0 0 1; NNil]%Z NVoid in
  ~ mixed (fun _ => true) h 0 1 /\ eq_with (fun _ => true) (fun _ => Z.eqb) h 0 1 = Some (of_bool true) /\
  eq_with (fun _ => true) (fun _ => Z.eqb) h 0 2 = Some (of_bool false) /\
  eq_with (fun _ => true) (fun _ => Z.eqb) h 3 0 = Some (of_bool false) /\
  eq_with (fun _ => true) (fun _ => Z.eqb) h 4 4 = Some (of_bool true).
Proof.
  refine (conj _ (conj _ (conj _ (conj _ _)))); [|vm_compute; reflexivity..].
  intros (t1 & v1 & t2 & v2 & X & Y & N & _). cbn in X, Y. congruence.
Qed.

(** Two boxes that hold objects of different C++ types, such as a number and a
    text: one is read as if it were the other. *)
Theorem C71_different_types_undefined : forall comparable teq feq h a b, mixed comparable h a b ->
  eq_with comparable teq h a b = None /\ equal_with comparable teq feq h a b = None.
Proof. exact mixed_undefined. Qed.
Print Assumptions C71_different_types_undefined.
(** A box with 5 and a box of another type with 7. *)
Example C71_different_types_case :
  let h := fun a => nth a [NBox 0 5; NBox 1 7]%Z NVoid in mixed (fun _ => true) h 0 1.
Proof. exists 0, 5%Z, 1, 7%Z. repeat split. discriminate. Qed.

(** The order of the operands never matters. *)
Theorem C71_symmetric : forall comparable teq feq h a b,
  eq_with comparable teq h a b = eq_with comparable teq h b a /\
  equal_with comparable teq feq h a b = equal_with comparable teq feq h b a /\
  node_eq comparable teq feq h a b = node_eq comparable teq feq h b a.
Proof.
  exact (fun c t f h a b => conj (eq_symm c t h a b) (conj (equal_symm c t f h a b) (equal_symm c t f h b a))).
Qed.
Print Assumptions C71_symmetric.
(** nil with a pair, whose answers differ when each is asked alone. *)
Example C71_symmetric_case :
  let h := fun a => nth a [NNil; NPair 0 0 0; NT]%Z NVoid in
  was_equal (fun _ => true) (fun _ => Z.eqb) (fun _ _ => None) h 2 1 = Some (of_bool true) /\
  was_equal (fun _ => true) (fun _ => Z.eqb) (fun _ _ => None) h 1 2 = Some (of_bool false) /\
  equal_with (fun _ => true) (fun _ => Z.eqb) (fun _ _ => None) h 1 2 = Some (of_bool true).
Proof. vm_compute. auto. Qed.

(** If [==] of the boxed types is an equivalence then so is [==] of pointers. *)
Theorem C71_equivalence : forall comparable teq,
  (forall ty v, teq ty v v = true) ->
  (forall ty u v w, teq ty u v = true -> teq ty v w = true -> teq ty u w = true) ->
  forall h,
  (forall a, eq_with comparable teq h a a = Some (of_bool true)) /\
  (forall a b c, eq_with comparable teq h a b = Some (of_bool true) -> eq_with comparable teq h b c = Some (of_bool true) ->
     eq_with comparable teq h a c = Some (of_bool true)).
Proof.
  exact (fun c t R T h => conj (eq_refl_node c R h) (fun x y z => @eq_trans_node c t T h x y z)).
Qed.
Print Assumptions C71_equivalence.
(** Three boxes that hold numbers with the same remainder by 3. *)
Example C71_equivalence_case :
  let h := fun a => nth a [NBox 0 4; NBox 0 7; NBox 0 1]%Z NVoid in
  let teq := fun (_ : nat) u v => Z.eqb (Z.modulo u 3) (Z.modulo v 3) in
  (forall ty v, teq ty v v = true) /\
  (forall ty u v w, teq ty u v = true -> teq ty v w = true -> teq ty u w = true) /\
  eq_with (fun _ => true) teq h 0 1 = Some (of_bool true) /\ eq_with (fun _ => true) teq h 1 2 = Some (of_bool true).
Proof.
  refine (conj _ (conj _ (conj _ _))); [intros; apply Z.eqb_refl| |vm_compute; reflexivity..].
  intros ty u v w A B. apply Z.eqb_eq in A, B. apply Z.eqb_eq. congruence.
Qed.

(** Nodes that are the same have the same hash.
    Missing: types that can be compared but not hashed, see below. *)
Theorem C71_hash_partial : forall comparable teq hashable thash ahash,
  (forall ty, comparable ty = true -> hashable ty = true) ->
  (forall ty u v, teq ty u v = true -> thash ty u = thash ty v) ->
  forall h a b, eq_with comparable teq h a b = Some (of_bool true) ->
  node_hash hashable thash ahash h a = node_hash hashable thash ahash h b.
Proof. exact hash_right. Qed.
Print Assumptions C71_hash_partial.
(** Two boxes with 5, hashed to 5 * 31. *)
Example C71_hash_case :
  let h := fun a => nth a [NBox 0 5; NBox 0 5]%Z NVoid in
  eq_with (fun _ => true) (fun _ => Z.eqb) h 0 1 = Some (of_bool true) /\
  (forall (ty : nat) u v, Z.eqb u v = true -> (u * 31 = v * 31)%Z) /\
  node_hash (fun _ => true) (fun _ v => (v * 31)%Z) (fun a => Z.of_nat a) h 1 = 155%Z.
Proof.
  refine (conj _ (conj _ _)); [vm_compute; reflexivity| |vm_compute; reflexivity].
  intros ty u v E. apply Z.eqb_eq in E. subst. reflexivity.
Qed.
(** A type with [==] and without hash: equal boxes hash to their addresses. *)
Theorem C71_hash_refuted : exists comparable teq hashable thash ahash h a b,
  (forall ty u v, teq ty u v = true -> thash ty u = thash ty v) /\
  eq_with comparable teq h a b = Some (of_bool true) /\
  node_hash hashable thash ahash h a <> node_hash hashable thash ahash h b.
Proof.
  exists (fun _ => true), (fun _ => Z.eqb), (fun _ => false), (fun _ v => v), (fun a => Z.of_nat a),
    (fun a => nth a [NBox 0 5; NBox 0 5]%Z NVoid), 0, 1.
  refine (conj _ (conj _ _)); [intros ty u v; apply Z.eqb_eq|vm_compute; reflexivity|vm_compute; discriminate].
Qed.
Print Assumptions C71_hash_refuted.

(** Two pairs are equal when they are of the same kind and their parts are the
    same nodes.
    Missing: parts that are boxes of different types. *)
Theorem C71_pairs_partial : forall comparable teq feq h a b k x y k' x' y',
  h a = NPair k x y -> h b = NPair k' x' y' ->
  (k = k' -> ~ mixed comparable h x x' /\ ~ mixed comparable h y y') ->
  equal_with comparable teq feq h a b =
  Some (of_bool (Nat.eqb k k' && same_node comparable teq h x x' && same_node comparable teq h y y')).
Proof. exact pair_right. Qed.
Print Assumptions C71_pairs_partial.
(** (5 . 6) twice, with boxes of their own; the second time also as an [expr]. *)
Example C71_pairs_case :
  let h := fun a => nth a [NBox 0 5; NBox 0 6; NBox 0 5; NBox 0 6; NPair 0 0 1; NPair 0 2 3; NPair 1 2 3]%Z NVoid in
  equal_with (fun _ => true) (fun _ => Z.eqb) (fun _ _ => None) h 4 5 = Some (of_bool true) /\
  equal_with (fun _ => true) (fun _ => Z.eqb) (fun _ _ => None) h 4 6 = Some (of_bool false).
Proof. vm_compute. auto. Qed.

(** Lists of one element are equal when the elements are the same.
    Missing: longer lists, for which this fails, see below. *)
Theorem C71_lists_partial : forall comparable teq feq h a b x x' ca cb,
  (forall p q, h p = NNil -> h q = NNil -> p = q) ->
  is_list h a [x] ca -> is_list h b [x'] cb -> ~ mixed comparable h x x' ->
  equal_with comparable teq feq h a b = Some (of_bool (same_lists comparable teq h [x] [x'])).
Proof. exact one_element. Qed.
Print Assumptions C71_lists_partial.
(** A list is equal to itself. *)
Theorem C71_list_itself : forall comparable teq feq, (forall ty v, teq ty v v = true) ->
  forall h a x l c, is_list h a (x :: l) c -> equal_with comparable teq feq h a a = Some (of_bool true).
Proof. exact (fun c t f R => @list_itself c t f R). Qed.
Print Assumptions C71_list_itself.
(** Two lists of two or more elements that were built separately are never
    equal, whatever they hold. *)
Theorem C71_lists_wrong : forall comparable teq feq h a b x y l x' y' l' ca cb,
  is_list h a (x :: y :: l) ca -> is_list h b (x' :: y' :: l') cb -> (forall p, In p ca -> ~ In p cb) ->
  ~ mixed comparable h x x' ->
  equal_with comparable teq feq h a b = Some (of_bool false).
Proof. exact lists_wrong. Qed.
Print Assumptions C71_lists_wrong.
(** (5) and (5): equal.  (5 5) and (5 5), with the same elements: not equal,
    although they should be. *)
Example C71_lists_case :
  let h := fun a => nth a [NNil; NBox 0 5; NPair 0 1 0; NPair 0 1 0; NPair 0 1 2; NPair 0 1 3]%Z NVoid in
  (forall p q, h p = NNil -> h q = NNil -> p = q) /\
  is_list h 2 [1] [2] /\ is_list h 3 [1] [3] /\
  equal_with (fun _ => true) (fun _ => Z.eqb) (fun _ _ => None) h 2 3 = Some (of_bool true) /\
  is_list h 4 [1; 1] [4; 2] /\ is_list h 5 [1; 1] [5; 3] /\
  same_lists (fun _ => true) (fun _ => Z.eqb) h [1; 1] [1; 1] = true /\
  equal_with (fun _ => true) (fun _ => Z.eqb) (fun _ _ => None) h 4 5 = Some (of_bool false).
Proof.
  refine (conj _ (conj _ (conj _ (conj _ (conj _ (conj _ (conj _ _))))))); try (vm_compute; reflexivity).
  - intros p q P Q. do 6 (destruct p as [|p]; [do 6 (destruct q as [|q]; [cbn in P, Q; congruence|]); cbn in Q; destruct q; discriminate|]).
    cbn in P. destruct p; discriminate.
  - apply list_more with 0; [reflexivity|apply list_end; reflexivity].
  - apply list_more with 0; [reflexivity|apply list_end; reflexivity].
  - apply list_more with 2; [reflexivity|]. apply list_more with 0; [reflexivity|apply list_end; reflexivity].
  - apply list_more with 3; [reflexivity|]. apply list_more with 0; [reflexivity|apply list_end; reflexivity].
Qed.

(** [t] is equal to every true node and to no other, nil the other way round;
    the void node is compared by its own rule. *)
Theorem C71_truth : forall comparable teq feq h t n b, h t = NT -> h n = NNil -> h b <> NVoid ->
  equal_with comparable teq feq h t b = Some (of_bool (true_node (h b))) /\
  equal_with comparable teq feq h n b = Some (of_bool (negb (true_node (h b)))).
Proof. exact truth_right. Qed.
Print Assumptions C71_truth.
(** [t], nil and the number 0, which is true. *)
Example C71_truth_case :
  let h := fun a => nth a [NT; NNil; NBox 0 0]%Z NVoid in
  equal_with (fun _ => true) (fun _ => Z.eqb) (fun _ _ => None) h 0 2 = Some (of_bool true) /\
  equal_with (fun _ => true) (fun _ => Z.eqb) (fun _ _ => None) h 1 2 = Some (of_bool false) /\
  equal_with (fun _ => true) (fun _ => Z.eqb) (fun _ _ => None) h 1 0 = Some (of_bool false).
Proof. vm_compute. auto. Qed.
(** As a condition: all nodes but nil and void hold; only for nil the negation holds. *)
Theorem C71_condition : forall n,
  to_bool (truth n) = true_node n /\
  to_bool (lnot (truth n)) = match n with NNil => true | _ => false end.
Proof. exact as_bool. Qed.
Print Assumptions C71_condition.
Example C71_condition_case : to_bool (truth (NBox 0 0)) = true /\ to_bool (truth NVoid) = false /\ to_bool (lnot (truth NVoid)) = false.
Proof. vm_compute. auto. Qed.
(** Functions are equal when the function objects say so in both directions; if
    that throws, the answer is unknown, which counts as not equal. *)
Theorem C71_functions : forall comparable teq feq h a b f g, h a = NFun f -> h b = NFun g ->
  exists r, node_eq comparable teq feq h a b = Some r /\
    (is_unknown r = true <-> feq f g = None \/ feq g f = None) /\
    (to_bool r = true <-> feq f g = Some true /\ feq g f = Some true).
Proof. exact functions_right. Qed.
Print Assumptions C71_functions.
Example C71_functions_case :
  let h := fun a => nth a [NFun 7; NFun 7; NFun 8] NVoid in
  let e := fun f g => if Nat.eqb f g then Some true else None in
  node_eq (fun _ => true) (fun _ => Z.eqb) e h 0 1 = Some (of_bool true) /\
  node_eq (fun _ => true) (fun _ => Z.eqb) e h 0 2 = Some unknown.
Proof. vm_compute. auto. Qed.
(** The one void node is both equal and unequal to itself, and neither to
    anything else. *)
Theorem C71_void : forall comparable teq feq h v b, h v = NVoid -> (forall p q, h p = NVoid -> h q = NVoid -> p = q) ->
  equal_with comparable teq feq h v b = Some (if Nat.eqb v b then either else neither).
Proof. exact void_right. Qed.
Print Assumptions C71_void.
(** As bool: [==] and [!=] of void with itself are both true, with nil both
    false. *)
Example C71_void_case :
  (to_bool either = true /\ to_bool (lnot either) = true) /\ (to_bool neither = false /\ to_bool (lnot neither) = false) /\
  equal_with (fun _ => true) (fun _ => Z.eqb) (fun _ _ => None) (fun a => match a with 0 => NVoid | _ => NNil end) 1 0 = Some neither.
Proof. vm_compute. auto. Qed.

(** [==] of nodes is not transitive: 5 equals [t] and [t] equals 6. *)
Theorem C71_transitive_refuted : exists comparable teq feq h a b c,
  node_eq comparable teq feq h a b = Some (of_bool true) /\ node_eq comparable teq feq h b c = Some (of_bool true) /\
  node_eq comparable teq feq h a c = Some (of_bool false).
Proof.
  exists (fun _ => true), (fun _ => Z.eqb), (fun _ _ => None), (fun a => nth a [NBox 0 5; NT; NBox 0 6]%Z NVoid), 0, 1, 2.
  vm_compute. auto.
Qed.
Print Assumptions C71_transitive_refuted.
