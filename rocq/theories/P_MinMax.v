(** Property theorems C88: the largest and the smallest of some values. *)
From Verif Require Import Base MinMax_Model MinMax_Spec MinMax_Proofs.
Local Open Scope Z_scope.

(** Values of one type with a total preorder: [max(a,b,...)] is the first of the largest
    arguments, [min(a,b,...)] the last of the smallest ones; on a list both give the first one,
    and only the empty list has none (reading it is undefined).  Missing for the property: values
    without order and arguments of different types, see below. *)
Theorem C88_one_type_partial : forall A (le : A -> A -> Prop) cmp, three_way le cmp ->
  (forall a b l, first_best le (a :: b :: l) (max_args cmp a b l)) /\
  (forall a b l, last_best (ge le) (a :: b :: l) (min_args cmp a b l)) /\
  (forall l, match max_list cmp l with Some r => first_best le l r | None => l = [] end) /\
  (forall l, match min_list cmp l with Some r => first_best (ge le) l r | None => l = [] end).
Proof.
  intros A le cmp H. exact (conj (fun a b l => max_first H a (b :: l)) (conj (fun a b l => min_last H a (b :: l))
    (conj (max_list_first H) (min_list_first H)))).
Qed.
Print Assumptions C88_one_type_partial.
Example C88_one_type_case :
  three_way (fun a b : Z * Z => fst a <= fst b) (fun a b => Some (fst a ?= fst b)) /\
  max_args (fun a b : Z * Z => Some (fst a ?= fst b)) (4, 1) (9, 2) [(3, 3); (9, 4)] = (9, 2) /\
  min_args (fun a b : Z * Z => Some (fst a ?= fst b)) (4, 1) (3, 2) [(9, 3); (3, 4)] = (3, 4) /\
  max_list (fun a b : Z * Z => Some (fst a ?= fst b)) [(4, 1); (9, 2); (3, 3); (9, 4)] = Some (9, 2) /\
  min_list (fun a b : Z * Z => Some (fst a ?= fst b)) [(4, 1); (3, 2); (9, 3); (3, 4)] = Some (3, 2).
Proof.
  split; [|vm_compute; repeat split].
  constructor; intros; [lia|lia|]. destruct (Z.compare_spec (fst a) (fst b)); lia.
Qed.

(** Finding: of equal values that can be told apart [min(a,b)] and [min({a,b})] give different
    ones. *)
Theorem C88_min_of_equals_refuted : exists a b : Z * Z, let cmp := fun x y : Z * Z => Some (fst x ?= fst y) in
  Some (min_args cmp a b []) <> min_list cmp [a; b] /\ Some (max_args cmp a b []) = max_list cmp [a; b].
Proof. exists (1, 1), (1, 2). vm_compute. split; congruence. Qed.
Print Assumptions C88_min_of_equals_refuted.

(** Finding: with a value that is not ordered ([None], a NaN) among the arguments the result is
    not the largest of the others, and depends on the order of the arguments. *)
Theorem C88_unordered_refuted : exists cmp : option Z -> option Z -> option comparison,
  (forall x y, cmp x y = match x, y with Some x, Some y => Some (x ?= y) | _, _ => None end) /\
  max_args cmp (Some 3) None [Some 5] = Some 3 /\ max_args cmp None (Some 3) [Some 5] = None /\
  max_args cmp (Some 3) (Some 5) [None] = Some 5 /\ max_list cmp [Some 3; None; Some 5] = Some (Some 5) /\
  min_args cmp (Some 3) None [Some 5] = Some 3 /\ min_args cmp (Some 3) (Some 5) [None] = None.
Proof.
  exists (fun x y => match x, y with Some x, Some y => Some (x ?= y) | _, _ => None end).
  split; [intros; reflexivity|]. vm_compute. repeat split.
Qed.
Print Assumptions C88_unordered_refuted.

(** Integers of different types: if no argument is negative, or no type of at least 32 bits is
    unsigned, the results are the largest and the smallest number.  Missing: negative numbers next to unsigned types
    (false, see below). *)
Theorem C88_integers_partial : forall a b l, (forall v, In v (a :: b :: l) -> fits v) ->
  (forall v, In v (a :: b :: l) -> 0 <= num v) \/ (forall v, In v (a :: b :: l) -> sgn (vty v) = true \/ bits (vty v) < 32) ->
  largest (map num (a :: b :: l)) (num (imax_args a b l)) /\ smallest (map num (a :: b :: l)) (num (imin_args a b l)).
Proof. intros a b l F H. exact (conj (imax_exact F H) (imin_exact F H)). Qed.
Print Assumptions C88_integers_partial.
Example C88_integers_case :
  imax_args {| vty := {| sgn := true; bits := 8 |}; num := -100 |} {| vty := {| sgn := true; bits := 64 |}; num := -7 |}
    [{| vty := {| sgn := true; bits := 16 |}; num := -8 |}] = {| vty := {| sgn := true; bits := 64 |}; num := -7 |} /\
  imin_args {| vty := {| sgn := true; bits := 8 |}; num := -100 |} {| vty := {| sgn := false; bits := 16 |}; num := 60000 |}
    [{| vty := {| sgn := true; bits := 32 |}; num := -8 |}] = {| vty := {| sgn := true; bits := 32 |}; num := -100 |} /\
  imin_args {| vty := {| sgn := false; bits := 8 |}; num := 200 |} {| vty := {| sgn := true; bits := 32 |}; num := 2147483647 |}
    [{| vty := {| sgn := false; bits := 32 |}; num := 4294967295 |}] = {| vty := {| sgn := false; bits := 32 |}; num := 200 |}.
Proof. vm_compute. repeat split. Qed.

(** Finding: [min(-1, 1u)] is 1 and [max(-1, 1u)] 4294967295. *)
Theorem C88_mixed_signs_refuted : exists a b, fits a /\ fits b /\ num a = -1 /\ num b = 1 /\
  num (imin_args a b []) = 1 /\ num (imax_args a b []) = 4294967295.
Proof.
  exists {| vty := {| sgn := true; bits := 32 |}; num := -1 |}, {| vty := {| sgn := false; bits := 32 |}; num := 1 |}.
  split; [split; vm_compute; [reflexivity|split; congruence]|]. split; [split; vm_compute; [reflexivity|split; congruence]|].
  vm_compute. repeat split.
Qed.
Print Assumptions C88_mixed_signs_refuted.

(** Finding: the order of the arguments decides, even if one type holds all of them: 5 as a signed
    64-bit number, -1 as a signed and 3 as an unsigned 32-bit number. *)
Theorem C88_order_refuted : exists a b c, fits a /\ fits b /\ fits c /\
  (forall v, In v [a; b; c] -> in_type {| sgn := true; bits := 64 |} (num v)) /\
  num (imax_args a b [c]) = 4294967295 /\ num (imax_args b c [a]) = 5 /\ vty (imax_args a b [c]) = vty (imax_args b c [a]).
Proof.
  exists {| vty := {| sgn := true; bits := 64 |}; num := 5 |}, {| vty := {| sgn := true; bits := 32 |}; num := -1 |},
    {| vty := {| sgn := false; bits := 32 |}; num := 3 |}.
  do 3 (split; [split; vm_compute; [reflexivity|split; congruence]|]).
  split; [intros v [<-|[<-|[<-|[]]]]; vm_compute; split; congruence|]. vm_compute. repeat split.
Qed.
Print Assumptions C88_order_refuted.

(** [max.for_type<T>(...)] and [min.for_type<T>(...)] are right whenever [T] holds every
    argument, whatever their types. *)
Theorem C88_for_type : forall t a b l, 0 < bits t -> (forall v, In v (a :: b :: l) -> in_type t (num v)) ->
  largest (map num (a :: b :: l)) (max_for t a b l) /\ smallest (map num (a :: b :: l)) (min_for t a b l).
Proof. exact for_exact. Qed.
Print Assumptions C88_for_type.
Example C88_for_type_case : let t := {| sgn := true; bits := 64 |} in
  let a := {| vty := t; num := 5 |} in let b := {| vty := {| sgn := true; bits := 32 |}; num := -1 |} in
  let c := {| vty := {| sgn := false; bits := 32 |}; num := 3 |} in
  max_for t a b [c] = 5 /\ max_for t b c [a] = 5 /\ min_for t a b [c] = -1.
Proof. vm_compute. repeat split. Qed.
