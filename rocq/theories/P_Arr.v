(** C41: arrays. *)
From Verif Require Import Base Arr_Model Arr_Spec Arr_Proofs.
Local Open Scope nat_scope.

(** C41.  For every element type (movable as bytes or not, with or without a
    default constructor), every behaviour of the allocator and every history of
    operations that respects the callers' obligations: nothing undefined
    happens, every answer is the one of sequences, the arrays hold the elements
    of the sequences, no two arrays share a block, and the live blocks are
    exactly those of the arrays (nothing leaks).  Partial: own elements and
    [remove] below; the variants that are told how much of the array is in use
    only for types without constructor. *)
Theorem C41_arrays_partial : forall (T : Type) (tm tc : bool) (def : T) (mv : mem T -> nat -> nat -> bool)
    (eqb : T -> T -> bool), (tc = true -> tm = true) ->
  forall os, legal_run tc def (@store0 T) os ->
  exists w l, a_run tm tc def mv eqb (world0 T) os = Some (w, l) /\ answers_ok tc def eqb (@store0 T) os l /\
    (forall i, exists b, getb (wm w) (wp w i) = Some b /\ Forall2 (fun c s => s = None \/ c = s) b (final tc def os i)) /\
    (forall i j a, wp w i = Some a -> wp w j = Some a -> i = j) /\
    (forall a, blk (wm w) a <> None <-> exists i, wp w i = Some a).
Proof. exact history. Qed.
Print Assumptions C41_arrays_partial.

(** [a.push_back(a[k])] reads freed memory whenever elements cannot be moved as
    bytes, for every reachable array and every element. *)
Theorem C41_push_own_element_undefined : forall (T : Type) (tm tc : bool) (def : T) (mv : mem T -> nat -> nat -> bool)
    (eqb : T -> T -> bool), (tc = true -> tm = true) ->
  forall os i k, tm = false -> legal_run tc def (@store0 T) os -> k < length (final tc def os i) ->
  exists w l, a_run tm tc def mv eqb (world0 T) os = Some (w, l) /\ a_push_self tm tc mv (wm w) (wp w i) k = None.
Proof. exact push_self_undefined_h. Qed.
Print Assumptions C41_push_own_element_undefined.

(** When elements are moved as bytes it works exactly if the block stays where
    it is. *)
Theorem C41_push_own_element_bytes : forall (T : Type) (tm tc : bool) (def : T) (mv : mem T -> nat -> nat -> bool)
    (eqb : T -> T -> bool), (tc = true -> tm = true) ->
  forall os i k, tm = true -> legal_run tc def (@store0 T) os -> k < length (final tc def os i) ->
  exists w l a b, a_run tm tc def mv eqb (world0 T) os = Some (w, l) /\ wp w i = Some a /\ getb (wm w) (Some a) = Some b /\
    (mv (wm w) a (length b + 1) = true -> a_push_self tm tc mv (wm w) (Some a) k = None) /\
    (mv (wm w) a (length b + 1) = false -> exists h', a_push_self tm tc mv (wm w) (Some a) k = Some (h', Some a) /\
       getb h' (Some a) = Some (b ++ [nth k b None])).
Proof. exact push_self_bytes_h. Qed.
Print Assumptions C41_push_own_element_bytes.

(** [remove] of an element that is last or last but one, in an array of at
    least two elements, removes it and touches nothing else.  Partial: the
    other positions are refuted below. *)
Theorem C41_remove_partial : forall (T : Type) (tm tc : bool) (def : T) (mv : mem T -> nat -> nat -> bool)
    (eqb : T -> T -> bool), (tc = true -> tm = true) ->
  forall os i l1 y l2 x, legal_run tc def (@store0 T) os -> final tc def os i = known (l1 ++ y :: l2) ->
  eqb y x = true -> (forall z, In z l1 -> eqb z x = false) -> length l2 <= 1 -> 1 <= length l1 + length l2 ->
  exists w l h', a_run tm tc def mv eqb (world0 T) os = Some (w, l) /\
    a_remove tm tc mv eqb (wm w) (wp w i) x = Some (h', wp w i, true) /\ getb h' (wp w i) = Some (known (l1 ++ l2)) /\
    (forall a, wp w i <> Some a -> blk h' a = blk (wm w) a).
Proof. exact remove_partial_h. Qed.
Print Assumptions C41_remove_partial.

(** With two or more elements behind the removed one it is undefined, for every
    type: overlapping [memcpy], or objects constructed over live ones. *)
Theorem C41_remove_undefined : forall (T : Type) (tm tc : bool) (def : T) (mv : mem T -> nat -> nat -> bool)
    (eqb : T -> T -> bool), (tc = true -> tm = true) ->
  forall os i l1 y l2 x, legal_run tc def (@store0 T) os -> final tc def os i = known (l1 ++ y :: l2) ->
  eqb y x = true -> (forall z, In z l1 -> eqb z x = false) -> 2 <= length l2 ->
  exists w l, a_run tm tc def mv eqb (world0 T) os = Some (w, l) /\ a_remove tm tc mv eqb (wm w) (wp w i) x = None.
Proof. exact remove_undefined_h. Qed.
Print Assumptions C41_remove_undefined.

(** Removing the only element leaves the array with a pointer to a freed block. *)
Theorem C41_remove_only_dangles : forall (T : Type) (tm tc : bool) (def : T) (mv : mem T -> nat -> nat -> bool)
    (eqb : T -> T -> bool), (tc = true -> tm = true) ->
  forall os i y x, legal_run tc def (@store0 T) os -> final tc def os i = known [y] -> eqb y x = true ->
  exists w l h', a_run tm tc def mv eqb (world0 T) os = Some (w, l) /\
    a_remove tm tc mv eqb (wm w) (wp w i) x = Some (h', wp w i, true) /\ getb h' (wp w i) = None.
Proof. exact remove_only_h. Qed.
Print Assumptions C41_remove_only_dangles.

(** A history with two arrays of objects with constructors, where the block
    moves. *)
Definition C41_ops : list (aop Z) :=
  [AOf 0 [1; 2; 3]%Z; AInsert 0 1 [8; 9]%Z; ACopy Z 1 0; APush 1 7%Z; AFResize Z 0 2; AResize Z 0 4;
   AInsertR 0 1 [5]%Z 7; AFInsertR 1 6 [4]%Z 9; ASwap Z 0 1; ASet 0 2 6%Z; AGet Z 0 2; AFind 0 9%Z; ASize Z 1; AClear Z 1].
Example C41_case :
  legal_run false 0%Z (@store0 Z) C41_ops /\
  final false 0%Z C41_ops 0 = known [0; 0; 6; 8; 9; 2; 3; 7; 4]%Z /\
  match a_run false false 0%Z (fun _ _ _ => true) Z.eqb (world0 Z) C41_ops with
  | Some (w, l) => getb (wm w) (wp w 0) = Some (known [0; 0; 6; 8; 9; 2; 3; 7; 4]%Z) /\ wp w 1 = None /\
      skipn 10 l = [RElem 6%Z; RPos Z (Some 4); RSize Z 7; RNone Z]
  | None => False
  end.
Proof.
  vm_compute. repeat match goal with |- _ /\ _ => split end; try reflexivity; try lia; try discriminate.
  - exists 6%Z. reflexivity.
  - intros H. repeat destruct H as [H|H]; try discriminate. exact H.
Qed.

(** [insert_with_resize] told that part of the array is in use: the defaults
    are constructed at the wrong place, and the element 3 is lost. *)
Theorem C41_insert_used_refuted : exists (os : list (aop Z)) w l b,
  let o := AInsertU 0 0 [9]%Z 6 3 in
  legal_run false 0%Z (@store0 Z) os /\ final false 0%Z os 0 = known [1; 2; 3]%Z /\
  a_run true false 0%Z (fun _ _ _ => false) Z.eqb (world0 Z) (os ++ [o]) = Some (w, l) /\
  getb (wm w) (wp w 0) = Some b /\
  nth_error (effect false 0%Z (final false 0%Z os) o 0) 3 = Some (Some 3%Z) /\ nth_error b 3 = Some (Some 0%Z).
Proof.
  exists [AOf 0 [1; 2; 3]%Z]. do 3 eexists. cbn [app]. split; [split; exact I|]. split; [reflexivity|].
  split; [vm_compute; reflexivity|]. split; [vm_compute; reflexivity|]. split; vm_compute; reflexivity.
Qed.
Print Assumptions C41_insert_used_refuted.

(** [insert_with_forward_resize] with nothing to insert ignores the new size. *)
Theorem C41_forward_insert_nothing_refuted : exists (os : list (aop Z)) w l,
  let o := AFInsertR 0 0 ([] : list Z) 5 in
  legal_run false 0%Z (@store0 Z) os /\
  a_run true false 0%Z (fun _ _ _ => false) Z.eqb (world0 Z) (os ++ [o; ASize Z 0]) = Some (w, l) /\
  length (effect false 0%Z (final false 0%Z os) o 0) = 5 /\ last l (RNone Z) = RSize Z 2.
Proof.
  exists [AOf 0 [1; 2]%Z]. do 2 eexists. cbn [app]. split; [split; exact I|].
  split; [vm_compute; reflexivity|]. split; vm_compute; reflexivity.
Qed.
Print Assumptions C41_forward_insert_nothing_refuted.

(** Cases for the hypotheses of the theorems on own elements and [remove]. *)
Example C41_case_remove :
  let os := [AOf 0 [1; 2; 3]%Z] in
  legal_run false 0%Z (@store0 Z) os /\ final false 0%Z os 0 = known ([1; 2] ++ 3 :: [])%Z /\
  final false 0%Z os 0 = known ([] ++ 1 :: [2; 3])%Z /\
  match a_run false false 0%Z (fun _ _ _ => true) Z.eqb (world0 Z) os with
  | Some (w, _) =>
      match a_remove false false (fun _ _ _ => true) Z.eqb (wm w) (wp w 0) 2%Z with
      | Some (h, p, b) => getb h p = Some (known [1; 3]%Z) /\ b = true
      | None => False
      end /\
      a_remove false false (fun _ _ _ => true) Z.eqb (wm w) (wp w 0) 1%Z = None /\
      a_push_self false false (fun _ _ _ => true) (wm w) (wp w 0) 1 = None
  | None => False
  end.
Proof. vm_compute. repeat split. Qed.
