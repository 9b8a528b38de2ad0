(** Property theorems C106: iterators of strings, arrays and views. *)
From Verif Require Import Base Iter_Model Iter_Proofs.
Local Open Scope Z_scope.

(** ** C106 *)
(** A loop from begin to end sees every character of a string, in order, and then
    stops; one from rbegin to rend sees them in the opposite order, also for the
    empty string. *)
Theorem C106_string_loops : forall (T : Type) to (s : list T) fuel,
  Z.of_nat (length s) <= pmax -> (length s < fuel)%nat ->
  walk_string fuel to s = Seen s /\ walk_string_back fuel to s = Seen (rev s).
Proof. intros. split; [now apply walk_string_all|now apply walk_string_back_all]. Qed.
Print Assumptions C106_string_loops.
Example C106_string_case :
  walk_string_back 4 7 [97; 98; 99] = Seen [99; 98; 97] /\ walk_string_back 1 7 (@nil Z) = Seen [] /\
  Z.of_nat (length [97; 98; 99]) <= pmax.
Proof. repeat split; vm_compute; discriminate. Qed.

(** Jumping by [n] lands [n] places further, back or forth. *)
Theorem C106_string_jumps : forall to x n, pmin <= x <= pmax -> pmin <= x + n <= pmax ->
  plus s_next s_before (Sit to x) n = Some (Sit to (x + n)).
Proof. exact string_plus. Qed.
Print Assumptions C106_string_jumps.
Theorem C106_string_jumps_back : forall to x n,
  pmin <= x <= pmax -> pmin <= x - n <= pmax -> pmin < n <= pmax ->
  minus s_next s_before (Sit to x) n = Some (Sit to (x - n)).
Proof. exact string_minus. Qed.
Print Assumptions C106_string_jumps_back.
(** Except by the least distance, whose opposite does not exist. *)
Theorem C106_least_jump_refuted : exists to x, pmin <= x - pmin <= pmax /\
  minus s_next s_before (Sit to x) pmin = None.
Proof. exists 0%nat, (-1). split; [vm_compute; split; discriminate|reflexivity]. Qed.
Print Assumptions C106_least_jump_refuted.
Example C106_jump_case :
  plus s_next s_before (Sit 3 5) (-4) = Some (Sit 3 1) /\
  plus s_next s_before (Sit 3 5) 4 = Some (Sit 3 9) /\
  minus s_next s_before (Sit 3 5) 6 = Some (Sit 3 (-1)) /\ pmin <= 5 - 6 <= pmax.
Proof. repeat split; vm_compute; discriminate. Qed.

(** Iterators of one string are ordered and equal as their positions are. *)
Theorem C106_string_order : forall to i j,
  s_cmp (Sit to i) (Sit to j) = Some (i ?= j) /\
  (s_eq (Sit to i) (Sit to j) = true <-> i = j).
Proof. exact string_order. Qed.
Print Assumptions C106_string_order.
Example C106_order_case : s_cmp (Sit 1 (-1)) (Sit 1 4) = Some Lt /\ s_cmp (Sit 1 0) (Sit 2 4) = None.
Proof. split; reflexivity. Qed.

(** A loop from begin to end sees every element of an array or view. *)
Theorem C106_array_loop : forall (T : Type) strict (s : list T) fuel,
  (length s < fuel)%nat -> walk_array strict fuel s = Seen s.
Proof. exact @walk_array_all. Qed.
Print Assumptions C106_array_loop.
(** The loop from rbegin to rend sees them in the opposite order if pointers in
    front of an array can be formed.  Missing: that they can — see below. *)
Theorem C106_array_back_partial : forall (T : Type) (s : list T) fuel,
  (length s < fuel)%nat -> walk_array_back false fuel s = Seen (rev s).
Proof. exact @walk_array_back_flat. Qed.
Print Assumptions C106_array_back_partial.
(** By the rules of C++ rend of every array and view is undefined, and with it
    every loop up to it. *)
Theorem C106_array_back_undefined : forall (T : Type) (s : list T) fuel,
  p_rend true (Z.of_nat (length s)) = None /\ walk_array_back true fuel s = Undefined.
Proof.
  intros. split; [apply array_rend_outside; apply Zle_0_nat|apply walk_array_back_strict].
Qed.
Print Assumptions C106_array_back_undefined.
(** Jumps of a reverse iterator that stay inside of the array. *)
Theorem C106_array_back_jumps : forall n p k, 0 <= p <= n -> 0 <= p - k <= n ->
  plus (r_next true n) (r_before true n) p k = Some (p - k).
Proof. exact array_rplus. Qed.
Print Assumptions C106_array_back_jumps.
Example C106_array_case :
  walk_array true 4 [5; 6; 7] = Seen [5; 6; 7] /\ walk_array_back false 4 [5; 6; 7] = Seen [7; 6; 5] /\
  plus (r_next true 9) (r_before true 9) 8 3 = Some 5 /\
  plus (r_next true 9) (r_before true 9) 2 (-3) = Some 5.
Proof. repeat split. Qed.

(** A string made from two iterators of a string holds what lies between them, if
    there is something between them.  Missing: the cases below. *)
Theorem C106_between_partial : forall (T : Type) (s : list T) to i j,
  (i < j)%nat -> (j <= length s)%nat -> Z.of_nat (length s) <= pmax ->
  from_iterators s (Sit to (Z.of_nat i)) (Sit to (Z.of_nat j))
  = Some (Made (firstn (j - i) (skipn i s))).
Proof. exact @from_between. Qed.
Print Assumptions C106_between_partial.
(** With nothing between them it is undefined, for every string and position. *)
Theorem C106_between_nothing_undefined : forall (T : Type) (s : list T) to i,
  (i <= length s)%nat -> Z.of_nat (length s) <= pmax ->
  from_iterators s (Sit to (Z.of_nat i)) (Sit to (Z.of_nat i)) = None.
Proof. exact @from_nothing. Qed.
Print Assumptions C106_between_nothing_undefined.
(** In the wrong order it holds everything from the first one on. *)
Theorem C106_between_backward_wrong : forall (T : Type) (s : list T) to i j,
  (j < i)%nat -> (i < length s)%nat -> Z.of_nat (length s) <= pmax ->
  from_iterators s (Sit to (Z.of_nat i)) (Sit to (Z.of_nat j)) = Some (Made (skipn i s)).
Proof. exact @from_backward. Qed.
Print Assumptions C106_between_backward_wrong.
(** From iterators of different strings its members are never initialised. *)
Theorem C106_between_strings_undefined : forall (T : Type) (s : list T) i j, s_to i <> s_to j ->
  from_iterators s i j = Some Uninitialised.
Proof. exact @from_two. Qed.
Print Assumptions C106_between_strings_undefined.
Example C106_between_case :
  from_iterators [97; 98; 99; 100] (Sit 2 1) (Sit 2 3) = Some (Made [98; 99]) /\
  from_iterators [97; 98; 99; 100] (Sit 2 3) (Sit 2 1) = Some (Made [100]) /\
  from_iterators [97; 98; 99; 100] (Sit 2 3) (Sit 2 3) = None.
Proof. repeat split. Qed.
