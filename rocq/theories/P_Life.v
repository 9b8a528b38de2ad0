(** C74: building, copying, moving and destroying rows of objects;
    C75: one value in a row of objects. *)
From Verif Require Import Base Float_Spec Life_Model Life_Spec Life_Proofs Fill_Proofs.
Local Open Scope nat_scope.

(** Copying a row to free slots gives the same values there and changes nothing
    else, whichever operations of the type are trivial or missing. *)
Theorem C74_copy : forall T dflt left_over throws m to from l,
  lawful T -> copies T -> objects m from l -> vacant T m to (length l) ->
  apart to (length l) from (length l) -> quiet throws to (length l) ->
  exists m', copy_construct T dflt left_over throws m to from (length l) = Done m' /\
    objects m' to l /\ only m m' to (length l).
Proof. exact copy_right. Qed.
Print Assumptions C74_copy.
Example C74_copy_case :
  lawful handle /\ copies handle /\
  shows (copy_construct handle 0 (fun _ => 0%Z) (fun _ => false) (holding [5;6;7]%Z) 10 0 3) 9 5 =
    [Raw; Obj (Some 5%Z); Obj (Some 6%Z); Obj (Some 7%Z); Raw].
Proof. refine (conj _ (conj (or_introl eq_refl) eq_refl)). split; cbn; auto; discriminate. Qed.

(** Moving a row to free slots takes the values there; the old slots are free
    then. *)
Theorem C74_move : forall T dflt left_over throws m to from l,
  lawful T -> moves T -> objects m from l -> vacant T m to (length l) ->
  apart to (length l) from (length l) -> quiet throws to (length l) ->
  exists m', move T dflt left_over throws m to from (length l) = Done m' /\
    objects m' to l /\ vacant T m' from (length l) /\
    forall i, (i < to \/ to + length l <= i) -> (i < from \/ from + length l <= i) -> m' i = m i.
Proof. exact move_right. Qed.
Print Assumptions C74_move.
Example C74_move_case :
  shows (move handle 0 (fun _ => 0%Z) (fun _ => false) (holding [5;6]%Z) 2 0 2) 0 4 =
    [Raw; Raw; Obj (Some 5%Z); Obj (Some 6%Z)].
Proof. reflexivity. Qed.

(** Move construction alone leaves the old objects alive. *)
Theorem C74_move_construct : forall T dflt left_over throws m to from l,
  lawful T -> moves T -> objects m from l -> vacant T m to (length l) ->
  apart to (length l) from (length l) -> quiet throws to (length l) ->
  exists m', move_construct T dflt left_over throws m to from (length l) = Done m' /\
    objects m' to l /\ living m' from (length l) /\
    forall i, (i < to \/ to + length l <= i) -> (i < from \/ from + length l <= i) -> m' i = m i.
Proof. exact move_construct_right. Qed.
Print Assumptions C74_move_construct.
Example C74_move_construct_case :
  shows (move_construct handle 0 (fun _ => 0%Z) (fun _ => false) (holding [5;6]%Z) 2 0 2) 0 4 =
    [Obj (Some 0%Z); Obj (Some 0%Z); Obj (Some 5%Z); Obj (Some 6%Z)].
Proof. reflexivity. Qed.

(** Destroying a row of living objects frees these slots and no other. *)
Theorem C74_destruct : forall T m p n, living m p n ->
  exists m', destruct_array T m p n = Done m' /\ vacant T m' p n /\ only m m' p n.
Proof. exact destruct_right. Qed.
Print Assumptions C74_destruct.
Example C74_destruct_case :
  shows (destruct_array handle (holding [5;6;7]%Z) 1 2) 0 3 = [Obj (Some 5%Z); Raw; Raw].
Proof. reflexivity. Qed.

(** Construction without argument. *)
Theorem C74_default : forall T wsize dflt left_over throws m to n,
  lawful T -> d_able T = true -> vacant T m to n -> quiet throws to n ->
  exists m', construct_array T wsize dflt left_over throws m to n ANone = Done m' /\ living m' to n /\ only m m' to n /\
    (d_triv T = false -> objects m' to (repeat dflt n)).
Proof. exact default_right. Qed.
Print Assumptions C74_default.
Example C74_default_case :
  shows (construct_array handle 4 9 (fun _ => 0%Z) (fun _ => false) (holding [5]%Z) 1 2 ANone) 0 4 =
    [Obj (Some 5%Z); Obj (Some 9%Z); Obj (Some 9%Z); Raw].
Proof. reflexivity. Qed.

(** Assigning a row to a row apart from it, or, unless assignment is trivial, one
    that begins behind it, gives the same values.  Missing: other overlaps, see
    the next two. *)
Theorem C74_assign_partial : forall T dflt left_over throws m to from l,
  lawful T -> assigns T -> objects m from l -> living m to (length l) -> quiet throws to (length l) ->
  (apart to (length l) from (length l) \/ assign_triv T = false /\ from < to) ->
  exists m', copy_assign T dflt left_over throws m to from (length l) = Done m' /\
    objects m' to l /\ only m m' to (length l).
Proof. exact assign_right. Qed.
Print Assumptions C74_assign_partial.
(** Overlapping, with and without an assignment operator. *)
Example C74_assign_case :
  shows (copy_assign handle 0 (fun _ => 0%Z) (fun _ => false) (holding [5;6;7;8]%Z) 1 0 3) 0 4 =
    [Obj (Some 5%Z); Obj (Some 5%Z); Obj (Some 6%Z); Obj (Some 7%Z)] /\
  shows (copy_assign handle_const 0 (fun _ => 0%Z) (fun _ => false) (holding [5;6;7;8]%Z) 1 0 3) 0 4 =
    [Obj (Some 5%Z); Obj (Some 5%Z); Obj (Some 6%Z); Obj (Some 7%Z)].
Proof. split; reflexivity. Qed.

(** Towards the front, over a distance of s, every element gets the last value
    that lies a multiple of s behind. *)
Theorem C74_assign_down_wrong : forall T dflt left_over throws m to s l,
  lawful T -> assigns T -> assign_triv T = false -> 0 < s ->
  objects m (to + s) l -> living m to (length l) -> quiet throws to (length l) ->
  exists m', copy_assign T dflt left_over throws m to (to + s) (length l) = Done m' /\
    forall k, k < length l ->
      exists v, nth_error l (k + s * ((length l - 1 - k) / s)) = Some v /\ m' (to + k) = Obj (Some v).
Proof. exact assign_down. Qed.
Print Assumptions C74_assign_down_wrong.
Example C74_assign_down_case :
  shows (copy_assign handle 0 (fun _ => 0%Z) (fun _ => false) (holding [5;6;7;8]%Z) 0 1 3) 0 4 =
    [Obj (Some 8%Z); Obj (Some 8%Z); Obj (Some 8%Z); Obj (Some 8%Z)].
Proof. reflexivity. Qed.

(** With a trivial assignment every overlap is undefined. *)
Theorem C74_assign_overlap_undefined : forall T dflt left_over throws m to from n,
  can_assign T = true -> assign_triv T = true -> 0 < n -> ~ apart to n from n ->
  copy_assign T dflt left_over throws m to from n = Ub.
Proof. exact assign_overlap. Qed.
Print Assumptions C74_assign_overlap_undefined.
Example C74_assign_overlap_case :
  copy_assign (builtin 4 (KInt true)) 0 (fun _ => 0%Z) (fun _ => false) (holding [5;6;7]%Z) 1 0 2 = Ub.
Proof. reflexivity. Qed.

(** One object. *)
Theorem C74_assign_one_partial : forall T dflt left_over throws m a b w v,
  lawful T -> assigns T -> m a = Obj w -> m b = Obj (Some v) -> throws a = false ->
  a <> b -> (ca_able T = true \/ copyable T = false) ->
  exists m', copy_assign_one T dflt left_over throws m a b = Done m' /\ m' a = Obj (Some v) /\
    forall i, i <> a -> m' i = m i.
Proof. exact assign_one_right. Qed.
Print Assumptions C74_assign_one_partial.
Example C74_assign_one_case :
  shows (copy_assign_one handle_const 0 (fun _ => 0%Z) (fun _ => false) (holding [5;6]%Z) 0 1) 0 2 =
    [Obj (Some 6%Z); Obj (Some 6%Z)].
Proof. reflexivity. Qed.

(** An object without assignment operator assigned to itself is destroyed and
    then copied. *)
Theorem C74_self_assign_undefined : forall T dflt left_over throws m a v,
  ca_able T = false -> cc_able T = true -> cc_triv T && copyable T = false -> k_triv T = false ->
  m a = Obj (Some v) -> copy_assign_one T dflt left_over throws m a a = Ub.
Proof. exact self_assign. Qed.
Print Assumptions C74_self_assign_undefined.
Example C74_self_assign_case :
  copy_assign_one handle_const 0 (fun _ => 0%Z) (fun _ => false) (holding [5]%Z) 0 0 = Ub.
Proof. reflexivity. Qed.

(** Move assignment of one object, and of overlapping rows of a trivial type. *)
Theorem C74_move_assign : forall T dflt left_over throws m a b w v,
  lawful T -> ma_able T = true -> m a = Obj w -> m b = Obj (Some v) -> throws a = false -> a <> b ->
  exists m', move_assign_one T dflt left_over throws m a b = Done m' /\ m' a = Obj (Some v) /\
    (exists u, m' b = Obj (Some u)) /\ forall i, i <> a -> i <> b -> m' i = m i.
Proof. exact move_assign_one_right. Qed.
Print Assumptions C74_move_assign.
Example C74_move_assign_case :
  shows (move_assign_one handle 0 (fun _ => 0%Z) (fun _ => false) (holding [5;6]%Z) 0 1) 0 2 =
    [Obj (Some 6%Z); Obj (Some 0%Z)].
Proof. reflexivity. Qed.
Theorem C74_overlap_partial : forall T m to from l,
  can_move_assign T = true -> move_assign_triv T = true -> objects m from l ->
  exists m', move_assign_overlap T m to from (length l) = Done m' /\ objects m' to l /\ only m m' to (length l).
Proof. exact overlap_right. Qed.
Print Assumptions C74_overlap_partial.
Example C74_overlap_case :
  shows (move_assign_overlap (builtin 4 (KInt true)) (holding [5;6;7]%Z) 0 1 2) 0 3 =
    [Obj (Some 6%Z); Obj (Some 7%Z); Obj (Some 7%Z)].
Proof. reflexivity. Qed.

(** The functions for rows do not compile for any other type. *)
Theorem C74_move_assign_refused : forall T m to from n, move_assign_triv T = false ->
  move_assign T m to from n = Ill /\ move_assign_overlap T m to from n = Ill.
Proof. exact move_assign_refused. Qed.
Print Assumptions C74_move_assign_refused.
Example C74_move_assign_refused_case : move_assign_triv handle = false /\ can_move_assign handle = true.
Proof. split; reflexivity. Qed.

(** A row built from a temporary: only the last object gets its value. *)
Theorem C74_moved_argument_wrong : forall T wsize dflt left_over throws m to n b v,
  mc_able T = true -> mc_triv T = false -> vacant T m to n -> quiet throws to n ->
  m b = Obj (Some v) -> b < to \/ to + n <= b ->
  exists m', construct_array T wsize dflt left_over throws m to n (AMove b) = Done m' /\
    forall k, k < n -> m' (to + k) = Obj (Some (Nat.iter (n - 1 - k) left_over v)).
Proof. exact moved_argument. Qed.
Print Assumptions C74_moved_argument_wrong.
(** Three strings from a temporary: two are empty. *)
Example C74_moved_argument_case :
  shows (construct_array handle 4 0 (fun _ => 0%Z) (fun _ => false) (holding [5]%Z) 1 3 (AMove 0)) 1 3 =
    [Obj (Some 0%Z); Obj (Some 0%Z); Obj (Some 5%Z)].
Proof. reflexivity. Qed.

(** When a constructor throws, the objects built before stay alive. *)
Theorem C74_throw_wrong : forall T wsize dflt left_over throws m to n b v j,
  cc_able T = true -> vacant T m to n ->
  m b = Obj (Some v) -> b < to \/ to + n <= b -> j < n -> throws (to + j) = true ->
  (forall k, j < k < n -> throws (to + k) = false) ->
  exists m', construct_array T wsize dflt left_over throws m to n (AVar b) = Threw m' /\
    forall k, k < n -> m' (to + k) = if j <? k then Obj (Some v) else m (to + k).
Proof. exact throw_leaves. Qed.
Print Assumptions C74_throw_wrong.
Example C74_throw_case :
  match construct_array handle 4 0 (fun _ => 0%Z) (fun a => a =? 2) (holding [5]%Z) 1 3 (AVar 0) with
  | Threw m => [m 1; m 2; m 3] | _ => [] end = [Raw; Raw; Obj (Some 5%Z)].
Proof. reflexivity. Qed.

(** Building a row anew from an object outside it. *)
Theorem C74_rebuild_partial : forall T wsize dflt left_over throws m to n b v,
  lawful T -> cc_able T = true -> living m to n -> quiet throws to n ->
  m b = Obj (Some v) -> b < to \/ to + n <= b ->
  exists m', re_construct T wsize dflt left_over throws m to n (AVar b) = Done m' /\
    objects m' to (repeat v n) /\ only m m' to n.
Proof. exact rebuild_right. Qed.
Print Assumptions C74_rebuild_partial.
Example C74_rebuild_case :
  shows (re_construct handle 4 0 (fun _ => 0%Z) (fun _ => false) (holding [5;6;7]%Z) 1 2 (AVar 0)) 0 3 =
    [Obj (Some 5%Z); Obj (Some 5%Z); Obj (Some 5%Z)].
Proof. reflexivity. Qed.

(** From an object inside it: that object is destroyed before it is copied. *)
Theorem C74_rebuild_undefined : forall T wsize dflt left_over throws m to n k,
  k_triv T = false -> cc_able T = true -> cc_triv T = false -> living m to n -> k < n ->
  re_construct T wsize dflt left_over throws m to n (AVar (to + k)) = Ub /\
  re_construct T wsize dflt left_over throws m to n (AConst (to + k)) = Ub.
Proof. exact rebuild_alias. Qed.
Print Assumptions C74_rebuild_undefined.
Example C74_rebuild_undefined_case :
  re_construct handle 4 0 (fun _ => 0%Z) (fun _ => false) (holding [5;6;7]%Z) 0 3 (AVar 1) = Ub.
Proof. reflexivity. Qed.

(** *** C75 *)
(** One value in a row, for new objects and for living ones.  Missing: types of
    the size of a byte or of wchar_t that are neither integers nor enumerations. *)
Theorem C75_construct_partial : forall T wsize dflt left_over throws m to n b v,
  lawful T -> cc_able T = true -> (copyable T = true -> plain T wsize) -> bits_of T v ->
  vacant T m to n -> quiet throws to n -> m b = Obj (Some v) -> b < to \/ to + n <= b ->
  exists m', construct_array T wsize dflt left_over throws m to n (AConst b) = Done m' /\
    objects m' to (repeat v n) /\ only m m' to n.
Proof. exact construct_fill_right. Qed.
Print Assumptions C75_construct_partial.
(** The signed char -1, and 1.5 as a double. *)
Example C75_construct_case :
  shows (construct_array (builtin 1 (KInt true)) 4 0 (fun x => x) (fun _ => false) (holding [255]%Z) 1 2 (AConst 0)) 0 4 =
    [Obj (Some 255%Z); Obj (Some 255%Z); Obj (Some 255%Z); Raw] /\
  shows (construct_array (builtin 8 (KFloat binary64)) 4 0 (fun x => x) (fun _ => false) (holding [0x3FF8000000000000]%Z) 1 1 (AConst 0)) 1 1 =
    [Obj (Some 0x3FF8000000000000%Z)].
Proof. split; reflexivity. Qed.
Theorem C75_copy_partial : forall T wsize dflt left_over throws m to n b v,
  lawful T -> copies T -> (copyable T = true -> plain T wsize) -> bits_of T v ->
  vacant T m to n -> quiet throws to n -> m b = Obj (Some v) -> b < to \/ to + n <= b ->
  exists m', copy_construct_fill T wsize dflt left_over throws m to b n = Done m' /\
    objects m' to (repeat v n) /\ only m m' to n.
Proof. exact copy_fill_right. Qed.
Print Assumptions C75_copy_partial.
Example C75_copy_case :
  shows (copy_construct_fill handle 4 0 (fun _ => 0%Z) (fun _ => false) (holding [5]%Z) 1 0 2) 0 3 =
    [Obj (Some 5%Z); Obj (Some 5%Z); Obj (Some 5%Z)].
Proof. reflexivity. Qed.
Theorem C75_assign_partial : forall T wsize dflt left_over throws m to n b v,
  lawful T -> assigns T -> (assign_triv T = true -> copyable T = true /\ plain T wsize) -> bits_of T v ->
  living m to n -> quiet throws to n -> m b = Obj (Some v) -> b < to \/ to + n <= b ->
  exists m', copy_assign_fill T wsize dflt left_over throws m to b n = Done m' /\
    objects m' to (repeat v n) /\ only m m' to n.
Proof. exact assign_fill_right. Qed.
Print Assumptions C75_assign_partial.
(** A char32_t where wchar_t has the same size. *)
Example C75_assign_case :
  shows (copy_assign_fill (builtin 4 (KInt false)) 4 0 (fun x => x) (fun _ => false) (holding [0xF0000000; 1; 2]%Z) 1 0 2) 0 3 =
    [Obj (Some 0xF0000000%Z); Obj (Some 0xF0000000%Z); Obj (Some 0xF0000000%Z)].
Proof. reflexivity. Qed.

(** Where wchar_t has four bytes no float but +0 can be written to a row of
    floats: the row gets other bits, or nothing is defined. *)
Theorem C75_float_wrong : forall m to b n v dflt left_over throws,
  (0 < v < 2 ^ 32)%Z -> m b = Obj (Some v) -> 0 < n ->
  let T := builtin 4 (KFloat binary32) in
  wrong_fill (construct_array T 4 dflt left_over throws m to n (AConst b)) to v /\
  wrong_fill (copy_construct_fill T 4 dflt left_over throws m to b n) to v /\
  wrong_fill (copy_assign_fill T 4 dflt left_over throws m to b n) to v.
Proof. exact float_fill. Qed.
Print Assumptions C75_float_wrong.
(** 1.5f gives the bits of the integer 1, the number 1.4e-45; -1.0f a NaN. *)
Example C75_float_case :
  shows (copy_construct_fill (builtin 4 (KFloat binary32)) 4 0 (fun x => x) (fun _ => false) (holding [0x3FC00000]%Z) 1 0 2) 0 3 =
    [Obj (Some 0x3FC00000%Z); Obj (Some 1%Z); Obj (Some 1%Z)] /\
  shows (copy_construct_fill (builtin 4 (KFloat binary32)) 4 0 (fun x => x) (fun _ => false) (holding [0xBF800000]%Z) 1 0 1) 1 1 =
    [Obj (Some 0xFFFFFFFF%Z)].
Proof. vm_compute. split; reflexivity. Qed.

(** One object is made from another one, given as a constant or as a variable. *)
Theorem C75_one_partial : forall T dflt left_over throws m to b v x,
  lawful T -> cc_able T = true -> (x = AConst b \/ x = AVar b) ->
  (copyable T = true -> ca_able T = true \/ x = AVar b) -> vacant T m to 1 -> throws to = false -> m b = Obj (Some v) ->
  exists m', construct_one T dflt left_over throws m to x = Done m' /\ m' to = Obj (Some v) /\ forall i, i <> to -> m' i = m i.
Proof. exact construct_one_right. Qed.
Print Assumptions C75_one_partial.
(** If the type is trivially copyable and has no assignment then the call with a
    constant does not compile, although no assignment is needed. *)
Theorem C75_one_refused : forall T dflt left_over throws m to b,
  lawful T -> cc_able T = true -> copyable T = true -> ca_able T = false ->
  construct_one T dflt left_over throws m to (AConst b) = Ill.
Proof. exact construct_one_ill. Qed.
Print Assumptions C75_one_refused.
(** An int; a struct with a constant member. *)
Example C75_one_case :
  let fixed := mkTraits 4 KClass true true true true true true true true false false false false in
  shows (construct_one (builtin 4 (KInt true)) 0 (fun x => x) (fun _ => false) (holding [5]%Z) 1 (AConst 0)) 0 2 = [Obj (Some 5%Z); Obj (Some 5%Z)] /\
  construct_one fixed 0 (fun x => x) (fun _ => false) (holding [5]%Z) 1 (AConst 0) = Ill /\
  shows (construct_one fixed 0 (fun x => x) (fun _ => false) (holding [5]%Z) 1 (AVar 0)) 0 2 = [Obj (Some 5%Z); Obj (Some 5%Z)].
Proof. vm_compute. repeat split. Qed.

(** A class of the size of a byte or of wchar_t cannot be written to a row: the
    call does not compile. *)
Theorem C75_small_class_refused : forall T wsize dflt left_over throws m to n b,
  lawful T -> copyable T = true -> cc_able T = true -> ca_able T = true ->
  kind T = KClass -> size T = 1%Z \/ size T = wsize ->
  construct_array T wsize dflt left_over throws m to n (AConst b) = Ill /\
  copy_construct_fill T wsize dflt left_over throws m to b n = Ill /\
  copy_assign_fill T wsize dflt left_over throws m to b n = Ill.
Proof. exact small_class_all. Qed.
Print Assumptions C75_small_class_refused.
(** struct { int x; } *)
Example C75_small_class_case :
  construct_array (builtin 4 KClass) 4 0 (fun x => x) (fun _ => false) (holding [5]%Z) 1 2 (AConst 0) = Ill.
Proof. reflexivity. Qed.
