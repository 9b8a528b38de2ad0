(** Model of comparing the nodes of the interpreter's data
    (H/core/base_def/node_like.hpp, H/core/nodes/, H/core/special_values/) and
    of the four-valued truth they answer with (H/base_defs/logical_bool.hpp).

    A node is known by its address; the store says what node is at an address.
    [None] is undefined behaviour: a member of another type is read.
    What the C++ types of boxed objects offer is not in the repository's hands:
    whether a type can be compared and hashed, its [==], its hash, and [==] of
    function objects, which may throw, are parameters.
    Simplifications: the addresses in a pair are those its two [value]s yield
    when read; nodes that were replaced are not in the store
    (Repl_Model.v, Val_Model.v); [common_node] is left out, and so is
    [function_node], which no file includes. *)
From Verif Require Import Base.
Local Open Scope Z_scope.

(** [logical_bool] (H/base_defs/logical_bool.hpp:47-54). *)
Record lbool := mkL { is_true : bool; is_false : bool; is_unknown : bool }.
(** Conversion from bool (H/base_defs/logical_bool.hpp:54). *)
Definition of_bool (b : bool) : lbool := mkL b (negb b) false.
(** Conversion to bool (H/base_defs/logical_bool.hpp:57). *)
Definition to_bool (l : lbool) : bool := is_true l && negb (is_unknown l).
(** [operator!] (H/base_defs/logical_bool.hpp:58-62). *)
Definition lnot (l : lbool) : lbool := mkL (is_false l) (is_true l) (is_unknown l).
(** [operator&&], which evaluates both sides (H/base_defs/logical_bool.hpp:63-65). *)
Definition land (a b : lbool) : lbool :=
  mkL (is_true a && is_true b) (is_false a || is_false b) (is_unknown a || is_unknown b).
(** The constants (H/base_defs/logical_bool.hpp:75). *)
Definition neither : lbool := mkL false false false.
(** The same line. *)
Definition either : lbool := mkL true true false.
(** The same line. *)
Definition unknown : lbool := mkL false false true.

(** The nodes: the three special values
    (H/core/special_values/void.hpp:35, nil.hpp:31, t.hpp:31), a boxed object
    with its C++ type (H/core/nodes/binary_node_t.hpp:46-54), a pair
    (H/core/nodes/cons.hpp:44-53; [k] tells [cons], [expr] and [code_list]
    apart, H/core/nodes/expr.hpp:31, code_list.hpp:37) and a native function
    (H/core/nodes/base_binary_function_node.hpp:31-36). *)
Inductive node :=
| NVoid | NNil | NT | NBox (ty : nat) (v : Z) | NPair (k : nat) (car cdr : nat) | NFun (f : nat).
(** What is at each address (language semantics). *)
Definition store := nat -> node.

(** [get_type_info] of two nodes is the same: for every boxed object it is that
    of [binary_node_base_t] (H/core/nodes/binary_node_t.hpp:34, cons.hpp:55,
    expr.hpp:42, code_list.hpp:61, base_binary_function_node.hpp:50,
    H/core/special_values/void.hpp:36, nil.hpp:32, t.hpp:32). *)
Definition same_info (a b : node) : bool :=
  match a, b with
  | NVoid, NVoid | NNil, NNil | NT, NT | NBox _ _, NBox _ _ | NFun _, NFun _ => true
  | NPair k _ _, NPair k' _ _ => Nat.eqb k k'
  | _, _ => false
  end.

(** [eq_level] and [equal_level] (H/core/base_def/node_like.hpp:47-48,
    H/core/special_values/base_constexpr.hpp:34-35, void.hpp:38-39,
    H/base_defs/magic_number.hpp:45); [size_t] of 64 bits. *)
Definition level (n : node) : Z :=
  match n with NVoid => 2 ^ 64 - 1 | NNil | NT => 72 | _ => 36 end.

(** [operator logical_bool] (H/core/base_def/node_like.hpp:72,
    H/core/special_values/void.hpp:49, nil.hpp:37, t.hpp:37). *)
Definition truth (n : node) : lbool :=
  match n with NVoid => neither | NNil => of_bool false | _ => of_bool true end.

(** Continuation after a step that may be undefined, for two operands that are
    both evaluated (language semantics). *)
Definition both (a b : option lbool) : option lbool :=
  match a, b with Some x, Some y => Some (land x y) | _, _ => None end.

(** The answer of the node with the higher level, or of both
    (H/core/base_def/node_like.hpp:78-87,88-97). *)
Definition ask (la lb : Z) (this_asks arg_asks : option lbool) : option lbool :=
  if la <? lb then arg_asks else if lb <? la then this_asks else both this_asks arg_asks.

Section Types.
(** [equal.able] and [==] of the boxed C++ types (oracle). *)
Variable comparable : nat -> bool.
(** The same. *)
Variable teq : nat -> Z -> Z -> bool.
(** [==] of function objects; [None] if it throws (oracle). *)
Variable feq : nat -> nat -> option bool.
(** [hash.able] and [hash] of the boxed types; the hash of an address (oracle). *)
Variable hashable : nat -> bool.
(** The same. *)
Variable thash : nat -> Z -> Z.
(** The same. *)
Variable ahash : nat -> Z.

(** [was_eq_with] (H/core/base_def/node_like.hpp:46,
    H/core/nodes/binary_node_t.hpp:73-85): both tests for the type use
    [get_type_info], which all boxes share. *)
Definition was_eq (h : store) (a b : nat) : option lbool :=
  match h a with
  | NBox ty v =>
    if comparable ty then
      if negb (same_info (h b) (h a)) then Some (of_bool false)
      else match h b with
           | NBox ty' v' => if Nat.eqb ty' ty then Some (of_bool (teq ty v v')) else None
           | _ => None
           end
    else Some (of_bool (Nat.eqb b a))
  | _ => Some (of_bool (Nat.eqb b a))
  end.

(** [eq_with], which is also [==] of two pointers
    (H/core/base_def/node_like.hpp:78-87,114-116,
    H/base/memory/ptr/ptr/base_ptr_t.hpp:152-159). *)
Definition eq_with (h : store) (a b : nat) : option lbool :=
  ask (level (h a)) (level (h b)) (was_eq h a b) (was_eq h b a).

(** [was_equal_with] (H/core/special_values/void.hpp:40-45, nil.hpp:34,
    t.hpp:34, H/core/nodes/binary_node_t.hpp:86-88, cons.hpp:57-62,
    base_binary_function_node.hpp:53-63).  [this==a] in void.hpp:41 is [==] of a
    pointer; [==] of the parts of a pair is [==] of the pointers in them
    (H/core/base_def/value.hpp:158-165). *)
Definition was_equal (h : store) (a b : nat) : option lbool :=
  match h a with
  | NVoid => match eq_with h b a with
             | Some r => Some (if to_bool r then either else neither)
             | None => None end
  | NNil => Some (lnot (truth (h b)))
  | NT => Some (truth (h b))
  | NBox _ _ => was_eq h a b
  | NPair k car cdr =>
    if negb (same_info (h b) (h a)) then Some (of_bool false)
    else match h b with
         | NPair _ car' cdr' => both (eq_with h car car') (eq_with h cdr cdr')
         | _ => None
         end
  | NFun f =>
    if negb (same_info (h b) (h a)) then Some (of_bool false)
    else match h b with
         | NFun f' => Some (match feq f f' with Some r => of_bool r | None => unknown end)
         | _ => None
         end
  end.

(** [equal_with] (H/core/base_def/node_like.hpp:88-97). *)
Definition equal_with (h : store) (a b : nat) : option lbool :=
  ask (level (h a)) (level (h b)) (was_equal h a b) (was_equal h b a).

(** [operator==] of two nodes (H/core/base_def/node_like.hpp:101-103). *)
Definition node_eq (h : store) (a b : nat) : option lbool := equal_with h b a.

(** [operator hash_t] (H/core/base_def/node_like.hpp:63,
    H/core/nodes/binary_node_t.hpp:61-69).  The special values have hashes of
    their own (H/core/special_values/void.hpp:48, nil.hpp:36, t.hpp:36), which
    stand for the hash of their one address here. *)
Definition node_hash (h : store) (a : nat) : Z :=
  match h a with
  | NBox ty v => if hashable ty then thash ty v else ahash a
  | _ => ahash a
  end.
End Types.
