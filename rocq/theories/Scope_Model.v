(** Model of the interpreter's namespaces (H/namespace/defs.hpp) on top of the
    nodes that hold named values (H/core/nodes/common_node.hpp).

    A node is known by its address, a number; 0 is the void node, 1 is nil, 2 is
    t.  A name is the list of the characters of a string.
    Simplifications: names are strings only, so that two names are the same key
    exactly if they have the same characters (C71); the map in a node is the
    finite map that C35 shows it to be; the variable behind a name is not shared
    with another name (C72); no node is freed while it is the current namespace,
    and none is replaced (C38, C60); one thread. *)
From Verif Require Import Base.
Local Open Scope nat_scope.

(** A name (H/namespace/defs.hpp:32, H/core/nodes/binary_node_t.hpp:189-197). *)
Definition name := list Z.
(** Equality of names (H/base/container/map/defs.hpp:51-53). *)
Definition name_dec : forall a b : name, {a = b} + {a <> b} := list_eq_dec Z.eq_dec.
(** [".."] (H/namespace/defs.hpp:46). *)
Definition up : name := [46; 46]%Z.
(** ["."] (H/namespace/defs.hpp:47). *)
Definition here : name := [46]%Z.
(** [".symbol_type_map"] (H/namespace/defs.hpp:39). *)
Definition types : name := [46; 115; 121; 109; 98; 111; 108; 95; 116; 121; 112; 101; 95; 109; 97; 112]%Z.
(** ["t"] (H/namespace/defs.hpp:48). *)
Definition name_t : name := [116]%Z.
(** ["nil"] (H/namespace/defs.hpp:49). *)
Definition name_nil : name := [110; 105; 108]%Z.
(** ["void"] (H/namespace/defs.hpp:50). *)
Definition name_void : name := [118; 111; 105; 100]%Z.

(** Nodes: those that answer every name with themselves (the special values,
    H/core/special_values/base_constexpr.hpp:40, and boxed objects,
    H/core/nodes/binary_node_t.hpp:93-98) and nodes with named values
    (H/core/nodes/common_node.hpp:31-48), the newest entry first. *)
Inductive node := Self | Space (m : list (name * nat)).
(** What is at each address (language semantics). *)
Definition heap := nat -> option node.
(** Storing a node (language semantics). *)
Definition put (h : heap) (a : nat) (n : node) : heap := fun b => if b =? a then Some n else h b.

(** [find] of the map (H/base/container/map/defs.hpp:90). *)
Fixpoint find (m : list (name * nat)) (k : name) : option nat :=
  match m with
  | [] => None
  | (k', v) :: r => if name_dec k' k then Some v else find r k
  end.

(** Results of a call: [Ret], an access to something that is no node ([Bad]),
    or the fuel was too small ([Out]). *)
Inductive call (A : Type) := Ret (a : A) | Bad | Out.
Arguments Bad {A}.
Arguments Out {A}.
(** Continuation (language semantics). *)
Definition cthen {A B} (r : call A) (k : A -> call B) : call B :=
  match r with Ret a => k a | Bad => Bad | Out => Out end.
Local Notation "x <- e ;; k" := (cthen e (fun x => k)) (at level 61, e at next level, right associativity).
Local Notation "' p <- e ;; k" := (cthen e (fun p => k)) (at level 61, p pattern, e at next level, right associativity).

(** [a->arec(k)]: [arec] (H/core/base_def/node_like_using_value_func_defs.hpp:40-42,
    H/core/nodes/common_node.hpp:45, H/core/special_values/base_constexpr.hpp:40);
    a name that is not there is added with a variable that holds the null
    pointer, which is the void node (H/base/container/map/defs.hpp:89-96,
    H/core/base_def/value.hpp:106, H/core/special_values/void.hpp:52). *)
Definition arec (h : heap) (a : nat) (k : name) : call (heap * nat) :=
  match h a with
  | None => Bad
  | Some Self => Ret (h, a)
  | Some (Space m) =>
    match find m k with
    | Some v => Ret (h, v)
    | None => Ret (put h a (Space ((k, 0) :: m)), 0)
    end
  end.

(** [a->arec(k) = p]: the variable is set; the value a special node or a boxed
    object answers with is a constant
    (H/core/base_def/value.hpp:85,98,108,116-119). *)
Definition assign (h : heap) (a : nat) (k : name) (p : nat) : call heap :=
  '(h1, _) <- arec h a k ;;
  match h1 a with
  | Some (Space m) => Ret (put h1 a (Space ((k, p) :: m)))
  | _ => Ret h1
  end.

(** A pointer or a value as a condition: all nodes are true but void and nil
    (H/core/base_def/value.hpp:136, H/core/base_def/node_like.hpp:72,111-113,
    H/core/special_values/void.hpp:49, nil.hpp:37). *)
Definition yes (a : nat) : bool := 2 <=? a.

(** [get_symbol_type_map(a)[k]] (H/namespace/defs.hpp:38-40,
    H/core/base_def/value.hpp:152-155). *)
Definition type_of (h : heap) (a : nat) (k : name) : call (heap * nat) :=
  '(h1, m) <- arec h a types ;; arec h1 m k.

(** [get_symbol_namespace] (H/namespace/defs.hpp:56-61); the operands of [&&]
    from left to right, each only if those before it hold. *)
Fixpoint symbol_space (fuel : nat) (h : heap) (a : nat) (k : name) : call (heap * nat) :=
  match fuel with
  | 0 => Out
  | S f =>
    if negb (yes a) then Ret (h, a)
    else
      '(h1, v) <- arec h a k ;;
      if yes v then Ret (h1, a)
      else
        '(h2, ty) <- type_of h1 a k ;;
        if yes ty then Ret (h2, a)
        else '(h3, b) <- arec h2 a up ;; symbol_space f h3 b k
  end.

(** The nodes and the current namespace (H/namespace/defs.hpp:36-37). *)
Record names := mkN { nodes : heap; now : nat }.

(** [has_symbol] (H/namespace/defs.hpp:63-68). *)
Definition has_symbol (fuel : nat) (s : names) (k : name) : call (names * bool) :=
  '(h1, a) <- symbol_space fuel (nodes s) (now s) k ;;
  '(h2, v) <- arec h1 a k ;;
  if yes v then Ret (mkN h2 (now s), true)
  else '(h3, ty) <- type_of h2 a k ;; Ret (mkN h3 (now s), yes ty).

(** [get_symbol] (H/namespace/defs.hpp:70-72). *)
Definition get_symbol (fuel : nat) (s : names) (k : name) : call (names * nat) :=
  '(h1, a) <- symbol_space fuel (nodes s) (now s) k ;;
  '(h2, v) <- arec h1 a k ;; Ret (mkN h2 (now s), v).

(** [get_symbol_type] (H/namespace/defs.hpp:74-76). *)
Definition get_symbol_type (fuel : nat) (s : names) (k : name) : call (names * nat) :=
  '(h1, a) <- symbol_space fuel (nodes s) (now s) k ;;
  '(h2, v) <- type_of h1 a k ;; Ret (mkN h2 (now s), v).

(** [inter_namespace] (H/namespace/defs.hpp:79-81). *)
Definition enter (fuel : nat) (s : names) (k : name) : call names :=
  '(s1, v) <- get_symbol fuel s k ;; Ret (mkN (nodes s1) v).

(** [leave_namespace] (H/namespace/defs.hpp:84). *)
Definition leave (fuel : nat) (s : names) : call names := enter fuel s up.

(** The constructor (H/namespace/defs.hpp:41-55) on the three special values and
    a new node at 3, with the new type map at 4 and the string ["void"] at 5.
    The order in which nodes get their addresses is a choice of the model. *)
Definition build : call names :=
  let h0 := nth_error [Self; Self; Self; Space []; Space []; Self] in
  h1 <- assign h0 3 up 0 ;;
  h2 <- assign h1 3 here 3 ;;
  h3 <- assign h2 3 name_t 2 ;;
  h4 <- assign h3 3 name_nil 1 ;;
  h5 <- assign h4 3 name_void 0 ;;
  h6 <- assign h5 3 types 4 ;;
  h7 <- assign h6 4 name_void 5 ;;
  Ret (mkN h7 3).

(** States a program can come to: the constructor, a new node of either kind
    ([get], H/core/nodes/common_node.hpp:31), assignments to names through
    pointers to existing nodes, and the calls (H/namespace/defs.hpp:41-84). *)
Inductive reached : names -> Prop :=
| r_build s : build = Ret s -> reached s
| r_new s a n : reached s -> nodes s a = None -> n = Self \/ n = Space [] ->
    reached (mkN (put (nodes s) a n) (now s))
| r_assign s a k p h : reached s -> nodes s p <> None -> assign (nodes s) a k p = Ret h -> reached (mkN h (now s))
| r_get f s k s' v : reached s -> get_symbol f s k = Ret (s', v) -> reached s'
| r_type f s k s' v : reached s -> get_symbol_type f s k = Ret (s', v) -> reached s'
| r_has f s k s' b : reached s -> has_symbol f s k = Ret (s', b) -> reached s'
| r_enter f s k s' : reached s -> enter f s k = Ret s' -> reached s'.
