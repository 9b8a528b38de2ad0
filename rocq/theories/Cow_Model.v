(** Model of [copy_on_write_t] (H/base/container/copy_on_write/defs.hpp).

    A handle refers to a block, a block has the number of its handles and the
    value of type [T].  Blocks are numbered in the order of creation.  The
    outcome [None] is access through a null pointer, to a freed block, or to a
    handle that is not there.  Simplifications: the class is instantiated
    nowhere in /repo, and inside it the name [get] means the member function;
    the model takes [get<data_t>(...)] as the allocation that is meant.
    Operations of [T] do not throw. *)
From Verif Require Import Base Ref_Model.
Local Open Scope omonad_scope.
Local Open Scope nat_scope.

Section Cow.
Variable T : Type.
(** [T()] and [T]'s [==]. *)
Variable def : T.
Variable eqb : T -> T -> bool.

(** Blocks (H/base/container/copy_on_write/defs.hpp:36-41): handles and value. *)
Notation blocks := (list (option (nat * T))).
(** Blocks and variables. *)
Record cow := mkCow { bl : blocks; vs : list (option nat) }.

(** A block that is not freed (language semantics). *)
Definition getB (b : blocks) (o : nat) : option (nat * T) :=
  match nth_error b o with Some (Some x) => Some x | _ => None end.
(** The block of a variable (H/base/container/copy_on_write/defs.hpp:47-49). *)
Definition blk_of (s : cow) (i : nat) : option nat :=
  match nth_error (vs s) i with Some (Some o) => Some o | _ => None end.

(** [add_ref] (H/base/memory/ptr/ref/ref_t.hpp:36). *)
Definition badd (b : blocks) (o : nat) : option blocks :=
  '(n, v) <- getB b o ;; Some (upd b o (Some (S n, v))).
(** [cut_ref] of a type without weak handles
    (H/base/memory/ptr/ref/ref_able.hpp:37-47). *)
Definition bcut (b : blocks) (o : nat) : option blocks :=
  '(n, v) <- getB b o ;;
  match n with
  | 0 => None
  | S m => Some (upd b o (if Nat.eqb m 0 then None else Some (m, v)))
  end.
(** [reset] (H/base/memory/ptr/ptr/base_ptr_t.hpp:111). *)
Definition set_block (s : cow) (i o : nat) : option cow :=
  old <- blk_of s i ;;
  b1 <- badd (bl s) o ;;
  b2 <- bcut b1 old ;;
  Some (mkCow b2 (upd (vs s) i (Some o))).
(** [get<data_t>(v)]: a new block, not yet referenced
    (H/base/container/copy_on_write/defs.hpp:50-53). *)
Definition new_block (b : blocks) (v : T) : blocks * nat := (b ++ [Some (0, v)], length b).

(** [copy_check] (H/base/container/copy_on_write/defs.hpp:51-54). *)
Definition copy_check (s : cow) (i : nat) : option cow :=
  o <- blk_of s i ;;
  '(n, v) <- getB (bl s) o ;;
  if Nat.eqb n 1 then Some s
  else let '(b1, o1) := new_block (bl s) v in set_block (mkCow b1 (vs s)) i o1.
(** Writing the value of a block (language semantics). *)
Definition put (b : blocks) (o : nat) (v : T) : option blocks :=
  '(n, _) <- getB b o ;; Some (upd b o (Some (n, v))).

(** Operations of a program (H/base/container/copy_on_write/defs.hpp:56-111). *)
Inductive cop :=
| CNew                          (* default construction *)
| CNewFrom (v : T)              (* construction from arguments *)
| CCopy (i : nat)               (* copy or move construction *)
| CAssign (i j : nat)           (* copy assignment *)
| CSwap (i j : nat)             (* swap and move assignment *)
| CUpdate (i : nat) (f : T -> T) (* assignment, [], resize, conversion to T&, swap with a T: used at once *)
| CEq (i j : nat)
| CRead (i : nat)
| CDrop (i : nat).
(** Answers of operations. *)
Inductive cans := ANone | ABool (b : bool) | AVal (v : T).

(** One operation:
    - [CNew] :56; [CNewFrom] :57-60: [_m] is first default-initialised, which
      references through the real null pointer
      (H/base/memory/ptr/ptr/base_ptr_t.hpp:106-107,
      H/base_defs/null_ptr.hpp:35-60), so it is undefined;
    - [CCopy] :63-64; [CAssign] :65; [CSwap] :66,68;
    - [CUpdate] :69-72, 73-78, 79-82, 94-98, 107-111;
    - [CEq] :87-93; [CRead] :83-86, 99-106; [CDrop] :61. *)
Definition c_op (s : cow) (o : cop) : option (cow * cans) :=
  match o with
  | CNew =>
    let '(b1, o1) := new_block (bl s) def in
    b2 <- badd b1 o1 ;;
    Some (mkCow b2 (vs s ++ [Some o1]), ANone)
  | CNewFrom _ => None
  | CCopy i =>
    o1 <- blk_of s i ;;
    b1 <- badd (bl s) o1 ;;
    Some (mkCow b1 (vs s ++ [Some o1]), ANone)
  | CAssign i j =>
    o1 <- blk_of s j ;;
    s1 <- set_block s i o1 ;;
    Some (s1, ANone)
  | CSwap i j =>
    o1 <- blk_of s i ;;
    o2 <- blk_of s j ;;
    Some (mkCow (bl s) (upd (upd (vs s) i (Some o2)) j (Some o1)), ANone)
  | CUpdate i f =>
    s1 <- copy_check s i ;;
    o1 <- blk_of s1 i ;;
    '(_, v) <- getB (bl s1) o1 ;;
    b1 <- put (bl s1) o1 (f v) ;;
    Some (mkCow b1 (vs s1), ANone)
  | CEq i j =>
    o1 <- blk_of s i ;;
    o2 <- blk_of s j ;;
    '(_, v) <- getB (bl s) o1 ;;
    '(_, w) <- getB (bl s) o2 ;;
    if eqb v w then s1 <- set_block s i o2 ;; Some (s1, ABool true)
    else Some (s, ABool false)
  | CRead i =>
    o1 <- blk_of s i ;;
    '(_, v) <- getB (bl s) o1 ;;
    Some (s, AVal v)
  | CDrop i =>
    o1 <- blk_of s i ;;
    b1 <- bcut (bl s) o1 ;;
    Some (mkCow b1 (upd (vs s) i None), ANone)
  end.

(** A program without handles. *)
Definition cow0 : cow := mkCow [] [].
(** A sequence of operations (language semantics). *)
Fixpoint c_run (s : cow) (os : list cop) : option (cow * list cans) :=
  match os with
  | [] => Some (s, [])
  | o :: r =>
    '(s1, a) <- c_op s o ;;
    '(s2, l) <- c_run s1 r ;;
    Some (s2, a :: l)
  end.

(** [auto&r=a[k];] or [T&r=a;]: a reference that is kept; it names the block
    (H/base/container/copy_on_write/defs.hpp:79-82,94-98). *)
Definition take_ref (s : cow) (i : nat) : option (cow * nat) :=
  s1 <- copy_check s i ;; o <- blk_of s1 i ;; Some (s1, o).
(** The same on a const handle (H/base/container/copy_on_write/defs.hpp:83-85,99-102). *)
Definition take_cref (s : cow) (i : nat) : option nat := blk_of s i.
(** Using a kept reference (language semantics). *)
Definition ref_write (s : cow) (o : nat) (v : T) : option cow :=
  b <- put (bl s) o v ;; Some (mkCow b (vs s)).
(** Reading through a kept reference (language semantics). *)
Definition ref_read (s : cow) (o : nat) : option T :=
  '(_, v) <- getB (bl s) o ;; Some v.
End Cow.
