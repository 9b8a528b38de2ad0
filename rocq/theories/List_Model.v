(** Model of the intrusive list (H/base_defs/list.hpp) and of the two ways the
    library walks along it (H/base/memory/other/can_map_all.hpp:45-51,
    H/base/memory/pool/defs.hpp:83-87,91-103,116-127).

    Memory maps addresses to the two pointers of a [cons_t].  Address 0 is the
    member [_begin] of the list, address 1 the member [_end].  Simplification:
    addresses are not reused; one list. *)
From Verif Require Import Base Ref_Model.

(** [cons_t::_before], [cons_t::_next] (H/base_defs/list.hpp:45-46); [None] is
    a pointer that was never set: [cons_t()=default] (:77). *)
Record cell := mkCell { bef : option nat; nxt : option nat }.
(** Memory: existing objects, and the next address. *)
Record mem := mkMem { at_ : nat -> option cell; top : nat }.

(** Sequencing (language semantics). *)
Definition rb {A B} (x : res A) (f : A -> res B) : res B :=
  match x with Ok a => f a | Ub => Ub | Out => Out end.
Declare Scope res_scope.
Notation "x <- e ;; k" := (rb e (fun x => k))
  (at level 61, e at next level, right associativity) : res_scope.
Notation "' p <- e ;; k" := (rb e (fun p => k))
  (at level 61, p pattern, e at next level, right associativity) : res_scope.
Local Open Scope res_scope.
Local Open Scope nat_scope.

(** Access to an object that exists (language semantics). *)
Definition look (m : mem) (a : nat) : res cell := match at_ m a with Some c => Ok c | None => Ub end.
(** Reading a pointer that was set (language semantics). *)
Definition def_ {A} (x : option A) : res A := match x with Some a => Ok a | None => Ub end.
(** Overwriting an object (language semantics). *)
Definition store (m : mem) (a : nat) (c : option cell) : mem :=
  mkMem (fun x => if Nat.eqb x a then c else at_ m x) (top m).

(** [x->_before=v], [x->_next=v] (language semantics). *)
Definition put_bef (m : mem) (x v : nat) : res mem := c <- look m x ;; Ok (store m x (Some (mkCell (Some v) (nxt c)))).
(** See [put_bef]. *)
Definition put_nxt (m : mem) (x v : nat) : res mem := c <- look m x ;; Ok (store m x (Some (mkCell (bef c) (Some v)))).
(** [get_before] (H/base_defs/list.hpp:48). *)
Definition get_bef (m : mem) (x : nat) : res nat := c <- look m x ;; def_ (bef c).
(** [get_next] (H/base_defs/list.hpp:49). *)
Definition get_nxt (m : mem) (x : nat) : res nat := c <- look m x ;; def_ (nxt c).

(** [x->set_before(a)] (H/base_defs/list.hpp:53-56). *)
Definition set_before (m : mem) (x a : nat) : res mem := m1 <- put_bef m x a ;; put_nxt m1 a x.
(** [x->set_next(a)] (H/base_defs/list.hpp:57-60). *)
Definition set_next (m : mem) (x a : nat) : res mem := m1 <- put_nxt m x a ;; put_bef m1 a x.
(** [x->insert_to_before(a)] (H/base_defs/list.hpp:61-64). *)
Definition insert_to_before (m : mem) (x a : nat) : res mem :=
  p <- get_bef m a ;; m1 <- set_before m x p ;; set_next m1 x a.
(** [x->remove_from_list()] (H/base_defs/list.hpp:69-71). *)
Definition remove_from_list (m : mem) (x : nat) : res mem :=
  p <- get_bef m x ;; n <- get_nxt m x ;; set_next m p n.

(** A list without elements: [_begin.bind_with(&_end)]
    (H/base_defs/list.hpp:65-68,98). *)
Definition list0 : mem :=
  mkMem (fun x => match x with 0 => Some (mkCell (Some 1) (Some 1)) | 1 => Some (mkCell (Some 0) (Some 0)) | _ => None end) 2.

(** A new element, in no list (H/base_defs/list.hpp:77). *)
Definition new_elem (m : mem) : mem * nat :=
  (mkMem (at_ (store m (top m) (Some (mkCell None None)))) (S (top m)), top m).
(** [list.add(x)] (H/base_defs/list.hpp:99-101). *)
Definition add_elem (m : mem) (x : nat) : res mem := insert_to_before m x 1.
(** Destruction of an element (H/base_defs/list.hpp:78-80). *)
Definition destroy (m : mem) (x : nat) : res mem := m1 <- remove_from_list m x ;; Ok (store m1 x None).

(** [for(i=begin();i!=end();++i)]: addresses visited, from the current one
    (H/base_defs/list.hpp:102-103). *)
Fixpoint walk (fuel : nat) (m : mem) (i : nat) : res (list nat) :=
  match fuel with
  | 0 => Out
  | S f => if Nat.eqb i 1 then Ok [] else
           n <- get_nxt m i ;; r <- walk f m n ;; Ok (i :: r)
  end.
(** [e=end(); while(--e!=head())]: addresses visited, [e] being the current
    one (H/base/memory/pool/defs.hpp:94-98). *)
Fixpoint walk_back (fuel : nat) (m : mem) (e : nat) : res (list nat) :=
  match fuel with
  | 0 => Out
  | S f => p <- get_bef m e ;;
           if Nat.eqb p 0 then Ok [] else r <- walk_back f m p ;; Ok (p :: r)
  end.
(** [while(i!=e) a(i++)]: the iterator is advanced before the action, here the
    destruction of the elements that satisfy [p]
    (H/base/memory/other/can_map_all.hpp:46-50,
    H/base/memory/pool/defs.hpp:84-86,120-125). *)
Fixpoint sweep (fuel : nat) (m : mem) (p : nat -> bool) (i : nat) : res (mem * list nat) :=
  match fuel with
  | 0 => Out
  | S f => if Nat.eqb i 1 then Ok (m, []) else
           n <- get_nxt m i ;;
           m1 <- (if p i then destroy m i else Ok m) ;;
           '(m2, r) <- sweep f m1 p n ;;
           Ok (m2, i :: r)
  end.

(** Operations of a program. *)
Inductive lop :=
| LNew
| LAdd (x : nat)
| LDel (x : nat)
| LFwd
| LBack
| LSweep (p : nat -> bool).

(** One operation; the answer is the list of addresses seen.  [fuel] bounds
    the walks. *)
Definition l_op (fuel : nat) (m : mem) (o : lop) : res (mem * list nat) :=
  match o with
  | LNew => let '(m1, x) := new_elem m in Ok (m1, [x])
  | LAdd x => m1 <- add_elem m x ;; Ok (m1, [])
  | LDel x => m1 <- destroy m x ;; Ok (m1, [])
  | LFwd => n <- get_nxt m 0 ;; r <- walk fuel m n ;; Ok (m, r)
  | LBack => r <- walk_back fuel m 1 ;; Ok (m, r)
  | LSweep p => n <- get_nxt m 0 ;; sweep fuel m p n
  end.
(** A sequence of operations (language semantics). *)
Fixpoint l_run (fuel : nat) (m : mem) (os : list lop) : res (mem * list (list nat)) :=
  match os with
  | [] => Ok (m, [])
  | o :: r => '(m1, a) <- l_op fuel m o ;; '(m2, l) <- l_run fuel m1 r ;; Ok (m2, a :: l)
  end.
