(** Model of the reference-counting handles: [comn_ptr_t] and [weak_ptr_t]
    (H/base/memory/ptr/ptr/base_ptr_t.hpp, comn_ptr_t.hpp, weak_ptr_t.hpp) over
    objects that are [ref_able] and [weak_ref_able]
    (H/base/memory/ptr/ref/).

    An object has its two counters and a list of member handles.  Objects are
    numbered in the order of their creation and numbers are not used again.
    Object 0 is the null object (H/base_defs/null_ptr.hpp:35-60), which owns a
    reference to itself (H/base/memory/ptr/ref/ref_t.hpp:31-43).

    Outcomes: [Ub] is access to an object that was freed (or destroyed twice),
    or a counter that goes below zero; [Out] means that the fuel of the cascade
    of destructions was too small.  Simplifications: counters do not wrap above
    (every handle occupies memory); objects are not [replace_able]; one thread;
    [waiting_for_destroy] is the one of nodes, which resets every member handle
    to null (H/core/base_def/node_like.hpp:104-106,
    H/core/nodes/cons.hpp:83). *)
From Verif Require Import Base.
Local Open Scope omonad_scope.
Local Open Scope nat_scope.

(** A handle: strong or not, and its [_to]
    (H/base/memory/ptr/ptr/base_ptr_t.hpp:32-48). *)
Notation handle := (bool * nat)%type.

(** Counters and member handles (H/base/memory/ptr/ref/ref_able.hpp:31-60,
    H/base/memory/ptr/ref/weak_ref_able.hpp:31-50). *)
Record obj := mkObj { st : nat; wk : nat; flds : list handle }.
(** Objects by number; [None] is freed (language semantics). *)
Notation heap := (list (option obj)).

(** What remains to be done while handles disappear.  [TClear o is]: [clear()]
    of [o] has still to reset the members [is]; [TDtor o]: the destructor of
    [o] has still to destroy the members that are left in [o], then free it
    (H/base/memory/ptr/ref/ref_able.hpp:37-47). *)
Inductive task := TCut (s : bool) (o : nat) | TClear (o : nat) (is : list nat) | TDtor (o : nat).

(** Heap, variables, the destructors run so far, the objects told to wait. *)
Record state := mkSt { hp : heap; env : list (option handle); dlog : list nat; clog : list nat }.

(** Outcomes of a step that may need fuel. *)
Inductive res (A : Type) := Ok (a : A) | Ub | Out.
Arguments Ok {A}. Arguments Ub {A}. Arguments Out {A}.

(** An object, if not freed (language semantics). *)
Definition getO (h : heap) (o : nat) : option obj :=
  match nth_error h o with Some (Some x) => Some x | _ => None end.
(** Updating a list (language semantics). *)
Fixpoint upd {A} (l : list A) (n : nat) (v : A) : list A :=
  match l, n with
  | [], _ => []
  | _ :: r, O => v :: r
  | x :: r, S n' => x :: upd r n' v
  end.

(** [add_ref] (H/base/memory/ptr/ref/ref_t.hpp:36). *)
Definition inc (h : heap) (s : bool) (o : nat) : option heap :=
  x <- getO h o ;;
  Some (upd h o (Some (if s then mkObj (S (st x)) (wk x) (flds x) else mkObj (st x) (S (wk x)) (flds x)))).

(** One step of the work caused by [cut_ref]:
    - [ref_able::cut_ref] (H/base/memory/ptr/ref/ref_able.hpp:37-47);
    - [weak_ref_able::cut_ref] (H/base/memory/ptr/ref/weak_ref_able.hpp:36-43);
    - [clear]: each member is [reset] to null, that is the member is
      overwritten, null is referenced, the old target is cut
      (H/base/memory/ptr/ptr/base_ptr_t.hpp:111-112);
    - [destroy_and_free]: members are destroyed in turn
      (H/base/memory/ptr/ptr/base_ptr_t.hpp:108), then the memory is freed
      (H/base/memory/ptr/ref/ref_base.hpp:31-69). *)
Definition step (h : heap) (d c : list nat) (k : list task) : option (heap * list nat * list nat * list task) :=
  match k with
  | [] => Some (h, d, c, [])
  | TCut true o :: k' =>
    x <- getO h o ;;
    match st x with
    | 0 => None
    | S n =>
      let h1 := upd h o (Some (mkObj n (wk x) (flds x))) in
      if Nat.eqb n 0 then
        if negb (Nat.eqb (wk x) 0)
        then Some (h1, d, o :: c, TClear o (seq 0 (length (flds x))) :: k')
        else Some (h1, o :: d, c, TDtor o :: k')
      else Some (h1, d, c, k')
    end
  | TCut false o :: k' =>
    x <- getO h o ;;
    match wk x with
    | 0 => None
    | S n =>
      let h1 := upd h o (Some (mkObj (st x) n (flds x))) in
      if andb (Nat.eqb n 0) (Nat.eqb (st x) 0)
      then Some (h1, o :: d, c, TDtor o :: k')
      else Some (h1, d, c, k')
    end
  | TClear o [] :: k' => Some (h, d, c, k')
  | TClear o (i :: is) :: k' =>
    x <- getO h o ;;
    '(s, t) <- nth_error (flds x) i ;;
    let h1 := upd h o (Some (mkObj (st x) (wk x) (upd (flds x) i (s, 0)))) in
    h2 <- inc h1 s 0 ;;
    Some (h2, d, c, TCut s t :: TClear o is :: k')
  | TDtor o :: k' =>
    x <- getO h o ;;
    match flds x with
    | [] => Some (upd h o None, d, c, k')
    | (s, t) :: fs => Some (upd h o (Some (mkObj (st x) (wk x) fs)), d, c, TCut s t :: TDtor o :: k')
    end
  end.

(** The whole cascade (H/base/memory/ptr/ref/ref_able.hpp:37-47). *)
Fixpoint cascade (fuel : nat) (h : heap) (d c : list nat) (k : list task) : res (heap * list nat * list nat) :=
  match k with
  | [] => Ok (h, d, c)
  | _ =>
    match fuel with
    | 0 => Out
    | S f => match step h d c k with
             | None => Ub
             | Some (h', d', c', k') => cascade f h' d' c' k'
             end
    end
  end.

(** A handle of the program: a variable, or member [k] of the object that
    variable [i] refers to ([operator->],
    H/base/memory/ptr/ptr/base_ptr_t.hpp:208). *)
Inductive loc := LVar (i : nat) | LFld (i k : nat).
(** Operations of a program on handles (H/base/memory/ptr/ptr/base_ptr_t.hpp:76-112,214-220). *)
Inductive op :=
| ONew (ks : list bool)   (* a variable initialised with a new object that has members of these kinds *)
| ONull (s : bool)        (* a default-constructed variable *)
| OCopy (s : bool) (l : loc) (* a variable constructed from a handle, of either kind *)
| OAssign (l1 l2 : loc)   (* copy assignment, of either kind *)
| OMove (l1 l2 : loc)     (* move assignment, same kind *)
| OReset (l : loc)        (* = nullptr *)
| ODrop (i : nat).        (* the end of a variable's life *)

(** The place of a handle in memory (language semantics): what a reference to
    the handle is bound to before the operation starts. *)
Inductive slot := SVar (i : nat) | SFld (o k : nat).
(** Evaluating the name of a handle (H/base/memory/ptr/ptr/base_ptr_t.hpp:208). *)
Definition slot_of (s : state) (l : loc) : option slot :=
  match l with
  | LVar i => Some (SVar i)
  | LFld i k => match nth_error (env s) i with Some (Some (_, t)) => Some (SFld t k) | _ => None end
  end.
(** Reading a handle (language semantics). *)
Definition rdS (s : state) (l : slot) : option handle :=
  match l with
  | SVar i => match nth_error (env s) i with Some (Some v) => Some v | _ => None end
  | SFld o k => x <- getO (hp s) o ;; nth_error (flds x) k
  end.
(** Overwriting [_to] of a handle (language semantics). *)
Definition wrS (s : state) (l : slot) (v : handle) : option state :=
  match l with
  | SVar i => Some (mkSt (hp s) (upd (env s) i (Some v)) (dlog s) (clog s))
  | SFld o k =>
    x <- getO (hp s) o ;;
    Some (mkSt (upd (hp s) o (Some (mkObj (st x) (wk x) (upd (flds x) k v)))) (env s) (dlog s) (clog s))
  end.
(** Reading the handle with the given name (language semantics). *)
Definition rd (s : state) (l : loc) : option handle := sl <- slot_of s l ;; rdS s sl.
(** Replacing the heap (language semantics). *)
Definition with_hp (s : state) (h : heap) : state := mkSt h (env s) (dlog s) (clog s).

(** [cut_ref] of a handle that is no longer there
    (H/base/memory/ptr/ptr/base_ptr_t.hpp:50-55). *)
Definition cut (fuel : nat) (s : state) (b : bool) (t : nat) : res state :=
  match cascade fuel (hp s) (dlog s) (clog s) [TCut b t] with
  | Ok (h, d, c) => Ok (mkSt h (env s) d c)
  | Ub => Ub
  | Out => Out
  end.

(** Undefined becomes [Ub] (language semantics). *)
Definition lift {A} (x : option A) : res A := match x with Some a => Ok a | None => Ub end.

(** [reset] to a pointer (H/base/memory/ptr/ptr/base_ptr_t.hpp:111):
    [tmp=_to; add_ref(_to=a); cut_ref(tmp)]. *)
Definition reset (fuel : nat) (s : state) (l : loc) (t : nat) : res state :=
  match
    sl <- slot_of s l ;;
    '(b, old) <- rdS s sl ;;
    s1 <- wrS s sl (b, t) ;;
    h <- inc (hp s1) b t ;;
    Some (with_hp s1 h, b, old)
  with
  | Some (s2, b, old) => cut fuel s2 b old
  | None => Ub
  end.

(** The target a strong or weak handle is constructed with, from any handle
    (H/base/memory/ptr/ptr/base_ptr_t.hpp:78-90): a strong handle checks that
    the object has not lost its last strong handle. *)
Definition copy_target (h : heap) (s : bool) (t : nat) : option nat :=
  if s then x <- getO h t ;; Some (if Nat.eqb (st x) 0 then 0 else t) else Some t.

(** One operation.
    - [ONew]: [get<T>()] and [ptr_t] from a pointer (H/base/memory/ptr/ptr/base_ptr_t.hpp:77);
      members start as null (:106-107);
    - [OCopy]: :78-105 (the move constructor is a copy);
    - [OAssign]: :215-216; [OMove]: :217-218 with [swap_with] :47;
    - [OReset]: :219-220; [ODrop]: :108. *)
Definition do_op (fuel : nat) (s : state) (o : op) : res state :=
  match o with
  | ONew ks =>
    lift (
      h <- fold_left (fun a k => h <- a ;; inc h k 0) ks (Some (hp s)) ;;
      Some (mkSt (h ++ [Some (mkObj 1 0 (map (fun k => (k, 0)) ks))])
              (env s ++ [Some (true, length (hp s))]) (dlog s) (clog s)))
  | ONull b =>
    lift (h <- inc (hp s) b 0 ;; Some (mkSt h (env s ++ [Some (b, 0)]) (dlog s) (clog s)))
  | OCopy b l =>
    lift (
      '(_, t) <- rd s l ;;
      t' <- copy_target (hp s) b t ;;
      h <- inc (hp s) b t' ;;
      Some (mkSt h (env s ++ [Some (b, t')]) (dlog s) (clog s)))
  | OAssign l1 l2 =>
    match rd s l2 with
    | Some (_, t) => reset fuel s l1 t
    | None => Ub
    end
  | OMove l1 l2 =>
    lift (
      sl1 <- slot_of s l1 ;;
      sl2 <- slot_of s l2 ;;
      v1 <- rdS s sl1 ;;
      v2 <- rdS s sl2 ;;
      s1 <- wrS s sl1 v2 ;;
      wrS s1 sl2 v1)
  | OReset l => reset fuel s l 0
  | ODrop i =>
    match rd s (LVar i) with
    | Some (b, t) => cut fuel (mkSt (hp s) (upd (env s) i None) (dlog s) (clog s)) b t
    | None => Ub
    end
  end.

(** A program starts with the null object alone
    (H/base/memory/ptr/ref/ref_t.hpp:31-43). *)
Definition st0 : state := mkSt [Some (mkObj 1 0 [])] [] [] [].

(** A sequence of operations (language semantics). *)
Fixpoint do_ops (fuel : nat) (s : state) (os : list op) : res state :=
  match os with
  | [] => Ok s
  | o :: r => match do_op fuel s o with Ok s' => do_ops fuel s' r | Ub => Ub | Out => Out end
  end.

(** [get()], [operator->] of a handle: the pointer as it is
    (H/base/memory/ptr/ptr/base_ptr_t.hpp:39,131-134,208). *)
Definition deref (s : state) (l : loc) : option nat := option_map snd (rd s l).
