(** Linked stacks, the hash table built from them and the map built from the
    hash table.  H/ = /repo/parts/header_file/files/elc/_files/.

    The model is at the level of pointers: a heap of list nodes, stacks that
    hold the address of their first node, and tables that are arrays of
    stacks.  Simplifications common to the whole file: the allocator always
    succeeds and never hands out an address twice (so a use after free reads
    an empty cell, which is [Bad]); [size_t] counters are unbounded integers;
    destructors of elements have no effect. *)
From Verif Require Import Base.

(** Outcome of running a piece of C++: a result, undefined behaviour, or not
    finished within the given number of loop steps. *)
Inductive out (A : Type) : Type :=
| Done (a : A)
| Bad
| Spin.
Arguments Done {A} a.
Arguments Bad {A}.
Arguments Spin {A}.

(** Sequencing of two statements (language semantics, no code of its own). *)
Definition bnd {A B : Type} (x : out A) (f : A -> out B) : out B :=
  match x with Done a => f a | Bad => Bad | Spin => Spin end.

Declare Scope out_scope.
Notation "x <- e ;; k" := (bnd e (fun x => k))
  (at level 61, e at next level, right associativity) : out_scope.
Notation "' p <- e ;; k" := (bnd e (fun p => k))
  (at level 61, p pattern, e at next level, right associativity) : out_scope.
Open Scope out_scope.

(** A [data_t*]: [None] is [null_ptr] (H/base/container/stacks/base_stack.hpp:35-41). *)
Definition ptr := option nat.

Section Stack.
Variable T : Type.

(** Memory holding the nodes [data_t{_data,_next}]
    (H/base/container/stacks/base_stack.hpp:35-38) and the next address the
    allocator hands out (simplification: addresses are never reused). *)
Record heap := mkHeap { cell : nat -> option (T * ptr); nxt : nat }.

(** No node allocated yet. *)
Definition heap0 : heap := mkHeap (fun _ => None) 0.

(** Overwriting one cell (language semantics of a store). *)
Definition upd (h : heap) (a : nat) (c : option (T * ptr)) : heap :=
  mkHeap (fun x => if Nat.eqb x a then c else cell h x) (nxt h).

(** The members [_m] and [_size] of a stack
    (H/base/container/stacks/base_stack.hpp:41-42). *)
Record stack := mkStack { top : ptr; ssize : Z }.

(** [base_stack_t()] (H/base/container/stacks/base_stack.hpp:57). *)
Definition stack0 : stack := mkStack None 0%Z.

(** [get<data_t>(a,_m)] as used in H/base/container/stacks/base_stack.hpp:111:
    a new node. *)
Definition h_new (h : heap) (d : T) (p : ptr) : heap * nat :=
  (mkHeap (fun x => if Nat.eqb x (nxt h) then Some (d, p) else cell h x) (S (nxt h)), nxt h).

(** What the pointer-to-pointer [tmp_] refers to: [&_m] or [&tmp->_next]
    (H/base/container/stacks/base_stack.hpp:118,126). *)
Inductive slot := SHead | SNext (a : nat).

(** [*tmp_=v] (H/base/container/stacks/base_stack.hpp:122 and
    auto_stack.hpp:50); [tp] is the current value of [_m]. *)
Definition store_slot (h : heap) (tp : ptr) (s : slot) (v : ptr) : out (heap * ptr) :=
  match s with
  | SHead => Done (h, v)
  | SNext b => match cell h b with
               | Some (d, _) => Done (upd h b (Some (d, v)), tp)
               | None => Bad
               end
  end.

(** [tmp->_next=v] (H/base/container/stacks/auto_stack.hpp:51). *)
Definition set_next (h : heap) (a : nat) (v : ptr) : out heap :=
  match cell h a with
  | Some (d, _) => Done (upd h a (Some (d, v)))
  | None => Bad
  end.

(** The loop of [auto_stack_t::find] (H/base/container/stacks/auto_stack.hpp:46-59);
    [p d] stands for [d==a].  Returns the new heap, the new [_m] and the
    address of the element found. *)
Fixpoint af_loop (fuel : nat) (h : heap) (tp tmp : ptr) (s : slot) (p : T -> bool)
  : out (heap * ptr * ptr) :=
  match fuel with
  | O => Spin
  | S f =>
    match tmp with
    | None => Done (h, tp, None)
    | Some a =>
      match cell h a with
      | None => Bad
      | Some (d, nx) =>
        if p d then
          '(h1, tp1) <- store_slot h tp s nx ;;
          h2 <- set_next h1 a tp1 ;;
          Done (h2, Some a, Some a)
        else af_loop f h tp nx (SNext a) p
      end
    end
  end.

(** [auto_stack_t::find] (H/base/container/stacks/auto_stack.hpp:45-59). *)
Definition a_find (fuel : nat) (h : heap) (s : stack) (p : T -> bool) : out (heap * stack * ptr) :=
  '(h', tp, r) <- af_loop fuel h (top s) (top s) SHead p ;;
  Done (h', mkStack tp (ssize s), r).

(** The loop of [base_stack_t::find]: no reordering
    (H/base/container/stacks/base_stack.hpp:91-97). *)
Fixpoint bf_loop (fuel : nat) (h : heap) (tmp : ptr) (p : T -> bool) : out ptr :=
  match fuel with
  | O => Spin
  | S f =>
    match tmp with
    | None => Done None
    | Some a =>
      match cell h a with
      | None => Bad
      | Some (d, nx) => if p d then Done (Some a) else bf_loop f h nx p
      end
    end
  end.

(** [base_stack_t::find] (H/base/container/stacks/base_stack.hpp:90-98). *)
Definition b_find (fuel : nat) (h : heap) (s : stack) (p : T -> bool) : out (heap * stack * ptr) :=
  r <- bf_loop fuel h (top s) p ;; Done (h, s, r).

(** [base_stack_t::add(const T&)] (H/base/container/stacks/base_stack.hpp:110-113). *)
Definition s_add (h : heap) (s : stack) (d : T) : heap * stack :=
  let '(h', a) := h_new h d (top s) in
  (h', mkStack (Some a) (ssize s + 1)%Z).

(** The loop of [base_stack_t::remove]
    (H/base/container/stacks/base_stack.hpp:118-129); [p d] stands for [a==d]. *)
Fixpoint sr_loop (fuel : nat) (h : heap) (tp tmp : ptr) (s : slot) (p : T -> bool)
  : out (heap * ptr * bool) :=
  match fuel with
  | O => Spin
  | S f =>
    match tmp with
    | None => Done (h, tp, false)
    | Some a =>
      match cell h a with
      | None => Bad
      | Some (d, nx) =>
        if p d then
          '(h1, tp1) <- store_slot h tp s nx ;;
          Done (upd h1 a None, tp1, true)
        else sr_loop f h tp nx (SNext a) p
      end
    end
  end.

(** [base_stack_t::remove] (H/base/container/stacks/base_stack.hpp:116-130). *)
Definition s_remove (fuel : nat) (h : heap) (s : stack) (p : T -> bool) : out (heap * stack * bool) :=
  '(h', tp, b) <- sr_loop fuel h (top s) (top s) SHead p ;;
  Done (h', mkStack tp (if (b : bool) then (ssize s - 1)%Z else ssize s), b).

(** [base_stack_t::for_each] with a callback that does not touch the stack
    (H/base/container/stacks/base_stack.hpp:144-150): the elements visited. *)
Fixpoint s_visit (fuel : nat) (h : heap) (tmp : ptr) : out (list T) :=
  match fuel with
  | O => Spin
  | S f =>
    match tmp with
    | None => Done []
    | Some a =>
      match cell h a with
      | None => Bad
      | Some (d, nx) => r <- s_visit f h nx ;; Done (d :: r)
      end
    end
  end.

(** [move_top_to] together with the protected [add] of a node
    (H/base/container/stacks/base_stack.hpp:153-157,165-168). *)
Definition move_top_to (h : heap) (s d : stack) : out (heap * stack * stack) :=
  match top s with
  | None => Bad
  | Some a =>
    match cell h a with
    | None => Bad
    | Some (x, nx) =>
      Done (upd h a (Some (x, top d)), mkStack nx (ssize s - 1)%Z, mkStack (Some a) (ssize d + 1)%Z)
    end
  end.

(** The loop of [base_stack_t::copy]
    (H/base/container/stacks/base_stack.hpp:46-52): [p] walks over the source
    and every node is copied to the end of the new list, whose first node is
    [tp]; [s] is [p_]. *)
Fixpoint sc_loop (fuel : nat) (h : heap) (tp p : ptr) (s : slot) : out (heap * ptr) :=
  match fuel with
  | O => Spin
  | S f =>
    match p with
    | None => Done (h, tp)
    | Some a =>
      match cell h a with
      | None => Bad
      | Some (d, nx) =>
        let '(h1, b) := h_new h d None in
        '(h2, tp2) <- store_slot h1 tp s (Some b) ;;
        sc_loop f h2 tp2 nx (SNext b)
      end
    end
  end.

(** [base_stack_t::copy] (H/base/container/stacks/base_stack.hpp:44-55). *)
Definition s_copy (fuel : nat) (h : heap) (s : stack) : out (heap * stack) :=
  '(h', tp) <- sc_loop fuel h None (top s) SHead ;;
  Done (h', mkStack tp (ssize s)).

(** [~base_stack_t] (H/base/container/stacks/base_stack.hpp:73-82). *)
Fixpoint s_destroy (fuel : nat) (h : heap) (tmp : ptr) : out heap :=
  match fuel with
  | O => Spin
  | S f =>
    match tmp with
    | None => Done h
    | Some a =>
      match cell h a with
      | None => Bad
      | Some (_, nx) => s_destroy f (upd h a None) nx
      end
    end
  end.

(** * The hash table *)

(** The member [_m] (H/base/container/hash_table/defs.hpp:37-39). *)
Definition table := list stack.

(** [hash_table_t()] and [hash_table_t(special_init,n)]
    (H/base/container/hash_table/defs.hpp:59-60). *)
Definition t_new (n : nat) : table := repeat stack0 n.

(** The index computed by [find_bucket]
    (H/base/container/hash_table/defs.hpp:43-45). *)
Definition bidx (hz : Z) (n : nat) : nat := Z.to_nat (hz mod Z.of_nat n)%Z.

(** [find_bucket]; a table without buckets divides by zero
    (H/base/container/hash_table/defs.hpp:43-45). *)
Definition bucket_at (t : table) (i : nat) : out stack :=
  match nth_error t i with Some s => Done s | None => Bad end.

(** Writing back through the reference [bucket]
    (H/base/container/hash_table/defs.hpp:84-86). *)
Definition set_bucket (t : table) (i : nat) (s : stack) : out table :=
  match set_nth i s t with Some t' => Done t' | None => Bad end.

Section Grow.
(** [hash] as it answers at the time of the call. *)
Variable hf : T -> Z.

(** The inner loop of [bucket_count_grow]
    (H/base/container/hash_table/defs.hpp:49-50) with [get_top_hash] of
    H/base/container/stacks/base_stack.hpp:159-164. *)
Fixpoint drain (fuel : nat) (h : heap) (s : stack) (tmp : table) : out (heap * table) :=
  match fuel with
  | O => Spin
  | S f =>
    match top s with
    | None => Done (h, tmp)
    | Some a =>
      match cell h a with
      | None => Bad
      | Some (x, _) =>
        let i := bidx (hf x) (length tmp) in
        d <- bucket_at tmp i ;;
        '(h', s', d') <- move_top_to h s d ;;
        tmp' <- set_bucket tmp i d' ;;
        drain f h' s' tmp'
      end
    end
  end.

(** The outer loop of [bucket_count_grow]
    (H/base/container/hash_table/defs.hpp:48-51). *)
Fixpoint drain_all (fuel : nat) (h : heap) (bs : list stack) (tmp : table) : out (heap * table) :=
  match bs with
  | [] => Done (h, tmp)
  | s :: r => '(h', tmp') <- drain fuel h s tmp ;; drain_all fuel h' r tmp'
  end.

(** The number of buckets after [n]: [get_next_gold_size_to_resize_for_hash]
    (H/base_defs/math.hpp:591-598) multiplies by an irrational constant in
    floating point, so it is a parameter of the model. *)
Variable gold : nat -> nat.

(** [bucket_count_grow] (H/base/container/hash_table/defs.hpp:46-53).  The old
    array, swapped into the local, holds only empty stacks when it dies. *)
Definition t_grow (fuel : nat) (h : heap) (t : table) : out (heap * table) :=
  drain_all fuel h t (t_new (gold (length t))).

(** [add] (H/base/container/hash_table/defs.hpp:83-88); [mx] is
    [bucket_max_size]. *)
Definition t_add (mx : Z) (fuel : nat) (h : heap) (t : table) (x : T) : out (heap * table) :=
  let i := bidx (hf x) (length t) in
  s <- bucket_at t i ;;
  let '(h1, s1) := s_add h s x in
  t1 <- set_bucket t i s1 ;;
  if (mx <? ssize s1)%Z then t_grow fuel h1 t1 else Done (h1, t1).
End Grow.

(** The fallback loop of [remove] over the other buckets
    (H/base/container/hash_table/defs.hpp:94-100); [i] is the bucket to skip,
    [j] the loop position. *)
Fixpoint remove_others (fuel : nat) (h : heap) (i j : nat) (bs : list stack) (p : T -> bool)
  : out (heap * list stack * bool) :=
  match bs with
  | [] => Done (h, [], false)
  | s :: r =>
    if Nat.eqb i j then
      '(h', r', b) <- remove_others fuel h i (S j) r p ;; Done (h', s :: r', b)
    else
      '(h1, s1, b1) <- s_remove fuel h s p ;;
      if (b1 : bool) then Done (h1, s1 :: r, true)
      else '(h', r', b) <- remove_others fuel h1 i (S j) r p ;; Done (h', s1 :: r', b)
  end.

(** [remove] (H/base/container/hash_table/defs.hpp:89-103); [unst] is
    [is_unstable_hash<T>], [hz] the hash of the argument, [p x] is [a==x]. *)
Definition t_remove (unst : bool) (fuel : nat) (h : heap) (t : table) (hz : Z) (p : T -> bool)
  : out (heap * table * bool) :=
  let i := bidx hz (length t) in
  s <- bucket_at t i ;;
  '(h1, s1, b1) <- s_remove fuel h s p ;;
  t1 <- set_bucket t i s1 ;;
  if andb unst (negb b1) then remove_others fuel h1 i 0 t1 p
  else Done (h1, t1, b1).

(** The fallback loop of [find] over the other buckets
    (H/base/container/hash_table/defs.hpp:111-117). *)
Fixpoint find_others (fuel : nat) (h : heap) (i j : nat) (bs : list stack) (p : T -> bool)
  : out (heap * list stack * ptr) :=
  match bs with
  | [] => Done (h, [], None)
  | s :: r =>
    if Nat.eqb i j then
      '(h', r', b) <- find_others fuel h i (S j) r p ;; Done (h', s :: r', b)
    else
      '(h1, s1, b1) <- a_find fuel h s p ;;
      match b1 with
      | Some _ => Done (h1, s1 :: r, b1)
      | None => '(h', r', b) <- find_others fuel h1 i (S j) r p ;; Done (h', s1 :: r', b)
      end
  end.

(** [find] (H/base/container/hash_table/defs.hpp:104-121); [p x] is [x==a]. *)
Definition t_find (unst : bool) (fuel : nat) (h : heap) (t : table) (hz : Z) (p : T -> bool)
  : out (heap * table * ptr) :=
  let i := bidx hz (length t) in
  s <- bucket_at t i ;;
  '(h1, s1, r1) <- a_find fuel h s p ;;
  t1 <- set_bucket t i s1 ;;
  match r1 with
  | None => if unst then find_others fuel h1 i 0 t1 p else Done (h1, t1, None)
  | Some _ => Done (h1, t1, r1)
  end.

(** [size] (H/base/container/hash_table/defs.hpp:129-135). *)
Definition t_size (t : table) : Z := fold_left (fun acc s => acc + ssize s)%Z t 0%Z.

(** [for_each] with a callback that does not touch the table
    (H/base/container/hash_table/defs.hpp:143-147): the elements visited. *)
Fixpoint t_visit (fuel : nat) (h : heap) (t : table) : out (list T) :=
  match t with
  | [] => Done []
  | s :: r => l <- s_visit fuel h (top s) ;; m <- t_visit fuel h r ;; Done (l ++ m)
  end.

(** Destruction of the array of buckets: each bucket gives its nodes back
    (H/base/container/stacks/base_stack.hpp:72-81).  Simplification: from the
    first bucket to the last; the buckets do not see each other. *)
Fixpoint t_destroy (fuel : nat) (h : heap) (t : table) : out heap :=
  match t with
  | [] => Done h
  | s :: r => h1 <- s_destroy fuel h (top s) ;; t_destroy fuel h1 r
  end.

(** [clear] (H/base/container/hash_table/defs.hpp:137-139): [re_construct],
    so destruction and default construction with five buckets
    (H/base/container/hash_table/defs.hpp:59). *)
Definition t_clear (fuel : nat) (h : heap) (t : table) : out (heap * table) :=
  h1 <- t_destroy fuel h t ;; Done (h1, t_new 5).

(** [for_each] of a stack with a callback that replaces the element
    (H/base/container/stacks/base_stack.hpp:131-139). *)
Fixpoint s_update (f : T -> T) (fuel : nat) (h : heap) (tmp : ptr) : out heap :=
  match fuel with
  | O => Spin
  | S n =>
    match tmp with
    | None => Done h
    | Some a =>
      match cell h a with
      | None => Bad
      | Some (d, nx) => s_update f n (upd h a (Some (f d, nx))) nx
      end
    end
  end.

(** [for_each] of the table with a callback that replaces the element
    (H/base/container/hash_table/defs.hpp:143-147). *)
Fixpoint t_update (f : T -> T) (fuel : nat) (h : heap) (t : table) : out heap :=
  match t with
  | [] => Done h
  | s :: r => h1 <- s_update f fuel h (top s) ;; t_update f fuel h1 r
  end.

(** The public operations of the hash table
    (H/base/container/hash_table/defs.hpp:83-139); each carries the hash
    function as it answers at the time of the call. *)
Inductive top_t :=
| OAdd (hf : T -> Z) (x : T)
| ORemove (hf : T -> Z) (x : T)
| OFind (hf : T -> Z) (x : T)
| OClear.

(** One public operation; [eqb] is [operator==] of the element type.  The
    answer of [add] and of [clear] (which return nothing) is reported as [true]
    (H/base/container/hash_table/defs.hpp:83-139). *)
Definition t_op (eqb : T -> T -> bool) (gold : nat -> nat) (mx : Z) (unst : bool) (fuel : nat)
    (st : heap * table) (o : top_t) : out (heap * table * bool) :=
  let '(h, t) := st in
  match o with
  | OAdd hf x => '(h', t') <- t_add hf gold mx fuel h t x ;; Done (h', t', true)
  | ORemove hf x => t_remove unst fuel h t (hf x) (fun d => eqb x d)
  | OFind hf x =>
    '(h', t', r) <- t_find unst fuel h t (hf x) (fun d => eqb d x) ;;
    Done (h', t', match r with Some _ => true | None => false end)
  | OClear => '(h', t') <- t_clear fuel h t ;; Done (h', t', true)
  end.

(** A sequence of public operations and the list of their answers
    (H/base/container/hash_table/defs.hpp:83-127). *)
Fixpoint t_run (eqb : T -> T -> bool) (gold : nat -> nat) (mx : Z) (unst : bool) (fuel : nat)
    (st : heap * table) (os : list top_t) : out (heap * table * list bool) :=
  match os with
  | [] => Done (fst st, snd st, [])
  | o :: r =>
    '(h', t', b) <- t_op eqb gold mx unst fuel st o ;;
    '(h2, t2, bs) <- t_run eqb gold mx unst fuel (h', t') r ;;
    Done (h2, t2, b :: bs)
  end.

End Stack.

Arguments heap0 {T}.

(** * The map *)
Section Map.
Variables K V : Type.
(** [operator==] of keys and of values, the default value [T()], and [hash]
    of a key as it answers at the time of the call. *)
Variable keqb : K -> K -> bool.
Variable veqb : V -> V -> bool.
Variable dflt : V.
Variable gold : nat -> nat.
Variable mx : Z.
Variable unst : bool.

(** [data_t] (H/base/container/map/defs.hpp:36-63). *)
Definition entry := (K * V)%type.

(** [hash] of an entry is the hash of its key
    (H/base/container/map/defs.hpp:54-56). *)
Definition ehash (hk : K -> Z) (e : entry) : Z := hk (fst e).

(** [data_t::operator==(const key_t&)] (H/base/container/map/defs.hpp:51-53). *)
Definition ekey (k : K) (e : entry) : bool := keqb (fst e) k.

(** [seek_value_t(default)==entry] (H/base/container/map/defs.hpp:43-49). *)
Definition eempty (e : entry) : bool := veqb (snd e) dflt.

(** The non-const [operator[]] (H/base/container/map/defs.hpp:89-96): the
    address of the entry whose value is referred to. *)
Definition m_index (hk : K -> Z) (fuel : nat) (h : heap entry) (t : table) (k : K)
  : out (heap entry * table * nat) :=
  '(h1, t1, r1) <- t_find unst fuel h t (hk k) (ekey k) ;;
  match r1 with
  | Some a => Done (h1, t1, a)
  | None =>
    '(h2, t2) <- t_add (ehash hk) gold mx fuel h1 t1 (k, dflt) ;;
    '(h3, t3, r3) <- t_find unst fuel h2 t2 (hk k) (ekey k) ;;
    match r3 with Some a => Done (h3, t3, a) | None => Bad end
  end.

(** [m[k]=v]: an assignment through the reference returned by the non-const
    [operator[]] (H/base/container/map/defs.hpp:89-96). *)
Definition m_set (hk : K -> Z) (fuel : nat) (h : heap entry) (t : table) (k : K) (v : V)
  : out (heap entry * table) :=
  '(h1, t1, a) <- m_index hk fuel h t k ;;
  match cell h1 a with
  | Some ((k', _), nx) => Done (upd h1 a (Some ((k', v), nx)), t1)
  | None => Bad
  end.

(** Reading [m[k]] through the non-const [operator[]]
    (H/base/container/map/defs.hpp:89-96). *)
Definition m_get (hk : K -> Z) (fuel : nat) (h : heap entry) (t : table) (k : K)
  : out (heap entry * table * V) :=
  '(h1, t1, a) <- m_index hk fuel h t k ;;
  match cell h1 a with
  | Some ((_, v), _) => Done (h1, t1, v)
  | None => Bad
  end.

(** Reading [m[k]] through the const [operator[]]
    (H/base/container/map/defs.hpp:97-100). *)
Definition m_cget (hk : K -> Z) (fuel : nat) (h : heap entry) (t : table) (k : K)
  : out (heap entry * table * V) :=
  '(h1, t1, r1) <- t_find unst fuel h t (hk k) (ekey k) ;;
  match r1 with
  | None => Done (h1, t1, dflt)
  | Some a =>
    match cell h1 a with
    | Some ((_, v), _) => Done (h1, t1, v)
    | None => Bad
    end
  end.

(** [while(a.remove(...));] for one bucket (H/base/container/map/defs.hpp:126). *)
Fixpoint shrink_bucket (n fuel : nat) (h : heap entry) (s : stack) : out (heap entry * stack) :=
  match n with
  | O => Spin
  | S n' =>
    '(h1, s1, b) <- s_remove fuel h s eempty ;;
    if (b : bool) then shrink_bucket n' fuel h1 s1 else Done (h1, s1)
  end.

(** [shrink] (H/base/container/map/defs.hpp:124-128); [for_each_bucket] is
    [array_t::for_each] (H/base/container/array/defs.hpp:228-232), which goes
    from the last element to the first. *)
Fixpoint shrink_all (n fuel : nat) (h : heap entry) (bs : list stack) : out (heap entry * list stack) :=
  match bs with
  | [] => Done (h, [])
  | s :: r =>
    '(h1, r1) <- shrink_all n fuel h r ;;
    '(h2, s2) <- shrink_bucket n fuel h1 s ;;
    Done (h2, s2 :: r1)
  end.

(** [shrink] (H/base/container/map/defs.hpp:124-128). *)
Definition m_shrink (fuel : nat) (h : heap entry) (t : table) : out (heap entry * table) :=
  shrink_all fuel fuel h t.

(** A world of maps living in one memory; [wt i] is the [_m] of map [i]
    (H/base/container/map/defs.hpp:66). *)
Record world := mkWorld { wh : heap entry; wt : nat -> table }.

(** Storing the [_m] of one map (language semantics). *)
Definition setT (w : nat -> table) (i : nat) (t : table) : nat -> table :=
  fun x => if Nat.eqb x i then t else w x.

(** All maps default-constructed: five empty buckets each
    (H/base/container/map/defs.hpp:73, H/base/container/hash_table/defs.hpp:59). *)
Definition world0 : world := mkWorld heap0 (fun _ => t_new 5).

(** The traversal of one bucket of map [i] in [operator==]: for every node the
    const [operator[]] of map [j], which may itself reorder buckets
    (H/base/container/map/defs.hpp:138-141 inside
    H/base/container/stacks/base_stack.hpp:133-139).  Leaving by [throw] is
    the answer [false]. *)
Fixpoint eq_bucket (hk : K -> Z) (n fuel : nat) (w : world) (j : nat) (tmp : ptr)
  : out (world * bool) :=
  match n with
  | O => Spin
  | S n' =>
    match tmp with
    | None => Done (w, true)
    | Some a =>
      match cell (wh w) a with
      | None => Bad
      | Some ((k, v), _) =>
        '(h1, t1, v') <- m_cget hk fuel (wh w) (wt w j) k ;;
        let w1 := mkWorld h1 (setT (wt w) j t1) in
        if veqb v' v then
          match cell h1 a with
          | None => Bad
          | Some (_, nx) => eq_bucket hk n' fuel w1 j nx
          end
        else Done (w1, false)
      end
    end
  end.

(** The loop over the buckets of map [i], from bucket [b] on, [c] of them left
    (H/base/container/hash_table/defs.hpp:143-147 as called from
    H/base/container/map/defs.hpp:138). *)
Fixpoint eq_buckets (hk : K -> Z) (n fuel : nat) (w : world) (i j b c : nat) : out (world * bool) :=
  match c with
  | O => Done (w, true)
  | S c' =>
    s <- bucket_at (wt w i) b ;;
    '(w1, r) <- eq_bucket hk n fuel w j (top s) ;;
    if (r : bool) then eq_buckets hk n fuel w1 i j (S b) c' else Done (w1, false)
  end.

(** [operator==] of maps [i] and [j] (H/base/container/map/defs.hpp:132-147). *)
Definition m_eq (hk : K -> Z) (fuel : nat) (w : world) (i j : nat) : out (world * bool) :=
  '(h1, t1) <- m_shrink fuel (wh w) (wt w i) ;;
  let w1 := mkWorld h1 (setT (wt w) i t1) in
  '(h2, t2) <- m_shrink fuel (wh w1) (wt w1 j) ;;
  let w2 := mkWorld h2 (setT (wt w1) j t2) in
  if (t_size (wt w2 i) =? t_size (wt w2 j))%Z then
    eq_buckets hk fuel fuel w2 i j 0 (length (wt w2 i))
  else Done (w2, false).

(** [for_each] with a callback that only reads: the values it is called with
    (H/base/container/map/defs.hpp:105-112). *)
Definition m_values (fuel : nat) (h : heap entry) (t : table) : out (list V) :=
  l <- t_visit fuel h t ;; Done (map snd l).

(** [for_each] with a callback that replaces every value [v] by [f v] through
    the reference it gets (H/base/container/map/defs.hpp:105-112). *)
Definition m_update (f : V -> V) (fuel : nat) (h : heap entry) (t : table) : out (heap entry) :=
  t_update (fun e : entry => (fst e, f (snd e))) fuel h t.

(** The public operations of maps (H/base/container/map/defs.hpp:89-147); each
    names the map, and carries the hash function as it answers at the time of
    the call. *)
Inductive mop_t :=
| MSet (hk : K -> Z) (i : nat) (k : K) (v : V)
| MGet (hk : K -> Z) (i : nat) (k : K)
| MCGet (hk : K -> Z) (i : nat) (k : K)
| MShrink (i : nat)
| MEq (hk : K -> Z) (i j : nat)
| MClear (i : nat)
| MVisit (i : nat)
| MUpdate (i : nat) (f : V -> V)
| MSize (i : nat).

(** What an operation answers. *)
Inductive mans := ANone | AVal (v : V) | ABool (b : bool) | AVals (l : list V) | ASize (z : Z).

(** One public operation (H/base/container/map/defs.hpp:89-147). *)
Definition m_op (fuel : nat) (w : world) (o : mop_t) : out (world * mans) :=
  match o with
  | MSet hk i k v =>
    '(h, t) <- m_set hk fuel (wh w) (wt w i) k v ;; Done (mkWorld h (setT (wt w) i t), ANone)
  | MGet hk i k =>
    '(h, t, v) <- m_get hk fuel (wh w) (wt w i) k ;; Done (mkWorld h (setT (wt w) i t), AVal v)
  | MCGet hk i k =>
    '(h, t, v) <- m_cget hk fuel (wh w) (wt w i) k ;; Done (mkWorld h (setT (wt w) i t), AVal v)
  | MShrink i =>
    '(h, t) <- m_shrink fuel (wh w) (wt w i) ;; Done (mkWorld h (setT (wt w) i t), ANone)
  | MEq hk i j =>
    '(w', b) <- m_eq hk fuel w i j ;; Done (w', ABool b)
  | MClear i =>
    '(h, t) <- t_clear fuel (wh w) (wt w i) ;; Done (mkWorld h (setT (wt w) i t), ANone)
  | MVisit i =>
    l <- m_values fuel (wh w) (wt w i) ;; Done (w, AVals l)
  | MUpdate i f =>
    h <- m_update f fuel (wh w) (wt w i) ;; Done (mkWorld h (wt w), ANone)
  | MSize i => Done (w, ASize (t_size (wt w i)))
  end.

(** A sequence of public operations and their answers
    (H/base/container/map/defs.hpp:89-147). *)
Fixpoint m_run (fuel : nat) (w : world) (os : list mop_t) : out (world * list mans) :=
  match os with
  | [] => Done (w, [])
  | o :: r =>
    '(w1, a) <- m_op fuel w o ;;
    '(w2, l) <- m_run fuel w1 r ;;
    Done (w2, a :: l)
  end.

End Map.
