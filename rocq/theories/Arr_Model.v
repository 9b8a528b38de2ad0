(** Model of the dynamic array (H/base/container/array/defs.hpp), of the block
    operations it is made of (H/base/memory/get/defs.hpp) and of the allocator
    interface (H/base/memory/alloc/defs.hpp).

    Memory is a set of blocks of cells.  A cell holds an object, or nothing
    ([None]: never constructed, destroyed, or moved away).  The outcome [None]
    of an operation is: access outside a block or to a freed block, use of a
    cell without object, an object that is overwritten or freed without having
    been destroyed (it is lost), or overlapping [memcpy].

    Two flags describe the element type: [tm] is [move.trivial<T>] (which
    includes trivial destruction), [tc] is [construct<T>.trivial<>] (default
    construction does nothing; such types are trivially destructible).
    Simplifications: copying is trivial when moving is; the loops over the
    elements of a block are one step; throwing element operations are not
    modelled; an allocation never fails. *)
From Verif Require Import Base.
Local Open Scope omonad_scope.
Local Open Scope nat_scope.

Section Arr.
Variable T : Type.
Variables tm tc : bool.
(** [T()]. *)
Variable def : T.

(** One element's worth of memory (language semantics). *)
Notation cellv := (option T).
(** Blocks by address, and the next fresh address (addresses are not reused). *)
Record mem := mkMem { blk : nat -> option (list cellv); nxt : nat }.
(** [null_ptr] is [None]; H/base/container/array/defs.hpp:35. *)
Definition ptr := option nat.

(** Whether [realloc] moves the block: left open.  It may move only when the
    block grows (H/base/memory/alloc/defs.hpp:77-78). *)
Variable mv : mem -> nat -> nat -> bool.

(** [destruct.trivial<T>] (H/base_defs/memory/lifetime/defs.hpp:224). *)
Definition tdest : bool := orb tm tc.

(** No block yet. *)
Definition mem0 : mem := mkMem (fun _ => None) 0.
(** Storing a block (language semantics). *)
Definition setb (h : mem) (a : nat) (b : option (list cellv)) : mem :=
  mkMem (fun x => if Nat.eqb x a then b else blk h x) (nxt h).

(** The cells behind a pointer; [get_size_of_alloc] is their number, 0 for
    [null_ptr] (H/base/memory/alloc/defs.hpp:176-198). *)
Definition getb (h : mem) (p : ptr) : option (list cellv) :=
  match p with None => Some [] | Some a => blk h a end.

(** [alloc<T>(size)] (H/base/memory/alloc/defs.hpp:100-109). *)
Definition alloc (h : mem) (n : nat) : mem * ptr :=
  if Nat.eqb n 0 then (h, None)
  else (mkMem (fun x => if Nat.eqb x (nxt h) then Some (repeat None n) else blk h x) (S (nxt h)), Some (nxt h)).

(** Every cell is free, or objects may be dropped silently (language semantics). *)
Definition droppable (b : list cellv) : bool :=
  orb tdest (forallb (fun c => match c with None => true | Some _ => false end) b).

(** [free] (H/base/memory/alloc/defs.hpp:127-137). *)
Definition free (h : mem) (p : ptr) : option mem :=
  match p with
  | None => Some h
  | Some a => b <- blk h a ;; if droppable b then Some (setb h a None) else None
  end.

(** [realloc] (H/base/memory/alloc/defs.hpp:141-162). *)
Definition realloc (h : mem) (p : ptr) (n : nat) : option (mem * ptr) :=
  if Nat.eqb n 0 then h1 <- free h p ;; Some (h1, None)
  else match p with
  | None => Some (alloc h n)
  | Some a =>
    b <- blk h a ;;
    if droppable (skipn n b) then
      let b' := firstn n b ++ repeat None (n - length b) in
      if andb (Nat.ltb (length b) n) (mv h a n)
      then Some (mkMem (fun x => if Nat.eqb x (nxt h) then Some b' else if Nat.eqb x a then None else blk h x)
                   (S (nxt h)), Some (nxt h))
      else Some (setb h a (Some b'), Some a)
    else None
  end.

(** Changing the cells of a block in place (language semantics); on [null_ptr]
    only operations on no element at all are defined. *)
Definition on (h : mem) (p : ptr) (f : list cellv -> option (list cellv)) : option mem :=
  match p with
  | None => _ <- f [] ;; Some h
  | Some a => b <- blk h a ;; b' <- f b ;; Some (setb h a (Some b'))
  end.

(** Reading [n] cells from [off] (language semantics). *)
Definition rdn (b : list cellv) (off n : nat) : option (list cellv) :=
  match n with
  | O => Some []
  | _ => if Nat.leb (off + n) (length b) then Some (firstn n (skipn off b)) else None
  end.
(** Writing cells from [off] (language semantics). *)
Definition wrn (b : list cellv) (off : nat) (cs : list cellv) : option (list cellv) :=
  match cs with
  | [] => Some b
  | _ => if Nat.leb (off + length cs) (length b)
         then Some (firstn off b ++ cs ++ skipn (off + length cs) b) else None
  end.
(** [memmove] inside a block (language semantics). *)
Definition memmove (b : list cellv) (to from n : nat) : option (list cellv) :=
  cs <- rdn b from n ;; wrn b to cs.

(** The objects in cells; a cell without object is undefined (language semantics). *)
Fixpoint objs (cs : list cellv) : option (list T) :=
  match cs with
  | [] => Some []
  | c :: r => v <- c ;; l <- objs r ;; Some (v :: l)
  end.

(** Constructing objects in cells: [new(to)T(...)]
    (H/base_defs/memory/lifetime/defs.hpp:138-141, 364-379, 478-486). *)
Definition init (b : list cellv) (off : nat) (vs : list cellv) : option (list cellv) :=
  old <- rdn b off (length vs) ;;
  if droppable old then wrn b off vs else None.
(** [construct<T>[to][n]()]: nothing for trivially constructible types
    (H/base_defs/memory/lifetime/defs.hpp:158-163).  The number is [None] when
    its computation wrapped below zero. *)
Definition construct (b : list cellv) (off : nat) (n : option nat) : option (list cellv) :=
  if tc then Some b else k <- n ;; init b off (repeat (Some def) k).
(** [destruct[n](to)] (H/base_defs/memory/lifetime/defs.hpp:237-243). *)
Definition destroy (b : list cellv) (off n : nat) : option (list cellv) :=
  if tdest then Some b
  else cs <- rdn b off n ;; _ <- objs cs ;; wrn b off (repeat None n).
(** The values a copy or move transfers: any bytes for trivial types, objects
    otherwise (H/base_defs/memory/lifetime/defs.hpp:364-373, 471-487). *)
Definition values (cs : list cellv) : option (list cellv) :=
  if tm then Some cs else l <- objs cs ;; Some (map (@Some T) l).

(** [move[n](from,to)] between different blocks
    (H/base_defs/memory/lifetime/defs.hpp:524-531). *)
Definition move_to (h : mem) (p : ptr) (off n : nat) (q : ptr) (off2 : nat) : option mem :=
  b <- getb h p ;;
  cs <- rdn b off n ;;
  vs <- values cs ;;
  h1 <- on h q (fun c => init c off2 vs) ;;
  on h1 p (fun c => destroy c off n).

(** [alloc_size_grow] (H/base/memory/get/defs.hpp:65-86). *)
Definition grow (h : mem) (p : ptr) (n : nat) : option (mem * ptr) :=
  if tm then realloc h p n
  else
    let '(h1, q) := alloc h n in
    b <- getb h1 p ;;
    h2 <- move_to h1 p 0 (length b) q 0 ;;
    h3 <- free h2 p ;;
    Some (h3, q).

(** [alloc_size_grow_with_insert_uninitialized_data], both overloads
    (H/base/memory/get/defs.hpp:94-196); the first has [to] = old size + [ins]. *)
Definition insert_grow (h : mem) (p : ptr) (to pos ins : nat) : option (mem * ptr) :=
  b <- getb h p ;;
  let from := length b in
  if Nat.ltb from pos then None
  else if tm then
    '(h1, q) <- realloc h p to ;;
    h2 <- on h1 q (fun c => memmove c (pos + ins) pos (from - pos)) ;;
    Some (h2, q)
  else
    let '(h1, q) := alloc h to in
    h2 <- move_to h1 p 0 pos q 0 ;;
    h3 <- move_to h2 p pos (from - pos) q (pos + ins) ;;
    h4 <- free h3 p ;;
    Some (h4, q).

(** [part_used_block_alloc_size_grow_with_insert_uninitialized_data]
    (H/base/memory/get/defs.hpp:209-266). *)
Definition insert_grow_used (h : mem) (p : ptr) (to pos ins used : nat) : option (mem * ptr) :=
  if Nat.ltb used pos then None
  else if tm then
    '(h1, q) <- realloc h p to ;;
    h2 <- on h1 q (fun c => memmove c (pos + ins) pos (used - pos)) ;;
    Some (h2, q)
  else
    let '(h1, q) := alloc h to in
    h2 <- move_to h1 p pos (used - pos) q (pos + ins) ;;
    h3 <- move_to h2 p 0 pos q 0 ;;
    h4 <- free h3 p ;;
    Some (h4, q).

(** [forward_alloc_size_cut] (H/base/memory/get/defs.hpp:273-303). *)
Definition fwd_cut (h : mem) (p : ptr) (to : nat) : option (mem * ptr) :=
  b <- getb h p ;;
  let from := length b in
  if Nat.ltb from to then None
  else if tm then
    h1 <- on h p (fun c => memmove c 0 (from - to) to) ;;
    realloc h1 p to
  else
    let '(h1, q) := alloc h to in
    h2 <- move_to h1 p (from - to) to q 0 ;;
    h3 <- free h2 p ;;
    Some (h3, q).

(** [forward_alloc_size_grow] (H/base/memory/get/defs.hpp:310-340). *)
Definition fwd_grow (h : mem) (p : ptr) (to : nat) : option (mem * ptr) :=
  b <- getb h p ;;
  let from := length b in
  if Nat.ltb to from then None
  else if tm then
    '(h1, q) <- realloc h p to ;;
    h2 <- on h1 q (fun c => memmove c (to - from) 0 from) ;;
    Some (h2, q)
  else
    let '(h1, q) := alloc h to in
    h2 <- move_to h1 p 0 from q (to - from) ;;
    h3 <- free h2 p ;;
    Some (h3, q).

(** [forward_alloc_size_grow_with_insert_uninitialized_data]
    (H/base/memory/get/defs.hpp:352-410). *)
Definition fwd_insert_grow (h : mem) (p : ptr) (to pos ins : nat) : option (mem * ptr) :=
  b <- getb h p ;;
  let from := length b in
  if orb (Nat.ltb to (from + ins)) (Nat.ltb from pos) then None
  else
    let before := to - from - ins in
    if tm then
      '(h1, q) <- realloc h p to ;;
      h2 <- on h1 q (fun c => memmove c (before + pos + ins) pos (from - pos)) ;;
      h3 <- on h2 q (fun c => memmove c before 0 pos) ;;
      Some (h3, q)
    else
      let '(h1, q) := alloc h to in
      h2 <- move_to h1 p 0 pos q before ;;
      h3 <- move_to h2 p pos (from - pos) q (before + pos + ins) ;;
      h4 <- free h3 p ;;
      Some (h4, q).

(** [part_used_block_forward_alloc_size_grow_with_insert_uninitialized_data]
    (H/base/memory/get/defs.hpp:424-494); [pos] counts from the start of the
    block, as in the interface. *)
Definition fwd_insert_grow_used (h : mem) (p : ptr) (to pos ins used : nat) : option (mem * ptr) :=
  b <- getb h p ;;
  let from := length b in
  if orb (orb (Nat.ltb to (used + ins)) (Nat.ltb from used)) (orb (Nat.ltb from pos) (Nat.ltb pos (from - used)))
  then None
  else
    let new := to - (used + ins) in
    let org := from - used in
    let k := pos - org in
    if tm then
      '(h1, q) <- realloc h p to ;;
      h2 <- on h1 q (fun c => memmove c (new + k + ins) (org + k) (from - pos)) ;;
      h3 <- on h2 q (fun c => memmove c new org k) ;;
      Some (h3, q)
    else
      let '(h1, q) := alloc h to in
      h2 <- move_to h1 p (org + k) (from - pos) q (new + k + ins) ;;
      h3 <- move_to h2 p org k q new ;;
      h4 <- free h3 p ;;
      Some (h4, q).

(** [get<T>[n]()] (H/base/memory/get/defs.hpp:518-525). *)
Definition a_new (h : mem) (n : nat) : option (mem * ptr) :=
  let '(h1, p) := alloc h n in
  h2 <- on h1 p (fun c => construct c 0 (Some n)) ;; Some (h2, p).
(** [get<T>.as_array] and [get<T>[n](elem)]: construction from given values
    (H/base/memory/get/defs.hpp:518-545). *)
Definition a_of (h : mem) (vs : list T) : option (mem * ptr) :=
  let '(h1, p) := alloc h (length vs) in
  h2 <- on h1 p (fun c => init c 0 (map (@Some T) vs)) ;; Some (h2, p).
(** [copy_get] (H/base/memory/get/defs.hpp:873-893). *)
Definition a_copy (h : mem) (p : ptr) : option (mem * ptr) :=
  b <- getb h p ;;
  vs <- values b ;;
  let '(h1, q) := alloc h (length b) in
  h2 <- on h1 q (fun c => init c 0 vs) ;; Some (h2, q).
(** [unget] (H/base/memory/get/defs.hpp:608-632). *)
Definition a_unget (h : mem) (p : ptr) : option mem :=
  match p with
  | None => Some h
  | Some _ =>
    b <- getb h p ;;
    h1 <- on h p (fun c => destroy c 0 (length b)) ;;
    free h1 p
  end.

(** [get_resize] (H/base/memory/get/defs.hpp:647-671). *)
Definition a_resize (h : mem) (p : ptr) (to : nat) : option (mem * ptr) :=
  b <- getb h p ;;
  let from := length b in
  if Nat.eqb from to then Some (h, p)
  else if Nat.ltb to from then
    h1 <- on h p (fun c => destroy c to (from - to)) ;;
    realloc h1 p to
  else if Nat.ltb 0 from then
    '(h1, q) <- grow h p to ;;
    h2 <- on h1 q (fun c => construct c from (Some (to - from))) ;;
    Some (h2, q)
  else a_new h to.

(** [get_forward_resize] (H/base/memory/get/defs.hpp:759-784). *)
Definition a_fresize (h : mem) (p : ptr) (to : nat) : option (mem * ptr) :=
  b <- getb h p ;;
  let from := length b in
  if Nat.eqb from to then Some (h, p)
  else if Nat.ltb to from then
    h1 <- on h p (fun c => destroy c 0 (from - to)) ;;
    fwd_cut h1 p to
  else if Nat.ltb 0 from then
    '(h1, q) <- fwd_grow h p to ;;
    h2 <- on h1 q (fun c => construct c 0 (Some (to - from))) ;;
    Some (h2, q)
  else a_new h to.

(** [get_resize.insert(arg,pos,count)] (H/base/memory/get/defs.hpp:690-696). *)
Definition a_insert_def (h : mem) (p : ptr) (pos n : nat) : option (mem * ptr) :=
  if Nat.eqb n 0 then Some (h, p)
  else
    b <- getb h p ;;
    '(h1, q) <- insert_grow h p (length b + n) pos n ;;
    h2 <- on h1 q (fun c => construct c pos (Some n)) ;;
    Some (h2, q).
(** [get_resize.insert] with values: [count] copies of one value or an array of
    values outside the array (H/base/memory/get/defs.hpp:697-712). *)
Definition a_insert (h : mem) (p : ptr) (pos : nat) (vs : list T) : option (mem * ptr) :=
  if Nat.eqb (length vs) 0 then Some (h, p)
  else
    b <- getb h p ;;
    '(h1, q) <- insert_grow h p (length b + length vs) pos (length vs) ;;
    h2 <- on h1 q (fun c => init c pos (map (@Some T) vs)) ;;
    Some (h2, q).

(** Unsigned subtraction; [None] when it wraps (language semantics). *)
Definition nsub (a b : nat) : option nat := if Nat.ltb a b then None else Some (a - b).

(** [get_resize.insert_with_resize] (H/base/memory/get/defs.hpp:719-725). *)
Definition a_insert_resize (h : mem) (p : ptr) (pos : nat) (vs : list T) (to : nat) : option (mem * ptr) :=
  b <- getb h p ;;
  '(h1, q) <- insert_grow h p to pos (length vs) ;;
  h2 <- on h1 q (fun c => init c pos (map (@Some T) vs)) ;;
  let eg := nsub to (length b + length vs) in
  h3 <- on h2 q (fun c => construct c (match eg with Some e => to - e | None => 0 end) eg) ;;
  Some (h3, q).
(** [get_resize.insert_with_resize.with_used_size]
    (H/base/memory/get/defs.hpp:731-737). *)
Definition a_insert_used (h : mem) (p : ptr) (pos : nat) (vs : list T) (to used : nat) : option (mem * ptr) :=
  b <- getb h p ;;
  '(h1, q) <- insert_grow_used h p to pos (length vs) used ;;
  h2 <- on h1 q (fun c => init c pos (map (@Some T) vs)) ;;
  h3 <- on h2 q (fun c => construct c (to - used) (nsub to (length b + length vs))) ;;
  Some (h3, q).
(** [get_forward_resize.insert_with_resize] (H/base/memory/get/defs.hpp:819-827). *)
Definition a_finsert_resize (h : mem) (p : ptr) (pos : nat) (vs : list T) (to : nat) : option (mem * ptr) :=
  if Nat.eqb (length vs) 0 then Some (h, p)
  else
    b <- getb h p ;;
    '(h1, q) <- fwd_insert_grow h p to pos (length vs) ;;
    let before := to - length b - length vs in
    h2 <- on h1 q (fun c => init c (before + pos) (map (@Some T) vs)) ;;
    h3 <- on h2 q (fun c => construct c 0 (Some before)) ;;
    Some (h3, q).
(** [get_forward_resize.insert_with_resize.with_used_size]
    (H/base/memory/get/defs.hpp:833-841). *)
Definition a_finsert_used (h : mem) (p : ptr) (pos : nat) (vs : list T) (to used : nat) : option (mem * ptr) :=
  if Nat.eqb (length vs) 0 then Some (h, p)
  else
    b <- getb h p ;;
    '(h1, q) <- fwd_insert_grow_used h p to pos (length vs) used ;;
    h2 <- on h1 q (fun c => init c (to - (used + length vs) + (pos - (length b - used))) (map (@Some T) vs)) ;;
    h3 <- on h2 q (fun c => construct c 0
            (g <- nsub to (length b) ;; nsub (g + used) (length vs))) ;;
    Some (h3, q).

(** [push_back] of a value outside the array, [get<T>.apply_end]
    (H/base/memory/get/defs.hpp:563-569). *)
Definition a_push (h : mem) (p : ptr) (x : T) : option (mem * ptr) :=
  b <- getb h p ;;
  '(h1, q) <- grow h p (length b + 1) ;;
  h2 <- on h1 q (fun c => init c (length b) [Some x]) ;;
  Some (h2, q).
(** [a.push_back(a[k])]: the reference still names the old block
    (H/base/memory/get/defs.hpp:563-569). *)
Definition a_push_self (h : mem) (p : ptr) (k : nat) : option (mem * ptr) :=
  b <- getb h p ;;
  '(h1, q) <- grow h p (length b + 1) ;;
  old <- getb h1 p ;;
  cs <- rdn old k 1 ;;
  vs <- values cs ;;
  h2 <- on h1 q (fun c => init c (length b) vs) ;;
  Some (h2, q).

(** The search of [find] and [remove]: first equal element
    (H/base_defs/range.hpp:164-171). *)
Fixpoint find_from (eqb : T -> T -> bool) (x : T) (l : list cellv) (i : nat) : option (option nat) :=
  match l with
  | [] => Some None
  | c :: r => y <- c ;; if eqb y x then Some (Some i) else find_from eqb x r (S i)
  end.

(** Moving [n] elements one place down inside a block, as [remove] does with
    [move[n](from,to)] (H/base_defs/memory/lifetime/defs.hpp:470-487, 524-531):
    [memcpy] must not overlap; otherwise the loop runs from the last element to
    the first, constructing each over its predecessor. *)
Fixpoint shift_loop (b : list cellv) (to n : nat) : option (list cellv) :=
  match n with
  | O => Some b
  | S k =>
    cs <- rdn b (to + 1 + k) 1 ;;
    vs <- values cs ;;
    b1 <- init b (to + k) vs ;;
    shift_loop b1 to k
  end.
(** The same lines. *)
Definition shift_down (b : list cellv) (to n : nat) : option (list cellv) :=
  if tm then
    if Nat.leb 2 n then None
    else memmove b to (to + 1) n
  else
    b1 <- shift_loop b to n ;;
    destroy b1 (to + 1) n.

(** [remove(x)] (H/base/container/array/defs.hpp:250-252 and
    H/base/memory/get/defs.hpp:587-601).  As written it does not compile (the
    search result is a pointer to const); modelled as if it did, and with the
    search for a single element instead of the substring search.  The array's own pointer
    is passed by value, so it keeps its old value. *)
Definition a_remove (eqb : T -> T -> bool) (h : mem) (p : ptr) (x : T) : option (mem * ptr * bool) :=
  b <- getb h p ;;
  r <- find_from eqb x b 0 ;;
  match r with
  | None => Some (h, p, false)
  | Some i =>
    h1 <- on h p (fun c => destroy c i 1) ;;
    h2 <- on h1 p (fun c => shift_down c i (length b - (i + 1))) ;;
    '(h3, _) <- realloc h2 p (length b - 1) ;;
    Some (h3, p, true)
  end.

(** * A program using arrays *)

(** The arrays of a program, all default-constructed at first; operations
    name them by number. *)
Record world := mkWorld { wm : mem; wp : nat -> ptr }.
(** H/base/container/array/defs.hpp:48 *)
Definition world0 : world := mkWorld mem0 (fun _ => None).
(** Storing the member [_m] of one array (language semantics). *)
Definition setp (f : nat -> ptr) (i : nat) (p : ptr) : nat -> ptr :=
  fun x => if Nat.eqb x i then p else f x.

(** The public operations (H/base/container/array/defs.hpp:44-287). *)
Inductive aop :=
| ANew (i n : nat)                         (* a = array_t(size) *)
| AOf (i : nat) (vs : list T)              (* a = {...}, a = array_t(size,elem) *)
| ACopy (i j : nat)                        (* a = b *)
| ASwap (i j : nat)                        (* a = move(b), swap *)
| AClear (i : nat)
| AResize (i n : nat)
| AFResize (i n : nat)
| AInsertD (i pos n : nat)
| AInsert (i pos : nat) (vs : list T)
| AInsertR (i pos : nat) (vs : list T) (to : nat)
| AFInsertR (i pos : nat) (vs : list T) (to : nat)
| AInsertU (i pos : nat) (vs : list T) (to used : nat)
| AFInsertU (i pos : nat) (vs : list T) (to used : nat)
| APush (i : nat) (x : T)
| ASize (i : nat)
| AGet (i k : nat)
| ASet (i k : nat) (x : T)
| AFind (i : nat) (x : T).

(** Answers: nothing, a number, an element, a position or "not found". *)
Inductive aans := RNone | RSize (n : nat) | RElem (x : T) | RPos (k : option nat).

(** Replacing the contents of array [i] by a new block: move assignment from a
    temporary, which is destroyed with the old contents
    (H/base/container/array/defs.hpp:86-97). *)
Definition assign (w : world) (i : nat) (r : option (mem * ptr)) : option world :=
  '(h, q) <- r ;;
  h1 <- a_unget h (wp w i) ;;
  Some (mkWorld h1 (setp (wp w) i q)).
(** An operation that updates the pointer of array [i]
    (H/base/container/array/defs.hpp:104-142). *)
Definition store (w : world) (i : nat) (r : option (mem * ptr)) : option (world * aans) :=
  '(h, q) <- r ;; Some (mkWorld h (setp (wp w) i q), RNone).

(** One operation (H/base/container/array/defs.hpp:44-287). *)
Definition a_op (eqb : T -> T -> bool) (w : world) (o : aop) : option (world * aans) :=
  let h := wm w in
  match o with
  | ANew i n => w' <- assign w i (a_new h n) ;; Some (w', RNone)
  | AOf i vs => w' <- assign w i (a_of h vs) ;; Some (w', RNone)
  | ACopy i j => w' <- assign w i (a_copy h (wp w j)) ;; Some (w', RNone)
  | ASwap i j => Some (mkWorld h (setp (setp (wp w) i (wp w j)) j (wp w i)), RNone)
  | AClear i => h1 <- a_unget h (wp w i) ;; Some (mkWorld h1 (setp (wp w) i None), RNone)
  | AResize i n => store w i (a_resize h (wp w i) n)
  | AFResize i n => store w i (a_fresize h (wp w i) n)
  | AInsertD i pos n => store w i (a_insert_def h (wp w i) pos n)
  | AInsert i pos vs => store w i (a_insert h (wp w i) pos vs)
  | AInsertR i pos vs to => store w i (a_insert_resize h (wp w i) pos vs to)
  | AFInsertR i pos vs to => store w i (a_finsert_resize h (wp w i) pos vs to)
  | AInsertU i pos vs to used => store w i (a_insert_used h (wp w i) pos vs to used)
  | AFInsertU i pos vs to used => store w i (a_finsert_used h (wp w i) pos vs to used)
  | APush i x => store w i (a_push h (wp w i) x)
  | ASize i => b <- getb h (wp w i) ;; Some (w, RSize (length b))
  | AGet i k => b <- getb h (wp w i) ;; cs <- rdn b k 1 ;; l <- objs cs ;;
                match l with x :: _ => Some (w, RElem x) | [] => None end
  | ASet i k x => h1 <- on h (wp w i) (fun c => cs <- rdn c k 1 ;; _ <- values cs ;; wrn c k [Some x]) ;;
                  Some (mkWorld h1 (wp w), RNone)
  | AFind i x => b <- getb h (wp w i) ;; r <- find_from eqb x b 0 ;; Some (w, RPos r)
  end.

(** A sequence of operations and their answers
    (H/base/container/array/defs.hpp:44-287). *)
Fixpoint a_run (eqb : T -> T -> bool) (w : world) (os : list aop) : option (world * list aans) :=
  match os with
  | [] => Some (w, [])
  | o :: r =>
    '(w1, a) <- a_op eqb w o ;;
    '(w2, l) <- a_run eqb w1 r ;;
    Some (w2, a :: l)
  end.
End Arr.
