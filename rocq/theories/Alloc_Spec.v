(** Specification for the allocator: what the system guarantees, what a client may do and what
    it holds.  A block of a client is an address, a size and an alignment. *)
From Verif Require Import Base Alloc_Model.
Local Open Scope Z_scope.

Record ublock := { uptr : Z; usize : Z; ualign : Z }.
Definition apart (a n b m : Z) : Prop := a + n <= b \/ b + m <= a.
Definition total (us : list ublock) : Z := fold_right (fun u s => usize u + s) 0 us.
(** What a client may ask for: a power of two as alignment, a size that is not zero and leaves
    room for the bytes added. *)
Definition askable (align size : Z) : Prop :=
  (exists k, 0 <= k /\ align = 2 ^ k) /\ 1 <= size /\ size + Z.max align 8 < 2 ^ 64.

(** The system: other blocks keep their bytes and are not given out twice; a block is inside the
    address space (no object is larger than PTRDIFF_MAX).  realloc keeps the alignment of the
    block on Windows; elsewhere it only knows alignments up to 16 (alignof(max_align_t)), and it
    keeps the bytes both sizes have. *)
Definition keeps (live : block -> Prop) (m m' : Z -> Z) : Prop :=
  forall b x, live b -> addr b <= x < addr b + len b -> m' x = m x.
Definition fresh (live : block -> Prop) (a n : Z) : Prop :=
  0 < a /\ a + n <= 2 ^ 63 /\ forall b, live b -> apart a n (addr b) (len b).
Definition any (st : state) (b : block) : Prop := In b (blocks st).
Definition other (st : state) (a : Z) (b : block) : Prop := In b (blocks st) /\ addr b <> a.
Definition legal_alloc (st : state) (rq : Z * Z) (ans : answer) : Prop :=
  match ans with None => True | Some (a, m) =>
    a mod fst rq = 0 /\ fresh (any st) a (snd rq) /\ keeps (any st) (mem st) m end.
Definition legal_realloc (windows : bool) (st : state) (rq : Z * Z * Z) (ans : answer) : Prop :=
  let '(old, n, al) := rq in
  match ans with None => True | Some (a, m) =>
    a mod (if windows then al else 16) = 0 /\ fresh (other st old) a n /\ keeps (other st old) (mem st) m /\
    forall b i, In b (blocks st) -> addr b = old -> 0 <= i < len b -> i < n -> m (a + i) = mem st (old + i) end.
Definition legal_free (st : state) (old : Z) (m : Z -> Z) : Prop := keeps (other st old) (mem st) m.

(** The histories of a client that keeps the rules; it knows its blocks and the largest number
    of bytes it ever had at once since the counters were last cleared. *)
Definition drop (u : ublock) (us : list ublock) : list ublock := filter (fun v => negb (uptr v =? uptr u)) us.
Inductive reach (windows : bool) : state -> list ublock -> Z -> Prop :=
| r_init m : reach windows {| blocks := []; mem := m; cnt := zero_counters |} [] 0
| r_alloc st us peak align size ans st' p : reach windows st us peak -> askable align size ->
    legal_alloc st (alloc_request align size) ans -> aligned_alloc ans st align size = Some (st', p) ->
    let us' := if p =? 0 then us else {| uptr := p; usize := size; ualign := align |} :: us in
    reach windows st' us' (Z.max peak (total us'))
| r_realloc st us peak u size ans st' p : reach windows st us peak -> In u us -> askable (ualign u) size ->
    legal_realloc windows st (realloc_request (uptr u) size (ualign u)) ans ->
    realloc ans st (uptr u) size (ualign u) = Some (st', p) ->
    let us' := if p =? 0 then us else {| uptr := p; usize := size; ualign := ualign u |} :: drop u us in
    reach windows st' us' (Z.max peak (total us'))
| r_free st us peak u m st' : reach windows st us peak -> In u us ->
    legal_free st (recorrect_pointer (uptr u) (ualign u)) m -> free m st (uptr u) (ualign u) = Some st' ->
    reach windows st' (drop u us) peak
| r_write st us peak u i v : reach windows st us peak -> In u us -> 0 <= i < usize u -> 0 <= v < 256 ->
    reach windows {| blocks := blocks st; mem := fun x => if x =? uptr u + i then v else mem st x; cnt := cnt st |} us peak
| r_clear st peak : reach windows st [] peak -> reach windows (clear st) [] 0.

(** The blocks held are in memory, do not overlap and have the size asked for. *)
Definition held (st : state) (u : ublock) : Prop :=
  0 < uptr u /\ uptr u + usize u <= 2 ^ 63 /\ get_size_of_alloc st (uptr u) (ualign u) = Some (usize u).
Definition separate (us : list ublock) : Prop :=
  ForallOrdPairs (fun u v => apart (uptr u) (usize u) (uptr v) (usize v)) us.
(** The first [n] bytes of a block. *)
Definition same_bytes (m : Z -> Z) (p : Z) (m' : Z -> Z) (p' n : Z) : Prop := forall i, 0 <= i < n -> m' (p' + i) = m (p + i).
