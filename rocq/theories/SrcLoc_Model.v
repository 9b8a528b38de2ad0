(** Where memory was asked for: the guards that record the place in the source from
    which an operation was called, and the questions of the allocator about it
    (S/APIs/alloc/debug_info/source_location_guard.hpp:38-87, with
    ELC_MEMORY_ALLOC_LOCATION_RECORD).  Simplified: one thread; the guards of a
    program nest, as they are local objects; a guard is given the frame that
    [std::stacktrace::current] finds for it (74), or nothing if the stack is not that
    deep. *)
From Verif Require Import Base.

Section SrcLoc.
(** Frames of the stack, [std::stacktrace_entry] (source_location_guard.hpp:39). *)
Variable F : Type.
(** [source_file] and [source_line] of a frame (source_location_guard.hpp:47,58); [None] if they throw. *)
Variable file_of : F -> option (list Z).
(** The same for the line (source_location_guard.hpp:58). *)
Variable line_of : F -> option Z.

(** [operate_source_frame] (source_location_guard.hpp:39), the two fields of
    [operate_source_location] (:41-42)
    and the static [file_cache] (:46) with the number of times it was assigned.  A
    pointer into the cache is that number: an assignment makes all earlier pointers
    invalid. *)
Record sl := mkSL { frame : option F; fileptr : option nat; lineval : Z; gen : nat; cache : list Z }.
(** The state at the start of the program (source_location_guard.hpp:39-42). *)
Definition sl_init : sl := mkSL None None 0 0 [].
(** What a pointer to the name of a file shows: null, a text, or nothing because it is
    not valid any more (source_location_guard.hpp:43-54). *)
Inductive shown := ShNull | ShText (t : list Z) | ShDangling.
(** Reading through a pointer that [file] (source_location_guard.hpp:43-54) gave. *)
Definition look (s : sl) (p : option nat) : shown :=
  match p with None => ShNull | Some g => if Nat.eqb g (gen s) then ShText (cache s) else ShDangling end.
(** [file] (source_location_guard.hpp:43-54); an empty frame has the empty name. *)
Definition ask_file (s : sl) : sl * option nat :=
  match fileptr s with
  | Some p => (s, Some p)
  | None =>
    match (match frame s with Some f => file_of f | None => Some [] end) with
    | Some t => (mkSL (frame s) (Some (S (gen s))) (lineval s) (S (gen s)) t, Some (S (gen s)))
    | None => (s, None)
    end
  end.
(** [line] (source_location_guard.hpp:55-64); an empty frame has line 0. *)
Definition ask_line (s : sl) : sl * Z :=
  if Z.eqb (lineval s) 0 then
    match (match frame s with Some f => line_of f | None => Some 0%Z end) with
    | Some n => (mkSL (frame s) (fileptr s) n (gen s) (cache s), n)
    | None => (s, lineval s)
    end
  else (s, lineval s).
(** The constructor of the guard (source_location_guard.hpp:72-80): the new state and [_is_set]. *)
Definition enter (s : sl) (o : option F) : sl * bool :=
  match frame s with
  | Some _ => (s, false)
  | None =>
    match o with
    | Some f => (mkSL (Some f) (fileptr s) (lineval s) (gen s) (cache s), true)
    | None => (s, false)
    end
  end.
(** The destructor of the guard (source_location_guard.hpp:81-86), with [clear] (:65-68). *)
Definition leave (s : sl) (set : bool) : sl :=
  if set then mkSL None None 0 (gen s) (cache s) else s.

(** Programs: the allocator asks (S/APIs/alloc.hpp:137,149), a guard around a part of
    the program (H/base/memory/alloc/defs.hpp:107 and others). *)
Inductive prog := PEnd | PAsk (k : prog) | PGuard (o : option F) (body k : prog).
(** An answer: the pointer, what it shows at that time, the line
    (S/APIs/alloc.hpp:137,149). *)
Record answer := mkAns { aptr : option nat; afile : shown; aline : Z }.
(** The execution of a program (S/APIs/alloc.hpp:137,149 and
    source_location_guard.hpp:70-87). *)
Fixpoint run (p : prog) (s : sl) : list answer * sl :=
  match p with
  | PEnd => ([], s)
  | PAsk k =>
    let '(s1, q) := ask_file s in
    let '(s2, n) := ask_line s1 in
    let '(l, s3) := run k s2 in (mkAns q (look s2 q) n :: l, s3)
  | PGuard o b k =>
    let '(s1, set) := enter s o in
    let '(l, s2) := run b s1 in
    let '(l', s3) := run k (leave s2 set) in (l ++ l', s3)
  end.
End SrcLoc.
Arguments PEnd {F}.
