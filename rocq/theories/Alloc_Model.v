(** Model of the aligned allocator and its counters
    (S/APIs/alloc.hpp, S/APIs/alloc/default_method/overhead.hpp). *)
From Verif Require Import Base.
Local Open Scope Z_scope.

(** [size_t] of 64 bits; [sizeof(size_t) = alignof(size_t) = 8]. *)
Definition wrap (z : Z) : Z := z mod 2 ^ 64.
(** H/base_defs/math.hpp:157-162 [ceil_div]. *)
Definition ceil_div (a b : Z) : Z := a / b + (if a mod b =? 0 then 0 else 1).
(** overhead.hpp:33-35 [overhead_get_align]. *)
Definition overhead_get_align (align : Z) : Z := Z.max align 8.
(** overhead.hpp:36-40 [overhead_get_offset_value]. *)
Definition overhead_get_offset_value (align : Z) : Z :=
  let align := overhead_get_align align in wrap (ceil_div 8 align * align).
(** overhead.hpp:41-43 [correct_size]. *)
Definition correct_size (size align : Z) : Z := wrap (size + overhead_get_offset_value align).
(** overhead.hpp:44-46 [correct_align]. *)
Definition correct_align (align : Z) : Z := overhead_get_align align.
(** overhead.hpp:47-49 [correct_pointer], H/base_defs/pointer.hpp:66-70 [apply_off_set].
    An address is a number. *)
Definition correct_pointer (a align : Z) : Z := a + overhead_get_offset_value align.
(** overhead.hpp:50-55 [recorrect_pointer], H/base_defs/pointer.hpp:71-75 [unapply_off_set]. *)
Definition recorrect_pointer (a align : Z) : Z := a - overhead_get_offset_value align.

(** A block the system has given out and not taken back. *)
Record block := { addr : Z; len : Z }.
(** alloc.hpp:75-96 [count_info]. *)
Record counters := { alloc_count : Z; free_count : Z; alloc_size : Z; free_size : Z;
  memory_using : Z; memory_using_max : Z }.
(** The blocks of the system, the memory byte by byte, the counters. *)
Record state := { blocks : list block; mem : Z -> Z; cnt : counters }.

(** [size_t] objects in memory, least byte first. *)
Fixpoint get_bytes (n : nat) (m : Z -> Z) (a : Z) : Z :=
  match n with O => 0 | S n => m a + 256 * get_bytes n m (a + 1) end.
Definition put_word (m : Z -> Z) (a v : Z) : Z -> Z :=
  fun x => if (a <=? x) && (x <? a + 8) then (v / 2 ^ (8 * (x - a))) mod 256 else m x.
(** Is there a [size_t] object at [a]: eight bytes of one block, aligned. *)
Definition word_at (bs : list block) (a : Z) : bool :=
  (a mod 8 =? 0) && existsb (fun b => (addr b <=? a) && (a + 8 <=? addr b + len b)) bs.
(** overhead.hpp:56-58 [set_overhead]; [None] is undefined behaviour. *)
Definition set_overhead (st : state) (a size : Z) : option state :=
  if word_at (blocks st) a then Some {| blocks := blocks st; mem := put_word (mem st) a size; cnt := cnt st |} else None.
(** overhead.hpp:59-61 [get_overhead]. *)
Definition get_overhead (st : state) (a : Z) : option Z :=
  if word_at (blocks st) a then Some (get_bytes 8 (mem st) a) else None.

(** alloc.hpp:82-86 [update_memory_using]; adding a [ptrdiff_t] to a [size_t] wraps around. *)
Definition update_memory_using (c : counters) (diff : Z) : counters :=
  let u := wrap (memory_using c + diff) in
  {| alloc_count := alloc_count c; free_count := free_count c; alloc_size := alloc_size c; free_size := free_size c;
     memory_using := u; memory_using_max := if memory_using_max c <? u then u else memory_using_max c |}.
(** alloc.hpp:76-81, 87-94 [clear]. *)
Definition zero_counters : counters := {| alloc_count := 0; free_count := 0; alloc_size := 0; free_size := 0;
  memory_using := 0; memory_using_max := 0 |}.
Definition clear (st : state) : state := {| blocks := blocks st; mem := mem st; cnt := zero_counters |}.

(** What the system answers to a request: no block, or an address and the memory afterwards. *)
Definition answer := option (Z * (Z -> Z)).
(** The block at an address of the system. *)
Definition is_block (bs : list block) (a : Z) : bool := existsb (fun b => addr b =? a) bs.
Definition without (bs : list block) (a : Z) : list block := filter (fun b => negb (addr b =? a)) bs.

(** alloc.hpp:165-167, 118-122, 134-141: what the system is asked for: alignment and size. *)
Definition alloc_request (align size : Z) : Z * Z := (correct_align align, correct_size size align).
(** alloc.hpp:165-174 [overheaded_operators_provider_t::aligned_alloc]; the null pointer is 0. *)
Definition provider_alloc (ans : answer) (st : state) (align size : Z) : option (state * Z) :=
  match ans with
  | None => Some (st, 0)
  | Some (tmp, m) =>
      let st := {| blocks := {| addr := tmp; len := snd (alloc_request align size) |} :: blocks st; mem := m; cnt := cnt st |} in
      match set_overhead st tmp size with
      | Some st => Some (st, correct_pointer tmp align)
      | None => None end
  end.
(** alloc.hpp:175-178 [aligned_free]: only the start of a block may be given back; [m] is the
    memory afterwards. *)
Definition provider_free (m : Z -> Z) (st : state) (ptr align : Z) : option state :=
  let a := recorrect_pointer ptr align in
  if is_block (blocks st) a then Some {| blocks := without (blocks st) a; mem := m; cnt := cnt st |} else None.
(** alloc.hpp:179-181, 126-128, 148-153: block, size and alignment the system is asked for.  Outside
    Windows the alignment is not passed on. *)
Definition realloc_request (ptr size align : Z) : Z * Z * Z :=
  (recorrect_pointer ptr align, correct_size size align, correct_align align).
(** alloc.hpp:179-188 [aligned_realloc]. *)
Definition provider_realloc (ans : answer) (st : state) (ptr size align : Z) : option (state * Z) :=
  let '(a, sz, _) := realloc_request ptr size align in
  if is_block (blocks st) a then
    match ans with
    | None => Some (st, 0)
    | Some (tmp, m) =>
        let st := {| blocks := {| addr := tmp; len := sz |} :: without (blocks st) a; mem := m; cnt := cnt st |} in
        match set_overhead st tmp size with
        | Some st => Some (st, correct_pointer tmp align)
        | None => None end
    end
  else None.
(** alloc.hpp:189-192 [aligned_blocksize], 265-271 [get_size_of_alloc]. *)
Definition get_size_of_alloc (st : state) (p align : Z) : option Z := get_overhead st (recorrect_pointer p align).

(** alloc.hpp:203-224 [aligned_alloc], with ELC_TEST_COUNT_MEMORY_ALLOC. *)
Definition aligned_alloc (ans : answer) (st : state) (align size : Z) : option (state * Z) :=
  match provider_alloc ans st align size with
  | Some (st, aret) =>
      if aret =? 0 then Some (st, aret)
      else let c := cnt st in
        let c := {| alloc_count := wrap (alloc_count c + 1); free_count := free_count c; alloc_size := wrap (alloc_size c + size);
          free_size := free_size c; memory_using := memory_using c; memory_using_max := memory_using_max c |} in
        Some ({| blocks := blocks st; mem := mem st; cnt := update_memory_using c size |}, aret)
  | None => None end.
(** alloc.hpp:225-250 [realloc]. *)
Definition realloc (ans : answer) (st : state) (ptr nsize align : Z) : option (state * Z) :=
  match get_size_of_alloc st ptr align with
  | None => None
  | Some osize =>
      match provider_realloc ans st ptr nsize align with
      | Some (st, aret) =>
          if aret =? 0 then Some (st, aret)
          else let c := cnt st in
            let c := {| alloc_count := alloc_count c; free_count := free_count c;
              alloc_size := wrap (alloc_size c + wrap (nsize - osize)); free_size := free_size c;
              memory_using := memory_using c; memory_using_max := memory_using_max c |} in
            Some ({| blocks := blocks st; mem := mem st; cnt := update_memory_using c (wrap (nsize - osize)) |}, aret)
      | None => None end
  end.
(** alloc.hpp:251-264 [free]; negating the smallest [ptrdiff_t] is undefined. *)
Definition free (m : Z -> Z) (st : state) (p align : Z) : option state :=
  match get_size_of_alloc st p align with
  | None => None
  | Some size =>
      if size =? 2 ^ 63 then None else
      let c := cnt st in
      let c := {| alloc_count := alloc_count c; free_count := wrap (free_count c + 1); alloc_size := alloc_size c;
        free_size := wrap (free_size c + size); memory_using := memory_using c; memory_using_max := memory_using_max c |} in
      provider_free m {| blocks := blocks st; mem := mem st; cnt := update_memory_using c (- size) |} p align
  end.
