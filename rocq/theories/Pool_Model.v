(** Model of the object pool (H/base/memory/pool/defs.hpp).

    A unit ([ment]) has [n] slots of [z] bytes.  A pointer is a unit and a slot
    number.  The list of units is a sequence in list order (that the intrusive
    list behaves as a sequence is C58).  [None] is undefined behaviour.
    Simplifications: allocation of a unit succeeds; units occupy disjoint
    memory, so a pointer into one unit is in the byte range of no other. *)
From Verif Require Import Base Ref_Model.
Local Open Scope omonad_scope.
Local Open Scope nat_scope.

Section Pool.
(** [ment_size] and [sizeof(data_block<T>)]. *)
Variables n z : nat.

(** [ment] (H/base/memory/pool/defs.hpp:51-53). *)
Record ment := mkMent { mid : nat; ui : list nat; uii : nat }.
(** A pointer into a unit. *)
Notation pptr := (nat * nat)%type.

(** [ment::ment] (H/base/memory/pool/defs.hpp:55-58). *)
Definition ment0 (id : nat) : ment := mkMent id (seq 0 n) n.

(** [ment::get_new] (H/base/memory/pool/defs.hpp:59-64). *)
Definition ment_get (m : ment) : option (ment * option pptr) :=
  match uii m with
  | 0 => Some (m, None)
  | S k => s <- nth_error (ui m) k ;; Some (mkMent (mid m) (ui m) k, Some (mid m, s))
  end.

(** [ment::in_pool] (H/base/memory/pool/defs.hpp:65-67): the range has
    [ment_index_max], that is [n-1], bytes
    (H/base_defs/range.hpp:42,72-77). *)
Definition in_ment (m : ment) (p : pptr) : bool :=
  Nat.eqb (fst p) (mid m) && Nat.ltb (snd p * z) (n - 1).

(** [ment::use_end] (H/base/memory/pool/defs.hpp:68-74); writing behind the
    array is undefined. *)
Definition ment_end (m : ment) (p : pptr) : option (option ment) :=
  if in_ment m p then
    if Nat.ltb (uii m) n then Some (Some (mkMent (mid m) (upd (ui m) (uii m) (snd p)) (S (uii m)))) else None
  else Some None.

(** [ment::empty] (H/base/memory/pool/defs.hpp:75). *)
Definition ment_empty (m : ment) : bool := Nat.eqb (uii m) n.

(** The pool: units in list order, number of the next unit
    (H/base/memory/pool/defs.hpp:77-84). *)
Record pool := mkPool { ms : list ment; nid : nat }.
(** A pool without units (H/base/memory/pool/defs.hpp:85). *)
Definition pool0 : pool := mkPool [] 0.

(** The loop of [pool_t::get_new] over the units from the last to the first
    (H/base/memory/pool/defs.hpp:93-98); the argument is the list reversed. *)
Fixpoint get_back (r : list ment) : option (option (list ment * pptr)) :=
  match r with
  | [] => Some None
  | m :: r' =>
    '(m1, a) <- ment_get m ;;
    match a with
    | Some p => Some (Some (m1 :: r', p))
    | None => x <- get_back r' ;; Some (match x with Some (r1, p) => Some (m1 :: r1, p) | None => None end)
    end
  end.

(** [pool_t::get_new] (H/base/memory/pool/defs.hpp:91-103); [None] inside is
    the null pointer returned by a unit without slots. *)
Definition pool_get (s : pool) : option (pool * option pptr) :=
  x <- get_back (rev (ms s)) ;;
  match x with
  | Some (r, p) => Some (mkPool (rev r) (nid s), Some p)
  | None => '(m1, a) <- ment_get (ment0 (nid s)) ;; Some (mkPool (ms s ++ [m1]) (S (nid s)), a)
  end.

(** The loop of [pool_t::use_end] (H/base/memory/pool/defs.hpp:104-109). *)
Fixpoint end_in (l : list ment) (p : pptr) : option (option (list ment)) :=
  match l with
  | [] => Some None
  | m :: l' =>
    a <- ment_end m p ;;
    match a with
    | Some m1 => Some (Some (m1 :: l'))
    | None => x <- end_in l' p ;; Some (match x with Some l1 => Some (m :: l1) | None => None end)
    end
  end.
(** [the_free_method] (H/base/memory/pool/defs.hpp:163-167): a pointer that is
    not found goes to the default method, which must not be given a pointer
    into the middle of a block. *)
Definition pool_free (s : pool) (p : pptr) : option pool :=
  x <- end_in (ms s) p ;;
  match x with Some l => Some (mkPool l (nid s)) | None => None end.

(** [the_get_size_of_alloc_method] (H/base/memory/pool/defs.hpp:159-162),
    [pool_t::in_pool] (:110-115). *)
Definition pool_size (s : pool) (p : pptr) : option nat :=
  if existsb (fun m => in_ment m p) (ms s) then Some 1 else None.

(** [pool_t::shrink] (H/base/memory/pool/defs.hpp:116-127). *)
Definition pool_shrink (s : pool) : pool := mkPool (filter (fun m => negb (ment_empty m)) (ms s)) (nid s).

(** Operations of a program. *)
Inductive pop := PGet | PFree (p : pptr) | PShrink | PSize (p : pptr).
(** Answers. *)
Inductive pans := PNone | PPtr (p : option pptr) | PNum (k : nat).
(** One operation. *)
Definition p_op (s : pool) (o : pop) : option (pool * pans) :=
  match o with
  | PGet => '(s1, a) <- pool_get s ;; Some (s1, PPtr a)
  | PFree p => s1 <- pool_free s p ;; Some (s1, PNone)
  | PShrink => Some (pool_shrink s, PNone)
  | PSize p => k <- pool_size s p ;; Some (s, PNum k)
  end.
End Pool.
