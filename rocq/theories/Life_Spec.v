(** What it means to build, copy, move and destroy rows of objects, independently
    of how it is done. *)
From Verif Require Import Base Life_Model.
Local Open Scope nat_scope.

(** Objects with the values [l] live from [a] on. *)
Definition objects (m : mem) (a : nat) (l : list Z) : Prop :=
  forall k v, nth_error l k = Some v -> m (a + k) = Obj (Some v).
(** [n] objects live from [a] on. *)
Definition living (m : mem) (a n : nat) : Prop := forall k, k < n -> exists v, m (a + k) = Obj v.
(** [n] slots from [a] on may be used for new objects: they are empty, or what is
    in them needs no destructor. *)
Definition vacant (T : traits) (m : mem) (a n : nat) : Prop :=
  k_triv T = true \/ forall k, k < n -> m (a + k) = Raw.
(** The two rows have no slot in common. *)
Definition apart (a n b k : nat) : Prop := a + n <= b \/ b + k <= a.
(** Nothing changed but in the row. *)
Definition only (m m' : mem) (a n : nat) : Prop := forall i, i < a \/ a + n <= i -> m' i = m i.
(** No constructor and no assignment in the row throws. *)
Definition quiet (throws : nat -> bool) (a n : nat) : Prop := forall k, k < n -> throws (a + k) = false.

(** What C++ guarantees of the type traits: what is trivial exists; trivial
    construction needs a trivial destructor; in a trivially copyable type all
    there is of copying, moving and destruction is trivial. *)
Record lawful (T : traits) : Prop := {
  l_d : d_triv T = true -> d_able T = true /\ k_triv T = true;
  l_cc : cc_triv T = true -> cc_able T = true /\ k_triv T = true;
  l_mc : mc_triv T = true -> mc_able T = true /\ k_triv T = true;
  l_ca : ca_triv T = true -> ca_able T = true;
  l_ma : ma_triv T = true -> ma_able T = true;
  l_t : copyable T = true -> k_triv T = true /\ (cc_able T = true -> cc_triv T = true) /\
        (mc_able T = true -> mc_triv T = true) /\ (ca_able T = true -> ca_triv T = true) /\
        (ma_able T = true -> ma_triv T = true) }.

(** The type can be copied: by its copy constructor, or by assignment to a new
    object. *)
Definition copies (T : traits) : Prop := cc_able T = true \/ d_able T = true /\ ca_able T = true.
(** The type can be moved to a new place. *)
Definition moves (T : traits) : Prop := mc_able T = true \/ copies T.
(** The type can be assigned: by its assignment, or by destruction and copying. *)
Definition assigns (T : traits) : Prop := ca_able T = true \/ cc_able T = true.

(** The traits of a built-in type. *)
Definition builtin (size : Z) (k : vkind) : traits :=
  mkTraits size k true true true true true true true true true true true true.
(** One value can be written to a row of such objects: the type is an integer or
    enumeration type, or of another size than [unsigned char] and [wchar_t]; and
    it can be assigned. *)
Definition plain (T : traits) (wsize : Z) : Prop :=
  ca_able T = true /\ match kind T with KInt _ => True | _ => size T <> 1%Z /\ size T <> wsize end.
(** The bits fit into the object. *)
Definition bits_of (T : traits) (v : Z) : Prop := (1 <= size T /\ 0 <= v < 2 ^ (8 * size T))%Z.
(** The row starts with other bits than those asked for, or nothing is defined. *)
Definition wrong_fill (o : out) (to : nat) (v : Z) : Prop :=
  o = Ub \/ exists m' x, o = Done m' /\ m' to = Obj (Some x) /\ x <> v.

(** For examples: a class that owns something, such as a string (8 bytes); the
    same without assignment; a memory with objects from 0 on and nothing else. *)
Definition handle : traits :=
  mkTraits 8 KClass false true false false true false true false true false true false.
Definition handle_const : traits :=
  mkTraits 8 KClass false true false false true false true false false false false false.
Definition holding (l : list Z) : mem :=
  fun i => match nth_error l i with Some v => Obj (Some v) | None => Raw end.
(** The slots from [a] on after a function that ended normally. *)
Definition shows (o : out) (a n : nat) : list slot :=
  match o with Done m => map (fun k => m (a + k)) (seq 0 n) | _ => [] end.
