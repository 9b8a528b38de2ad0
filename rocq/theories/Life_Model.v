(** Model of beginning and ending the lives of objects
    (H/base_defs/memory/lifetime/defs.hpp).

    Memory is a row of slots of the size of one object.  The functions are
    templates; what the C++ standard library says about the element type is a
    record of flags, and [if constexpr] is an ordinary test of them.
    [Ub] is undefined behaviour: use of a slot without object, of an
    indeterminate value, or overlapping [memcpy].  [Lost] is an object that was
    overwritten without having been destroyed.  [Ill] is a program that does not
    compile.  [Threw] is an exception out of a constructor or an assignment.
    Simplifications: a copy has the value of the original; destructors do not
    throw; types with the attribute [never_in_array] are left out. *)
From Verif Require Import Base Float_Spec.
From Coq Require Import QArith Qround.
Local Open Scope Z_scope.

(** A slot: nothing, or an object with its value; [None] is an indeterminate
    value (language semantics).  Values are the bits of the object. *)
Inductive slot := Raw | Obj (v : option Z).
(** All slots (language semantics). *)
Definition mem := nat -> slot.
(** Storing (language semantics). *)
Definition put (m : mem) (a : nat) (s : slot) : mem := fun i => if Nat.eqb i a then s else m i.
(** Outcome of a function (see above). *)
Inductive out := Done (m : mem) | Threw (m : mem) | Ub | Lost | Ill.
(** Sequence (language semantics). *)
Definition next (o : out) (k : mem -> out) : out := match o with Done m => k m | _ => o end.
(** [while(n--) f(n)], the loop of all array operations
    (H/base_defs/memory/lifetime/defs.hpp:146,247,358,407,472,612,621). *)
Fixpoint back (n : nat) (f : nat -> mem -> out) (m : mem) : out :=
  match n with O => Done m | S n' => next (f n' m) (back n' f) end.

(** What kind of type: an integer or enumeration, a floating-point number, a
    class without conversions (language semantics). *)
Inductive vkind := KInt (sign : bool) | KFloat (f : fmt) | KClass.
(** The type traits used (H/base_defs/memory/lifetime/defs.hpp:38-86): for
    default construction, destruction, copy and move construction, copy and move
    assignment whether it exists and whether it is trivial;
    [is_trivially_copyable]; [sizeof]. *)
Record traits := mkTraits {
  size : Z; kind : vkind; copyable : bool; d_able : bool; d_triv : bool; k_triv : bool;
  cc_able : bool; cc_triv : bool; mc_able : bool; mc_triv : bool;
  ca_able : bool; ca_triv : bool; ma_able : bool; ma_triv : bool }.

Section Life.
Variable T : traits.
(** [sizeof(wchar_t)]. *)
Variable wsize : Z.
(** The value that [T()] has (oracle). *)
Variable dflt : Z.
(** What remains in an object whose contents were moved away (oracle). *)
Variable left_over : Z -> Z.
(** Whether the constructor or assignment for the object at an address throws (oracle). *)
Variable throws : nat -> bool.

(** Reading an object (language semantics). *)
Definition read (m : mem) (a : nat) : option Z :=
  match m a with Obj (Some v) => Some v | _ => None end.
(** A new object in a slot: an object that is there and has a destructor to run
    is lost (language semantics). *)
Definition born (m : mem) (a : nat) (v : Z) : out :=
  match m a with
  | Obj _ => if k_triv T then Done (put m a (Obj (Some v))) else Lost
  | Raw => Done (put m a (Obj (Some v)))
  end.
(** [new(a)T(b)] (language semantics). *)
Definition new_copy (m : mem) (a b : nat) : out :=
  match read m b with None => Ub | Some v => if throws a then Threw m else born m a v end.
(** [new(a)T(std::move(b))] (language semantics). *)
Definition new_move (m : mem) (a b : nat) : out :=
  match read m b with
  | None => Ub
  | Some v => if throws a then Threw m
              else next (born m a v) (fun m1 => Done (if mc_triv T then m1 else put m1 b (Obj (Some (left_over v)))))
  end.
(** [new(a)T()] (language semantics). *)
Definition new_default (m : mem) (a : nat) : out := if throws a then Threw m else born m a dflt.
(** [a->~T()] (language semantics). *)
Definition kill (m : mem) (a : nat) : out := match m a with Raw => Ub | Obj _ => Done (put m a Raw) end.
(** [a=b] (language semantics). *)
Definition assign (m : mem) (a b : nat) : out :=
  match m a, read m b with
  | Obj _, Some v => if throws a then Threw m else Done (put m a (Obj (Some v)))
  | _, _ => Ub
  end.
(** [a=std::move(b)] (language semantics). *)
Definition assign_move (m : mem) (a b : nat) : out :=
  match m a, read m b with
  | Obj _, Some v =>
    if throws a then Threw m
    else Done (if ma_triv T then put m a (Obj (Some v)) else put (put m a (Obj (Some v))) b (Obj (Some (left_over v))))
  | _, _ => Ub
  end.
(** [memmove] of [n] objects (language semantics). *)
Definition memmove (m : mem) (to from n : nat) : out :=
  Done (fun i => if (to <=? i)%nat && (i <? to + n)%nat then m (from + (i - to))%nat else m i).
(** [memcpy]: the same for regions that do not overlap (language semantics). *)
Definition memcpy (m : mem) (to from n : nat) : out :=
  if (n =? 0)%nat then Done m
  else if (to <? from + n)%nat && (from <? to + n)%nat then Ub else memmove m to from n.
(** The same bits in [n] slots (language semantics of [memset], [wmemset], [fill_n]). *)
Definition set_all (m : mem) (to n : nat) (v : Z) : out :=
  Done (fun i => if (to <=? i)%nat && (i <? to + n)%nat then Obj (Some v) else m i).
(** Objects of a type with trivial default constructor begin to exist without
    any code (language semantics). *)
Definition exist_all (m : mem) (to n : nat) : out :=
  Done (fun i => if (to <=? i)%nat && (i <? to + n)%nat
                 then match m i with Raw => Obj None | s => s end else m i).

(** Conversion of a value to an integer type of [k] bits, which is where the bits
    are stored then; a floating-point number that does not fit is undefined
    (language semantics). *)
Definition convert (k v : Z) : out + Z :=
  match kind T with
  | KInt sign => inr ((if sign && (2 ^ (k - 1) <=? v) then v - 2 ^ k else v) mod 2 ^ k)
  | KFloat f =>
    if exp_field f v =? 2 ^ fe f - 1 then inl Ub
    else let z := (if 2 ^ (all_bits f - 1) <=? v then -1 else 1) * Qfloor (fabs f v) in
         if (- 2 ^ (k - 1) <=? z) && (z <? 2 ^ (k - 1)) then inr (z mod 2 ^ k) else inl Ub
  | KClass => inl Ill
  end.
(** [super_speed_trivial_copy_from_one(to,value,size)], [value] being the object
    at [b] (H/base_defs/memory/lifetime/defs.hpp:89-101,
    H/base_defs/zero.hpp:46-55). *)
Definition fill (m : mem) (to b n : nat) : out :=
  if negb (copyable T) then Ill
  else match (if size T =? 1 then match kind T with KClass => Some Ill | _ => None end
              else if size T =? wsize then match kind T with KClass => Some Ill | _ => None end
              else if ca_able T then None else Some Ill) with
  | Some o => o
  | None =>
    match read m b with
    | None => Ub
    | Some v =>
      if size T =? 1 then match convert 8 v with inl o => o | inr x => set_all m to n x end
      else if size T =? wsize then match convert (8 * wsize) v with inl o => o | inr x => set_all m to n x end
      else if v =? 0 then set_all m to n 0
      else set_all m to n v
    end
  end.
(** The same for one object (H/base_defs/memory/lifetime/defs.hpp:102-112). *)
Definition fill_one (m : mem) (to b : nat) : out :=
  if negb (copyable T) || negb (ca_able T) then Ill
  else match read m b with None => Ub | Some v => set_all m to 1 v end.

(** How the argument is given: a constant, a variable, a temporary or moved
    object, or none; each but the last is the object at an address (language
    semantics of overload resolution). *)
Inductive arg := AConst (b : nat) | AVar (b : nat) | AMove (b : nat) | ANone.

(** [construct<T>[to](...)] (H/base_defs/memory/lifetime/defs.hpp:171-195). *)
Definition construct_one (m : mem) (to : nat) (x : arg) : out :=
  match x with
  | AConst b => if negb (cc_able T) then Ill
                else if cc_triv T && copyable T then fill_one m to b else new_copy m to b
  | AVar b => if negb (cc_able T) then Ill else new_copy m to b
  | AMove b => if negb (mc_able T) then Ill else new_move m to b
  | ANone => if negb (d_able T) then Ill else if d_triv T then exist_all m to 1 else new_default m to
  end.
(** [construct<T>[to][n](...)] (H/base_defs/memory/lifetime/defs.hpp:136-170). *)
Definition construct_array (m : mem) (to n : nat) (x : arg) : out :=
  match x with
  | AConst b => if negb (cc_able T) then Ill
                else if cc_triv T && copyable T then fill m to b n
                else back n (fun k m => new_copy m (to + k) b) m
  | AVar b => if negb (cc_able T) then Ill else back n (fun k m => new_copy m (to + k) b) m
  | AMove b => if negb (mc_able T) then Ill else back n (fun k m => new_move m (to + k) b) m
  | ANone => if negb (d_able T) then Ill
             else if d_triv T then exist_all m to n
             else back n (fun k m => new_default m (to + k)) m
  end.
(** [destruct(p)] (H/base_defs/memory/lifetime/defs.hpp:230-240). *)
Definition destruct_one (m : mem) (p : nat) : out := if k_triv T then Done m else kill m p.
(** [destruct[n](p)] (H/base_defs/memory/lifetime/defs.hpp:242-248). *)
Definition destruct_array (m : mem) (p n : nat) : out :=
  if k_triv T then Done m else back n (fun k m => kill m (p + k)) m.
(** [re_construct[to][n](...)] (H/base_defs/memory/lifetime/defs.hpp:296-308). *)
Definition re_construct (m : mem) (to n : nat) (x : arg) : out :=
  next (destruct_array m to n) (fun m1 => construct_array m1 to n x).

(** [copy_construct.r_able] (H/base_defs/memory/lifetime/defs.hpp:325-328). *)
Definition cc_real : bool := if cc_able T then cc_triv T || negb (d_triv T && ca_triv T) else false.
(** [copy_construct.able] (line 330). *)
Definition can_copy : bool := if cc_real then true else d_able T && ca_able T.
(** [copy_construct.trivial] (lines 335-336). *)
Definition copy_triv : bool := if cc_real then cc_triv T else d_triv T && ca_triv T.
(** The other branch: construct, then assign (lines 345-347,393-396). *)
Definition construct_assign (m : mem) (to b : nat) : out :=
  next (construct_one m to ANone) (fun m1 => assign m1 to b).
(** [copy_construct[n](to,from)] (lines 338-362). *)
Definition copy_construct (m : mem) (to from n : nat) : out :=
  if negb can_copy then Ill
  else if copy_triv then memcpy m to from n
  else back n (fun k m => if cc_real then new_copy m (to + k) (from + k) else construct_assign m (to + k) (from + k)) m.
(** [copy_construct[n](to,value)] (lines 389-410). *)
Definition copy_construct_fill (m : mem) (to b n : nat) : out :=
  if negb can_copy then Ill
  else if copyable T then fill m to b n
  else back n (fun k m => if cc_real then construct_one m (to + k) (AConst b) else construct_assign m (to + k) b) m.

(** [move_construct.r_able] (lines 439-442). *)
Definition mc_real : bool := if mc_able T then mc_triv T || negb copy_triv else false.
(** [move_construct.able] (line 444). *)
Definition can_move : bool := if mc_real then true else can_copy.
(** [move_construct.trivial] (lines 449-450). *)
Definition move_triv : bool := if mc_real then mc_triv T else copy_triv.
(** [move_construct[n](to,from)] (lines 464-478). *)
Definition move_construct (m : mem) (to from n : nat) : out :=
  if negb can_move then Ill
  else if move_triv then memcpy m to from n
  else if mc_real then back n (fun k m => construct_one m (to + k) (AMove (from + k))) m
  else copy_construct m to from n.
(** [move[n](to,from)] (lines 524-531). *)
Definition move (m : mem) (to from n : nat) : out :=
  next (move_construct m to from n) (fun m1 => destruct_array m1 from n).

(** [copy_assign.r_able] (lines 584-587). *)
Definition ca_real : bool := if ca_able T then ca_triv T || negb (cc_triv T && k_triv T) else false.
(** [copy_assign.able] (line 589). *)
Definition can_assign : bool := if ca_real then true else cc_able T.
(** [copy_assign.trivial] (lines 594-595). *)
Definition assign_triv : bool := if ca_real then ca_triv T else cc_triv T && k_triv T.
(** [copy_assign(a,b)] (lines 597-606). *)
Definition copy_assign_one (m : mem) (a b : nat) : out :=
  if ca_real then assign m a b
  else next (destruct_one m a) (fun m1 => construct_one m1 a (AConst b)).
(** [copy_assign[n](to,from)] (lines 607-615). *)
Definition copy_assign (m : mem) (to from n : nat) : out :=
  if negb can_assign then Ill
  else if assign_triv then memcpy m to from n
  else back n (fun k m => copy_assign_one m (to + k) (from + k)) m.
(** [copy_assign[n](to,value)] (lines 616-624). *)
Definition copy_assign_fill (m : mem) (to b n : nat) : out :=
  if negb can_assign then Ill
  else if assign_triv then fill m to b n
  else back n (fun k m => copy_assign_one m (to + k) b) m.

(** [move_assign.able] and [trivial] (lines 663-669). *)
Definition can_move_assign : bool := if ma_able T then true else can_assign.
(** The same lines. *)
Definition move_assign_triv : bool := if ma_able T then ma_triv T else assign_triv.
(** [move_assign(a,b)] (lines 671-678,689-692). *)
Definition move_assign_one (m : mem) (a b : nat) : out :=
  if negb can_move_assign then Ill
  else if ma_able T then assign_move m a b else copy_assign_one m a b.
(** [move_assign[n](to,from)] (lines 679-687): the call in the loop has no
    viable overload, [T&&] does not take [from[size]]. *)
Definition move_assign (m : mem) (to from n : nat) : out :=
  if negb can_move_assign then Ill
  else if move_assign_triv then memcpy m to from n else Ill.
(** [move_assign.may_overlap[n](to,from)] (lines 711-720): nor has this one, the
    only [base_call] in sight takes three arguments. *)
Definition move_assign_overlap (m : mem) (to from n : nat) : out :=
  if negb can_move_assign then Ill
  else if move_assign_triv then memmove m to from n else Ill.
End Life.
