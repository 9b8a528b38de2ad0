(** Function objects: H/base/container/function/base_function_t.hpp, the variant of
    its lines 334-476 ([base_function_t<Ret_t(Args_t...)>]; the other two differ in
    [noexcept] only), over [comn_ptr_t] (H/base/memory/ptr/ptr/base_ptr_t.hpp).

    A callable is a type and a value.  What a type does is taken as given: calling
    it, comparing two of its values, its conversion to a plain function.  Callables
    do not use function objects while they are called, copied or destroyed, and
    copying one into a function object gives the same value.  Memory is never used
    twice, counts do not overflow. *)
From Verif Require Import Base.
Local Open Scope nat_scope.

(** What a step gives: it is fine, undefined, or ends the program. *)
Inductive fo (X : Type) := FFine (x : X) | FWild | FDies.
Arguments FFine {X}. Arguments FWild {X}. Arguments FDies {X}.
Definition fbind {X Y : Type} (m : fo X) (f : X -> fo Y) : fo Y :=
  match m with FFine x => f x | FWild => FWild | FDies => FDies end.

(** What [_m] points to: the null object [default_func_data]
    (H/base/container/function/base_function_t.hpp:115-121) or a cell. *)
Notation handle := (option nat).

Section Functions.
(** [V] the values of callables, [A] the arguments, [R] the results. *)
Context {V A R : Type}.
(** A call: the new value, and the result or an exception ([_value(args...)],
    H/base_defs/function_base.hpp:227-242). *)
Variable run : Z -> V -> A -> V * option R.
(** [Ret_t()], what the null function returns
    (H/base/container/function/base_function_t.hpp:108). *)
Variable nothing : R.
(** [equal.able<T>] and [==] of the type (lines 79-84). *)
Variable comparable : Z -> bool.
Variable same : Z -> V -> V -> bool.
(** [is_convertible_v<const T,func_ptr_t>] with the plain function, and calling that
    (lines 90-97). *)
Variable plain : Z -> V -> option Z.
Variable run_plain : Z -> A -> option R.
(** Where the [base_func_data_t] part lies within [func_data_t<T>], and within the
    null object (lines 63-65,103). *)
Variable part_at : Z -> Z.
Variable null_part_at : Z.

Record callable := mkc { tag : Z; val : V }.
(** [func_data_t] (lines 60-98) with its count (H/base/memory/ptr/ref/ref_t.hpp:33),
    or freed memory. *)
Inductive cell := Live (c : callable) (n : nat) | Gone.
(** The cells; the function objects, [None] when destroyed; the cells whose callable
    was destroyed, latest first; [_func_ptr_data_local] of each thread and
    [_func_ptr_data_gobal] (lines 456-457); [off_set]
    (H/base/memory/abstract_base/pointer_off_set.hpp:32). *)
Record state := mks { cells : list cell; vars : list (option handle); log : list nat;
  local : nat -> option handle; gobal : option handle; off_set : Z }.
Definition with_cells (s : state) (cs : list cell) (l : list nat) : state :=
  mks cs (vars s) l (local s) (gobal s) (off_set s).
Definition with_vars (s : state) (vs : list (option handle)) : state :=
  mks (cells s) vs (log s) (local s) (gobal s) (off_set s).
Definition with_slots (s : state) (l : nat -> option handle) (g : option handle) : state :=
  mks (cells s) (vars s) (log s) l g (off_set s).

(** Writing one entry of a list (an assignment through a pointer). *)
Fixpoint put {X : Type} (l : list X) (i : nat) (x : X) : list X :=
  match l, i with
  | [], _ => []
  | _ :: r, O => x :: r
  | y :: r, S j => y :: put r j x
  end.
(** The object [v]; using one that is not there is undefined (language). *)
Definition var (s : state) (v : nat) : fo handle :=
  match nth_error (vars s) v with Some (Some h) => FFine h | _ => FWild end.
(** [add_ref] (H/base/memory/ptr/ref/ref_t.hpp:37).  The count of the null object is
    left out: [unget] (H/base/memory/get/defs.hpp:613) never frees it. *)
Definition add_ref (s : state) (h : handle) : fo state :=
  match h with
  | None => FFine s
  | Some p => match nth_error (cells s) p with
              | Some (Live c n) => FFine (with_cells s (put (cells s) p (Live c (S n))) (log s))
              | _ => FWild
              end
  end.
(** [cut_ref] (H/base/memory/ptr/ref/ref_able.hpp:37-48): at zero the callable is
    destroyed and its memory freed. *)
Definition cut_ref (s : state) (h : handle) : fo state :=
  match h with
  | None => FFine s
  | Some p => match nth_error (cells s) p with
              | Some (Live c (S (S n))) => FFine (with_cells s (put (cells s) p (Live c (S n))) (log s))
              | Some (Live c 1) => FFine (with_cells s (put (cells s) p Gone) (p :: log s))
              | _ => FWild
              end
  end.
(** [reset] (H/base/memory/ptr/ptr/base_ptr_t.hpp:111). *)
Definition reset (s : state) (v : nat) (h : handle) : fo state :=
  fbind (var s v) (fun old =>
  fbind (add_ref s h) (fun s1 =>
  cut_ref (with_vars s1 (put (vars s1) v (Some h))) old)).
(** A new object whose [_m] is a new reference to [h]
    (H/base/memory/ptr/ptr/base_ptr_t.hpp:77-88). *)
Definition born (s : state) (h : handle) : fo state :=
  fbind (add_ref s h) (fun s1 => FFine (with_vars s1 (vars s1 ++ [Some h]))).
(** [get<func_data_t<T>>(a)] (base_function_t.hpp:402): a cell that nothing refers
    to yet. *)
Definition made (s : state) (c : callable) : state * handle :=
  (with_cells s (cells s ++ [Live c 0]) (log s), Some (length (cells s))).
(** [call] (lines 85-87,108; 169): the callable's value changes in place. *)
Definition call (s : state) (h : handle) (a : A) : fo (state * option R) :=
  match h with
  | None => FFine (s, Some nothing)
  | Some p => match nth_error (cells s) p with
              | Some (Live c n) =>
                  let '(v, r) := run (tag c) (val c) a in
                  FFine (with_cells s (put (cells s) p (Live (mkc (tag c) v) n)) (log s), r)
              | _ => FWild
              end
  end.
(** [operator==] of the data (lines 47-49): [type_info], then [equal_with]
    (lines 79-84,113); the type of the null object is [void]. *)
Definition equal (s : state) (h k : handle) : fo bool :=
  match h, k with
  | None, None => FFine true
  | Some p, Some q =>
      match nth_error (cells s) p, nth_error (cells s) q with
      | Some (Live c _), Some (Live d _) =>
          FFine ((tag c =? tag d)%Z && comparable (tag c) && same (tag c) (val c) (val d))
      | _, _ => FWild
      end
  | None, Some q => match nth_error (cells s) q with Some (Live _ _) => FFine false | _ => FWild end
  | Some p, None => match nth_error (cells s) p with Some (Live _ _) => FFine false | _ => FWild end
  end.
(** Comparing with a callable (lines 50-53). *)
Definition equal_to (s : state) (h : handle) (d : callable) : fo bool :=
  match h with
  | None => FFine false
  | Some p => match nth_error (cells s) p with
              | Some (Live c _) =>
                  FFine ((tag c =? tag d)%Z && comparable (tag c) && same (tag c) (val c) (val d))
              | _ => FWild
              end
  end.
(** [copy_get] (H/base/memory/get/defs.hpp:881-888): [func_data_t] cannot be copied
    ([ref_t] is [non_copyable], H/base/memory/ptr/ref/ref_t.hpp:32), so
    [_abstract_method_copy_get_this] returns the object itself
    (H/base/memory/abstract_base/instance_struct.hpp:41-43), and
    [get_ptr_after_off_set] moves the pointer by whatever [off_set] was left there
    (H/base/memory/abstract_base/abstract_base.hpp:33-36).  A pointer that is not
    one to the [base_func_data_t] part is undefined to use. *)
Definition copy_get (s : state) (h : handle) : fo handle :=
  match h with
  | None => if (off_set s =? null_part_at)%Z then FFine None else FWild
  | Some p => match nth_error (cells s) p with
              | Some (Live c _) => if (off_set s =? part_at (tag c))%Z then FFine h else FWild
              | _ => FWild
              end
  end.

(** What a program does with function objects of one type.  [v] and [w] number the
    objects in the order in which they were built, [t] the threads. *)
Inductive op :=
| ONew                       (* function_t() or from a null pointer *)
| OMake (c : callable)       (* from a callable *)
| OCopy (w : nat)            (* from another function *)
| OMove (w : nat)            (* from another function that is moved *)
| ODeep (w : nat)            (* from w.deep_copy() *)
| OAssign (v w : nat)        (* v=w, and v=move(w) *)
| OSet (v : nat) (c : callable)
| ONull (v : nat)
| OSwap (v w : nat)
| ODrop (v : nat)            (* the destructor *)
| OCall (v : nat) (a : A)
| OBool (v : nat)
| OEqual (v w : nat)
| OEqualTo (v : nat) (c : callable)
| OPointer (t v : nat)       (* conversion to a function pointer in thread t *)
| OCallPointer (t : nat) (a : A) (* a call of the shared function in thread t *)
| OCallPlain (k : Z) (a : A). (* a call of a plain function *)
(** What it sees: the result of a call, or that it threw; a truth value; the pointer,
    [None] for the shared function [_func_ptr_value]. *)
Inductive out := RCall (r : option R) | RBool (b : bool) | RPointer (k : option Z).

(** Lines 405-475 (construction, assignment, [deep_copy], [bool], call, conversion)
    and 126-170 (copying, [==]).  The defaulted move assignment (line 427) uses the
    base's only assignment, which copies (line 168). *)
Definition step (o : op) (s : state) : fo (state * list out) :=
  match o with
  | ONew => fbind (born s None) (fun s1 => FFine (s1, []))
  | OMake c =>
      fbind (born s None) (fun s1 =>
      let '(s2, h) := made s1 c in
      fbind (reset s2 (length (vars s)) h) (fun s3 => FFine (s3, [])))
  | OCopy w => fbind (var s w) (fun h => fbind (born s h) (fun s1 => FFine (s1, [])))
  | OMove w =>
      fbind (var s w) (fun h =>
      fbind (born s None) (fun s1 =>
      FFine (with_vars s1 (put (put (vars s1) (length (vars s)) (Some h)) w (Some None)), [])))
  | ODeep w =>
      fbind (var s w) (fun h =>
      fbind (copy_get s h) (fun h' =>
      fbind (born s None) (fun s1 =>
      fbind (reset s1 (length (vars s)) h') (fun s2 => FFine (s2, [])))))
  | OAssign v w => fbind (var s w) (fun h => fbind (reset s v h) (fun s1 => FFine (s1, [])))
  | OSet v c =>
      let '(s1, h) := made s c in fbind (reset s1 v h) (fun s2 => FFine (s2, []))
  | ONull v => fbind (reset s v None) (fun s1 => FFine (s1, []))
  | OSwap v w =>
      fbind (var s v) (fun h => fbind (var s w) (fun k =>
      FFine (with_vars s (put (put (vars s) v (Some k)) w (Some h)), [])))
  | ODrop v =>
      fbind (var s v) (fun h =>
      fbind (cut_ref (with_vars s (put (vars s) v None)) h) (fun s1 => FFine (s1, [])))
  | OCall v a =>
      fbind (var s v) (fun h => fbind (call s h a) (fun x => FFine (fst x, [RCall (snd x)])))
  | OBool v =>
      fbind (var s v) (fun h => FFine (s, [RBool (match h with None => false | Some _ => true end)]))
  | OEqual v w =>
      fbind (var s v) (fun h => fbind (var s w) (fun k => fbind (equal s h k) (fun b => FFine (s, [RBool b]))))
  | OEqualTo v c => fbind (var s v) (fun h => fbind (equal_to s h c) (fun b => FFine (s, [RBool b])))
  | OPointer t v =>
      fbind (var s v) (fun h =>
      let shared := (with_slots s (fun u => if u =? t then Some h else local s u) (Some h), [RPointer None]) in
      match h with
      | None => FFine shared
      | Some p => match nth_error (cells s) p with
                  | Some (Live c _) => match plain (tag c) (val c) with
                                       | Some k => FFine (s, [RPointer (Some k)])
                                       | None => FFine shared
                                       end
                  | _ => FWild
                  end
      end)
  | OCallPointer t a =>
      (* lines 458-464: noexcept, so an exception ends the program *)
      let slot := match local s t with Some h => Some h | None => gobal s end in
      match slot with
      | None => FWild
      | Some h =>
          let s1 := with_slots s (fun u => if u =? t then Some h else local s u) (gobal s) in
          fbind (call s1 h a) (fun x =>
            match snd x with Some r => FFine (fst x, [RCall (Some r)]) | None => FDies end)
      end
  | OCallPlain k a => FFine (s, [RCall (run_plain k a)])
  end.
(** A program: its steps one after another, and all it sees. *)
Fixpoint steps (os : list op) (s : state) : fo (state * list out) :=
  match os with
  | [] => FFine (s, [])
  | o :: r => fbind (step o s) (fun x => fbind (steps r (fst x)) (fun y => FFine (fst y, snd x ++ snd y)))
  end.
(** The start of the program: no object, no pointer made (lines 456-457). *)
Definition start (off : Z) : state := mks [] [] [] (fun _ => None) None off.
End Functions.
