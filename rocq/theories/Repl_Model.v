(** Model of replaceable objects and of the counting pointers to them:
    [replace_able] (H/base/memory/other/replace_able.hpp:33-57) and [ptr_t] /
    [base_ptr_t] (H/base/memory/ptr/ptr/base_ptr_t.hpp:63-230) with strong
    references ([comn_ptr_t]).

    An object carries its reference counter, the object that replaced it if
    any, and one number that stands for the rest of its contents.  Objects are
    numbered in the order of their creation and numbers are not used again.

    Outcomes: [Ub] is access to a freed object or to a variable that does not
    exist, or a counter below zero; [Out] means that the fuel was too small.
    Simplifications: no null object and no weak pointers (both are in
    Ref_Model.v); contents without pointers; counters do not wrap above; one
    thread.  While the destructor of an object runs the object counts as freed
    already, so that any access in that time is [Ub]. *)
From Verif Require Import Base.
From Verif Require Import Ref_Model.
Local Open Scope nat_scope.

(** [_ref_num] (H/base/memory/ptr/ref/ref_t.hpp:33), [_m] where [None] is the
    object itself (H/base/memory/other/replace_able.hpp:35), the contents. *)
Record cell := mkCell { lk : nat; fwd : option nat; val : Z }.
(** Objects by number, [None] is freed; the variables of type pointer, [None]
    is out of scope (language semantics). *)
Record pstate := mkPs { cells : list (option cell); vars : list (option nat) }.

(** An object, if not freed (language semantics). *)
Definition getC (h : list (option cell)) (a : nat) : option cell :=
  match nth_error h a with Some (Some x) => Some x | _ => None end.
(** A variable, if in scope (language semantics). *)
Definition getV (e : list (option nat)) (x : nat) : option nat :=
  match nth_error e x with Some (Some a) => Some a | _ => None end.

(** Continuation of a step (language semantics). *)
Definition rthen {A B} (r : res A) (k : A -> res B) : res B :=
  match r with Ok a => k a | Ub => Ub | Out => Out end.
(** Access that must succeed (language semantics). *)
Definition must {A} (o : option A) : res A := match o with Some a => Ok a | None => Ub end.

(** [add_ref] (H/base/memory/ptr/ref/ref_t.hpp:37). *)
Definition add_link (h : list (option cell)) (a : nat) : res (list (option cell)) :=
  rthen (must (getC h a)) (fun x => Ok (upd h a (Some (mkCell (S (lk x)) (fwd x) (val x))))).

(** [cut_ref] and the destructor of [replace_able]
    (H/base/memory/ptr/ref/ref_able.hpp:37-47,
    H/base/memory/other/replace_able.hpp:38-41). *)
Fixpoint cut_link (fuel : nat) (h : list (option cell)) (a : nat) : res (list (option cell)) :=
  match fuel with
  | 0 => Out
  | S f =>
    rthen (must (getC h a)) (fun x =>
    match lk x with
    | 0 => Ub
    | 1 => match fwd x with
           | None => Ok (upd h a None)
           | Some b => cut_link f (upd h a None) b
           end
    | S n => Ok (upd h a (Some (mkCell n (fwd x) (val x))))
    end)
  end.

(** [get_ptr] (H/base/memory/other/replace_able.hpp:43-48). *)
Fixpoint get_ptr (fuel : nat) (h : list (option cell)) (a : nat) : res nat :=
  match fuel with
  | 0 => Out
  | S f => rthen (must (getC h a)) (fun x => match fwd x with None => Ok a | Some b => get_ptr f h b end)
  end.

(** The write of [_m] (H/base/memory/other/replace_able.hpp:52). *)
Definition set_fwd (h : list (option cell)) (a p : nat) : res (list (option cell)) :=
  rthen (must (getC h a)) (fun x =>
  Ok (upd h a (Some (mkCell (lk x) (if Nat.eqb p a then None else Some p) (val x))))).

(** [be_replace_as] (H/base/memory/other/replace_able.hpp:49-55). *)
Definition be_replace_as (fuel : nat) (h : list (option cell)) (a p : nat) : res (list (option cell)) :=
  rthen (must (getC h a)) (fun x =>
  rthen (match fwd x with Some b => cut_link fuel h b | None => Ok h end) (fun h1 =>
  rthen (set_fwd h1 a p) (fun h2 =>
  if Nat.eqb p a then Ok h2 else add_link h2 p))).

(** [reset] (H/base/memory/ptr/ptr/base_ptr_t.hpp:111). *)
Definition reset_ptr (fuel : nat) (s : pstate) (x p : nat) : res pstate :=
  rthen (must (getV (vars s) x)) (fun tmp =>
  rthen (add_link (cells s) p) (fun h1 =>
  rthen (cut_link fuel h1 tmp) (fun h2 => Ok (mkPs h2 (upd (vars s) x (Some p)))))).

(** [get] with [replace_check] (H/base/memory/ptr/ptr/base_ptr_t.hpp:115-119,131-134). *)
Definition ptr_get (fuel : nat) (s : pstate) (x : nat) : res (pstate * nat) :=
  rthen (must (getV (vars s) x)) (fun a =>
  rthen (must (getC (cells s) a)) (fun c =>
  match fwd c with
  | None => Ok (s, a)
  | Some _ =>
    rthen (get_ptr fuel (cells s) a) (fun r =>
    rthen (reset_ptr fuel s x r) (fun s1 => Ok (s1, r)))
  end)).

(** [do_replace] with an address (H/base/memory/ptr/ptr/base_ptr_t.hpp:120-125). *)
Definition do_replace (fuel : nat) (s : pstate) (x p : nat) : res pstate :=
  rthen (must (getV (vars s) x)) (fun a =>
  rthen (be_replace_as fuel (cells s) a p) (fun h1 =>
  reset_ptr fuel (mkPs h1 (vars s)) x p)).

(** Operations of a program on pointers
    (H/base/memory/ptr/ptr/base_ptr_t.hpp:77-135,152-159,208-218).
    A pointer made from a new object; copy construction; copy assignment; move
    assignment; end of scope; reading and writing the contents; [==];
    [unique]; [do_replace] with a pointer and with an address. *)
Inductive pop :=
| PNew (v : Z) | PCopy (x : nat) | PAssign (x y : nat) | PMove (x y : nat) | PDrop (x : nat)
| PRead (x : nat) | PWrite (x : nat) (v : Z) | PEq (x y : nat) | PUnique (x : nat)
| PReplace (x y : nat) | PReplaceAddr (x a : nat).
(** What a program sees (language semantics). *)
Inductive seen := SawNothing | SawVal (v : Z) | SawBool (b : bool).

(** One operation (the lines of [pop]):
    - construction: base_ptr_t.hpp:77,78-88; the end of scope: 108;
    - assignments: 216 ([reset] to what [get] yields), 218 ([swap_with]);
    - [operator->]: 208; [unique]: 135; [==] of pointers: 152-159;
    - [do_replace] with a pointer: 126-129.
    (All in H/base/memory/ptr/ptr/.) *)
Definition pstep (fuel : nat) (s : pstate) (o : pop) : res (pstate * seen) :=
  match o with
  | PNew v =>
    rthen (add_link (cells s ++ [Some (mkCell 0 None v)]) (length (cells s))) (fun h =>
    Ok (mkPs h (vars s ++ [Some (length (cells s))]), SawNothing))
  | PCopy x =>
    rthen (must (getV (vars s) x)) (fun a =>
    rthen (add_link (cells s) a) (fun h => Ok (mkPs h (vars s ++ [Some a]), SawNothing)))
  | PAssign x y =>
    rthen (ptr_get fuel s y) (fun '(s1, p) =>
    rthen (reset_ptr fuel s1 x p) (fun s2 => Ok (s2, SawNothing)))
  | PMove x y =>
    rthen (must (getV (vars s) x)) (fun a =>
    rthen (must (getV (vars s) y)) (fun b =>
    Ok (mkPs (cells s) (upd (upd (vars s) x (Some b)) y (Some a)), SawNothing)))
  | PDrop x =>
    rthen (must (getV (vars s) x)) (fun a =>
    rthen (cut_link fuel (cells s) a) (fun h => Ok (mkPs h (upd (vars s) x None), SawNothing)))
  | PRead x =>
    rthen (ptr_get fuel s x) (fun '(s1, p) =>
    rthen (must (getC (cells s1) p)) (fun c => Ok (s1, SawVal (val c))))
  | PWrite x v =>
    rthen (ptr_get fuel s x) (fun '(s1, p) =>
    rthen (must (getC (cells s1) p)) (fun c =>
    Ok (mkPs (upd (cells s1) p (Some (mkCell (lk c) (fwd c) v))) (vars s1), SawNothing)))
  | PEq x y =>
    rthen (ptr_get fuel s x) (fun '(s1, p) =>
    rthen (ptr_get fuel s1 y) (fun '(s2, q) => Ok (s2, SawBool (Nat.eqb p q))))
  | PUnique x =>
    rthen (ptr_get fuel s x) (fun '(s1, p) =>
    rthen (must (getC (cells s1) p)) (fun c => Ok (s1, SawBool (Nat.eqb (lk c) 1))))
  | PReplace x y =>
    rthen (ptr_get fuel s y) (fun '(s1, p) =>
    rthen (do_replace fuel s1 x p) (fun s2 => Ok (s2, SawNothing)))
  | PReplaceAddr x a =>
    rthen (do_replace fuel s x a) (fun s2 => Ok (s2, SawNothing))
  end.

(** A program (language semantics). *)
Fixpoint prun (fuel : nat) (s : pstate) (l : list pop) : res (pstate * list seen) :=
  match l with
  | [] => Ok (s, [])
  | o :: r =>
    rthen (pstep fuel s o) (fun '(s1, b) =>
    rthen (prun fuel s1 r) (fun '(s2, bs) => Ok (s2, b :: bs)))
  end.
(** The start of a program (language semantics). *)
Definition pinit : pstate := mkPs [] [].
