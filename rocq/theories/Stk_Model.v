(** Model of programs on stacks: [base_stack_t] and [auto_stack_t]
    (H/base/container/stacks/base_stack.hpp, auto_stack.hpp).  The operations on
    one stack, at the level of nodes and pointers, are those of Table_Model.v; here
    a program has as many stacks as it likes in one memory.
    Simplifications: those of Table_Model.v. *)
From Verif Require Import Base Table_Model.

Section Stacks.
Variable T : Type.
(** The comparison of the elements: any function. *)
Variable eqb : T -> T -> bool.

(** The memory and the stacks of the program (language semantics). *)
Record sworld := mkSW { sh : heap T; ss : nat -> stack }.
(** Changing one stack (language semantics). *)
Definition with_stack (f : nat -> stack) (i : nat) (s : stack) : nat -> stack :=
  fun j => if Nat.eqb j i then s else f j.

(** What a program does with its stacks (H/base/container/stacks/base_stack.hpp):
    [add] (110-113), [remove] (117-130), [find] (90-98), [find] and [in_stack] of
    the self-ordering stack (auto_stack.hpp:46-65), [for_each] (133-150), [size]
    (105-107), [empty] (86-88), [clear] (83-85), copying [i] over [j] (69-71),
    [swap_with] and moving (58-68), [move_top_to] (153-157,165-168). *)
Inductive kop :=
| KAdd (i : nat) (x : T) | KRemove (i : nat) (x : T) | KFind (i : nat) (x : T) | KAuto (i : nat) (x : T)
| KVisit (i : nat) | KSize (i : nat) | KEmpty (i : nat) | KClear (i : nat) | KCopy (i j : nat) | KSwap (i j : nat)
| KTop (i j : nat).
(** What it sees. *)
Inductive kans := ANothing | AYes (b : bool) | AElem (x : option T) | AAll (l : list T) | ANumber (z : Z).

(** Reading through the reference that [find] gives
    (H/base_defs/maybe_fail_reference.hpp:32-42). *)
Definition k_read (h : heap T) (r : ptr) : out kans :=
  match r with
  | None => Done (AElem None)
  | Some a => match cell h a with Some (d, _) => Done (AElem (Some d)) | None => Bad end
  end.

(** One operation (lines as for [kop]).
    - [remove] compares with the element on the right (120), [find] on the left (93);
    - [clear] destroys and constructs anew (83-85);
    - copying makes a copy, swaps it in, and destroys what was there (69-71,62-65);
    - moving is swapping (62-68);
    - [move_top_to] takes the node off before it puts it on, which matters when both
      stacks are one; of an empty stack it is undefined (165-168). *)
Definition k_op (fuel : nat) (w : sworld) (o : kop) : out (sworld * kans) :=
  match o with
  | KAdd i x => let '(h, s) := s_add (sh w) (ss w i) x in Done (mkSW h (with_stack (ss w) i s), ANothing)
  | KRemove i x =>
    '(h, s, b) <- s_remove fuel (sh w) (ss w i) (eqb x) ;; Done (mkSW h (with_stack (ss w) i s), AYes b)
  | KFind i x =>
    '(h, s, r) <- b_find fuel (sh w) (ss w i) (fun d => eqb d x) ;;
    a <- k_read h r ;; Done (mkSW h (with_stack (ss w) i s), a)
  | KAuto i x =>
    '(h, s, r) <- a_find fuel (sh w) (ss w i) (fun d => eqb d x) ;;
    a <- k_read h r ;; Done (mkSW h (with_stack (ss w) i s), a)
  | KVisit i => l <- s_visit fuel (sh w) (top (ss w i)) ;; Done (w, AAll l)
  | KSize i => Done (w, ANumber (ssize (ss w i)))
  | KEmpty i => Done (w, AYes (match top (ss w i) with None => true | Some _ => false end))
  | KClear i =>
    h <- s_destroy fuel (sh w) (top (ss w i)) ;; Done (mkSW h (with_stack (ss w) i stack0), ANothing)
  | KCopy i j =>
    '(h1, c) <- s_copy fuel (sh w) (ss w i) ;;
    h2 <- s_destroy fuel h1 (top (ss w j)) ;;
    Done (mkSW h2 (with_stack (ss w) j c), ANothing)
  | KSwap i j => Done (mkSW (sh w) (with_stack (with_stack (ss w) i (ss w j)) j (ss w i)), ANothing)
  | KTop i j =>
    match top (ss w i) with
    | None => Bad
    | Some a =>
      match cell (sh w) a with
      | None => Bad
      | Some (x, nx) =>
        let f := with_stack (ss w) i (mkStack nx (ssize (ss w i) - 1)%Z) in
        Done (mkSW (upd (sh w) a (Some (x, top (f j)))) (with_stack f j (mkStack (Some a) (ssize (f j) + 1)%Z)), ANothing)
      end
    end
  end.
(** A program (language semantics). *)
Fixpoint k_run (fuel : nat) (w : sworld) (os : list kop) : out (sworld * list kans) :=
  match os with
  | [] => Done (w, [])
  | o :: r => '(w1, a) <- k_op fuel w o ;; '(w2, l) <- k_run fuel w1 r ;; Done (w2, a :: l)
  end.
(** All stacks are empty (H/base/container/stacks/base_stack.hpp:57). *)
Definition sworld0 : sworld := mkSW heap0 (fun _ => stack0).
End Stacks.
Arguments ANothing {T}. Arguments AYes {T}. Arguments ANumber {T}.
Arguments KVisit {T}. Arguments KSize {T}. Arguments KEmpty {T}. Arguments KClear {T}. Arguments KCopy {T}. Arguments KSwap {T}.
Arguments KTop {T}.
