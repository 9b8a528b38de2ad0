(** What the questions about the place should be answered, without any state. *)
From Verif Require Import Base SrcLoc_Model.

Section Spec.
Variable F : Type.
Variable file_of : F -> option (list Z).
Variable line_of : F -> option Z.
(** The file and line of a frame. *)
Definition place (f : F) : shown * Z :=
  (match file_of f with Some t => ShText t | None => ShNull end, match line_of f with Some n => n | None => 0%Z end).
(** The answers in order; [outer] is the frame of the outermost guard that has one. *)
Fixpoint places (outer : option F) (p : prog F) : list (option (shown * Z)) :=
  match p with
  | PEnd => []
  | PAsk k => match outer with Some f => Some (place f) | None => None end :: places outer k
  | PGuard o b k => places (match outer with Some f => Some f | None => o end) b ++ places outer k
  end.
(** Every question is asked inside of a guard that has a frame. *)
Fixpoint guarded (outer : option F) (p : prog F) : Prop :=
  match p with
  | PEnd => True
  | PAsk k => outer <> None /\ guarded outer k
  | PGuard o b k => guarded (match outer with Some f => Some f | None => o end) b /\ guarded outer k
  end.
End Spec.
