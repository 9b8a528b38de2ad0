(** What a stopwatch shows, independently of the code. *)
From Verif Require Import Base Timer_Model.
Local Open Scope Z_scope.

(** A stopwatch: the time measured so far, and if it runs, since when. *)
Inductive watch := Stopped (acc : Z) | Running (acc since : Z).

(** Starting and resetting begin at zero; stopping and pausing add the time since
    it began to run; resuming goes on.  No meaning is given to stopping a stopped
    watch and to resuming a running one. *)
Definition press (w : watch) (o : op * Z) : option watch :=
  match fst o, w with
  | (Start | Reset), _ => Some (Running 0 (snd o))
  | (Stop | Pause), Running a s => Some (Stopped (a + (snd o - s)))
  | Resume, Stopped a => Some (Running a (snd o))
  | _, _ => None
  end.
Fixpoint presses (w : watch) (l : list (op * Z)) : option watch :=
  match l with
  | [] => Some w
  | o :: l' => match press w o with Some w' => presses w' l' | None => None end
  end.

(** When the watch was last stopped: [d] if it has not been. *)
Fixpoint last_stop (d : Z) (l : list (op * Z)) : Z :=
  match l with
  | [] => d
  | (Stop, x) :: l' | (Pause, x) :: l' => last_stop x l'
  | _ :: l' => last_stop d l'
  end.
