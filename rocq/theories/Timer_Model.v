(** The timer.  Models H/timer/defs.hpp:31-52 (H = parts/header_file/files/elc/_files).
    Times are integers (ticks of the clock); the clock is read once by each
    operation, so an operation carries the time at which it is called.
    Simplified: time_points do not overflow; the conversion of the ticks into the
    unit asked for (duration_cast, 49-51) is left out. *)
From Verif Require Import Base.
Local Open Scope Z_scope.

(** timer/defs.hpp:34: the two time_points. *)
Record timer := Timer { t_start : Z; t_end : Z }.

(** The operations (timer/defs.hpp:36-41). *)
Inductive op := Start | Stop | Reset | Pause | Resume.

(** timer/defs.hpp:36, start. *)
Definition start (now : Z) (t : timer) : timer := Timer now (t_end t).
(** timer/defs.hpp:37, end. *)
Definition stop (now : Z) (t : timer) : timer := Timer (t_start t) now.
(** timer/defs.hpp:41, resume. *)
Definition resume (now : Z) (t : timer) : timer := Timer (t_start t + (now - t_end t)) (t_end t).

(** timer/defs.hpp:36-41: reset is start, pause is end. *)
Definition step (t : timer) (o : op * Z) : timer :=
  match fst o with
  | Start | Reset => start (snd o) t
  | Stop | Pause => stop (snd o) t
  | Resume => resume (snd o) t
  end.
(** A sequence of calls. *)
Definition run (t : timer) (l : list (op * Z)) : timer := fold_left step l t.
(** timer/defs.hpp:48-51, get. *)
Definition get (t : timer) : Z := t_end t - t_start t.
