(** Property theorems C108: the timer. *)
From Verif Require Import Base Timer_Model Timer_Spec Timer_Proofs.
Local Open Scope Z_scope.

(** ** C108 *)
(** After any sequence of calls that stops a timer only while it runs and resumes
    it only while it is stopped, the time shown is the time it has been running
    since the last start.  Missing: stopping twice, resuming twice. *)
Theorem C108_running_time_partial : forall l t now a,
  presses (Running 0 now) l = Some (Stopped a) -> get (run t ((Start, now) :: l)) = a.
Proof. exact timer_exact. Qed.
Print Assumptions C108_running_time_partial.
(** A second stop or pause counts the time in between as running. *)
Theorem C108_stopped_twice_wrong : forall l t now a p x,
  presses (Running 0 now) l = Some (Stopped a) -> p = Stop \/ p = Pause ->
  get (run t ((Start, now) :: l ++ [(p, x)])) = a + (x - last_stop (t_end t) l).
Proof. exact timer_again. Qed.
Print Assumptions C108_stopped_twice_wrong.
(** Resuming a running timer takes away the time since it was last stopped — also
    if that was before the start. *)
Theorem C108_resumed_twice_wrong : forall l t now a since x y p,
  presses (Running 0 now) l = Some (Running a since) -> p = Stop \/ p = Pause ->
  get (run t ((Start, now) :: l ++ [(Resume, x); (p, y)]))
  = a + (y - since) - (x - last_stop (t_end t) l).
Proof. exact timer_resumed. Qed.
Print Assumptions C108_resumed_twice_wrong.
(** Running from 10 to 15 and from 40 to 42; paused twice; resumed while running. *)
Example C108_case :
  presses (Running 0 10) [(Pause, 15); (Resume, 40); (Stop, 42)] = Some (Stopped 7) /\ last_stop 4 [(Pause, 15); (Resume, 40); (Stop, 42)] = 42 /\
  get (run (Timer 3 4) [(Start, 10); (Pause, 15); (Resume, 40); (Stop, 42)]) = 7 /\
  get (run (Timer 3 4) [(Start, 10); (Pause, 15); (Pause, 20)]) = 10 /\
  presses (Running 0 10) [(Pause, 15); (Resume, 40)] = Some (Running 5 40) /\
  get (run (Timer 3 4) [(Start, 10); (Pause, 15); (Resume, 40); (Resume, 41); (Stop, 42)]) = -19.
Proof. repeat split. Qed.
