(** Proofs for the timer. *)
From Verif Require Import Base Timer_Model Timer_Spec.
Local Open Scope Z_scope.

(** How a timer represents a stopwatch. *)
Definition shows (t : timer) (w : watch) : Prop :=
  match w with
  | Stopped a => t_end t - t_start t = a
  | Running a s => s - t_start t = a
  end.

Lemma step_shows t w w' o : shows t w -> press w o = Some w' -> shows (step t o) w'.
Proof.
  intros H P. destruct o as [[] x], w; cbn in *; inversion P; subst; cbn in *; lia.
Qed.

Lemma run_shows l : forall t w w', shows t w -> presses w l = Some w' -> shows (run t l) w'.
Proof.
  induction l as [|o l IH]; intros t w w' H P; cbn [presses run fold_left] in *.
  - injection P as <-. exact H.
  - destruct (press w o) as [v|] eqn:E; [|discriminate].
    eapply IH; [|exact P]. eapply step_shows; eauto.
Qed.

Theorem timer_exact l t now a : presses (Running 0 now) l = Some (Stopped a) ->
  get (run t ((Start, now) :: l)) = a.
Proof.
  intros P. change (run t ((Start, now) :: l)) with (run (step t (Start, now)) l).
  apply (@run_shows l (step t (Start, now)) (Running 0 now) (Stopped a)); [|exact P].
  cbn. lia.
Qed.

Lemma run_end l : forall t, t_end (run t l) = last_stop (t_end t) l.
Proof. induction l as [|[o x] l IH]; intros t; [reflexivity|].
  change (run t ((o, x) :: l)) with (run (step t (o, x)) l). rewrite IH. now destruct o. Qed.

Theorem timer_again l t now a p x : presses (Running 0 now) l = Some (Stopped a) ->
  p = Stop \/ p = Pause ->
  get (run t ((Start, now) :: l ++ [(p, x)])) = a + (x - last_stop (t_end t) l).
Proof.
  intros P O. pose proof (@timer_exact l t now a P) as E.
  change (last_stop (t_end t) l) with (last_stop (t_end t) ((Start, now) :: l)). rewrite <- run_end.
  unfold get in *.
  change ((Start, now) :: l ++ [(p, x)]) with (((Start, now) :: l) ++ [(p, x)]).
  unfold run in *. rewrite fold_left_app.
  set (u := fold_left step ((Start, now) :: l) t) in *. clearbody u. cbn [fold_left].
  destruct O as [-> | ->]; cbn; lia.
Qed.

Theorem timer_resumed l t now a since x y p : presses (Running 0 now) l = Some (Running a since) ->
  p = Stop \/ p = Pause ->
  get (run t ((Start, now) :: l ++ [(Resume, x); (p, y)]))
  = a + (y - since) - (x - last_stop (t_end t) l).
Proof.
  intros P O. change (last_stop (t_end t) l) with (last_stop (t_end t) ((Start, now) :: l)). rewrite <- run_end.
  assert (E : shows (run t ((Start, now) :: l)) (Running a since)).
  { change (run t ((Start, now) :: l)) with (run (step t (Start, now)) l).
    apply (@run_shows l (step t (Start, now)) (Running 0 now)); [cbn; lia|exact P]. }
  unfold get. change ((Start, now) :: l ++ [(Resume, x); (p, y)])
    with (((Start, now) :: l) ++ [(Resume, x); (p, y)]).
  unfold run in *. rewrite fold_left_app.
  set (u := fold_left step ((Start, now) :: l) t) in *. clearbody u. cbn [fold_left].
  cbn in E. destruct O as [-> | ->]; cbn; lia.
Qed.
