(** C124: exchanging objects. *)
From Verif Require Import Base Swap_Model Swap_Spec Swap_Proofs.

(** For every sequence of exchanges, of objects with themselves too, and whatever moving
    leaves behind: every object has the value of the place that the sequence brings it
    from, and this is a one-to-one relation, so that no value is lost or doubled.
    Missing for the property: types that do not hold all the values, and the overload
    for a constant. *)
Theorem C124_swaps_partial : forall V (keep : nat -> V -> V) left_by_move self_move p m,
  (forall c d, keep c (m d) = m d) ->
  (forall c, swaps keep left_by_move self_move p m c = m (came_from p c)) /\
  (forall d, exists c, came_from p c = d) /\ (forall c c', came_from p c = came_from p c' -> c = c').
Proof.
  intros V keep l s p m K. exact (conj (@swaps_right V keep l s p m K) (conj (@came_onto p) (@came_once p))).
Qed.
Print Assumptions C124_swaps_partial.
(** Moving leaves 0, moving to itself leaves 99. *)
Example C124_swaps_case :
  map (swaps (fun _ v => v) (fun _ => 0) (fun _ => 99) [(0, 1); (2, 2); (1, 2); (0, 2)] (fun c => 10 + c)) [0; 1; 2; 3] = [10; 12; 11; 13] /\
  map (came_from [(0, 1); (2, 2); (1, 2); (0, 2)]) [0; 1; 2; 3] = [0; 2; 1; 3].
Proof. vm_compute. split; reflexivity. Qed.

(** Between different types each object gets what its type makes of the value of the other:
    if that is not the value then the exchange is wrong. *)
Theorem C124_types_wrong : forall V (keep : nat -> V -> V) left_by_move self_move m a b, a <> b ->
  keep b (m a) <> m a ->
  swaps keep left_by_move self_move [(a, b)] m b = keep b (m a) /\ swaps keep left_by_move self_move [(a, b)] m b <> m a.
Proof. intros V keep l s. exact (@types_wrong V keep l s). Qed.
Print Assumptions C124_types_wrong.
(** An int with 300 and an unsigned char with 7. *)
Example C124_types_case :
  let m := fun c => match c with 0 => 300%Z | _ => 7%Z end in
  map (swaps (fun c v => match c with 0 => v | _ => (v mod 256)%Z end) (fun v => v) (fun v => v) [(0, 1)] m) [0; 1] = [7; 44]%Z.
Proof. vm_compute. reflexivity. Qed.

(** With a constant as second argument: the old value is returned, the object has that of
    the constant, and nothing else changes. *)
Theorem C124_constant_partial : forall V (keep : nat -> V -> V) left_by_move m a b, a <> b ->
  fst (swap_const keep left_by_move m a b) = m a /\
  forall c, snd (swap_const keep left_by_move m a b) c = if Nat.eqb c a then keep a (m b) else m c.
Proof. exact const_right. Qed.
Print Assumptions C124_constant_partial.
Example C124_constant_case :
  let r := swap_const (fun _ v => v) (fun _ => 0) (fun c => 10 + c) 1 2 in (fst r, map (snd r) [0; 1; 2]) = (11, [10; 12; 12]).
Proof. vm_compute. reflexivity. Qed.
(** If the constant is the object itself then the object is left as moving leaves it. *)
Theorem C124_constant_self_lost : forall V (keep : nat -> V -> V) left_by_move m a, left_by_move (m a) <> m a ->
  snd (swap_const keep left_by_move m a a) a = left_by_move (m a) /\ snd (swap_const keep left_by_move m a a) a <> m a.
Proof. exact self_lost. Qed.
Print Assumptions C124_constant_self_lost.
Example C124_constant_self_case : snd (swap_const (fun _ v => v) (fun _ => 0) (fun c => 10 + c) 1 1) 1 = 0.
Proof. vm_compute. reflexivity. Qed.
