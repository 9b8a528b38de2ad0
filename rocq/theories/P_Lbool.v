(** C121: truth values between true and false. *)
From Verif Require Import Base Node_Model Lbool_Model Lbool_Spec Lbool_Proofs.

(** For every formula and all values of its variables: [if] takes the branch exactly
    if nothing in the formula is unknown and the formula speaks for true; with [!] in
    front it does so exactly if nothing is unknown and the formula speaks for false. *)
Theorem C121_seen : forall rho f,
  (to_bool (lvalue rho f) = true <-> ~ in_doubt rho f /\ tells rho f true) /\
  (to_bool (lvalue rho (FNot f)) = true <-> ~ in_doubt rho f /\ tells rho f false).
Proof. exact seen. Qed.
Print Assumptions C121_seen.
(** either && !neither, either == either, unknown || true. *)
Example C121_seen_case :
  let rho := fun x => match x with 0 => VEither | 1 => VNeither | 2 => VUnknown | _ => VTrue end in
  to_bool (lvalue rho (FAnd (FVar 0) (FVar 3))) = true /\ to_bool (lvalue rho (FNot (FAnd (FVar 0) (FVar 3)))) = true /\
  to_bool (lvalue rho (FAnd (FVar 0) (FNot (FVar 1)))) = false /\ to_bool (lvalue rho (FNot (FAnd (FVar 0) (FNot (FVar 1))))) = true /\
  to_bool (lvalue rho (FEq (FVar 0) (FVar 0))) = true /\ to_bool (lvalue rho (FOr (FVar 2) (FVar 3))) = false /\
  to_bool (lvalue rho (FEq (FVar 2) (FVar 2))) = false /\ to_bool (lvalue rho (FNot (FEq (FVar 2) (FVar 2)))) = false.
Proof. vm_compute. repeat split. Qed.

(** If all variables are ordinary bools, the formula is what it is on bools. *)
Theorem C121_bools : forall (rho : nat -> bool) f,
  to_bool (lvalue (fun x => if rho x then VTrue else VFalse) f) = plain rho f /\
  to_bool (lvalue (fun x => if rho x then VTrue else VFalse) (FNot f)) = negb (plain rho f).
Proof. exact plain_seen. Qed.
Print Assumptions C121_bools.
Example C121_bools_case :
  let rho := fun x => match x with 0 => true | _ => false end in
  plain rho (FOr (FAnd (FVar 0) (FVar 1)) (FEq (FVar 1) (FVar 2))) = true /\
  to_bool (lvalue (fun x => if rho x then VTrue else VFalse) (FOr (FAnd (FVar 0) (FVar 1)) (FEq (FVar 1) (FVar 2)))) = true.
Proof. vm_compute. repeat split. Qed.

(** In a formula without equality, values that speak for more never take an answer
    away: what held with [neither] still holds with [true], and what held with
    [true] still holds with [either]. *)
Theorem C121_more : forall rho rho' f, no_equality f ->
  (forall x, occurs x f -> rho' x <> VUnknown /\ forall b, speaks (rho x) b -> speaks (rho' x) b) ->
  (to_bool (lvalue rho f) = true -> to_bool (lvalue rho' f) = true) /\
  (to_bool (lvalue rho (FNot f)) = true -> to_bool (lvalue rho' (FNot f)) = true).
Proof. exact grow. Qed.
Print Assumptions C121_more.
Example C121_more_case :
  let f := FOr (FVar 0) (FAnd (FVar 1) (FNot (FVar 2))) in
  let rho := fun x => match x with 0 => VNeither | 1 => VTrue | _ => VFalse end in
  let rho' := fun x => match x with 0 => VTrue | _ => VEither end in
  no_equality f /\ (forall x, occurs x f -> rho' x <> VUnknown /\ forall b, speaks (rho x) b -> speaks (rho' x) b) /\
  to_bool (lvalue rho f) = true /\ to_bool (lvalue rho' f) = true.
Proof.
  split; [cbn; tauto|]. split; [|vm_compute; now split].
  intros x O. cbn in O. destruct O as [-> | [-> | ->]]; (split; [discriminate|]); cbn; tauto.
Qed.

(** Values that [==] finds equal do the same in [if], with and without [!]; and
    unless something is unknown, [==] says true or false and nothing between. *)
Theorem C121_equal : forall rho f g,
  (to_bool (lvalue rho (FEq f g)) = true ->
    to_bool (lvalue rho f) = to_bool (lvalue rho g) /\ to_bool (lvalue rho (FNot f)) = to_bool (lvalue rho (FNot g))) /\
  (~ in_doubt rho (FEq f g) -> to_bool (lvalue rho (FNot (FEq f g))) = negb (to_bool (lvalue rho (FEq f g)))).
Proof. intros rho f g. exact (conj (@same_in_place rho f g) (@equal_decided rho f g)). Qed.
Print Assumptions C121_equal.
Example C121_equal_case :
  let rho := fun x => match x with 0 => VEither | 1 => VNeither | _ => VTrue end in
  to_bool (lvalue rho (FEq (FNot (FVar 0)) (FVar 0))) = true /\ to_bool (lvalue rho (FNot (FEq (FNot (FVar 0)) (FVar 0)))) = false /\
  to_bool (lvalue rho (FEq (FVar 0) (FVar 2))) = false /\ to_bool (lvalue rho (FNot (FEq (FVar 0) (FVar 2)))) = true.
Proof. vm_compute. repeat split. Qed.
