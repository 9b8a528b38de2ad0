(** Proofs about five-valued truth values. *)
From Verif Require Import Base Node_Model Lbool_Model Lbool_Spec.

(** Fields of the value of a formula. *)
Lemma unknown_spec rho f : is_unknown (lvalue rho f) = true <-> in_doubt rho f.
Proof.
  unfold in_doubt. induction f as [x|f IH|f IHf g IHg|f IHf g IHg|f IHf g IHg]; cbn [lvalue occurs].
  - split.
    + intros H. exists x. split; [reflexivity|]. destruct (rho x); try discriminate H; reflexivity.
    + intros (y & -> & ->). reflexivity.
  - exact IH.
  - cbn [land is_unknown]. rewrite Bool.orb_true_iff, IHf, IHg. firstorder.
  - cbn [lor is_unknown]. rewrite Bool.orb_true_iff, IHf, IHg. firstorder.
  - cbn [leq is_unknown]. rewrite Bool.orb_true_iff, IHf, IHg. firstorder.
Qed.
Lemma doubt_and rho f g : ~ in_doubt rho (FAnd f g) -> ~ in_doubt rho f /\ ~ in_doubt rho g.
Proof. unfold in_doubt; cbn [occurs]. firstorder. Qed.
Lemma told_spec rho f : ~ in_doubt rho f ->
  (is_true (lvalue rho f) = true <-> tells rho f true) /\ (is_false (lvalue rho f) = true <-> tells rho f false).
Proof.
  induction f as [x|f IH|f IHf g IHg|f IHf g IHg|f IHf g IHg]; intros D; cbn [lvalue tells].
  - assert (rho x <> VUnknown) by (intros E; apply D; exists x; split; [reflexivity|exact E]).
    destruct (rho x); cbn; intuition congruence.
  - destruct (IH D). cbn [lnot is_true is_false negb]. tauto.
  - destruct (@doubt_and rho f g D) as [F G]. destruct (IHf F), (IHg G). cbn [land is_true is_false].
    rewrite Bool.andb_true_iff, Bool.orb_true_iff. tauto.
  - destruct (@doubt_and rho f g D) as [F G]. destruct (IHf F), (IHg G). cbn [lor is_true is_false].
    rewrite Bool.andb_true_iff, Bool.orb_true_iff. tauto.
  - destruct (@doubt_and rho f g D) as [F G]. destruct (IHf F) as [A B], (IHg G) as [C E]. unfold leq, of_bool. cbn [is_true is_false].
    assert (S0 : Bool.eqb (is_true (lvalue rho f)) (is_true (lvalue rho g)) && Bool.eqb (is_false (lvalue rho f)) (is_false (lvalue rho g)) = true <->
      (tells rho f true <-> tells rho g true) /\ (tells rho f false <-> tells rho g false)).
    { rewrite Bool.andb_true_iff, !Bool.eqb_true_iff, <- A, <- B, <- C, <- E.
      destruct (is_true (lvalue rho f)), (is_true (lvalue rho g)), (is_false (lvalue rho f)), (is_false (lvalue rho g)); intuition congruence. }
    split; [exact S0|]. rewrite <- S0. destruct (_ && _); cbn; intuition congruence.
Qed.
Lemma seen rho f :
  (to_bool (lvalue rho f) = true <-> ~ in_doubt rho f /\ tells rho f true) /\
  (to_bool (lvalue rho (FNot f)) = true <-> ~ in_doubt rho f /\ tells rho f false).
Proof.
  cbn [lvalue]. unfold to_bool, lnot. cbn [is_true is_unknown].
  rewrite !Bool.andb_true_iff, Bool.negb_true_iff.
  pose proof (unknown_spec rho f) as U. pose proof (@told_spec rho f) as T.
  destruct (is_unknown (lvalue rho f)).
  - assert (in_doubt rho f) by now apply U. intuition congruence.
  - assert (N : ~ in_doubt rho f) by (intros H; apply U in H; discriminate). destruct (T N). intuition.
Qed.
Lemma plain_right (rho : nat -> bool) f :
  lvalue (fun x => if rho x then VTrue else VFalse) f = of_bool (plain rho f).
Proof.
  induction f as [x|f IH|f IHf g IHg|f IHf g IHg|f IHf g IHg]; cbn [lvalue plain].
  - now destruct (rho x).
  - rewrite IH. now destruct (plain rho f).
  - rewrite IHf, IHg. now destruct (plain rho f), (plain rho g).
  - rewrite IHf, IHg. now destruct (plain rho f), (plain rho g).
  - rewrite IHf, IHg. now destruct (plain rho f), (plain rho g).
Qed.
Lemma plain_seen (rho : nat -> bool) f :
  to_bool (lvalue (fun x => if rho x then VTrue else VFalse) f) = plain rho f /\
  to_bool (lvalue (fun x => if rho x then VTrue else VFalse) (FNot f)) = negb (plain rho f).
Proof. cbn [lvalue]. rewrite plain_right. now destruct (plain rho f). Qed.
Lemma tells_grow rho rho' f : no_equality f ->
  (forall x b, occurs x f -> speaks (rho x) b -> speaks (rho' x) b) -> forall b, tells rho f b -> tells rho' f b.
Proof.
  induction f as [x|f IH|f IHf g IHg|f IHf g IHg|f IHf g IHg]; cbn [no_equality tells occurs]; intros E H b.
  - now apply H.
  - now apply IH.
  - destruct E as [Ef Eg]. assert (F := IHf Ef (fun x b0 O => H x b0 (or_introl O))). assert (G := IHg Eg (fun x b0 O => H x b0 (or_intror O))).
    destruct b; intuition.
  - destruct E as [Ef Eg]. assert (F := IHf Ef (fun x b0 O => H x b0 (or_introl O))). assert (G := IHg Eg (fun x b0 O => H x b0 (or_intror O))).
    destruct b; intuition.
  - contradiction.
Qed.
Lemma grow rho rho' f : no_equality f ->
  (forall x, occurs x f -> rho' x <> VUnknown /\ forall b, speaks (rho x) b -> speaks (rho' x) b) ->
  (to_bool (lvalue rho f) = true -> to_bool (lvalue rho' f) = true) /\
  (to_bool (lvalue rho (FNot f)) = true -> to_bool (lvalue rho' (FNot f)) = true).
Proof.
  intros E H. destruct (seen rho f) as [A B], (seen rho' f) as [C D].
  assert (N : ~ in_doubt rho' f). { intros (x & O & U). now apply (H x O). }
  assert (G := @tells_grow rho rho' f E (fun x b O => proj2 (H x O) b)).
  rewrite A, B, C, D. intuition.
Qed.
Lemma same_in_place rho f g : (to_bool (lvalue rho (FEq f g)) = true) ->
  to_bool (lvalue rho f) = to_bool (lvalue rho g) /\ to_bool (lvalue rho (FNot f)) = to_bool (lvalue rho (FNot g)).
Proof.
  cbn [lvalue]. destruct (lvalue rho f) as [[] [] []], (lvalue rho g) as [[] [] []]; cbn; intuition congruence.
Qed.
Lemma equal_decided rho f g : ~ in_doubt rho (FEq f g) ->
  to_bool (lvalue rho (FNot (FEq f g))) = negb (to_bool (lvalue rho (FEq f g))).
Proof.
  intros D. pose proof (unknown_spec rho (FEq f g)) as U. cbn [lvalue] in *.
  destruct (lvalue rho f) as [[] [] []], (lvalue rho g) as [[] [] []]; cbn in *; try reflexivity; exfalso; apply D; now apply U.
Qed.
