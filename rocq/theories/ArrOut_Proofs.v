(** Proofs about the output of arrays. *)
From Verif Require Import Base ArrOut_Model ArrOut_Spec.
Local Open Scope Z_scope.

Section Ind.
Variable P : item -> Prop.
Hypothesis H1 : forall t, P (One t).
Hypothesis H2 : forall l, Forall P l -> P (Many l).
Fixpoint item_ind2 (x : item) : P x :=
  match x with
  | One t => H1 t
  | Many l => H2 ((fix go (l : list item) : Forall P l :=
      match l with [] => Forall_nil P | x :: r => Forall_cons x (item_ind2 x) (go r) end) l)
  end.
End Ind.

Lemma loop_commas : forall f l i, array_loop f l (S i) = match l with [] => [] | _ => 44 :: commas (map f l) end.
Proof.
  intros f l. induction l as [|x l IH]; intros i; cbn [array_loop Nat.eqb]; [reflexivity|]. rewrite IH.
  destruct l as [|y l]; cbn [map commas app]; [now rewrite app_nil_r|]. reflexivity.
Qed.
Lemma show_many : forall l, show (Many l) = 91 :: commas (map show l) ++ [93].
Proof.
  intros [|x l]; cbn [show]; [reflexivity|]. cbn [array_loop Nat.eqb app]. rewrite loop_commas.
  destruct l as [|y l]; cbn [map commas]; [now rewrite app_nil_r|]. reflexivity.
Qed.

(** A text that ends here: nothing, a comma or a bracket follows. *)
Definition stops (r : list Z) : Prop := r = [] \/ exists c s, r = c :: s /\ (c = 44 \/ c = 93).
Lemma plain_unique : forall a b r s, Forall (fun c => c <> 44 /\ c <> 91 /\ c <> 93) a -> Forall (fun c => c <> 44 /\ c <> 91 /\ c <> 93) b ->
  stops r -> stops s -> a ++ r = b ++ s -> a = b /\ r = s.
Proof.
  induction a as [|x a IH]; intros [|y b] r s A B R S' E; cbn [app] in E; [auto| | |].
  - destruct (Forall_inv B) as (N1 & N2 & N3). destruct R as [->|(c & t & -> & [->| ->])]; [discriminate| |]; injection E; congruence.
  - destruct (Forall_inv A) as (N1 & N2 & N3). destruct S' as [->|(c & t & -> & [->| ->])]; [discriminate| |]; injection E; congruence.
  - injection E as -> E. inversion A; inversion B; subst. destruct (IH b r s) as [-> ->]; auto.
Qed.
Lemma first_char : forall x, plain_item x -> exists c t, show x = c :: t /\ c <> 44 /\ c <> 93.
Proof.
  intros x H. destruct H as [t [N F]|l _].
  - destruct t as [|c t]; [congruence|]. inversion F as [|? ? (N1 & N2 & N3) ?]; subst. exists c, t. auto.
  - eexists _, _. split; [cbn [show app]; reflexivity|]. split; discriminate.
Qed.
Lemma unique : forall x, plain_item x -> forall y r s, plain_item y -> stops r -> stops s -> show x ++ r = show y ++ s -> x = y /\ r = s.
Proof.
  induction x as [t|l IH] using item_ind2; intros Px [t'|l'] r s Py R S' E; inversion Px as [? [N F]|? Pl]; inversion Py as [? [N' F']|? Pl']; subst.
  - cbn [show] in E. destruct (plain_unique F F' R S' E) as [-> ->]. auto.
  - cbn [show] in E. destruct t as [|c t]; [congruence|]. cbn [app] in E. injection E as -> _. inversion F as [|? ? (? & ? & ?) ?]. congruence.
  - cbn [show] in E. destruct t' as [|c t]; [congruence|]. cbn [app] in E. injection E as <- _. inversion F' as [|? ? (? & ? & ?) ?]. congruence.
  - rewrite !show_many in E. cbn [app] in E. injection E as E. rewrite <- !app_assoc in E. cbn [app] in E.
    assert (Q : l = l' /\ r = s); [|destruct Q as [-> ->]; auto].
    clear Px Py. revert l' Pl' E. induction l as [|x l IHl]; intros [|y l'] Pl' E.
    + cbn [map commas app] in E. injection E as E. auto.
    + exfalso. destruct (first_char (Pl' y (or_introl eq_refl))) as (c & t & Ey & N1 & N2). cbn [map commas app] in E.
      destruct (map show l'); rewrite Ey in E; cbn [app] in E; injection E; congruence.
    + exfalso. destruct (first_char (Pl x (or_introl eq_refl))) as (c & t & Ex & N1 & N2). cbn [map commas app] in E.
      destruct (map show l); rewrite Ex in E; cbn [app] in E; injection E; congruence.
    + inversion IH as [|? ? Hx Hl]; subst.
      assert (Sx : forall (a : item) k q, exists c u, commas (map show (a :: k)) ++ 93 :: q = show a ++ c :: u /\ (c = 44 \/ c = 93) /\
        match k with [] => c = 93 /\ u = q | _ => c = 44 /\ u = commas (map show k) ++ 93 :: q end).
      { intros a [|b k] q; cbn [map commas]; [exists 93, q; auto|]. exists 44, (commas (map show (b :: k)) ++ 93 :: q).
        rewrite <- app_assoc. cbn [map commas app]. auto. }
      destruct (Sx x l r) as (c1 & u1 & Q1 & C1 & D1). destruct (Sx y l' s) as (c2 & u2 & Q2 & C2 & D2).
      rewrite Q1, Q2 in E.
      destruct (Hx (Pl x (or_introl eq_refl)) y (c1 :: u1) (c2 :: u2) (Pl' y (or_introl eq_refl))) as [-> Eu];
        [right; eauto|right; eauto|exact E|]. injection Eu as -> ->.
      destruct l as [|x2 l], l' as [|y2 l']; destruct D1 as [D1 E1], D2 as [D2 E2]; try congruence.
      * split; [reflexivity|congruence].
      * destruct (IHl Hl (fun z Hz => Pl z (or_intror Hz)) (y2 :: l') (fun z Hz => Pl' z (or_intror Hz))) as [-> ->]; [congruence|auto].
Qed.
Theorem readable : forall x y, plain_item x -> plain_item y -> show x = show y -> x = y.
Proof.
  intros x y Px Py E. apply (@unique x Px y [] [] Py); [left; reflexivity|left; reflexivity|]. rewrite E. reflexivity.
Qed.
