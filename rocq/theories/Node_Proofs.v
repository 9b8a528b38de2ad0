(** Proofs for C71. *)
From Verif Require Import Base.
From Verif Require Import Node_Model Node_Spec.

Lemma land_bool : forall a b, land (of_bool a) (of_bool b) = of_bool (a && b).
Proof. intros [] []; reflexivity. Qed.
Lemma both_bool : forall a b, both (Some (of_bool a)) (Some (of_bool b)) = Some (of_bool (a && b)).
Proof. intros. cbn [both]. f_equal. apply land_bool. Qed.
Lemma land_comm : forall a b, land a b = land b a.
Proof. intros [[] [] []] [[] [] []]; reflexivity. Qed.
Lemma both_comm : forall a b, both a b = both b a.
Proof. intros [a|] [b|]; cbn [both]; try reflexivity. f_equal. apply land_comm. Qed.
Lemma ask_comm : forall la lb x y, ask la lb x y = ask lb la y x.
Proof.
  intros. unfold ask. destruct (Z.ltb_spec la lb), (Z.ltb_spec lb la); try lia; try reflexivity. apply both_comm.
Qed.

Lemma as_bool : forall n, to_bool (truth n) = true_node n /\ to_bool (lnot (truth n)) = match n with NNil => true | _ => false end.
Proof. intros n. destruct n; vm_compute; auto. Qed.

Lemma functions_right : forall comparable teq feq h a b f g, h a = NFun f -> h b = NFun g ->
  exists r, node_eq comparable teq feq h a b = Some r /\
    (is_unknown r = true <-> feq f g = None \/ feq g f = None) /\
    (to_bool r = true <-> feq f g = Some true /\ feq g f = Some true).
Proof.
  intros comparable teq feq h a b f g Ea Eb. unfold node_eq, equal_with, was_equal, ask. rewrite Ea, Eb.
  change (level (NFun g) <? level (NFun f))%Z with false. change (level (NFun f) <? level (NFun g))%Z with false.
  cbn [same_info negb both]. eexists. split; [reflexivity|].
  destruct (feq f g) as [[|]|], (feq g f) as [[|]|]; vm_compute; intuition discriminate.
Qed.

Section Types.
Variable comparable : nat -> bool.
Variable teq : nat -> Z -> Z -> bool.
Variable feq : nat -> nat -> option bool.
Variable hashable : nat -> bool.
Variable thash : nat -> Z -> Z.
Variable ahash : nat -> Z.

Lemma eq_symm : forall h a b, eq_with comparable teq h a b = eq_with comparable teq h b a.
Proof. intros. unfold eq_with. apply ask_comm. Qed.
Lemma equal_symm : forall h a b, equal_with comparable teq feq h a b = equal_with comparable teq feq h b a.
Proof. intros. unfold equal_with. apply ask_comm. Qed.

Lemma neq_addr : forall (h : store) a b, h a <> h b -> Nat.eqb a b = false.
Proof. intros h a b N. apply Nat.eqb_neq. intros ->. auto. Qed.

Lemma eq_right : forall h a b, ~ mixed comparable h a b ->
  eq_with comparable teq h a b = Some (of_bool (same_node comparable teq h a b)).
Proof.
  intros h a b M. unfold eq_with, same_node, was_eq.
  destruct (h a) as [| | |ty v|k x y|f] eqn:Ea, (h b) as [| | |ty' v'|k' x' y'|f'] eqn:Eb;
    try (rewrite (Nat.eqb_sym b a); unfold ask; cbn;
         try (destruct (comparable ty)); try (destruct (comparable ty')); cbn;
         rewrite ?(@neq_addr h a b) by congruence; try reflexivity;
         destruct (Nat.eqb a b); reflexivity).
  unfold ask. cbn [level]. rewrite Z.ltb_irrefl. cbn [same_info negb].
  rewrite (Nat.eqb_sym ty' ty), (Nat.eqb_sym b a).
  destruct (Nat.eqb_spec ty ty') as [->|N].
  - destruct (comparable ty'); cbn [orb]; rewrite both_bool; [reflexivity|].
    destruct (Nat.eqb a b); reflexivity.
  - destruct (comparable ty || comparable ty') eqn:C.
    + exfalso. apply M. exists ty, v, ty', v'. auto.
    + apply orb_false_iff in C as [-> ->]. rewrite both_bool. destruct (Nat.eqb a b); reflexivity.
Qed.

Lemma mixed_eq : forall h a b, mixed comparable h a b -> eq_with comparable teq h a b = None.
Proof.
  intros h a b (ty & v & ty' & v' & Ea & Eb & N & C).
  unfold eq_with, was_eq. rewrite Ea, Eb. unfold ask. cbn [level]. rewrite Z.ltb_irrefl.
  cbn [same_info negb]. rewrite (Nat.eqb_sym ty' ty). apply Nat.eqb_neq in N. rewrite N.
  destruct (comparable ty), (comparable ty'); try discriminate C; reflexivity.
Qed.
Lemma mixed_undefined : forall h a b, mixed comparable h a b ->
  eq_with comparable teq h a b = None /\ equal_with comparable teq feq h a b = None.
Proof.
  intros h a b M. pose proof (mixed_eq M) as E. split; [exact E|].
  destruct M as (ty & v & ty' & v' & Ea & Eb & N & C).
  unfold eq_with in E. unfold equal_with, was_equal. rewrite Ea, Eb in *. exact E.
Qed.

Lemma mixed_dec : forall h a b, mixed comparable h a b \/ ~ mixed comparable h a b.
Proof.
  intros. destruct (h a) as [| | |ty v|k x y|f] eqn:Ea; try (right; intros (t1 & v1 & t2 & v2 & A & B & _); congruence).
  destruct (h b) as [| | |ty' v'|k' x' y'|f'] eqn:Eb; try (right; intros (t1 & v1 & t2 & v2 & A & B & _); congruence).
  destruct (Nat.eq_dec ty ty') as [->|N]; [right; intros (t1 & v1 & t2 & v2 & A & B & D & _); congruence|].
  destruct (comparable ty || comparable ty') eqn:C.
  - left. exists ty, v, ty', v'. auto.
  - right. intros (t1 & v1 & t2 & v2 & A & B & D & E). rewrite A in Ea. rewrite B in Eb. injection Ea as -> ->. injection Eb as -> ->. congruence.
Qed.

Definition eq_true h a b := eq_with comparable teq h a b = Some (of_bool true).

Lemma eq_true_iff : forall h a b, eq_true h a b <-> ~ mixed comparable h a b /\ same_node comparable teq h a b = true.
Proof.
  intros h a b. unfold eq_true. split.
  - intros H. destruct (mixed_dec h a b) as [M|M]; [rewrite (mixed_eq M) in H; discriminate|].
    split; [exact M|]. rewrite eq_right in H by exact M. destruct (same_node comparable teq h a b); [reflexivity|discriminate].
  - intros (M & S1). rewrite eq_right by exact M. rewrite S1. reflexivity.
Qed.

Lemma same_shape : forall h a b, same_node comparable teq h a b = true ->
  a = b \/ exists ty v v', h a = NBox ty v /\ h b = NBox ty v' /\ comparable ty = true /\ teq ty v v' = true /\ teq ty v' v = true.
Proof.
  intros h a b. unfold same_node.
  destruct (h a) as [| | |ty v|k x y|f] eqn:Ea, (h b) as [| | |ty' v'|k' x' y'|f'] eqn:Eb;
    try (intros E; left; apply Nat.eqb_eq; exact E).
  destruct (comparable ty || comparable ty') eqn:C; [|intros E; left; apply Nat.eqb_eq; exact E].
  rewrite !andb_true_iff, Nat.eqb_eq. intros ((<- & T1) & T2). right. exists ty, v, v'.
  rewrite orb_diag in C. auto.
Qed.

Lemma eq_refl_node : (forall ty v, teq ty v v = true) -> forall h a, eq_true h a a.
Proof.
  intros R h a. apply eq_true_iff. split; [intros (t1 & v1 & t2 & v2 & A & B & D & _); congruence|].
  unfold same_node. destruct (h a); try apply Nat.eqb_refl. rewrite orb_diag.
  destruct (comparable ty); [rewrite Nat.eqb_refl, R; reflexivity|apply Nat.eqb_refl].
Qed.

Lemma eq_trans_node : (forall ty u v w, teq ty u v = true -> teq ty v w = true -> teq ty u w = true) ->
  forall h a b c, eq_true h a b -> eq_true h b c -> eq_true h a c.
Proof.
  intros T h a b c H1 H2. pose proof H1 as K1. pose proof H2 as K2.
  apply eq_true_iff in H1 as (M1 & S1). apply eq_true_iff in H2 as (M2 & S2).
  destruct (same_shape S1) as [->|(ty & v & v' & A & B & C & T1 & T2)]; [exact K2|].
  destruct (same_shape S2) as [->|(ty2 & u & u' & A2 & B2 & C2 & T3 & T4)]; [exact K1|].
  rewrite B in A2. injection A2 as <- <-.
  apply eq_true_iff. split.
  - intros (t1 & v1 & t2 & v2 & X & Y & D & _). congruence.
  - unfold same_node. rewrite A, B2, C. cbn [orb]. rewrite Nat.eqb_refl.
    rewrite (T _ _ _ _ T1 T3), (T _ _ _ _ T4 T2). reflexivity.
Qed.

Lemma hash_right : (forall ty, comparable ty = true -> hashable ty = true) ->
  (forall ty u v, teq ty u v = true -> thash ty u = thash ty v) ->
  forall h a b, eq_true h a b -> node_hash hashable thash ahash h a = node_hash hashable thash ahash h b.
Proof.
  intros HC HT h a b H. apply eq_true_iff in H as (_ & S1).
  destruct (same_shape S1) as [->|(ty & v & v' & A & B & C & T1 & T2)]; [reflexivity|].
  unfold node_hash. rewrite A, B, (HC _ C). apply HT, T1.
Qed.

Lemma pair_right : forall h a b k x y k' x' y', h a = NPair k x y -> h b = NPair k' x' y' ->
  (k = k' -> ~ mixed comparable h x x' /\ ~ mixed comparable h y y') ->
  equal_with comparable teq feq h a b =
  Some (of_bool (Nat.eqb k k' && same_node comparable teq h x x' && same_node comparable teq h y y')).
Proof.
  intros h a b k x y k' x' y' Ea Eb M. unfold equal_with, was_equal. rewrite Ea, Eb. unfold ask. cbn [level].
  rewrite Z.ltb_irrefl. cbn [same_info]. rewrite (Nat.eqb_sym k' k). destruct (Nat.eqb_spec k k') as [E|E]; [|reflexivity].
  cbn [negb andb]. destruct (M E) as (M1 & M2).
  rewrite (eq_symm h x' x), (eq_symm h y' y). rewrite (eq_right M1), (eq_right M2), !both_bool.
  rewrite andb_diag. reflexivity.
Qed.

Lemma same_self : (forall ty v, teq ty v v = true) -> forall h a, same_node comparable teq h a a = true.
Proof. intros R h a. pose proof (eq_refl_node R h a) as H. apply eq_true_iff in H. apply H. Qed.

Lemma not_mixed_left : forall h a b, (forall ty v, h a <> NBox ty v) -> ~ mixed comparable h a b.
Proof. intros h a b N (t1 & v1 & t2 & v2 & X & _). exact (N _ _ X). Qed.

Lemma one_element : forall h a b x x' ca cb, (forall p q, h p = NNil -> h q = NNil -> p = q) ->
  is_list h a [x] ca -> is_list h b [x'] cb -> ~ mixed comparable h x x' ->
  equal_with comparable teq feq h a b = Some (of_bool (same_lists comparable teq h [x] [x'])).
Proof.
  intros h a b x x' ca cb U La Lb M. inversion La as [|? ? na ? ? Ea Ra]; subst. inversion Lb as [|? ? nb ? ? Eb Rb]; subst.
  inversion Ra as [? Na|]; subst. inversion Rb as [? Nb|]; subst.
  assert (na = nb) by (apply U; assumption). subst nb.
  rewrite (@pair_right _ _ _ _ _ _ _ _ _ Ea Eb); [|intros _; split; [exact M|apply not_mixed_left; intros; congruence]].
  f_equal. f_equal. unfold same_lists. cbn [length combine forallb fst snd Nat.eqb andb].
  f_equal. unfold same_node. rewrite Na. apply Nat.eqb_refl.
Qed.

Lemma lists_wrong : forall h a b x y l x' y' l' ca cb,
  is_list h a (x :: y :: l) ca -> is_list h b (x' :: y' :: l') cb -> (forall p, In p ca -> ~ In p cb) ->
  ~ mixed comparable h x x' ->
  equal_with comparable teq feq h a b = Some (of_bool false).
Proof.
  intros h a b x y l x' y' l' ca cb La Lb D M.
  inversion La as [|? ? na ? ? Ea Ra]; subst. inversion Lb as [|? ? nb ? ? Eb Rb]; subst.
  inversion Ra as [|? ? na2 ? ? Ea2 Ra2]; subst. inversion Rb as [|? ? nb2 ? ? Eb2 Rb2]; subst.
  rewrite (@pair_right _ _ _ _ _ _ _ _ _ Ea Eb); [|intros _; split; [exact M|apply not_mixed_left; intros; congruence]].
  replace (same_node comparable teq h na nb) with false; [rewrite andb_false_r; reflexivity|].
  unfold same_node. rewrite Ea2. symmetry. apply Nat.eqb_neq. intros ->.
  refine (D nb _ _); right; left; reflexivity.
Qed.

Lemma list_itself : (forall ty v, teq ty v v = true) -> forall h a x l c, is_list h a (x :: l) c ->
  equal_with comparable teq feq h a a = Some (of_bool true).
Proof.
  intros R h a x l c La. inversion La as [|? ? na ? ? Ea Ra]; subst.
  assert (forall p, ~ mixed comparable h p p) by (intros p (t1 & v1 & t2 & v2 & X & Y & N & _); congruence).
  rewrite (@pair_right _ _ _ _ _ _ _ _ _ Ea Ea) by auto.
  rewrite Nat.eqb_refl, !same_self by exact R. reflexivity.
Qed.

Lemma truth_right : forall h t n b, h t = NT -> h n = NNil -> h b <> NVoid ->
  equal_with comparable teq feq h t b = Some (of_bool (true_node (h b))) /\
  equal_with comparable teq feq h n b = Some (of_bool (negb (true_node (h b)))).
Proof.
  intros h t n b Et En Nb. unfold equal_with, was_equal. rewrite Et, En. unfold ask.
  destruct (h b); try contradiction; vm_compute; auto.
Qed.

Lemma void_right : forall h v b, h v = NVoid -> (forall p q, h p = NVoid -> h q = NVoid -> p = q) ->
  equal_with comparable teq feq h v b = Some (if Nat.eqb v b then either else neither).
Proof.
  intros h v b Ev U. unfold equal_with.
  assert (E : eq_with comparable teq h b v = Some (of_bool (Nat.eqb b v))).
  { rewrite eq_right; [unfold same_node; rewrite Ev; destruct (h b); reflexivity|].
    intros (t1 & v1 & t2 & v2 & X & Y & _); congruence. }
  assert (W : was_equal comparable teq feq h v b = Some (if Nat.eqb v b then either else neither)).
  { unfold was_equal. rewrite Ev, E, (Nat.eqb_sym b v). destruct (Nat.eqb v b); reflexivity. }
  rewrite W. rewrite Ev. destruct (h b) eqn:Eb; try reflexivity.
  assert (v = b) by (apply U; assumption). subst b. rewrite Nat.eqb_refl in *. cbn [level ask]. unfold ask.
  rewrite Z.ltb_irrefl. unfold was_equal. rewrite Ev, E. reflexivity.
Qed.
End Types.
