(** Proofs about the loader of package symbols. *)
From Verif Require Import Base Lib_Model Lib_Spec Lib_Proofs Psl_Model Psl_Spec.
From Coq Require Import String.
Local Open Scope Z_scope.
Local Open Scope list_scope.
Local Notation length := List.length.

Lemma path_spec : forall there, library_file there (loader_path there).
Proof. intros there. unfold library_file, loader_path, runtime_path. destruct (there _); [left|right]; split; reflexivity. Qed.
Lemma library_file_unique : forall there p, library_file there p -> p = loader_path there.
Proof.
  intros there p H. destruct (path_spec there) as [[A1 A2]|[A1 A2]]; destruct H as [[B1 B2]|[B1 B2]]; congruence.
Qed.

Section System.
Variable file : Z -> option Z.
Variable sym : Z -> Z -> option Z.
Hypothesis OK : proper file.

(** What adding and removing pointers changes. *)
Lemma add_keeps : forall s i s1, add_ref s i = LFine s1 -> vars s1 = vars s /\
  forall j n h c, nth_error (infos s) j = Some (Live n h c) ->
  exists c', nth_error (infos s1) j = Some (Live n h c').
Proof.
  intros s [k|] s1 E; cbn [add_ref] in E; [|injection E as <-; eauto].
  destruct (nth_error (infos s) k) as [[n0 h0 c0|]|] eqn:Ek; try discriminate. injection E as <-. cbn [vars infos].
  split; [reflexivity|]. intros j n h c Ej. destruct (Nat.eq_dec k j) as [->|Ne].
  - rewrite Ek in Ej. injection Ej as -> -> ->. rewrite (@set_at_same _ _ _ _ _ Ek). eauto.
  - rewrite set_at_other by exact Ne. eauto.
Qed.
Lemma drop_keeps : forall s i s1, drop_ref s i = LFine s1 -> vars s1 = vars s /\
  forall j n h c, nth_error (infos s) j = Some (Live n h c) ->
  nth_error (infos s1) j = Some Freed \/ exists c', nth_error (infos s1) j = Some (Live n h c').
Proof.
  intros s [k|] s1 E; cbn [drop_ref] in E; [|injection E as <-; eauto].
  destruct (nth_error (infos s) k) as [[n0 h0 c0|]|] eqn:Ek; try discriminate.
  assert (D : (exists c', infos s1 = set_at (infos s) k (Live n0 h0 c')) \/ infos s1 = set_at (infos s) k Freed).
  { destruct c0 as [|[|c0]]; cbn beta iota in E; [right|right|left; injection E as <-; eexists; reflexivity];
      (destruct (close (opened s) h0); [|discriminate]; cbn [lbind] in E; injection E as <-; reflexivity). }
  split. { destruct c0 as [|[|c0]]; cbn beta iota in E; try (destruct (close (opened s) h0); [|discriminate]; cbn [lbind] in E); injection E as <-; reflexivity. }
  intros j n h c Ej. destruct (Nat.eq_dec k j) as [->|Ne].
  - rewrite Ek in Ej. injection Ej as -> -> ->. destruct D as [[c' ->]| ->]; rewrite (@set_at_same _ _ _ _ _ Ek); eauto.
  - destruct D as [[c' ->]| ->]; rewrite set_at_other by exact Ne; eauto.
Qed.

(** Variables stay until they are ended; objects keep their names and handles. *)
Definition keeps (s s' : lstate) (y : nat) : Prop :=
  (forall v, nth_error (vars s) y = Some v -> nth_error (vars s') y = Some v) /\
  (forall j n h c, nth_error (infos s) j = Some (Live n h c) ->
    nth_error (infos s') j = Some Freed \/ exists c', nth_error (infos s') j = Some (Live n h c')).
Lemma snoc_keeps : forall A (l : list A) x y v, nth_error l y = Some v -> nth_error (l ++ [x]) y = Some v.
Proof. intros A l x y v E. rewrite nth_error_app1; [exact E|]. apply nth_error_Some. congruence. Qed.
Lemma step_keeps : forall s o s' b y, o <> ODrop y -> lstep file sym s o = LFine (s', b) -> keeps s s' y.
Proof.
  intros s o s' b y N E.
  assert (Id : forall A B (x y : A) (u w : B), LFine (x, u) = LFine (y, w) -> x = y) by congruence.
  assert (Same : keeps s s y) by (split; eauto).
  assert (New : forall i s1 v, add_ref s i = LFine s1 -> keeps s (new_var s1 v) y).
  { intros i s1 v E1. destruct (@add_keeps s i s1 E1) as [V I]. split; cbn [new_var vars infos].
    - intros w Ew. rewrite V. apply snoc_keeps, Ew.
    - intros j n h c Ej. right. eauto. }
  destruct o as [n| |x|x|x|x n|x|x|x]; cbn [lstep] in E.
  - apply Id in E. subst s'. split; destruct (file n); cbn [vars infos]; intros; try (apply snoc_keeps; assumption);
      right; eexists; apply snoc_keeps; eassumption.
  - apply Id in E. subst s'. apply (New None). reflexivity.
  - destruct (nth_error (vars s) x) as [[i|i n a|]|]; try (apply Id in E; subst s'; exact Same);
      (destruct (add_ref s i) as [s1|] eqn:E1; [|discriminate]; cbn [lbind] in E; apply Id in E; subst s'; exact (New i _ _ E1)).
  - destruct (nth_error (vars s) x) as [[i|i n a|]|]; try (apply Id in E; subst s'; exact Same);
      (destruct (drop_ref s i) as [s1|] eqn:E1; [|discriminate]; cbn [lbind] in E; apply Id in E; subst s';
       destruct (@drop_keeps s i s1 E1) as [V I]; split; cbn [vars infos]; [|exact I];
       intros v Ev; rewrite V, set_at_other by congruence; exact Ev).
  - destruct (nth_error (vars s) x) as [[i|i n a|]|]; try (apply Id in E; subst s'; exact Same).
    destruct (handle_of s i); [|discriminate]. cbn [lbind] in E. apply Id in E. subst s'. exact Same.
  - destruct (nth_error (vars s) x) as [[i|i n' a|]|]; try (apply Id in E; subst s'; exact Same).
    destruct (handle_of s i) as [h|]; [|discriminate]. cbn [lbind] in E. destruct (sym h n); [|discriminate].
    destruct (add_ref s i) as [s1|] eqn:E1; [|discriminate]. cbn [lbind] in E. apply Id in E. subst s'. exact (New i _ _ E1).
  - destruct (nth_error (vars s) x) as [[i|i n a|]|]; try (apply Id in E; subst s'; exact Same).
    destruct (handle_of s i) as [h|]; [|discriminate]. cbn [lbind] in E.
    destruct (h =? 0); [|destruct (opened s h); [discriminate|]]; apply Id in E; subst s'; exact Same.
  - destruct (nth_error (vars s) x) as [[i|i n a|]|]; apply Id in E; subst s'; exact Same.
  - destruct (nth_error (vars s) x) as [[i|i n a|]|]; try (apply Id in E; subst s'; exact Same).
    destruct (add_ref s i) as [s1|] eqn:E1; [|discriminate]. cbn [lbind] in E. apply Id in E. subst s'. exact (New i _ _ E1).
Qed.
Lemma freed_stays : forall s o s' b j, lstep file sym s o = LFine (s', b) ->
  nth_error (infos s) j = Some Freed -> nth_error (infos s') j = Some Freed.
Proof.
  intros s o s' b j E Ej.
  assert (Id : forall A B (x y : A) (u w : B), LFine (x, u) = LFine (y, w) -> x = y) by congruence.
  assert (Add : forall i s1, add_ref s i = LFine s1 -> nth_error (infos s1) j = Some Freed).
  { intros [k|] s1 E1; cbn [add_ref] in E1; [|now injection E1 as <-].
    destruct (nth_error (infos s) k) as [[n0 h0 c0|]|] eqn:Ek; try discriminate. injection E1 as <-. cbn [infos].
    rewrite set_at_other; [exact Ej|]. congruence. }
  assert (Drp : forall i s1, drop_ref s i = LFine s1 -> nth_error (infos s1) j = Some Freed).
  { intros [k|] s1 E1; cbn [drop_ref] in E1; [|now injection E1 as <-].
    destruct (nth_error (infos s) k) as [[n0 h0 c0|]|] eqn:Ek; try discriminate.
    destruct c0 as [|[|c0]]; cbn beta iota in E1; try (destruct (close (opened s) h0); [|discriminate]; cbn [lbind] in E1); injection E1 as <-;
      cbn [infos]; (rewrite set_at_other; [exact Ej|congruence]). }
  destruct o as [n| |x|x|x|x n|x|x|x]; cbn [lstep] in E.
  - apply Id in E. subst s'. destruct (file n); cbn [infos]; apply snoc_keeps, Ej.
  - apply Id in E. subst s'. exact Ej.
  - destruct (nth_error (vars s) x) as [[i|i n a|]|]; try (apply Id in E; subst s'; exact Ej);
      (destruct (add_ref s i) as [s1|] eqn:E1; [|discriminate]; cbn [lbind] in E; apply Id in E; subst s'; exact (Add i _ E1)).
  - destruct (nth_error (vars s) x) as [[i|i n a|]|]; try (apply Id in E; subst s'; exact Ej);
      (destruct (drop_ref s i) as [s1|] eqn:E1; [|discriminate]; cbn [lbind] in E; apply Id in E; subst s'; exact (Drp i _ E1)).
  - destruct (nth_error (vars s) x) as [[i|i n a|]|]; try (apply Id in E; subst s'; exact Ej).
    destruct (handle_of s i); [|discriminate]. cbn [lbind] in E. apply Id in E. subst s'. exact Ej.
  - destruct (nth_error (vars s) x) as [[i|i n' a|]|]; try (apply Id in E; subst s'; exact Ej).
    destruct (handle_of s i) as [h|]; [|discriminate]. cbn [lbind] in E. destruct (sym h n); [|discriminate].
    destruct (add_ref s i) as [s1|] eqn:E1; [|discriminate]. cbn [lbind] in E. apply Id in E. subst s'. exact (Add i _ E1).
  - destruct (nth_error (vars s) x) as [[i|i n a|]|]; try (apply Id in E; subst s'; exact Ej).
    destruct (handle_of s i) as [h|]; [|discriminate]. cbn [lbind] in E.
    destruct (h =? 0); [|destruct (opened s h); [discriminate|]]; apply Id in E; subst s'; exact Ej.
  - destruct (nth_error (vars s) x) as [[i|i n a|]|]; apply Id in E; subst s'; exact Ej.
  - destruct (nth_error (vars s) x) as [[i|i n a|]|]; try (apply Id in E; subst s'; exact Ej).
    destruct (add_ref s i) as [s1|] eqn:E1; [|discriminate]. cbn [lbind] in E. apply Id in E. subst s'. exact (Add i _ E1).
Qed.
Lemma run_keeps : forall l s s' bs y, ~ In (ODrop y) l -> lrun file sym s l = LFine (s', bs) -> keeps s s' y.
Proof.
  induction l as [|o l IH]; intros s s' bs y N E; cbn [lrun] in E.
  - injection E as <- <-. split; eauto.
  - destruct (lstep file sym s o) as [[s1 b]|] eqn:E1; [|discriminate]. cbn [lbind] in E.
    destruct (lrun file sym s1 l) as [[s2 bs2]|] eqn:E2; [|discriminate]. cbn [lbind] in E. injection E as -> <-.
    assert (N1 : o <> ODrop y) by (intros ->; apply N; left; reflexivity).
    assert (N2 : ~ In (ODrop y) l) by (intros Q; apply N; right; exact Q).
    destruct (@step_keeps _ _ _ _ _ N1 E1) as [V1 I1]. destruct (IH _ _ _ _ N2 E2) as [V2 I2].
    split; [auto|]. intros j n h c Ej. destruct (I1 _ _ _ _ Ej) as [Q|[c' Q]]; [|eauto].
    left. clear -E2 Q. revert s1 s' bs2 E2 Q. induction l as [|o l IH]; intros s1 s' bs2 E2 Q; cbn [lrun] in E2.
    + injection E2 as <- <-. exact Q.
    + destruct (lstep file sym s1 o) as [[s3 b]|] eqn:E1; [|discriminate]. cbn [lbind] in E2.
      destruct (lrun file sym s3 l) as [[s4 bs4]|] eqn:E4; [|discriminate]. cbn [lbind] in E2. injection E2 as <- <-.
      eapply IH; [exact E4|]. exact (@freed_stays _ _ _ _ _ E1 Q).
Qed.

Section Loader.
Variable name : string -> Z.
Variable there : string -> bool.
Notation path := (name (loader_path there)).
Notation li := (name "load_interface").
Notation le := (name "load_error_interface").

(** The first half of making a loader. *)
Lemma loaded : forall s h, file path = Some h -> exists s1,
  lrun file sym s [OLoad path; OOk (length (vars s))] = LFine (s1, [SNothing; SBool true]) /\
  vars s1 = vars s ++ [VLib (Some (length (infos s)))] /\ nth_error (infos s1) (length (infos s)) = Some (Live path h 1).
Proof.
  intros s h F. cbn [lrun lstep]. rewrite F. cbn [lbind vars infos opened].
  rewrite nth_error_app2, Nat.sub_diag by lia. cbn [nth_error handle_of infos lbind].
  rewrite nth_error_app2, Nat.sub_diag by lia. cbn [nth_error lbind].
  destruct (Z.eqb_spec h 0) as [Q|_]; [destruct (OK F Q)|]. cbn [negb].
  eexists. split; [reflexivity|]. cbn [vars infos]. split; [reflexivity|].
  rewrite nth_error_app2, Nat.sub_diag by lia. reflexivity.
Qed.
Lemma sym_step : forall s x j n h c m a, nth_error (vars s) x = Some (VLib (Some j)) ->
  nth_error (infos s) j = Some (Live n h c) -> sym h m = Some a ->
  exists s1, lstep file sym s (OSym x m) = LFine (s1, SNothing) /\ vars s1 = vars s ++ [VFun (Some j) m a] /\
    nth_error (infos s1) j = Some (Live n h (S c)).
Proof.
  intros s x j n h c m a Ex Ej Es. cbn [lstep]. rewrite Ex. cbn [handle_of]. rewrite Ej. cbn [lbind]. rewrite Es.
  cbn [add_ref]. rewrite Ej. cbn [lbind]. eexists. split; [reflexivity|]. cbn [new_var vars infos]. split; [reflexivity|].
  rewrite (@set_at_same _ _ _ _ _ Ej). reflexivity.
Qed.
Lemma at_end : forall A (l l' : list A) k, nth_error (l ++ l') (length l + k) = nth_error l' k.
Proof. intros A l l' k. rewrite nth_error_app2 by lia. f_equal. lia. Qed.
Theorem maker : forall s h a b, good file s -> file path = Some h -> sym h li = Some a -> sym h le = Some b ->
  exists s1, make_loader file sym name there s = Made s1 (length (vars s)) /\ good file s1 /\
    vars s1 = vars s ++ [VLib (Some (length (infos s))); VFun (Some (length (infos s))) li a; VFun (Some (length (infos s))) le b] /\
    nth_error (infos s1) (length (infos s)) = Some (Live path h 3).
Proof.
  intros s h a b G F Ea Eb. unfold make_loader. destruct (loaded s F) as (s1 & E1 & V1 & I1). rewrite E1. cbn iota.
  pose proof (run_inv G E1) as G1.
  assert (X1 : nth_error (vars s1) (length (vars s)) = Some (VLib (Some (length (infos s)))))
    by (rewrite V1, <- (Nat.add_0_r (length (vars s))), at_end; reflexivity).
  destruct (@sym_step s1 _ _ _ _ _ _ a X1 I1 Ea) as (s2 & E2 & V2 & I2).
  assert (X2 : nth_error (vars s2) (length (vars s)) = Some (VLib (Some (length (infos s)))))
    by (rewrite V2; apply snoc_keeps, X1).
  destruct (@sym_step s2 _ _ _ _ _ _ b X2 I2 Eb) as (s3 & E3 & V3 & I3).
  assert (E : lrun file sym s1 [OSym (length (vars s)) li; OSym (length (vars s)) le] = LFine (s3, [SNothing; SNothing]))
    by (cbn [lrun]; rewrite E2; cbn [lbind]; rewrite E3; reflexivity).
  rewrite E. exists s3. split; [reflexivity|]. split; [exact (run_inv G1 E)|]. split; [|exact I3].
  rewrite V3, V2, V1, <- !app_assoc. reflexivity.
Qed.
(** The variables of a loader that is there. *)
Definition inside (s : lstate) (x j : nat) (h a b : Z) : Prop :=
  good file s /\ nth_error (vars s) x = Some (VLib (Some j)) /\ nth_error (vars s) (x + 1) = Some (VFun (Some j) li a) /\
  nth_error (vars s) (x + 2) = Some (VFun (Some j) le b) /\ exists c, nth_error (infos s) j = Some (Live path h c).
Lemma later : forall s x j h a b l s' bs, inside s x j h a b -> leaves x l -> lrun file sym s l = LFine (s', bs) ->
  inside s' x j h a b.
Proof.
  intros s x j h a b l s' bs (G & X0 & X1 & X2 & c & I) (N0 & N1 & N2) E. pose proof (run_inv G E) as G'.
  destruct (@run_keeps _ _ _ _ _ N0 E) as [K0 KI]. destruct (@run_keeps _ _ _ _ _ N1 E) as [K1 _].
  destruct (@run_keeps _ _ _ _ _ N2 E) as [K2 _].
  refine (conj G' (conj (K0 _ X0) (conj (K1 _ X1) (conj (K2 _ X2) _)))).
  destruct (KI _ _ _ _ I) as [Q|[c' Q]]; [|eauto].
  destruct (@held_live file s' x _ j G' (K0 _ X0) eq_refl) as (n' & h' & c' & Q'). congruence.
Qed.
Lemma calls : forall s x j h a b, inside s x j h a b ->
  load_symbol file sym s x = LFine (s, SCalled a) /\ get_load_error file sym s x = LFine (s, SCalled b).
Proof.
  intros s x j h a b (G & X0 & X1 & X2 & c & I). split.
  - exact (@function_called file sym s _ j li a _ h c G X1 I).
  - exact (@function_called file sym s _ j le b _ h c G X2 I).
Qed.
Lemma drop_step : forall s y v j n h c, good file s -> nth_error (vars s) y = Some v -> holds v j ->
  nth_error (infos s) j = Some (Live n h c) -> h <> 0 ->
  exists s', lstep file sym s (ODrop y) = LFine (s', SNothing) /\ good file s' /\ vars s' = set_at (vars s) y VGone.
Proof.
  intros s y v j n h c G Ev Hv Ej Nh.
  destruct (@step_good file sym s (ODrop y) G) as (s' & b & E & G').
  - intros (v' & j' & n' & Ev' & Hv' & Ej'). rewrite Ev in Ev'. injection Ev' as <-.
    assert (j' = j) as -> by (destruct v as [[?|]|[?|] ? ?|]; cbn in Hv, Hv'; (contradiction || congruence)). rewrite Ej in Ej'. congruence.
  - exists s'.
    cbn [lstep] in E. cbn [lstep]. rewrite Ev in *. destruct v as [i|i m a|]; try contradiction;
      (destruct (drop_ref s i) as [s1|] eqn:Ed; [|discriminate]; cbn [lbind] in *; injection E as <- <-;
       split; [reflexivity|]; split; [exact G'|]; cbn [vars]; f_equal; exact (proj1 (drop_keeps Ed))).
Qed.
Theorem ender : forall s x j h a b, h <> 0 -> inside s x j h a b ->
  exists s' bs, end_loader file sym s x = LFine (s', bs) /\ good file s' /\
    vars s' = set_at (set_at (set_at (vars s) (x + 2) VGone) (x + 1) VGone) x VGone /\
    forall k n h c, nth_error (infos s) k = Some (Live n h c) ->
      nth_error (infos s') k = Some Freed \/ exists c', nth_error (infos s') k = Some (Live n h c').
Proof.
  intros s x j h a b Nh (G & X0 & X1 & X2 & c & I).
  destruct (@drop_step s _ _ j _ _ _ G X2 eq_refl I Nh) as (s1 & E1 & G1 & V1).
  assert (N1 : ODrop (x + 2) <> ODrop (x + 1)) by (injection; lia).
  assert (N0 : ODrop (x + 2) <> ODrop x) by (injection; lia).
  destruct (@step_keeps _ _ _ _ _ N1 E1) as [K1 KI]. destruct (@step_keeps _ _ _ _ _ N0 E1) as [K0 _].
  assert (I1 : exists c', nth_error (infos s1) j = Some (Live path h c')).
  { destruct (KI _ _ _ _ I) as [Q|Q]; [|exact Q].
    destruct (@held_live file s1 x _ j G1 (K0 _ X0) eq_refl) as (n' & h' & c' & Q'). congruence. }
  destruct I1 as [c1 I1].
  destruct (@drop_step s1 _ _ j _ _ _ G1 (K1 _ X1) eq_refl I1 Nh) as (s2 & E2 & G2 & V2).
  assert (N2 : ODrop (x + 1) <> ODrop x) by (injection; lia).
  destruct (@step_keeps _ _ _ _ _ N2 E2) as [K2 KI2].
  assert (I2 : exists c', nth_error (infos s2) j = Some (Live path h c')).
  { destruct (KI2 _ _ _ _ I1) as [Q|Q]; [|exact Q].
    destruct (@held_live file s2 x _ j G2 (K2 _ (K0 _ X0)) eq_refl) as (n' & h' & c' & Q'). congruence. }
  destruct I2 as [c2 I2].
  destruct (@drop_step s2 _ _ j _ _ _ G2 (K2 _ (K0 _ X0)) eq_refl I2 Nh) as (s3 & E3 & G3 & V3).
  assert (E : end_loader file sym s x = LFine (s3, [SNothing; SNothing; SNothing])).
  { unfold end_loader. cbn [lrun]. rewrite E1. cbn [lbind]. rewrite E2. cbn [lbind]. rewrite E3. reflexivity. }
  exists s3, [SNothing; SNothing; SNothing]. split; [exact E|]. split; [exact G3|].
  split; [rewrite V3, V2, V1; reflexivity|].
  assert (N : ~ In (ODrop (x + 3)) [ODrop (x + 2); ODrop (x + 1); ODrop x]).
  { intros [Q|[Q|[Q|[]]]]; injection Q; lia. }
  exact (proj2 (@run_keeps _ _ _ _ _ N E)).
Qed.
Lemma elsewhere : forall s x s3, good file s -> good file s3 ->
  (exists v0 v1 v2, nth_error (vars s) x = Some v0 /\ nth_error (vars s) (x + 1) = Some v1 /\ nth_error (vars s) (x + 2) = Some v2) ->
  vars s3 = set_at (set_at (set_at (vars s) (x + 2) VGone) (x + 1) VGone) x VGone ->
  (forall k n h c, nth_error (infos s) k = Some (Live n h c) ->
      nth_error (infos s3) k = Some Freed \/ exists c', nth_error (infos s3) k = Some (Live n h c')) ->
  forall h, in_use s3 h <-> used_elsewhere s x h.
Proof.
  intros s x s3 G G3 (v0 & v1 & v2 & X0 & X1 & X2) V KI h.
  assert (Y1 : nth_error (set_at (vars s) (x + 2) VGone) (x + 1) = Some v1) by (rewrite set_at_other by lia; exact X1).
  assert (Y0 : nth_error (set_at (set_at (vars s) (x + 2) VGone) (x + 1) VGone) x = Some v0)
    by (rewrite !set_at_other by lia; exact X0).
  split.
  - intros (y & v & j & n & c & Ev & Hv & Ej). rewrite V in Ev.
    destruct (Nat.eq_dec y x) as [->|D0].
    { rewrite (@set_at_same _ _ _ _ _ Y0) in Ev. injection Ev as <-. contradiction. }
    rewrite set_at_other in Ev by congruence.
    destruct (Nat.eq_dec y (x + 1)) as [->|D1].
    { rewrite (@set_at_same _ _ _ _ _ Y1) in Ev. injection Ev as <-. contradiction. }
    rewrite set_at_other in Ev by congruence.
    destruct (Nat.eq_dec y (x + 2)) as [->|D2].
    { rewrite (@set_at_same _ _ _ _ _ X2) in Ev. injection Ev as <-. contradiction. }
    rewrite set_at_other in Ev by congruence.
    destruct (@held_live file s y v j G Ev Hv) as (n' & h' & c' & Q).
    assert (h' = h) as -> by (destruct (KI _ _ _ _ Q) as [Q'|[c2 Q']]; congruence).
    exists y, v, j, n', c'. auto 8.
  - intros (y & v & j & n & c & D0 & D1 & D2 & Ev & Hv & Ej).
    assert (Ev3 : nth_error (vars s3) y = Some v) by (rewrite V, !set_at_other by congruence; exact Ev).
    destruct (@held_live file s3 y v j G3 Ev3 Hv) as (n' & h' & c' & Q).
    destruct (KI _ _ _ _ Ej) as [Q'|[c2 Q']]; [congruence|].
    exists y, v, j, n, c2. auto.
Qed.
Theorem whole : forall s h a b, good file s -> file path = Some h -> sym h li = Some a -> sym h le = Some b ->
  exists s1 x, make_loader file sym name there s = Made s1 x /\
    forall l s2 bs, leaves x l -> lrun file sym s1 l = LFine (s2, bs) ->
      load_symbol file sym s2 x = LFine (s2, SCalled a) /\ get_load_error file sym s2 x = LFine (s2, SCalled b) /\
      (0 < opened s2 h)%nat /\
      exists s3 bs3, end_loader file sym s2 x = LFine (s3, bs3) /\
        forall h', h' <> 0 -> ((0 < opened s3 h')%nat <-> used_elsewhere s2 x h').
Proof.
  intros s h a b G F Ea Eb. destruct (@maker s h a b G F Ea Eb) as (s1 & E1 & G1 & V1 & I1).
  exists s1, (length (vars s)). split; [exact E1|]. intros l s2 bs Lv E2.
  assert (In1 : inside s1 (length (vars s)) (length (infos s)) h a b).
  { split; [exact G1|]. rewrite V1. split; [rewrite <- (Nat.add_0_r (length (vars s))), at_end; reflexivity|].
    rewrite !at_end. split; [reflexivity|]. split; [reflexivity|]. eauto. }
  pose proof (later In1 Lv E2) as In2. destruct (calls In2) as [C1 C2]. pose proof (OK F) as Nh.
  split; [exact C1|]. split; [exact C2|]. split.
  - destruct In2 as (G2 & X0 & _ & _ & c & I). apply (open_iff G2 Nh).
    exists (length (vars s)), (VLib (Some (length (infos s)))), (length (infos s)), path, c. split; [exact X0|]. split; [reflexivity|exact I].
  - destruct (ender Nh In2) as (s3 & bs3 & E3 & G3 & V3 & K3). exists s3, bs3. split; [exact E3|].
    intros h' Nh'. destruct In2 as (G2 & X0 & X1 & X2 & _).
    rewrite (open_iff G3 Nh'). apply (@elsewhere _ _ _ G2 G3); [eauto 8|exact V3|exact K3].
Qed.
Theorem no_library : forall s, good file s -> file path = None -> make_loader file sym name there s = Died.
Proof.
  intros s G F. unfold make_loader. destruct (missing_library sym G F) as [_ (s1 & b & E & ->)]. rewrite E. reflexivity.
Qed.
Theorem no_function : forall s h, good file s -> file path = Some h -> sym h li = None \/ sym h le = None ->
  make_loader file sym name there s = MWild.
Proof.
  intros s h G F H. unfold make_loader. destruct (loaded s F) as (s1 & E1 & V1 & I1). rewrite E1. cbn iota.
  assert (X1 : nth_error (vars s1) (length (vars s)) = Some (VLib (Some (length (infos s)))))
    by (rewrite V1, <- (Nat.add_0_r (length (vars s))), at_end; reflexivity).
  assert (M : forall s' c m, nth_error (vars s') (length (vars s)) = Some (VLib (Some (length (infos s)))) ->
    nth_error (infos s') (length (infos s)) = Some (Live path h c) -> sym h m = None ->
    lstep file sym s' (OSym (length (vars s)) m) = LWild).
  { intros s' c m X I N. cbn [lstep]. rewrite X. cbn [handle_of]. rewrite I. cbn [lbind]. rewrite N. reflexivity. }
  destruct (sym h li) as [a|] eqn:Ea.
  - destruct H as [H|H]; [discriminate|].
    destruct (@sym_step s1 _ _ _ _ _ _ a X1 I1 Ea) as (s2 & E2 & V2 & I2).
    cbn [lrun]. rewrite E2. cbn [lbind]. rewrite (M s2 _ _ ltac:(rewrite V2; apply snoc_keeps, X1) I2 H). reflexivity.
  - cbn [lrun]. rewrite (M s1 _ _ X1 I1 Ea). reflexivity.
Qed.
End Loader.
End System.
