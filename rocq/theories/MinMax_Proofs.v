From Verif Require Import Base MinMax_Model MinMax_Spec.
Local Open Scope Z_scope.

Section OneType.
Context {A : Type} {le : A -> A -> Prop} {cmp : A -> A -> option comparison}.
Hypothesis H : three_way le cmp.
Lemma nle_le a b : ~ le a b -> le b a.
Proof. destruct (tw_total H a b); tauto. Qed.
Lemma le_refl a : le a a.
Proof. destruct (tw_total H a a); assumption. Qed.

Lemma max2_cases a b : (max2 cmp a b = b /\ ~ le b a) \/ (max2 cmp a b = a /\ le b a).
Proof.
  unfold max2. pose proof (tw_cmp H a b) as T. destruct (cmp a b) as [[]|]; [right|left|right|tauto]; split; auto; try tauto.
  apply nle_le, T.
Qed.
Lemma min2_cases a b : (min2 cmp a b = a /\ ~ le b a) \/ (min2 cmp a b = b /\ le b a).
Proof.
  unfold min2. pose proof (tw_cmp H a b) as T. destruct (cmp a b) as [[]|]; [right|left|right|tauto]; split; auto; try tauto.
  apply nle_le, T.
Qed.
Lemma max_first a l : first_best le (a :: l) (fold_args (max2 cmp) a l).
Proof.
  revert a. induction l as [|b l IH]; intros a; cbn [fold_args].
  { exists [], []. repeat split; intros x []. }
  destruct (IH b) as (pre & post & E & P & Q). set (r := fold_args (max2 cmp) b l) in *.
  destruct (max2_cases a r) as [[-> N]|[-> N]].
  - exists (a :: pre), post. rewrite E. split; [reflexivity|]. split; [|exact Q]. intros x [<-|I]; auto.
  - exists [], (b :: l). split; [reflexivity|]. split; [intros x []|]. intros x I. rewrite E in I.
    apply in_app_or in I. destruct I as [I|[<-|I]]; [|exact N|].
    + apply (tw_trans H) with r; [|exact N]. apply nle_le. auto.
    + apply (tw_trans H) with r; auto.
Qed.
Lemma min_last a l : last_best (ge le) (a :: l) (fold_args (min2 cmp) a l).
Proof.
  revert a. induction l as [|b l IH]; intros a; cbn [fold_args].
  { exists [], []. repeat split; intros x []. }
  destruct (IH b) as (pre & post & E & P & Q). set (r := fold_args (min2 cmp) b l) in *. unfold ge in *.
  destruct (min2_cases a r) as [[-> N]|[-> N]].
  - exists [], (b :: l). split; [reflexivity|]. split; [intros x []|]. intros x I. rewrite E in I.
    apply in_app_or in I. intros L. apply N. destruct I as [I|[<-|I]]; [|exact L|].
    + apply (tw_trans H) with x; auto.
    + destruct (Q x I). apply (tw_trans H) with a; [exact L|]. apply nle_le. exact N.
  - exists (a :: pre), post. rewrite E. split; [reflexivity|]. split; [|exact Q]. intros x [<-|I]; auto.
Qed.
Lemma scan_first better (le' : A -> A -> Prop) : (forall a b, (match cmp a b with Some c => if match c, better with Lt, Lt | Gt, Gt => true | _, _ => false end then b else a | None => a end = b /\ ~ le' b a) \/
    (match cmp a b with Some c => if match c, better with Lt, Lt | Gt, Gt => true | _, _ => false end then b else a | None => a end = a /\ le' b a)) ->
  (forall a b c, le' a b -> le' b c -> le' a c) -> (forall a b, le' a b \/ le' b a) ->
  forall l best, first_best le' (best :: l) (scan cmp better best l).
Proof.
  intros C T O. induction l as [|x l IH]; intros best; cbn [scan].
  { exists [], []. repeat split; intros y []. }
  destruct (C best x) as [[-> N]|[-> N]].
  - destruct (IH x) as (pre & post & E & P & Q). set (r := scan cmp better x l) in *.
    exists (best :: pre), post. rewrite E. split; [reflexivity|]. split; [|exact Q]. intros y [<-|I]; [|auto].
    intros L. destruct pre as [|p pre]; injection E as Ex E.
    + rewrite <- Ex in *. tauto.
    + subst p. apply N. apply T with r; [|exact L]. destruct (O x r); [assumption|]. destruct (P x (or_introl eq_refl)). assumption.
  - destruct (IH best) as (pre & post & E & P & Q). set (r := scan cmp better best l) in *.
    destruct pre as [|p pre]; injection E as Eb E.
    + rewrite <- Eb in *. exists [], (x :: post). split; [now rewrite E|]. split; [intros y []|].
      intros y [<-|I]; auto.
    + subst p. exists (best :: x :: pre), post. split; [now rewrite E|]. split; [|exact Q].
      intros y [<-|[<-|I]]; [apply P; now left| |apply P; now right].
      intros L. apply (P best (or_introl eq_refl)). apply T with x; assumption.
Qed.
Lemma drop_twice (le' : A -> A -> Prop) a l r : le' a a -> first_best le' (a :: a :: l) r -> first_best le' (a :: l) r.
Proof.
  intros R (pre & post & E & P & Q). destruct pre as [|p pre]; injection E as Ex E.
  - rewrite <- Ex in *. exists [], l. split; [reflexivity|]. split; [intros x []|]. intros x I. apply Q. rewrite <- E. now right.
  - exists pre, post. split; [exact E|]. split; [|exact Q]. intros x I. apply P. now right.
Qed.
Lemma max_list_first l : match max_list cmp l with Some r => first_best le l r | None => l = [] end.
Proof.
  destruct l as [|a l]; [reflexivity|]. cbn [max_list]. apply drop_twice; [apply le_refl|].
  apply scan_first; [|apply (tw_trans H)|apply (tw_total H)].
  intros x y. pose proof (tw_cmp H x y) as T. destruct (cmp x y) as [[]|]; [right|left|right|tauto]; split; auto; try tauto.
  apply nle_le, T.
Qed.
Lemma min_list_first l : match min_list cmp l with Some r => first_best (ge le) l r | None => l = [] end.
Proof.
  destruct l as [|a l]; [reflexivity|]. cbn [min_list]. apply drop_twice; [apply le_refl|]. unfold ge.
  apply scan_first.
  - intros x y. pose proof (tw_cmp H x y) as T. destruct (cmp x y) as [[]|]; [right|right|left|tauto]; split; auto; try tauto.
    apply nle_le, T.
  - intros x y z. intros. apply (tw_trans H) with y; assumption.
  - intros x y. destruct (tw_total H x y); auto.
Qed.
End OneType.

(** ** Integers of different types. *)
Lemma pow_half n : 0 < n -> 2 ^ n = 2 * 2 ^ (n - 1).
Proof. intros. rewrite <- Z.pow_succ_r by lia. f_equal. lia. Qed.
Lemma conv_id t z : 0 < bits t -> in_type t z -> conv t z = z.
Proof.
  intros B I. unfold conv, in_type in *. cbv zeta. pose proof (pow_half B). pose proof (Z.pow_pos_nonneg 2 (bits t - 1) ltac:(lia) ltac:(lia)).
  destruct (sgn t); cbn [andb]; [|apply Z.mod_small; exact I].
  destruct (Z_lt_le_dec z 0).
  - replace (z mod 2 ^ bits t) with (z + 2 ^ bits t)
      by (apply Z.mod_unique with (-1); lia).
    destruct (Z.leb_spec (2 ^ (bits t - 1)) (z + 2 ^ bits t)); lia.
  - rewrite Z.mod_small by lia. destruct (Z.leb_spec (2 ^ (bits t - 1)) z); lia.
Qed.
Lemma in_type_mono t u z : sgn t = sgn u -> 0 < bits t <= bits u -> in_type t z -> in_type u z.
Proof.
  intros E B I. unfold in_type in *. rewrite <- E. pose proof (Z.pow_le_mono_r 2 (bits t) (bits u) ltac:(lia) ltac:(lia)).
  pose proof (Z.pow_le_mono_r 2 (bits t - 1) (bits u - 1) ltac:(lia) ltac:(lia)). destruct (sgn t); lia.
Qed.
Lemma promote_in t z : 0 < bits t -> in_type t z -> in_type (promote t) z /\ 0 < bits (promote t).
Proof.
  intros B I. unfold promote. destruct (Z.ltb_spec (bits t) 32); [|auto]. split; [|cbn; lia].
  unfold in_type in *. cbn [sgn bits]. pose proof (Z.pow_le_mono_r 2 (bits t) (32 - 1) ltac:(lia) ltac:(lia)).
  pose proof (Z.pow_le_mono_r 2 (bits t - 1) (32 - 1) ltac:(lia) ltac:(lia)). destruct (sgn t); lia.
Qed.
Definition sg (t : ity) : Prop := sgn t = true \/ bits t < 32.
Lemma promote_sgn t : sg t -> sgn (promote t) = true.
Proof. intros [H|H]; unfold promote; destruct (Z.ltb_spec (bits t) 32); auto. lia. Qed.
Definition harmless (a b : ival) : Prop :=
  (0 <= num a /\ 0 <= num b) \/ (sg (vty a) /\ sg (vty b)).
Lemma common_in a b : fits a -> fits b -> harmless a b ->
  0 < bits (common (vty a) (vty b)) /\ in_type (common (vty a) (vty b)) (num a) /\ in_type (common (vty a) (vty b)) (num b).
Proof.
  intros [Ba Ia] [Bb Ib] Hh. destruct (promote_in Ba Ia) as [Ia' Ba']. destruct (promote_in Bb Ib) as [Ib' Bb'].
  unfold common. cbv zeta. 
  assert (Hp : (0 <= num a /\ 0 <= num b) \/ (sgn (promote (vty a)) = true /\ sgn (promote (vty b)) = true))
    by (destruct Hh as [?|[? ?]]; [now left|right; split; apply promote_sgn; assumption]).
  set (t := promote (vty a)) in *. set (u := promote (vty b)) in *. clearbody t u.
  destruct (Bool.eqb (sgn t) (sgn u)) eqn:E.
  - apply Bool.eqb_prop in E. cbn [bits sgn]. split; [lia|]. split.
    + apply in_type_mono with (t := t); auto. cbn. lia.
    + apply in_type_mono with (t := u); auto. cbn. lia.
  - destruct Hp as [[Pa Pb]|[E1 E2]]; [|rewrite E1, E2 in E; discriminate].
    pose proof (pow_half Ba'). pose proof (pow_half Bb').
    assert (Hle : bits t <= bits u -> 2 ^ bits t <= 2 ^ bits u) by (intros; apply Z.pow_le_mono_r; lia).
    assert (Hle2 : bits t <= bits u -> 2 ^ (bits t - 1) <= 2 ^ (bits u - 1)) by (intros; apply Z.pow_le_mono_r; lia).
    assert (Hge : bits u <= bits t -> 2 ^ bits u <= 2 ^ bits t) by (intros; apply Z.pow_le_mono_r; lia).
    assert (Hge2 : bits u <= bits t -> 2 ^ (bits u - 1) <= 2 ^ (bits t - 1)) by (intros; apply Z.pow_le_mono_r; lia).
    assert (Hgt : bits u < bits t -> 2 ^ bits u <= 2 ^ (bits t - 1)) by (intros; apply Z.pow_le_mono_r; lia).
    assert (Hlt : bits t < bits u -> 2 ^ bits t <= 2 ^ (bits u - 1)) by (intros; apply Z.pow_le_mono_r; lia).
    destruct (sgn t) eqn:St, (sgn u) eqn:Su; try discriminate E; unfold in_type in *; rewrite St in *; rewrite Su in *.
    + destruct (Z.leb_spec (bits t) (bits u)); rewrite ?St, ?Su; lia.
    + destruct (Z.leb_spec (bits u) (bits t)); rewrite ?St, ?Su; lia.
Qed.
Lemma cond_in a b : fits a -> fits b -> harmless a b -> let c := cond_type (vty a) (vty b) in
  0 < bits c /\ in_type c (num a) /\ in_type c (num b) /\ (sg (vty a) -> sg (vty b) -> sg c).
Proof.
  intros Fa Fb Hh. cbv zeta. unfold cond_type. destruct (Bool.eqb (sgn (vty a)) (sgn (vty b)) && (bits (vty a) =? bits (vty b))) eqn:E.
  - apply andb_prop in E. destruct E as [E1 E2]. apply Bool.eqb_prop in E1. apply Z.eqb_eq in E2.
    destruct Fa as [Ba Ia], Fb as [Bb Ib]. unfold in_type in *. rewrite E1, E2. rewrite <- E1. rewrite E1, E2 in Ia. rewrite <- E1 in *. auto.
  - destruct (common_in Fa Fb Hh) as (B & I & J). repeat split; auto. intros Sa Sb. unfold common. cbv zeta.
    rewrite (promote_sgn Sa), (promote_sgn Sb). now left.
Qed.
Lemma compare_ints_exact a b : fits a -> fits b -> harmless a b -> compare_ints a b = Some (num a ?= num b).
Proof.
  intros Fa Fb Hh. destruct (common_in Fa Fb Hh) as (B & I & J). unfold compare_ints. cbv zeta.
  rewrite (conv_id B I), (conv_id B J). destruct (r_able _ _); [reflexivity|].
  destruct (Z.compare_spec (num a) (num b)) as [E|E|E].
  - apply Z.eqb_eq in E as ->. reflexivity.
  - destruct (Z.eqb_spec (num a) (num b)); [lia|]. apply Z.ltb_lt in E as ->. reflexivity.
  - destruct (Z.eqb_spec (num a) (num b)); [lia|]. destruct (Z.ltb_spec (num a) (num b)); [lia|]. apply Z.ltb_lt in E as ->. reflexivity.
Qed.
Lemma choose_exact first a b : fits a -> fits b -> harmless a b ->
  fits (choose first a b) /\ num (choose first a b) = num (if first then a else b) /\
  (sg (vty a) -> sg (vty b) -> sg (vty (choose first a b))).
Proof.
  intros Fa Fb Hh. destruct (cond_in Fa Fb Hh) as (B & I & J & S). unfold choose, fits. cbv zeta. cbn [vty num].
  destruct first; rewrite conv_id by assumption; auto.
Qed.
Lemma imax2_exact a b : fits a -> fits b -> harmless a b ->
  fits (imax2 a b) /\ num (imax2 a b) = Z.max (num a) (num b) /\
  (sg (vty a) -> sg (vty b) -> sg (vty (imax2 a b))).
Proof.
  intros Fa Fb Hh. unfold imax2. rewrite (compare_ints_exact Fa Fb Hh).
  destruct (Z.compare_spec (num a) (num b)); [edestruct (@choose_exact true a b) as (F & N & S)|edestruct (@choose_exact false a b) as (F & N & S)|edestruct (@choose_exact true a b) as (F & N & S)]; auto;
    (split; [exact F|]; split; [rewrite N; lia|exact S]).
Qed.
Lemma imin2_exact a b : fits a -> fits b -> harmless a b ->
  fits (imin2 a b) /\ num (imin2 a b) = Z.min (num a) (num b) /\
  (sg (vty a) -> sg (vty b) -> sg (vty (imin2 a b))).
Proof.
  intros Fa Fb Hh. unfold imin2. rewrite (compare_ints_exact Fa Fb Hh).
  destruct (Z.compare_spec (num a) (num b)); [edestruct (@choose_exact false a b) as (F & N & S)|edestruct (@choose_exact true a b) as (F & N & S)|edestruct (@choose_exact false a b) as (F & N & S)]; auto;
    (split; [exact F|]; split; [rewrite N; lia|exact S]).
Qed.
Definition harmless_all (l : list ival) : Prop :=
  (forall v, In v l -> 0 <= num v) \/ (forall v, In v l -> sg (vty v)).
Lemma fold_exact (good : ival -> Prop) op f (Hg : forall a b, good a -> good b -> harmless a b)
  (Hop : forall a b, fits a -> fits b -> good a -> good b -> fits (op a b) /\ num (op a b) = f (num a) (num b) /\ good (op a b)) :
  forall l a, (forall v, In v (a :: l) -> fits v /\ good v) ->
  let r := fold_args op a l in fits r /\ good r /\ num r = fold_args f (num a) (map num l).
Proof.
  induction l as [|b l IH]; intros a F; cbn [fold_args map].
  { destruct (F a (or_introl eq_refl)). auto. }
  destruct (IH b) as (Fr & Gr & Nr); [intros; apply F; now right|]. destruct (F a (or_introl eq_refl)) as [Fa Ga].
  rewrite <- Nr. destruct (Hop a _ Fa Fr Ga Gr) as (F1 & F2 & F3). auto.
Qed.
Lemma fold_args_max l : forall a, largest (a :: l) (fold_args Z.max a l).
Proof.
  induction l as [|b l IH]; intros a; cbn [fold_args]; [split; [now left|]; intros x [<-|[]]; lia|].
  destruct (IH b) as [I L]. split.
  - destruct (Z.max_spec a (fold_args Z.max b l)) as [[_ ->]|[_ ->]]; [now right|now left].
  - intros x [<-|J]; [lia|]. specialize (L x J). lia.
Qed.
Lemma fold_args_min l : forall a, smallest (a :: l) (fold_args Z.min a l).
Proof.
  induction l as [|b l IH]; intros a; cbn [fold_args]; [split; [now left|]; intros x [<-|[]]; lia|].
  destruct (IH b) as [I L]. split.
  - destruct (Z.min_spec a (fold_args Z.min b l)) as [[_ ->]|[_ ->]]; [now left|now right].
  - intros x [<-|J]; [lia|]. specialize (L x J). lia.
Qed.
Lemma args_exact op f (Hop : forall a b, fits a -> fits b -> harmless a b ->
    fits (op a b) /\ num (op a b) = f (num a) (num b) /\ (sg (vty a) -> sg (vty b) -> sg (vty (op a b))))
  (Hf : forall x y, 0 <= x -> 0 <= y -> 0 <= f x y) l a : (forall v, In v (a :: l) -> fits v) -> harmless_all (a :: l) ->
  fits (fold_args op a l) /\ num (fold_args op a l) = fold_args f (num a) (map num l).
Proof.
  intros F [Hh|Hh].
  - edestruct (@fold_exact (fun v => 0 <= num v) op f) with (l := l) (a := a) as (R & _ & N); auto.
    + intros x y X Y. now left.
    + intros x y Fx Fy X Y. destruct (Hop x y Fx Fy (or_introl (conj X Y))) as (F1 & F2 & _). rewrite F2. auto.
  - edestruct (@fold_exact (fun v => sg (vty v)) op f) with (l := l) (a := a) as (R & _ & N); auto.
    + intros x y X Y. now right.
    + intros x y Fx Fy X Y. destruct (Hop x y Fx Fy (or_intror (conj X Y))) as (F1 & F2 & F3). auto.
Qed.
Lemma imax_exact a b l : (forall v, In v (a :: b :: l) -> fits v) -> harmless_all (a :: b :: l) ->
  largest (map num (a :: b :: l)) (num (imax_args a b l)).
Proof.
  intros F Hh. destruct (args_exact (op := imax2) (f := Z.max) imax2_exact) with (l := b :: l) (a := a) as [_ N]; auto; [lia|].
  unfold imax_args. rewrite N. apply fold_args_max.
Qed.
Lemma imin_exact a b l : (forall v, In v (a :: b :: l) -> fits v) -> harmless_all (a :: b :: l) ->
  smallest (map num (a :: b :: l)) (num (imin_args a b l)).
Proof.
  intros F Hh. destruct (args_exact (op := imin2) (f := Z.min) imin2_exact) with (l := b :: l) (a := a) as [_ N]; auto; [lia|].
  unfold imin_args. rewrite N. apply fold_args_min.
Qed.
Lemma fold_ext {A} (op op' : A -> A -> A) l : (forall x y, op x y = op' x y) -> forall a, fold_args op a l = fold_args op' a l.
Proof. intros E. induction l as [|b l IH]; intros a; cbn [fold_args]; [reflexivity|]. now rewrite IH, E. Qed.
Lemma for_exact t a b l : 0 < bits t -> (forall v, In v (a :: b :: l) -> in_type t (num v)) ->
  largest (map num (a :: b :: l)) (max_for t a b l) /\ smallest (map num (a :: b :: l)) (min_for t a b l).
Proof.
  intros B I.
  assert (E : to_type t a :: to_type t b :: map (to_type t) l = map num (a :: b :: l)).
  { cbn [map]. unfold to_type. rewrite (conv_id B (I a (or_introl eq_refl))), (conv_id B (I b (or_intror (or_introl eq_refl)))). do 2 f_equal.
    apply map_ext_in. intros v J. apply (conv_id B). apply I. right. now right. }
  unfold max_for, min_for, max_args, min_args. rewrite <- E. split.
  - rewrite (fold_ext (op' := Z.max)); [apply fold_args_max|]. intros x y. unfold max2. destruct (Z.compare_spec x y); lia.
  - rewrite (fold_ext (op' := Z.min)); [apply fold_args_min|]. intros x y. unfold min2. destruct (Z.compare_spec x y); lia.
Qed.
