(** Proofs about the approximating functions. *)
From Verif Require Import Base.
From Verif Require Import Approx_Model.
From Verif Require Import Approx_Spec.
From Coq Require Import QArith Qabs Qreals Reals Lra Psatz.
Local Open Scope R_scope.

(** * From Q to R *)
Lemma Q2R_abs : forall x, Q2R (Qabs x) = Rabs (Q2R x).
Proof.
  intros x. apply Qabs_case; intros H.
  - apply Qle_Rle in H. rewrite RMicromega.Q2R_0 in H. rewrite Rabs_right; lra.
  - apply Qle_Rle in H. rewrite RMicromega.Q2R_0 in H. rewrite Q2R_opp, Rabs_left1; lra.
Qed.
Lemma Q2R_int : forall z : Z, Q2R (inject_Z z) = IZR z.
Proof. intros z. unfold Q2R, inject_Z. cbn [Qnum Qden]. rewrite Rinv_1. ring. Qed.
Lemma Q2R_1' : Q2R 1 = 1. Proof. exact (Q2R_int 1). Qed.
Lemma Q2R_2' : Q2R 2 = 2. Proof. exact (Q2R_int 2). Qed.
Lemma Q2R_3' : Q2R 3 = 3. Proof. exact (Q2R_int 3). Qed.
Lemma Q2R_0' : Q2R 0 = 0. Proof. exact (Q2R_int 0). Qed.
Lemma Qeqb_R : forall x y, Qeq_bool x y = true <-> Q2R x = Q2R y.
Proof.
  intros x y. rewrite Qeq_bool_iff. split; [apply Qeq_eqR|apply eqR_Qeq].
Qed.
Lemma Qeqb_Rf : forall x y, Qeq_bool x y = false <-> Q2R x <> Q2R y.
Proof.
  intros x y. rewrite <- not_true_iff_false, Qeqb_R. tauto.
Qed.
Lemma Qleb_R : forall x y, Qle_bool x y = true <-> Q2R x <= Q2R y.
Proof. intros x y. rewrite Qle_bool_iff. split; [apply Qle_Rle|apply Rle_Qle]. Qed.
Lemma Qleb_Rf : forall x y, Qle_bool x y = false <-> Q2R y < Q2R x.
Proof.
  intros x y. rewrite <- not_true_iff_false, Qleb_R. split; intros H; [apply Rnot_le_lt|apply Rlt_not_le]; exact H.
Qed.
Lemma Q2R_divn : forall x y, Q2R y <> 0 -> Q2R (x / y)%Q = Q2R x / Q2R y.
Proof.
  intros x y H. apply Q2R_div. intros E. apply H. apply Qeq_eqR in E. rewrite E. exact Q2R_0'.
Qed.

(** * Square roots *)
Definition heron (r v : R) : R := (r + v / r) / 2.
Lemma heron_Q : forall x v, Q2R x <> 0 -> Q2R (sqrt_iteration x v) = heron (Q2R x) (Q2R v).
Proof.
  intros x v H. unfold sqrt_iteration, heron.
  rewrite Q2R_divn by (rewrite Q2R_2'; lra). rewrite Q2R_plus, Q2R_divn, Q2R_2' by exact H. reflexivity.
Qed.
Lemma heron_err : forall r v, 0 < r -> 0 <= v ->
  heron r v - sqrt v = (r - sqrt v) * (r - sqrt v) / (2 * r).
Proof.
  intros r v R0 V0. unfold heron.
  replace v with (sqrt v * sqrt v) at 1 by (apply sqrt_sqrt; exact V0). field. lra.
Qed.
Lemma heron_ge : forall r v, 0 < r -> 0 <= v -> sqrt v <= heron r v.
Proof.
  intros r v R0 V0. pose proof (heron_err R0 V0) as E.
  assert (0 <= (r - sqrt v) * (r - sqrt v) / (2 * r)).
  { apply Rmult_le_pos; [apply Rle_0_sqr|]. left. apply Rinv_0_lt_compat. lra. }
  lra.
Qed.
Lemma heron_pos : forall r v, 0 < r -> 0 <= v -> 0 < heron r v.
Proof.
  intros r v R0 V0. unfold heron. assert (0 <= v / r).
  { apply Rmult_le_pos; [exact V0|]. left. apply Rinv_0_lt_compat. exact R0. }
  lra.
Qed.
(** From above, the error is halved at least, and the iteration descends. *)
Lemma heron_half : forall r v, 0 < r -> 0 <= v -> sqrt v <= r ->
  heron r v - sqrt v <= (r - sqrt v) / 2 /\ heron r v <= r.
Proof.
  intros r v R0 V0 G. pose proof (heron_err R0 V0) as E. pose proof (sqrt_pos v) as S0.
  assert (B : (r - sqrt v) * (r - sqrt v) / (2 * r) <= (r - sqrt v) / 2).
  { apply Rmult_le_reg_r with (2 * r); [lra|].
    replace ((r - sqrt v) * (r - sqrt v) / (2 * r) * (2 * r)) with ((r - sqrt v) * (r - sqrt v)) by (field; lra).
    nra. }
  split; lra.
Qed.
(** After a step the error is no more than the step. *)
Lemma heron_step : forall r v, 0 < r -> 0 <= v ->
  heron r v - sqrt v <= Rabs (heron r v - r).
Proof.
  intros r v R0 V0. pose proof (sqrt_pos v) as S0.
  destruct (Rle_or_lt (sqrt v) r) as [G|L].
  - destruct (heron_half R0 V0 G) as [H1 H2]. rewrite Rabs_left1 by lra. lra.
  - pose proof (heron_ge R0 V0) as H3. rewrite Rabs_right by lra. lra.
Qed.

Lemma step_size_R : forall sg a b, Q2R (step_size sg a b) = if sg then Rabs (Q2R a - Q2R b) else Rmax 0 (Q2R a - Q2R b).
Proof.
  intros [|] a b; unfold step_size.
  - rewrite Q2R_abs, Q2R_minus. reflexivity.
  - destruct (Qle_bool b a) eqn:E.
    + apply Qleb_R in E. rewrite Q2R_minus, Rmax_right by lra. reflexivity.
    + apply Qleb_Rf in E. rewrite Q2R_0', Rmax_left by lra. reflexivity.
Qed.

Lemma near_R : forall r x e, near r x e <-> Rabs (Q2R r - x) <= Q2R e.
Proof. intros. reflexivity. Qed.

(** What is known of the cached value: with [saver] at most ε it is good enough. *)
Lemma sqrt_loop_good : forall fuel num v eps saver r s,
  0 <= Q2R v -> 0 < Q2R num ->
  (Q2R saver <= Q2R eps -> Rabs (Q2R num - sqrt (Q2R v)) <= Q2R saver) ->
  sqrt_to_new true fuel num v eps saver = Got (r, s) ->
  Rabs (Q2R r - sqrt (Q2R v)) <= Q2R s /\ Q2R s <= Q2R eps /\ 0 < Q2R r.
Proof.
  induction fuel as [|f IH]; intros num v eps saver r s V0 N0 P E; [discriminate|].
  cbn [sqrt_to_new] in E. destruct (Qle_bool saver eps) eqn:L.
  - apply Qleb_R in L. assert (num = r /\ saver = s) as [-> ->] by (split; congruence).
    refine (conj (P L) (conj L N0)).
  - destruct (Qeq_bool num 0) eqn:Z0; [discriminate|].
    assert (NZ : Q2R num <> 0) by lra.
    refine (IH _ _ _ _ _ _ V0 _ _ E).
    + rewrite heron_Q by exact NZ. apply heron_pos; assumption.
    + intros _. rewrite step_size_R, heron_Q by exact NZ.
      pose proof (heron_step N0 V0). pose proof (heron_ge N0 V0). rewrite (Rabs_right (heron _ _ - _)) by lra. exact H.
Qed.
Lemma sqrt_loop_no_zero : forall sg fuel num v eps saver,
  0 <= Q2R v -> 0 < Q2R num -> sqrt_to_new sg fuel num v eps saver <> NoValue.
Proof.
  induction fuel as [|f IH]; intros num v eps saver V0 N0; [discriminate|].
  cbn [sqrt_to_new]. destruct (Qle_bool saver eps); [discriminate|].
  destruct (Qeq_bool num 0) eqn:Z0; [apply Qeqb_R in Z0; rewrite Q2R_0' in Z0; lra|].
  apply IH; [exact V0|]. rewrite heron_Q by lra. apply heron_pos; assumption.
Qed.
Lemma sqrt_loop_ends : forall n num v eps saver,
  0 <= Q2R v -> 0 < Q2R num -> sqrt (Q2R v) <= Q2R num -> Q2R num - sqrt (Q2R v) <= Q2R eps * 2 ^ n ->
  exists x, sqrt_to_new true (Datatypes.S (Datatypes.S n)) num v eps saver = Got x.
Proof.
  induction n as [|n IH]; intros num v eps saver V0 N0 G B.
  - cbn [sqrt_to_new]. destruct (Qle_bool saver eps) eqn:L; [eauto|].
    destruct (Qeq_bool num 0) eqn:Z0; [apply Qeqb_R in Z0; rewrite Q2R_0' in Z0; lra|].
    assert (L2 : Qle_bool (step_size true (sqrt_iteration num v) num) eps = true).
    { apply Qleb_R. rewrite step_size_R, heron_Q by lra. destruct (heron_half N0 V0 G) as [H1 H2].
      pose proof (heron_ge N0 V0). cbn [pow] in B. rewrite Rabs_left1 by lra. lra. }
    rewrite L2. eauto.
  - remember (Datatypes.S n) as m eqn:Em. cbn [sqrt_to_new]. destruct (Qle_bool saver eps) eqn:L; [eauto|].
    destruct (Qeq_bool num 0) eqn:Z0; [apply Qeqb_R in Z0; rewrite Q2R_0' in Z0; lra|].
    subst m. refine (IH _ _ _ _ V0 _ _ _); rewrite heron_Q by lra.
    + apply heron_pos; assumption.
    + apply heron_ge; assumption.
    + destruct (heron_half N0 V0 G) as [H1 H2]. cbn [pow] in B. lra.
Qed.
Lemma pow2_big : forall x e, 0 < e -> exists n, x <= e * 2 ^ n.
Proof.
  intros x e E0. destruct (Pow_x_infinity 2) with (b := x / e) as (n & H).
  - rewrite Rabs_right; lra.
  - exists n. specialize (H n (le_n n)). rewrite Rabs_right in H.
    + apply Rmult_le_reg_r with (/ e); [apply Rinv_0_lt_compat; exact E0|].
      replace (e * 2 ^ n * / e) with (2 ^ n) by (field; lra). lra.
    + apply Rle_ge, pow_le. lra.
Qed.
Lemma sqrt_to_new_mono : forall sg f k num v eps saver x,
  sqrt_to_new sg f num v eps saver = Got x -> sqrt_to_new sg (f + k) num v eps saver = Got x.
Proof.
  induction f as [|f IH]; intros k num v eps saver x E; [discriminate|].
  cbn [sqrt_to_new Nat.add] in *. destruct (Qle_bool saver eps); [exact E|].
  destruct (Qeq_bool num 0); [discriminate|]. apply IH. exact E.
Qed.
Lemma sqrt_to_new_ends : forall num v eps saver, 0 <= Q2R v -> 0 < Q2R num -> 0 < Q2R eps ->
  exists F x, forall fuel, (F <= fuel)%nat -> sqrt_to_new true fuel num v eps saver = Got x.
Proof.
  intros num v eps saver V0 N0 E0.
  assert (X : exists F x, sqrt_to_new true F num v eps saver = Got x).
  { destruct (Qle_bool saver eps) eqn:L; [exists 1%nat; eexists; cbn [sqrt_to_new]; rewrite L; reflexivity|].
    destruct (pow2_big (Q2R (sqrt_iteration num v) - sqrt (Q2R v)) E0) as (n & B).
    destruct (@sqrt_loop_ends n (sqrt_iteration num v) v eps (step_size true (sqrt_iteration num v) num) V0) as (x & X).
    - rewrite heron_Q by lra. apply heron_pos; assumption.
    - rewrite heron_Q by lra. apply heron_ge; assumption.
    - exact B.
    - exists (Datatypes.S (Datatypes.S (Datatypes.S n))), x. remember (Datatypes.S (Datatypes.S n)) as m.
      cbn [sqrt_to_new]. rewrite L. destruct (Qeq_bool num 0) eqn:Z0; [apply Qeqb_R in Z0; rewrite Q2R_0' in Z0; lra|].
      exact X. }
  destruct X as (F & x & X). exists F, x. intros fuel L. replace fuel with (F + (fuel - F))%nat by lia.
  apply sqrt_to_new_mono. exact X.
Qed.

(** A negative argument: the steps do not get small. *)
Lemma heron_negative : forall r v, r <> 0 -> v < 0 -> sqrt (- v) <= Rabs (heron r v - r).
Proof.
  intros r v R0 V0. pose proof (sqrt_pos (- v)) as S0. pose proof (sqrt_sqrt (- v)) as SS.
  assert (E : heron r v - r = - ((r * r + - v) / (2 * r))) by (unfold heron; field; exact R0).
  rewrite E, Rabs_Ropp. unfold Rdiv. rewrite Rabs_mult, Rabs_inv, Rabs_mult, (Rabs_right 2) by lra.
  pose proof (Rle_0_sqr r) as RR. unfold Rsqr in RR.
  rewrite (Rabs_right (r * r + - v)) by lra.
  assert (A0 : 0 < Rabs r) by (apply Rabs_pos_lt; exact R0).
  assert (AA : Rabs r * Rabs r = r * r) by (rewrite <- Rabs_mult; apply Rabs_right; lra).
  apply Rmult_le_reg_r with (2 * Rabs r); [lra|].
  replace ((r * r + - v) * / (2 * Rabs r) * (2 * Rabs r)) with (r * r + - v) by (field; lra).
  pose proof (SS ltac:(lra)). pose proof (Rle_0_sqr (Rabs r - sqrt (- v))) as DD. unfold Rsqr in DD. lra.
Qed.
Lemma sqrt_negative_runs : forall fuel num v eps saver x,
  Q2R v < 0 -> Q2R eps < sqrt (- Q2R v) -> Q2R eps < Q2R saver ->
  sqrt_to_new true fuel num v eps saver <> Got x.
Proof.
  induction fuel as [|f IH]; intros num v eps saver x V0 E0 L; [discriminate|].
  cbn [sqrt_to_new]. apply Qleb_Rf in L. rewrite L.
  destruct (Qeq_bool num 0) eqn:Z0; [discriminate|].
  apply Qeqb_Rf in Z0. rewrite Q2R_0' in Z0. apply IH; [exact V0|exact E0|].
  rewrite step_size_R, heron_Q by exact Z0. pose proof (heron_negative Z0 V0). lra.
Qed.

(** Unsigned: after a step downwards the loop takes itself to be finished. *)
Lemma sqrt_unsigned_two : forall fuel num v eps saver, (3 <= fuel)%nat ->
  0 <= Q2R v -> 0 < Q2R num -> 0 <= Q2R eps -> Q2R eps < Q2R saver ->
  exists r s, sqrt_to_new false fuel num v eps saver = Got (r, s) /\
  (r = sqrt_iteration num v \/ r = sqrt_iteration (sqrt_iteration num v) v).
Proof.
  intros fuel num v eps saver F V0 N0 E0 L. destruct fuel as [|[|[|f]]]; try lia.
  cbn [sqrt_to_new]. apply Qleb_Rf in L. rewrite L.
  destruct (Qeq_bool num 0) eqn:Z0; [apply Qeqb_R in Z0; rewrite Q2R_0' in Z0; lra|].
  destruct (Qle_bool (step_size false (sqrt_iteration num v) num) eps) eqn:L1; [do 2 eexists; split; [reflexivity|tauto]|].
  pose proof (heron_pos N0 V0) as HP. pose proof (heron_ge N0 V0) as HG. rewrite <- heron_Q in HP, HG by lra.
  destruct (Qeq_bool (sqrt_iteration num v) 0) eqn:Z1; [apply Qeqb_R in Z1; rewrite Q2R_0' in Z1; lra|].
  assert (L2 : Qle_bool (step_size false (sqrt_iteration (sqrt_iteration num v) v) (sqrt_iteration num v)) eps = true).
  { apply Qleb_R. rewrite step_size_R. rewrite (heron_Q v (x := sqrt_iteration num v)) by lra.
    destruct (heron_half HP V0 HG) as [_ H2]. rewrite Rmax_left by lra. exact E0. }
  rewrite L2. do 2 eexists. split; [reflexivity|tauto].
Qed.
Lemma no_square_far : forall v r, no_square v -> 0 <= Q2R v -> 0 < Rabs (Q2R r - sqrt (Q2R v)).
Proof.
  intros v r NS V0. apply Rabs_pos_lt. intros E. apply (NS r). apply eqR_Qeq. rewrite Q2R_mult.
  replace (Q2R r) with (sqrt (Q2R v)) by lra. apply sqrt_sqrt. exact V0.
Qed.
(** A rational below a positive real. *)
Lemma Q_below : forall x, 0 < x -> exists q : Q, 0 < Q2R q < x.
Proof.
  intros x X0. destruct (pow2_big 1 X0) as (n & B). exists (1 / inject_Z (2 * 2 ^ Z.of_nat n))%Q.
  assert (P : Q2R (inject_Z (2 * 2 ^ Z.of_nat n)) = 2 * 2 ^ n).
  { rewrite Q2R_int, mult_IZR, <- pow_IZR. reflexivity. }
  assert (0 < 2 ^ n) by (apply pow_lt; lra).
  rewrite Q2R_divn by (rewrite P; lra). rewrite P, Q2R_1'. split.
  - apply Rmult_lt_0_compat; [lra|]. apply Rinv_0_lt_compat. lra.
  - apply Rmult_lt_reg_r with (2 * 2 ^ n); [lra|]. replace (1 / (2 * 2 ^ n) * (2 * 2 ^ n)) with 1 by (field; lra). nra.
Qed.

(** * Inverse square roots *)
Definition inewton (r v : R) : R := r * (3 - v * r * r) / 2.
Lemma inewton_Q : forall x v, Q2R (invsqrt_iteration x v) = inewton (Q2R x) (Q2R v).
Proof.
  intros x v. unfold invsqrt_iteration, inewton.
  rewrite Q2R_divn by (rewrite Q2R_2'; lra). rewrite Q2R_mult, Q2R_minus, !Q2R_mult, Q2R_2', Q2R_3'. reflexivity.
Qed.
Lemma inewton_scaled : forall r s, inewton r (s * s) * s = (r * s) * (3 - (r * s) * (r * s)) / 2.
Proof. intros r s. unfold inewton. field. Qed.
(** One step, with [y] for the approximation times the root. *)
Lemma iscaled : forall y, 5/8 <= y <= 29/20 ->
  let z := y * (3 - y * y) / 2 in
  5/8 <= z <= 1 /\ 1 - z <= Rabs (z - y) /\ (y <= 1 -> 1 - z <= 9/16 * (1 - y) /\ y <= z).
Proof.
  intros y [L H] z.
  assert (Z1 : 1 - z = (1 - y) * (1 - y) * (2 + y) / 2) by (unfold z; field).
  assert (Z2 : z - y = y * (1 - y) * (1 + y) / 2) by (unfold z; field).
  assert (SQ : 0 <= (1 - y) * (1 - y)) by apply Rle_0_sqr.
  assert (Z1' : 0 <= 1 - z) by (rewrite Z1; assert (0 <= (1 - y) * (1 - y) * (2 + y)) by (apply Rmult_le_pos; lra); lra).
  destruct (Rle_or_lt y 1) as [B|B].
  - assert (P : 0 <= y * (1 - y)) by (apply Rmult_le_pos; lra).
    assert (P2 : 0 <= y * (1 - y) * (1 + y)) by (apply Rmult_le_pos; lra).
    assert (Z3 : y <= z) by lra.
    assert (K : 0 <= (1 - y) * (2 * y * y + 2 * y - 2)) by (apply Rmult_le_pos; [lra|nra]).
    assert (K2 : 0 <= (1 - y) * (9/8 - (1 - y) * (2 + y))) by (apply Rmult_le_pos; [lra|nra]).
    split; [lra|]. split; [rewrite Rabs_right by lra; lra|]. intros _. split; [lra|exact Z3].
  - assert (P2 : 0 <= y * (y - 1) * (1 + y)) by (apply Rmult_le_pos; [apply Rmult_le_pos|]; lra).
    assert (Z3 : 5/8 <= z).
    { unfold z. assert (0 <= y * (3 - y * y) - 5/4); [|lra].
      assert (y * y <= 841/400) by nra. nra. }
    split; [lra|]. split; [|intros; lra].
    rewrite Rabs_left1 by lra. lra.
Qed.
Lemma istep : forall r s, 0 < s -> 5/8 <= r * s <= 29/20 ->
  let n := inewton r (s * s) in
  5/8 <= n * s <= 1 /\ 0 <= / s - n <= Rabs (n - r) /\ (r * s <= 1 -> / s - n <= 9/16 * (/ s - r) /\ Rabs (n - r) <= / s - r).
Proof.
  intros r s S0 B n. pose proof (inewton_scaled r s) as SC. fold n in SC.
  destruct (iscaled B) as (A1 & A2 & A3). rewrite <- SC in A1, A2, A3.
  assert (I0 : 0 < / s) by (apply Rinv_0_lt_compat; exact S0).
  assert (D1 : / s - n = (1 - n * s) * / s) by (field; lra).
  assert (D2 : / s - r = (1 - r * s) * / s) by (field; lra).
  assert (D3 : n - r = (n * s - r * s) * / s) by (field; lra).
  assert (D4 : Rabs (n - r) = Rabs (n * s - r * s) * / s).
  { rewrite D3, Rabs_mult, (Rabs_right (/ s)) by lra. reflexivity. }
  split; [exact A1|]. split; [split|].
  - rewrite D1. apply Rmult_le_pos; lra.
  - rewrite D1, D4. apply Rmult_le_compat_r; lra.
  - intros B1. destruct (A3 B1) as [C1 C2]. rewrite D1, D2, D4. split.
    + replace (9 / 16 * ((1 - r * s) * / s)) with ((9 / 16 * (1 - r * s)) * / s) by ring. apply Rmult_le_compat_r; lra.
    + apply Rmult_le_compat_r; [lra|]. rewrite Rabs_right by lra. lra.
Qed.
Lemma inv_loop_good : forall fuel num v eps saver r s,
  0 < Q2R v -> 5/8 <= Q2R num * sqrt (Q2R v) <= 29/20 ->
  (Q2R saver <= Q2R eps -> Rabs (Q2R num - / sqrt (Q2R v)) <= Q2R saver) ->
  invsqrt_to_new fuel num v eps saver = Got (r, s) ->
  Rabs (Q2R r - / sqrt (Q2R v)) <= Q2R s /\ Q2R s <= Q2R eps.
Proof.
  induction fuel as [|f IH]; intros num v eps saver r s V0 N0 P E; [discriminate|].
  cbn [invsqrt_to_new] in E. destruct (Qle_bool saver eps) eqn:L.
  - apply Qleb_R in L. assert (num = r /\ saver = s) as [-> ->] by (split; congruence).
    exact (conj (P L) L).
  - assert (S0 : 0 < sqrt (Q2R v)) by (apply sqrt_lt_R0; exact V0).
    assert (SS : sqrt (Q2R v) * sqrt (Q2R v) = Q2R v) by (apply sqrt_sqrt; lra).
    destruct (istep S0 N0) as (A1 & A2 & _). rewrite SS in A1, A2.
    refine (IH _ _ _ _ _ _ V0 _ _ E); rewrite inewton_Q.
    + lra.
    + intros _. rewrite step_size_R, inewton_Q. rewrite Rabs_left1 by lra. lra.
Qed.
Lemma inv_loop_ends : forall n num v eps saver,
  0 < Q2R v -> 5/8 <= Q2R num * sqrt (Q2R v) <= 1 -> / sqrt (Q2R v) - Q2R num <= Q2R eps * (16/9) ^ n ->
  exists x, invsqrt_to_new (Datatypes.S (Datatypes.S n)) num v eps saver = Got x.
Proof.
  induction n as [|n IH]; intros num v eps saver V0 N0 B;
    assert (S0 : 0 < sqrt (Q2R v)) by (apply sqrt_lt_R0; exact V0);
    assert (SS : sqrt (Q2R v) * sqrt (Q2R v) = Q2R v) by (apply sqrt_sqrt; lra);
    (destruct (@istep (Q2R num) (sqrt (Q2R v)) S0 ltac:(lra)) as (A1 & A2 & A3); rewrite SS in A1, A2, A3;
     destruct (A3 ltac:(lra)) as [A4 A5]).
  - cbn [invsqrt_to_new]. destruct (Qle_bool saver eps) eqn:L; [eauto|].
    assert (L2 : Qle_bool (step_size true (invsqrt_iteration num v) num) eps = true).
    { apply Qleb_R. rewrite step_size_R, inewton_Q. cbn [pow] in B. lra. }
    rewrite L2. eauto.
  - remember (Datatypes.S n) as m eqn:Em. cbn [invsqrt_to_new]. destruct (Qle_bool saver eps) eqn:L; [eauto|].
    subst m. refine (IH _ _ _ _ V0 _ _); rewrite inewton_Q; [exact A1|]. cbn [pow] in B. lra.
Qed.
Lemma invsqrt_mono : forall f k num v eps saver x,
  invsqrt_to_new f num v eps saver = Got x -> invsqrt_to_new (f + k) num v eps saver = Got x.
Proof.
  induction f as [|f IH]; intros k num v eps saver x E; [discriminate|].
  cbn [invsqrt_to_new Nat.add] in *. destruct (Qle_bool saver eps); [exact E|]. apply IH. exact E.
Qed.
Lemma pow_big : forall b x e, 1 < b -> 0 < e -> exists n, x <= e * b ^ n.
Proof.
  intros b x e B1 E0. destruct (Pow_x_infinity b) with (b := x / e) as (n & H).
  - rewrite Rabs_right; lra.
  - exists n. specialize (H n (le_n n)). rewrite Rabs_right in H.
    + apply Rmult_le_reg_r with (/ e); [apply Rinv_0_lt_compat; exact E0|].
      replace (e * b ^ n * / e) with (b ^ n) by (field; lra). lra.
    + apply Rle_ge, pow_le. lra.
Qed.
Lemma invsqrt_ends : forall num v eps saver, 0 < Q2R v -> 5/8 <= Q2R num * sqrt (Q2R v) <= 29/20 -> 0 < Q2R eps ->
  exists F x, forall fuel, (F <= fuel)%nat -> invsqrt_to_new fuel num v eps saver = Got x.
Proof.
  intros num v eps saver V0 N0 E0.
  assert (X : exists F x, invsqrt_to_new F num v eps saver = Got x).
  { destruct (Qle_bool saver eps) eqn:L; [exists 1%nat; eexists; cbn [invsqrt_to_new]; rewrite L; reflexivity|].
    assert (S0 : 0 < sqrt (Q2R v)) by (apply sqrt_lt_R0; exact V0).
    assert (SS : sqrt (Q2R v) * sqrt (Q2R v) = Q2R v) by (apply sqrt_sqrt; lra).
    destruct (istep S0 N0) as (A1 & A2 & _). rewrite SS in A1, A2.
    destruct (@pow_big (16/9) (/ sqrt (Q2R v) - Q2R (invsqrt_iteration num v)) (Q2R eps) ltac:(lra) E0) as (n & B).
    destruct (@inv_loop_ends n (invsqrt_iteration num v) v eps (step_size true (invsqrt_iteration num v) num) V0) as (x & X).
    - rewrite inewton_Q. exact A1.
    - exact B.
    - exists (Datatypes.S (Datatypes.S (Datatypes.S n))), x. remember (Datatypes.S (Datatypes.S n)) as m.
      cbn [invsqrt_to_new]. rewrite L. exact X. }
  destruct X as (F & x & X). exists F, x. intros fuel L. replace fuel with (F + (fuel - F))%nat by lia.
  apply invsqrt_mono. exact X.
Qed.

(** * Sine *)
Definition mag (k : nat) (x : R) : R := x ^ (2 * k + 1) / INR (fact (2 * k + 1)).
Definition sterm (k : nat) (x : R) : R := (-1) ^ k * mag k x.
Definition ssum (n : nat) (x : R) : R := sum_f_R0 (fun k => sterm k x) n.
Definition cterm (k : nat) (x : R) : R := (-1) ^ k * (x ^ (2 * k) / INR (fact (2 * k))).
Definition csum (n : nat) (x : R) : R := sum_f_R0 (fun k => cterm k x) n.

Lemma fact_S : forall n, INR (fact (Datatypes.S n)) = INR (Datatypes.S n) * INR (fact n).
Proof. intros n. rewrite <- mult_INR. reflexivity. Qed.
Lemma monomial_deriv : forall a m x, derivable_pt_lim (fun y => a * (y ^ Datatypes.S m / INR (fact (Datatypes.S m)))) x (a * (x ^ m / INR (fact m))).
Proof.
  intros a m x.
  assert (E : a * (x ^ m / INR (fact m)) = (a / INR (fact (Datatypes.S m))) * (INR (Datatypes.S m) * x ^ pred (Datatypes.S m))).
  { rewrite fact_S. cbn [pred]. field. split; [apply INR_fact_neq_0|apply not_0_INR; discriminate]. }
  rewrite E.
  apply derivable_pt_lim_ext with (f := mult_real_fct (a / INR (fact (Datatypes.S m))) (fun y => y ^ Datatypes.S m)).
  - intros y. unfold mult_real_fct. field. apply INR_fact_neq_0.
  - apply derivable_pt_lim_scal. apply derivable_pt_lim_pow.
Qed.
Lemma sterm_deriv : forall k x, derivable_pt_lim (sterm k) x (cterm k x).
Proof.
  intros k x. unfold sterm, cterm, mag. replace (2 * k + 1)%nat with (Datatypes.S (2 * k)) by lia.
  exact (monomial_deriv ((-1) ^ k) (2 * k) x).
Qed.
Lemma cterm_deriv : forall k x, derivable_pt_lim (cterm (Datatypes.S k)) x (- sterm k x).
Proof.
  intros k x. unfold sterm, cterm, mag. replace (2 * Datatypes.S k)%nat with (Datatypes.S (2 * k + 1)) by lia.
  replace (- ((-1) ^ k * (x ^ (2 * k + 1) / INR (fact (2 * k + 1))))) with
    ((-1) ^ Datatypes.S k * (x ^ (2 * k + 1) / INR (fact (2 * k + 1)))) by (cbn [pow]; ring).
  exact (monomial_deriv ((-1) ^ Datatypes.S k) (2 * k + 1) x).
Qed.
Lemma ssum_deriv : forall n x, derivable_pt_lim (ssum n) x (csum n x).
Proof.
  induction n as [|n IH]; intros x.
  - exact (sterm_deriv 0 x).
  - unfold csum. rewrite tech5.
    apply derivable_pt_lim_ext with (f := plus_fct (ssum n) (sterm (Datatypes.S n))).
    + intros y. unfold plus_fct, ssum. rewrite tech5. reflexivity.
    + apply derivable_pt_lim_plus; [apply IH|apply sterm_deriv].
Qed.
Lemma csum_deriv : forall n x, derivable_pt_lim (csum (Datatypes.S n)) x (- ssum n x).
Proof.
  induction n as [|n IH]; intros x.
  - apply derivable_pt_lim_ext with (f := plus_fct (fct_cte 1) (cterm 1)).
    + intros y. unfold plus_fct, fct_cte, csum. cbn [sum_f_R0]. f_equal. unfold cterm. cbn. field.
    + replace (- ssum 0 x) with (0 + - sterm 0 x) by (unfold ssum; cbn [sum_f_R0]; ring).
      apply derivable_pt_lim_plus; [apply derivable_pt_lim_const|apply cterm_deriv].
  - apply derivable_pt_lim_ext with (f := plus_fct (csum (Datatypes.S n)) (cterm (Datatypes.S (Datatypes.S n)))).
    + intros y. unfold plus_fct, csum. rewrite (tech5 _ (Datatypes.S n)). reflexivity.
    + replace (- ssum (Datatypes.S n) x) with (- ssum n x + - sterm (Datatypes.S n) x)
        by (unfold ssum; rewrite (tech5 _ n); ring).
      apply derivable_pt_lim_plus; [apply IH|apply cterm_deriv].
Qed.
Lemma ssum_0 : forall n, ssum n 0 = 0.
Proof.
  induction n as [|n IH]; unfold ssum in *.
  - cbn. unfold sterm, mag. cbn. lra.
  - rewrite tech5, IH. unfold sterm, mag. rewrite pow_ne_zero by lia. unfold Rdiv. ring.
Qed.
Lemma csum_0 : forall n, csum n 0 = 1.
Proof.
  induction n as [|n IH]; unfold csum in *.
  - cbn. unfold cterm. cbn. lra.
  - rewrite tech5, IH. unfold cterm. rewrite pow_ne_zero by lia. unfold Rdiv. ring.
Qed.
Lemma grows : forall f f', (forall x, derivable_pt_lim f x (f' x)) -> f 0 = 0 ->
  (forall x, 0 <= x -> 0 <= f' x) -> forall x, 0 <= x -> 0 <= f x.
Proof.
  intros f f' D F0 P x [X|<-]; [|lra].
  destruct (@MVT_cor2 f f' 0 x X (fun c _ => D c)) as (c & E & B).
  rewrite F0 in E. assert (0 <= f' c * (x - 0)) by (apply Rmult_le_pos; [apply P; lra|lra]). lra.
Qed.
Definition sgap (n : nat) (x : R) := (-1) ^ Datatypes.S n * (sin x - ssum n x).
Definition cgap (n : nat) (x : R) := (-1) ^ Datatypes.S n * (cos x - csum n x).
Lemma gaps : forall n x, 0 <= x -> 0 <= cgap n x /\ 0 <= sgap n x.
Proof.
  assert (SD : forall n x, derivable_pt_lim (sgap n) x (cgap n x)).
  { intros n x. unfold sgap, cgap.
    apply (derivable_pt_lim_scal (minus_fct sin (ssum n)) ((-1) ^ Datatypes.S n)).
    apply derivable_pt_lim_minus; [apply derivable_pt_lim_sin|apply ssum_deriv]. }
  assert (CD : forall n x, derivable_pt_lim (cgap (Datatypes.S n)) x (sgap n x)).
  { intros n x. unfold sgap, cgap.
    replace ((-1) ^ Datatypes.S n * (sin x - ssum n x)) with ((-1) ^ Datatypes.S (Datatypes.S n) * (- sin x - - ssum n x)) by (cbn [pow]; ring).
    apply (derivable_pt_lim_scal (minus_fct cos (csum (Datatypes.S n))) ((-1) ^ Datatypes.S (Datatypes.S n))).
    apply derivable_pt_lim_minus; [apply derivable_pt_lim_cos|apply csum_deriv]. }
  assert (S0 : forall n, sgap n 0 = 0) by (intros n; unfold sgap; rewrite ssum_0, sin_0; ring).
  assert (C0 : forall n, cgap n 0 = 0) by (intros n; unfold cgap; rewrite csum_0, cos_0; ring).
  induction n as [|n IH].
  - assert (C : forall x, 0 <= x -> 0 <= cgap 0 x).
    { intros x _. unfold cgap, csum, cterm. cbn. pose proof (COS_bound x). lra. }
    intros x X. split; [exact (C x X)|]. exact (grows (SD 0%nat) (S0 0%nat) C X).
  - assert (C : forall x, 0 <= x -> 0 <= cgap (Datatypes.S n) x).
    { intros x X. exact (grows (CD n) (C0 _) (fun y Y => proj2 (IH y Y)) X). }
    intros x X. split; [exact (C x X)|]. exact (grows (SD _) (S0 _) C X).
Qed.
Lemma mag_neg : forall k x, mag k (- x) = - mag k x.
Proof.
  intros k x. unfold mag. replace (2 * k + 1)%nat with (Datatypes.S (2 * k)) by lia.
  cbn [pow]. replace ((- x) ^ (2 * k)) with (x ^ (2 * k)) by (rewrite !pow_mult; f_equal; ring).
  field. apply INR_fact_neq_0.
Qed.
Lemma ssum_neg : forall n x, ssum n (- x) = - ssum n x.
Proof.
  induction n as [|n IH]; intros x; unfold ssum in *.
  - cbn [sum_f_R0]. unfold sterm. rewrite mag_neg. ring.
  - rewrite !tech5, IH. unfold sterm. rewrite mag_neg. ring.
Qed.
Lemma pow1_sq : forall n, (-1) ^ n * (-1) ^ n = 1.
Proof. intros n. rewrite <- Rpow_mult_distr. replace (-1 * -1) with 1 by ring. apply pow1. Qed.
Lemma sin_bound_pos : forall n x, 0 <= x -> Rabs (sin x - ssum n x) <= mag (Datatypes.S n) x.
Proof.
  intros n x X. destruct (gaps n X) as [_ A]. destruct (gaps (Datatypes.S n) X) as [_ B].
  assert (E : sgap (Datatypes.S n) x = mag (Datatypes.S n) x - sgap n x).
  { unfold sgap, ssum. rewrite (tech5 _ n). unfold sterm at 2.
    pose proof (pow1_sq n) as Q. cbn [pow].
    set (s := sum_f_R0 (fun k => sterm k x) n). set (p := (-1) ^ n) in *. set (m := mag (Datatypes.S n) x).
    replace m with (p * p * m) at 2 by (rewrite Q; ring). ring. }
  assert (Rabs (sin x - ssum n x) = sgap n x).
  { rewrite <- (Rabs_right (sgap n x)) by lra. unfold sgap. rewrite Rabs_mult, pow_1_abs. ring. }
  lra.
Qed.
Lemma sin_bound_all : forall n x, Rabs (sin x - ssum n x) <= Rabs (mag (Datatypes.S n) x).
Proof.
  intros n x. destruct (Rle_or_lt 0 x) as [X|X].
  - eapply Rle_trans; [apply sin_bound_pos; exact X|apply Rle_abs].
  - pose proof (@sin_bound_pos n (- x) ltac:(lra)) as H. rewrite sin_neg, ssum_neg, mag_neg in H.
    replace (- sin x - - ssum n x) with (- (sin x - ssum n x)) in H by ring. rewrite Rabs_Ropp in H.
    rewrite <- (Rabs_Ropp (mag (Datatypes.S n) x)). eapply Rle_trans; [exact H|apply Rle_abs].
Qed.
(** The terms. *)
Lemma mag_next : forall k x, mag (Datatypes.S k) x = mag k x * (x * x / ((INR (2 * k + 1) + 1) * (INR (2 * k + 1) + 2))).
Proof.
  intros k x. unfold mag. replace (2 * Datatypes.S k + 1)%nat with (Datatypes.S (Datatypes.S (2 * k + 1))) by lia.
  rewrite !fact_S, !S_INR. cbn [pow]. pose proof (pos_INR (2 * k + 1)). field.
  repeat split; first [apply INR_fact_neq_0|lra].
Qed.
Lemma mag_small : forall k x, x * x <= (INR (2 * k + 1) + 1) * (INR (2 * k + 1) + 2) -> Rabs (mag (Datatypes.S k) x) <= Rabs (mag k x).
Proof.
  intros k x H. rewrite mag_next, Rabs_mult. pose proof (pos_INR (2 * k + 1)) as P.
  rewrite <- (Rmult_1_r (Rabs (mag k x))) at 2. apply Rmult_le_compat_l; [apply Rabs_pos|].
  pose proof (Rle_0_sqr x) as SQ. unfold Rsqr in SQ.
  assert (D : 0 < (INR (2 * k + 1) + 1) * (INR (2 * k + 1) + 2)) by (apply Rmult_lt_0_compat; lra).
  rewrite Rabs_right.
  - apply Rmult_le_reg_r with ((INR (2 * k + 1) + 1) * (INR (2 * k + 1) + 2)); [exact D|].
    replace (x * x / ((INR (2 * k + 1) + 1) * (INR (2 * k + 1) + 2)) * ((INR (2 * k + 1) + 1) * (INR (2 * k + 1) + 2))) with (x * x); [lra|].
    field. split; lra.
  - apply Rle_ge. apply Rmult_le_pos; [exact SQ|]. left. apply Rinv_0_lt_compat. exact D.
Qed.
Lemma mag_drop : forall k x, Rabs (mag (Datatypes.S k) x) < Rabs (mag k x) -> x * x <= (INR (2 * k + 1) + 1) * (INR (2 * k + 1) + 2).
Proof.
  intros k x H. pose proof (pos_INR (2 * k + 1)) as P.
  assert (D : 0 < (INR (2 * k + 1) + 1) * (INR (2 * k + 1) + 2)) by (apply Rmult_lt_0_compat; lra).
  destruct (Rle_or_lt (x * x) ((INR (2 * k + 1) + 1) * (INR (2 * k + 1) + 2))) as [L|G]; [exact L|exfalso].
  rewrite mag_next, Rabs_mult in H.
  assert (1 <= Rabs (x * x / ((INR (2 * k + 1) + 1) * (INR (2 * k + 1) + 2)))).
  { eapply Rle_trans; [|apply Rle_abs]. apply Rmult_le_reg_r with ((INR (2 * k + 1) + 1) * (INR (2 * k + 1) + 2)); [exact D|].
    replace (x * x / ((INR (2 * k + 1) + 1) * (INR (2 * k + 1) + 2)) * ((INR (2 * k + 1) + 1) * (INR (2 * k + 1) + 2))) with (x * x); [lra|].
    field. split; lra. }
  pose proof (Rabs_pos (mag k x)). nra.
Qed.
(** They become small. *)
Lemma mag_to_0 : forall x e, 0 < e -> exists k, Rabs (mag k x) <= e.
Proof.
  intros x e E. destruct (cv_speed_pow_fact x e E) as (N & H).
  exists N. specialize (H (2 * N + 1)%nat ltac:(lia)). unfold R_dist in H. rewrite Rminus_0_r in H.
  unfold mag. left. exact H.
Qed.

Lemma odd_INR : forall k, INR (2 * Datatypes.S k + 1) = INR (2 * k + 1) + 1 + 1.
Proof.
  intros k. replace (2 * Datatypes.S k + 1)%nat with (Datatypes.S (Datatypes.S (2 * k + 1))) by lia.
  rewrite !S_INR. reflexivity.
Qed.
Lemma pow_1_even' : forall m, (-1) ^ (2 * m) = 1.
Proof. intros m. rewrite pow_mult. replace ((-1) ^ 2) with 1 by ring. apply pow1. Qed.
Lemma pow_1_odd' : forall m, (-1) ^ (2 * m + 1) = -1.
Proof. intros m. rewrite pow_add, pow_1_even'. ring. Qed.
(** The loop: its state after [k] rounds. *)
Lemma sin_state : forall k x base result i,
  Q2R base = mag k (Q2R x) -> Q2R result = ssum k (Q2R x) -> Q2R i = INR (2 * k + 1) ->
  let base' := (base * (x * x / ((i + 1) * (i + 2))))%Q in
  Q2R base' = mag (Datatypes.S k) (Q2R x) /\
  Q2R (result + (if Nat.odd (Datatypes.S k) then - base' else base'))%Q = ssum (Datatypes.S k) (Q2R x) /\
  Q2R (i + 2)%Q = INR (2 * Datatypes.S k + 1).
Proof.
  intros k x base result i B R I base'. pose proof (pos_INR (2 * k + 1)) as P.
  assert (B' : Q2R base' = mag (Datatypes.S k) (Q2R x)).
  { unfold base'. rewrite mag_next, Q2R_mult, B. f_equal. rewrite Q2R_divn.
    - rewrite !Q2R_mult, !Q2R_plus, Q2R_1', Q2R_2', I. reflexivity.
    - rewrite Q2R_mult, !Q2R_plus, Q2R_1', Q2R_2', I. apply Rgt_not_eq. apply Rmult_lt_0_compat; lra. }
  split; [exact B'|]. split.
  - unfold ssum. rewrite tech5, Q2R_plus, R. fold (ssum k (Q2R x)). f_equal. unfold sterm.
    destruct (Nat.odd (Datatypes.S k)) eqn:O.
    + apply Nat.odd_spec in O. destruct O as (m & O). rewrite Q2R_opp, B'.
      replace ((-1) ^ Datatypes.S k) with (-1); [ring|]. symmetry. rewrite O. exact (pow_1_odd' m).
    + assert (O' : Nat.even (Datatypes.S k) = true) by (rewrite <- Nat.negb_odd, O; reflexivity).
      apply Nat.even_spec in O'. destruct O' as (m & O'). rewrite B'.
      replace ((-1) ^ Datatypes.S k) with 1; [ring|]. symmetry. rewrite O'. exact (pow_1_even' m).
  - rewrite Q2R_plus, Q2R_2', I, odd_INR. ring.
Qed.
Lemma odd_step : forall k, negb (Nat.odd k) = Nat.odd (Datatypes.S k).
Proof. intros k. rewrite Nat.odd_succ, <- Nat.negb_odd. reflexivity. Qed.
(** When it returns after another round, the terms have begun to fall. *)
Lemma sin_loop_good : forall fuel k x base result i eps r,
  Q2R base = mag k (Q2R x) -> Q2R result = ssum k (Q2R x) -> Q2R i = INR (2 * k + 1) ->
  (Q2R x * Q2R x <= (INR (2 * k + 1) + 1) * (INR (2 * k + 1) + 2) \/ Q2R eps < Rabs (mag k (Q2R x))) ->
  sin_loop fuel base result (x * x) i eps (Nat.odd k) = Got r ->
  Rabs (Q2R r - sin (Q2R x)) <= Q2R eps.
Proof.
  induction fuel as [|f IH]; intros k x base result i eps r B R I Q E; [discriminate|].
  cbn [sin_loop] in E. destruct (Qle_bool (Qabs base) eps) eqn:L.
  - apply Qleb_R in L. rewrite Q2R_abs, B in L. assert (result = r) as -> by congruence.
    destruct Q as [Q|Q]; [|lra].
    rewrite R, Rabs_minus_sym. pose proof (sin_bound_all k (Q2R x)). pose proof (mag_small Q). lra.
  - apply Qleb_Rf in L. rewrite Q2R_abs, B in L.
    destruct (sin_state B R I) as (B' & R' & I').
    rewrite odd_step in E.
    refine (IH (Datatypes.S k) x _ _ _ _ _ B' R' I' _ E).
    destruct (Rle_or_lt (Rabs (mag (Datatypes.S k) (Q2R x))) (Q2R eps)) as [A|A]; [left|right; exact A].
    pose proof (@mag_drop k (Q2R x) ltac:(lra)) as D. pose proof (pos_INR (2 * k + 1)).
    replace (INR (2 * Datatypes.S k + 1)) with (INR (2 * k + 1) + 2) by (rewrite odd_INR; ring).
    eapply Rle_trans; [exact D|]. apply Rmult_le_compat; lra.
Qed.
Lemma sin_loop_ends : forall n k x base result i eps,
  Q2R base = mag k (Q2R x) -> Q2R result = ssum k (Q2R x) -> Q2R i = INR (2 * k + 1) ->
  Rabs (mag (k + n) (Q2R x)) <= Q2R eps ->
  exists r, sin_loop (Datatypes.S n) base result (x * x) i eps (Nat.odd k) = Got r.
Proof.
  induction n as [|n IH]; intros k x base result i eps B R I S.
  - cbn [sin_loop]. rewrite Nat.add_0_r in S.
    assert (L : Qle_bool (Qabs base) eps = true) by (apply Qleb_R; rewrite Q2R_abs, B; exact S).
    rewrite L. eauto.
  - remember (Datatypes.S n) as m eqn:Em. cbn [sin_loop]. destruct (Qle_bool (Qabs base) eps); [eauto|].
    destruct (sin_state B R I) as (B' & R' & I'). rewrite odd_step. subst m.
    apply (IH (Datatypes.S k)); [exact B'|exact R'|exact I'|].
    replace (Datatypes.S k + n)%nat with (k + Datatypes.S n)%nat by lia. exact S.
Qed.
Lemma sin_loop_mono : forall f j base result pw i eps ng x,
  sin_loop f base result pw i eps ng = Got x -> sin_loop (f + j) base result pw i eps ng = Got x.
Proof.
  induction f as [|f IH]; intros j base result pw i eps ng x E; [discriminate|].
  cbn [sin_loop Nat.add] in *. destruct (Qle_bool (Qabs base) eps); [exact E|]. apply IH. exact E.
Qed.
Lemma mag_1 : forall x, mag 0 x = x.
Proof. intros x. unfold mag. cbn. field. Qed.
Lemma sin_start : forall x, Q2R x = mag 0 (Q2R x) /\ Q2R x = ssum 0 (Q2R x) /\ Q2R 1 = INR (2 * 0 + 1).
Proof.
  intros x. rewrite mag_1. unfold ssum. cbn [sum_f_R0]. unfold sterm. rewrite mag_1. cbn [pow].
  split; [reflexivity|]. split; [ring|]. rewrite Q2R_1'. reflexivity.
Qed.
Lemma sin_eps_ends : forall x eps, 0 < Q2R eps ->
  exists F r, forall fuel, (F <= fuel)%nat -> sin_eps fuel x eps = Got r.
Proof.
  intros x eps E0. destruct (mag_to_0 (Q2R x) E0) as (n & H). destruct (sin_start x) as (B & R & I).
  destruct (@sin_loop_ends n 0 x x x 1 eps B R I H) as (r & X).
  exists (Datatypes.S n), r. intros fuel L. unfold sin_eps.
  replace fuel with (Datatypes.S n + (fuel - Datatypes.S n))%nat by lia. apply sin_loop_mono. exact X.
Qed.
Lemma sin_eps_good : forall fuel x eps r, Q2R eps <= 2 \/ Q2R eps < Rabs (Q2R x) ->
  sin_eps fuel x eps = Got r -> Rabs (Q2R r - sin (Q2R x)) <= Q2R eps.
Proof.
  intros fuel x eps r H E. destruct (sin_start x) as (B & R & I).
  refine (@sin_loop_good fuel 0 x x x 1 eps r B R I _ E).
  destruct (Rle_or_lt (Rabs (Q2R x)) (Q2R eps)) as [L|G]; [left|right; rewrite mag_1; exact G].
  destruct H as [H|H]; [|lra]. cbn [INR Nat.mul Nat.add].
  assert (Rabs (Q2R x) * Rabs (Q2R x) <= 2 * 2) by (apply Rmult_le_compat; try apply Rabs_pos; lra).
  rewrite <- Rabs_mult, Rabs_right in H0; [lra|]. apply Rle_ge, Rle_0_sqr.
Qed.

(** * Cosine *)
Lemma sin_lipschitz : forall a b, Rabs (sin a - sin b) <= Rabs (a - b).
Proof.
  intros a b. destruct (@MVT_abs sin cos b a (fun c _ => derivable_pt_lim_sin c)) as (c & E & _).
  rewrite E. rewrite <- (Rmult_1_l (Rabs (a - b))) at 2. apply Rmult_le_compat_r; [apply Rabs_pos|].
  pose proof (COS_bound c). apply Rabs_le. lra.
Qed.
Lemma cos_eps_good : forall fuel p x eps d r, Q2R eps <= 2 -> Rabs (Q2R p - PI) <= d ->
  cos_eps fuel p x eps = Got r -> Rabs (Q2R r - cos (Q2R x)) <= Q2R eps + d / 2.
Proof.
  intros fuel p x eps d r H P E. unfold cos_eps in E.
  pose proof (sin_eps_good (or_introl H) E) as G.
  assert (A : Q2R (p / 2 - x) = Q2R p / 2 - Q2R x).
  { rewrite Q2R_minus, Q2R_divn, Q2R_2' by (rewrite Q2R_2'; lra). reflexivity. }
  rewrite A in G. pose proof (sin_lipschitz (Q2R p / 2 - Q2R x) (PI / 2 - Q2R x)) as L.
  rewrite sin_shift in L.
  replace (Q2R p / 2 - Q2R x - (PI / 2 - Q2R x)) with ((Q2R p - PI) * / 2) in L by field.
  rewrite Rabs_mult, (Rabs_right (/ 2)) in L by lra.
  replace (Q2R r - cos (Q2R x)) with ((Q2R r - sin (Q2R p / 2 - Q2R x)) + (sin (Q2R p / 2 - Q2R x) - cos (Q2R x))) by ring.
  eapply Rle_trans; [apply Rabs_triang|]. lra.
Qed.

(** * Arc tangent *)
Definition asum (n : nat) (x : R) : R := sum_f_R0 (tg_alt (Ratan_seq x)) n.
Lemma asum_0 : forall n, asum n 0 = 0.
Proof.
  assert (T : forall i, tg_alt (Ratan_seq 0) i = 0).
  { intros i. unfold tg_alt, Ratan_seq. rewrite (pow_ne_zero (2 * i + 1)) by lia. unfold Rdiv. ring. }
  unfold asum. induction n as [|n IH]; [exact (T 0%nat)|]. rewrite tech5, IH, T. ring.
Qed.
Lemma atan_cv : forall x, 0 <= x <= 1 -> Un_cv (fun N => asum N x) (atan x).
Proof.
  intros x [[X|<-] [Y|Z1]]; unfold asum.
  - rewrite atan_eq_ps_atan by lra. unfold ps_atan. destruct (Ratan.in_int x) as [h|h].
    + destruct (ps_atan_exists_1 x h) as (v & Pv). exact Pv.
    + exfalso. apply h. lra.
  - subst x. pose proof Alt_PI_eq as A. unfold Alt_PI in A. destruct exist_PI as (l & Pl).
    rewrite atan_1. replace (PI / 4) with l by lra.
    eapply Un_cv_ext; [|exact Pl]. intros n. apply sum_eq. intros i _. unfold tg_alt, PI_tg, Ratan_seq.
    rewrite pow1. field. apply not_0_INR. lia.
  - rewrite atan_0. intros e E. exists 0%nat. intros n _. unfold R_dist.
    replace (sum_f_R0 (tg_alt (Ratan_seq 0)) n) with 0; [rewrite Rminus_0_r, Rabs_R0; lra|].
    symmetry. exact (asum_0 n).
  - lra.
Qed.
Lemma Ratan_pos : forall x n, 0 <= x -> 0 <= Ratan_seq x n.
Proof.
  intros x n X. unfold Ratan_seq. apply Rmult_le_pos; [apply pow_le; exact X|].
  left. apply Rinv_0_lt_compat. apply lt_0_INR. lia.
Qed.
Lemma asum_err : forall x n, 0 <= x <= 1 -> Rabs (asum n x - atan x) <= Ratan_seq x (Datatypes.S n).
Proof.
  intros x n X. pose proof (Ratan_seq_decreasing _ X) as D. pose proof (Ratan_seq_converging _ X) as C.
  pose proof (atan_cv X) as L. unfold asum in *.
  destruct (Nat.Even_or_Odd n) as [(m & ->)|(m & ->)].
  - destruct (@alternated_series_ineq (Ratan_seq x) (atan x) m D C L) as [A B].
    rewrite tech5 in A. unfold tg_alt at 2 in A.
    replace ((-1) ^ Datatypes.S (2 * m)) with (-1) in A by (cbn [pow]; rewrite pow_1_even'; ring).
    rewrite Rabs_right by lra. lra.
  - destruct (@alternated_series_ineq (Ratan_seq x) (atan x) m D C L) as [A _].
    destruct (@alternated_series_ineq (Ratan_seq x) (atan x) (Datatypes.S m) D C L) as [_ B].
    replace (2 * Datatypes.S m)%nat with (Datatypes.S (2 * m + 1)) in B by lia.
    rewrite tech5 in B. unfold tg_alt at 2 in B.
    replace ((-1) ^ Datatypes.S (2 * m + 1)) with 1 in B by (cbn [pow]; rewrite pow_1_odd'; ring).
    replace (Datatypes.S (2 * m)) with (2 * m + 1)%nat in A by lia.
    rewrite Rabs_left1 by lra. lra.
Qed.
(** What the loop of the code adds up to. *)
Definition coded (x : R) : R := x - x * x * atan x.
Definition acc (k : nat) (x : R) : R := match k with O => x | Datatypes.S j => x - x * x * asum j x end.
Lemma atan_state : forall k x numerator result i,
  Q2R numerator = Q2R x ^ (2 * k + 1) -> Q2R result = acc k (Q2R x) -> Q2R i = INR (2 * k + 1) ->
  let numerator' := (numerator * (x * x))%Q in
  let sum := (numerator' / i)%Q in
  Q2R numerator' = Q2R x ^ (2 * Datatypes.S k + 1) /\
  Q2R sum = Q2R x * Q2R x * Ratan_seq (Q2R x) k /\
  Q2R (result + (if Nat.odd (Datatypes.S k) then - sum else sum))%Q = acc (Datatypes.S k) (Q2R x) /\
  Q2R (i + 2)%Q = INR (2 * Datatypes.S k + 1).
Proof.
  intros k x numerator result i N R I numerator' sum.
  assert (IP : 0 < INR (2 * k + 1)) by (apply lt_0_INR; lia).
  assert (N' : Q2R numerator' = Q2R x ^ (2 * Datatypes.S k + 1)).
  { unfold numerator'. rewrite !Q2R_mult, N. replace (2 * Datatypes.S k + 1)%nat with (Datatypes.S (Datatypes.S (2 * k + 1))) by lia.
    cbn [pow]. ring. }
  assert (S : Q2R sum = Q2R x * Q2R x * Ratan_seq (Q2R x) k).
  { unfold sum. rewrite Q2R_divn by (rewrite I; lra). unfold numerator'. rewrite !Q2R_mult, N, I.
    unfold Ratan_seq. field. lra. }
  refine (conj N' (conj S (conj _ _))).
  - assert (A : acc (Datatypes.S k) (Q2R x) = acc k (Q2R x) - (-1) ^ k * (Q2R x * Q2R x * Ratan_seq (Q2R x) k)).
    { unfold acc. destruct k as [|k]; unfold asum.
      - cbn [sum_f_R0]. unfold tg_alt. cbn [pow]. ring.
      - rewrite tech5. unfold tg_alt at 2. ring. }
    rewrite A, Q2R_plus, R, <- S. unfold Rminus. f_equal.
    destruct (Nat.odd (Datatypes.S k)) eqn:O.
    + rewrite <- odd_step in O. apply negb_true_iff in O.
      assert (O' : Nat.even k = true) by (rewrite <- Nat.negb_odd, O; reflexivity).
      apply Nat.even_spec in O'. destruct O' as (m & ->). rewrite pow_1_even', Q2R_opp. ring.
    + rewrite <- odd_step in O. apply negb_false_iff in O.
      apply Nat.odd_spec in O. destruct O as (m & ->). rewrite pow_1_odd'. ring.
  - rewrite Q2R_plus, Q2R_2', I, odd_INR. ring.
Qed.
Lemma atan_loop_good : forall fuel k x numerator result i eps r, 0 <= Q2R x <= 1 ->
  Q2R numerator = Q2R x ^ (2 * k + 1) -> Q2R result = acc k (Q2R x) -> Q2R i = INR (2 * k + 1) ->
  atan_loop fuel numerator result (x * x) i eps (Nat.odd k) = Got r ->
  Rabs (Q2R r - coded (Q2R x)) <= Q2R eps.
Proof.
  induction fuel as [|f IH]; intros k x numerator result i eps r X N R I E; [discriminate|].
  cbn [atan_loop] in E. rewrite odd_step in E. destruct (atan_state N R I) as (N' & S & R' & I').
  destruct (Qle_bool _ eps) eqn:L.
  - apply Qleb_R in L. rewrite Q2R_abs, S in L.
    assert (E' : Q2R r = acc (Datatypes.S k) (Q2R x)) by (rewrite <- R'; congruence).
    rewrite E'. unfold acc, coded.
    replace (Q2R x - Q2R x * Q2R x * asum k (Q2R x) - (Q2R x - Q2R x * Q2R x * atan (Q2R x)))
      with (- (Q2R x * Q2R x * (asum k (Q2R x) - atan (Q2R x)))) by ring.
    rewrite Rabs_Ropp, Rabs_mult.
    assert (XX : 0 <= Q2R x * Q2R x) by (apply Rle_0_sqr).
    rewrite (Rabs_right (Q2R x * Q2R x)) by lra.
    eapply Rle_trans; [apply Rmult_le_compat_l; [exact XX|exact (asum_err k X)]|].
    eapply Rle_trans; [apply Rmult_le_compat_l; [exact XX|exact (@Ratan_seq_decreasing _ X k)]|].
    eapply Rle_trans; [apply Rle_abs|exact L].
  - exact (IH (Datatypes.S k) x _ _ _ _ _ X N' R' I' E).
Qed.
Lemma atan_loop_ends : forall n k x numerator result i eps,
  Q2R numerator = Q2R x ^ (2 * k + 1) -> Q2R result = acc k (Q2R x) -> Q2R i = INR (2 * k + 1) ->
  Rabs (Q2R x * Q2R x * Ratan_seq (Q2R x) (k + n)) <= Q2R eps ->
  exists r, atan_loop (Datatypes.S n) numerator result (x * x) i eps (Nat.odd k) = Got r.
Proof.
  induction n as [|n IH]; intros k x numerator result i eps N R I B;
    destruct (atan_state N R I) as (N' & S & R' & I').
  - cbn [atan_loop]. rewrite Nat.add_0_r in B.
    assert (L : Qle_bool (Qabs (numerator * (x * x) / i)) eps = true) by (apply Qleb_R; rewrite Q2R_abs, S; exact B).
    rewrite L. eauto.
  - remember (Datatypes.S n) as m eqn:Em. cbn [atan_loop]. destruct (Qle_bool _ eps); [eauto|].
    rewrite odd_step. subst m. apply (IH (Datatypes.S k)); [exact N'|exact R'|exact I'|].
    replace (Datatypes.S k + n)%nat with (k + Datatypes.S n)%nat by lia. exact B.
Qed.
Lemma atan_loop_mono : forall f j a b pw i eps ng x,
  atan_loop f a b pw i eps ng = Got x -> atan_loop (f + j) a b pw i eps ng = Got x.
Proof.
  induction f as [|f IH]; intros j a b pw i eps ng x E; [discriminate|].
  cbn [atan_loop Nat.add] in *. destruct (Qle_bool _ eps); [exact E|]. apply IH. exact E.
Qed.
Lemma atan_start : forall x, Q2R x = Q2R x ^ (2 * 0 + 1) /\ Q2R x = acc 0 (Q2R x) /\ Q2R 1 = INR (2 * 0 + 1).
Proof. intros x. cbn [Nat.mul Nat.add pow acc INR]. rewrite Q2R_1'. repeat split; ring. Qed.
Lemma series_good : forall fuel x eps r, 0 <= Q2R x <= 1 ->
  atan_series fuel x eps = Got r -> Rabs (Q2R r - coded (Q2R x)) <= Q2R eps.
Proof.
  intros fuel x eps r X E. destruct (atan_start x) as (N & R & I).
  exact (@atan_loop_good fuel 0 x x x 1 eps r X N R I E).
Qed.
Lemma series_ends : forall x eps, 0 <= Q2R x <= 1 -> 0 < Q2R eps ->
  exists F r, forall fuel, (F <= fuel)%nat -> atan_series fuel x eps = Got r.
Proof.
  intros x eps X E0. destruct (@Ratan_seq_converging _ X _ E0) as (n & H). specialize (H n (le_n n)).
  unfold R_dist in H. rewrite Rminus_0_r in H. destruct (atan_start x) as (N & R & I).
  destruct (@atan_loop_ends n 0 x x x 1 eps N R I) as (r & G).
  - cbn [Nat.add]. rewrite Rabs_mult. assert (XX : 0 <= Q2R x * Q2R x) by apply Rle_0_sqr.
    rewrite (Rabs_right (Q2R x * Q2R x)) by lra.
    assert (Q2R x * Q2R x <= 1) by (replace 1 with (1 * 1) by ring; apply Rmult_le_compat; lra).
    pose proof (Rabs_pos (Ratan_seq (Q2R x) n)).
    assert (Q2R x * Q2R x * Rabs (Ratan_seq (Q2R x) n) <= 1 * Rabs (Ratan_seq (Q2R x) n)) by (apply Rmult_le_compat_r; lra).
    lra.
  - exists (Datatypes.S n), r. intros fuel L. unfold atan_series.
    replace fuel with (Datatypes.S n + (fuel - Datatypes.S n))%nat by lia. apply atan_loop_mono. exact G.
Qed.
(** The value of the whole function. *)
Definition coded_pos (x : R) : R := if Rle_dec x 1 then coded x else PI / 2 - coded (/ x).
Definition coded_atan (x : R) : R := if Rle_dec 0 x then coded_pos x else - coded_pos (- x).
Lemma half_Q : forall p, Q2R (p / 2) = Q2R p / 2.
Proof. intros p. rewrite Q2R_divn, Q2R_2' by (rewrite Q2R_2'; lra). reflexivity. Qed.
Lemma inv_Q : forall x, Q2R x <> 0 -> Q2R (/ x)%Q = / Q2R x.
Proof. intros x H. apply Q2R_inv. intros E. apply H. apply Qeq_eqR in E. rewrite E. exact Q2R_0'. Qed.
Lemma inv_01 : forall y, 1 < y -> 0 <= / y <= 1.
Proof.
  intros y Y. split; [left; apply Rinv_0_lt_compat; lra|].
  rewrite <- Rinv_1. apply Rinv_le_contravar; lra.
Qed.
Lemma atan_pos_good : forall fuel p x eps d r, 0 <= Q2R x -> Rabs (Q2R p - PI) <= d ->
  atan_pos fuel p x eps = Got r -> Rabs (Q2R r - coded_pos (Q2R x)) <= Q2R eps + d / 2.
Proof.
  intros fuel p x eps d r X P E. unfold atan_pos in E. unfold coded_pos.
  pose proof (Rabs_pos (Q2R p - PI)).
  destruct (Qle_bool x 1) eqn:L.
  - apply Qleb_R in L. rewrite Q2R_1' in L. destruct (Rle_dec (Q2R x) 1); [|lra].
    pose proof (series_good (conj X L) E). lra.
  - apply Qleb_Rf in L. rewrite Q2R_1' in L. destruct (Rle_dec (Q2R x) 1); [lra|].
    destruct (atan_series fuel (/ x) eps) as [r'| |] eqn:S; try discriminate.
    assert (r = (p / 2 - r')%Q) as -> by congruence.
    assert (B : 0 <= Q2R (/ x)%Q <= 1) by (rewrite inv_Q by lra; apply inv_01; exact L).
    pose proof (series_good B S) as G. rewrite inv_Q in G by lra. rewrite Q2R_minus, half_Q.
    replace (Q2R p / 2 - Q2R r' - (PI / 2 - coded (/ Q2R x))) with (- (Q2R r' - coded (/ Q2R x)) + (Q2R p - PI) * / 2) by field.
    eapply Rle_trans; [apply Rabs_triang|]. rewrite Rabs_Ropp, Rabs_mult, (Rabs_right (/ 2)) by lra. lra.
Qed.
Lemma atan_eps_good : forall fuel p x eps d r, Rabs (Q2R p - PI) <= d ->
  atan_eps fuel p x eps = Got r -> Rabs (Q2R r - coded_atan (Q2R x)) <= Q2R eps + d / 2.
Proof.
  intros fuel p x eps d r P E. unfold atan_eps in E. unfold coded_atan.
  destruct (Qle_bool 0 x) eqn:L.
  - apply Qleb_R in L. rewrite Q2R_0' in L. destruct (Rle_dec 0 (Q2R x)); [|lra]. exact (atan_pos_good L P E).
  - apply Qleb_Rf in L. rewrite Q2R_0' in L. destruct (Rle_dec 0 (Q2R x)); [lra|].
    destruct (atan_pos fuel p (Qabs x) eps) as [r'| |] eqn:S; try discriminate.
    assert (r = (- r')%Q) as -> by congruence.
    assert (A : Q2R (Qabs x) = - Q2R x) by (rewrite Q2R_abs, Rabs_left; lra).
    assert (B : 0 <= Q2R (Qabs x)) by lra.
    pose proof (atan_pos_good B P S) as G. rewrite A in G. rewrite Q2R_opp.
    replace (- Q2R r' - - coded_pos (- Q2R x)) with (- (Q2R r' - coded_pos (- Q2R x))) by ring. rewrite Rabs_Ropp. exact G.
Qed.
Lemma atan_eps_ends : forall p x eps, 0 < Q2R eps ->
  exists F r, forall fuel, (F <= fuel)%nat -> atan_eps fuel p x eps = Got r.
Proof.
  assert (POS : forall p x eps, 0 < Q2R eps -> 0 <= Q2R x -> exists F r, forall fuel, (F <= fuel)%nat -> atan_pos fuel p x eps = Got r).
  { intros p x eps E0 X. unfold atan_pos. destruct (Qle_bool x 1) eqn:L.
    - apply Qleb_R in L. rewrite Q2R_1' in L. exact (series_ends (conj X L) E0).
    - apply Qleb_Rf in L. rewrite Q2R_1' in L.
      destruct (@series_ends (/ x)%Q eps) as (F & r & H); [rewrite inv_Q by lra; apply inv_01; exact L|exact E0|].
      exists F, (p / 2 - r)%Q. intros fuel G. rewrite (H fuel G). reflexivity. }
  intros p x eps E0. unfold atan_eps. destruct (Qle_bool 0 x) eqn:L.
  - apply Qleb_R in L. rewrite Q2R_0' in L. exact (POS p x eps E0 L).
  - destruct (@POS p (Qabs x) eps E0) as (F & r & H); [rewrite Q2R_abs; apply Rabs_pos|].
    exists F, (- r)%Q. intros fuel G. rewrite (H fuel G). reflexivity.
Qed.

(** The sum is not the arc tangent. *)
Lemma atan_below : forall y, 0 < y -> 0 < atan y < PI / 2.
Proof. intros y Y. split; [rewrite <- atan_0; apply atan_increasing; exact Y|apply atan_bound]. Qed.
Lemma coded_low : forall y, 0 < y -> coded y < atan y.
Proof.
  intros y Y. destruct (atan_below Y) as [T0 T1]. set (t := atan y) in *.
  assert (C : 0 < cos t) by (apply cos_gt_0; lra).
  assert (TY : sin t / cos t = y) by (pose proof (tan_atan y) as TA; exact TA).
  assert (S2 : sin t * cos t < t).
  { pose proof (@sin_lt_x (2 * t) ltac:(lra)) as H. rewrite sin_2a in H. lra. }
  assert (SY : sin t = y * cos t) by (rewrite <- TY; field; lra).
  pose proof (sin2_cos2 t) as SC. unfold Rsqr in SC.
  assert (K : y < t * (1 + y * y)).
  { assert (CC : (1 + y * y) * (cos t * cos t) = 1) by (rewrite SY in SC; lra).
    apply Rmult_lt_reg_r with (cos t * cos t); [apply Rmult_lt_0_compat; exact C|].
    replace (t * (1 + y * y) * (cos t * cos t)) with t by (rewrite Rmult_assoc, CC; ring).
    replace (y * (cos t * cos t)) with (sin t * cos t) by (rewrite SY; ring). exact S2. }
  unfold coded. fold t. lra.
Qed.
Lemma atan_flip : forall y, 0 < y -> atan y = PI / 2 - atan (/ y).
Proof. intros y Y. pose proof (atan_inv y Y). lra. Qed.
Lemma coded_pos_far : forall x, 0 < x -> coded_pos x <> atan x.
Proof.
  intros x X. unfold coded_pos. destruct (Rle_dec x 1) as [L|G].
  - pose proof (coded_low X). lra.
  - rewrite (atan_flip X). pose proof (@coded_low (/ x) ltac:(apply Rinv_0_lt_compat; exact X)). lra.
Qed.
Lemma coded_far : forall x, x <> 0 -> coded_atan x <> atan x.
Proof.
  intros x X. unfold coded_atan. destruct (Rle_dec 0 x) as [L|G].
  - apply coded_pos_far. lra.
  - pose proof (@coded_pos_far (- x) ltac:(lra)) as H. rewrite atan_opp in H. lra.
Qed.
(** A value at a distance from what is asked for is outside of every small ε. *)
Lemma far_from : forall a b, a <> b -> exists d : Q, 0 < Q2R d /\
  forall r e, Q2R e < Q2R d -> Rabs (r - a) <= 2 * Q2R e -> ~ Rabs (r - b) <= Q2R e.
Proof.
  intros a b N. assert (P : 0 < Rabs (a - b) / 3) by (assert (0 < Rabs (a - b)) by (apply Rabs_pos_lt; lra); lra).
  destruct (Q_below P) as (d & D0 & D1). exists d. split; [exact D0|].
  intros r e E A B. assert (T : Rabs (a - b) <= Rabs (r - a) + Rabs (r - b)).
  { replace (a - b) with (- (r - a) + (r - b)) by ring. eapply Rle_trans; [apply Rabs_triang|]. rewrite Rabs_Ropp. lra. }
  lra.
Qed.

(** * Arc cosine and arc sine *)
Lemma asin_above : forall x, 0 < x <= 1 -> x < asin x.
Proof.
  intros x X. pose proof (@sin_asin x ltac:(lra)) as S. pose proof (asin_bound x) as B. pose proof PI_RGT_0.
  assert (A0 : 0 < asin x).
  { destruct (Rlt_or_le 0 (asin x)) as [A|A]; [exact A|exfalso].
    pose proof (@sin_ge_0 (- asin x) ltac:(lra) ltac:(lra)) as G. rewrite sin_neg, S in G. lra. }
  pose proof (sin_lt_x _ A0). lra.
Qed.
Lemma coded_small : forall y, 0 <= y <= 1 -> coded y <= y /\ 0 <= coded y.
Proof.
  intros y Y. unfold coded. assert (A : 0 <= atan y <= y).
  { destruct Y as [[Y|<-] Z1]; [|rewrite atan_0; lra]. destruct (atan_below Y) as [T0 T1]. split; [lra|].
    destruct (@MVT_cor2 atan (fun c => / (1 + c ^ 2)) 0 y Y (fun c _ => derivable_pt_lim_atan c)) as (c & E & _).
    rewrite atan_0 in E. assert (/ (1 + c ^ 2) <= 1).
    { rewrite <- Rinv_1. apply Rinv_le_contravar; [lra|]. pose proof (pow2_ge_0 c). lra. }
    assert (/ (1 + c ^ 2) * (y - 0) <= 1 * (y - 0)) by (apply Rmult_le_compat_r; lra). lra. }
  assert (0 <= y * y) by apply Rle_0_sqr. assert (0 <= y * y * atan y) by (apply Rmult_le_pos; lra).
  assert (y * y * atan y <= 1 * y).
  { apply Rmult_le_compat; try lra. replace 1 with (1 * 1) by ring. apply Rmult_le_compat; lra. }
  lra.
Qed.
Lemma coded_atan_01 : forall x, 0 <= x <= 1 -> coded_atan x = coded x.
Proof. intros x X. unfold coded_atan, coded_pos. destruct (Rle_dec 0 x); [|lra]. destruct (Rle_dec x 1); [reflexivity|lra]. Qed.
Lemma acos_eps_wrong : forall x, 0 < Q2R x <= 1 -> exists d : Q, 0 < Q2R d /\
  forall fuel p eps r, Q2R eps < Q2R d -> Rabs (Q2R p - PI) <= Q2R eps -> acos_eps fuel p x eps = Got r ->
  ~ Rabs (Q2R r - acos (Q2R x)) <= Q2R eps.
Proof.
  intros x X. pose proof (asin_above X) as A. destruct (@coded_small (Q2R x) ltac:(lra)) as [CS _].
  rewrite acos_asin by lra.
  destruct (@far_from (PI / 2 - coded (Q2R x)) (PI / 2 - asin (Q2R x)) ltac:(lra)) as (d & D0 & D).
  exists d. split; [exact D0|]. intros fuel p eps r E P H. apply D; [exact E|].
  unfold acos_eps in H. destruct (atan_eps fuel p x eps) as [r'| |] eqn:T; try discriminate.
  assert (r = (p / 2 - r')%Q) as -> by congruence.
  pose proof (atan_eps_good P T) as G. rewrite coded_atan_01 in G by lra. rewrite Q2R_minus, half_Q.
  replace (Q2R p / 2 - Q2R r' - (PI / 2 - coded (Q2R x))) with (- (Q2R r' - coded (Q2R x)) + (Q2R p - PI) * / 2) by field.
  eapply Rle_trans; [apply Rabs_triang|]. rewrite Rabs_Ropp, Rabs_mult, (Rabs_right (/ 2)) by lra. lra.
Qed.
Lemma asin_eps_wrong : forall x, 0 < Q2R x <= 1 -> exists d : Q, 0 < Q2R d /\
  forall fuel p start eps r, 0 < Q2R start -> 0 < Q2R eps -> Q2R eps < Q2R d -> asin_eps fuel p start x eps = Got r ->
  ~ Rabs (Q2R r - asin (Q2R x)) <= Q2R eps.
Proof.
  intros x X. pose proof (asin_above X) as A. set (s := sqrt (1 - Q2R x * Q2R x)).
  assert (XX : 0 < Q2R x * Q2R x <= 1).
  { split; [apply Rmult_lt_0_compat; lra|]. replace 1 with (1 * 1) by ring. apply Rmult_le_compat; lra. }
  assert (S0 : 0 <= s) by apply sqrt_pos.
  assert (S1 : s < 1). { unfold s. rewrite <- sqrt_1 at 2. apply sqrt_lt_1_alt. lra. }
  assert (P : 0 < Q2R x * (1 - s) / 4) by (assert (0 < Q2R x * (1 - s)) by (apply Rmult_lt_0_compat; lra); lra).
  destruct (Q_below P) as (d & D0 & D). exists d. split; [exact D0|].
  intros fuel p start eps r ST E0 E H. unfold asin_eps in H.
  destruct (sqrt_eps true fuel start (1 - x * x) eps) as [[q sv]| |] eqn:SQ; try discriminate.
  assert (V : Q2R (1 - x * x) = 1 - Q2R x * Q2R x) by (rewrite Q2R_minus, Q2R_mult, Q2R_1'; reflexivity).
  assert (G : Rabs (Q2R q - s) <= Q2R sv /\ Q2R sv <= Q2R eps /\ 0 < Q2R q).
  { unfold s. rewrite <- V. refine (@sqrt_loop_good fuel start (1 - x * x) eps (eps * 2) q sv _ ST _ SQ); [rewrite V; lra|].
    rewrite Q2R_mult, Q2R_2'. lra. }
  destruct G as (G1 & G2 & Q0). destruct (Qeq_bool q 0) eqn:Z0; [discriminate|].
  assert (Y : Q2R (x / / q) = Q2R x * Q2R q).
  { rewrite Q2R_divn.
    - rewrite inv_Q by lra. field. lra.
    - rewrite inv_Q by lra. apply Rinv_neq_0_compat. lra. }
  pose proof (Rle_abs (Q2R q - s)) as AB.
  assert (Y1 : Q2R x * Q2R q <= Q2R x * s + Q2R eps).
  { assert (Q2R x * (Q2R q - s) <= 1 * Q2R eps); [|lra].
    assert (Q2R x * (Q2R q - s) <= Q2R x * Q2R eps) by (apply Rmult_le_compat_l; lra).
    assert (Q2R x * Q2R eps <= 1 * Q2R eps) by (apply Rmult_le_compat_r; lra). lra. }
  assert (Y0 : 0 < Q2R x * Q2R q) by (apply Rmult_lt_0_compat; lra).
  assert (YB : 0 <= Q2R x * Q2R q <= 1) by lra.
  unfold atan_eps, atan_pos in H.
  assert (L1 : Qle_bool 0 (x / / q) = true) by (apply Qleb_R; rewrite Y, Q2R_0'; lra).
  assert (L2 : Qle_bool (x / / q) 1 = true) by (apply Qleb_R; rewrite Y, Q2R_1'; lra).
  rewrite L1, L2 in H. rewrite <- Y in YB. pose proof (series_good YB H) as F. rewrite Y in F.
  rewrite Y in YB. destruct (coded_small YB) as [C1 _].
  pose proof (Rle_abs (Q2R r - coded (Q2R x * Q2R q))) as F2.
  intros N. rewrite Rabs_minus_sym in N. pose proof (Rle_abs (asin (Q2R x) - Q2R r)) as N2. lra.
Qed.

(** * Exponential and logarithm *)
Lemma exp_runs : forall fuel x sum n i t, Q2R x <> 0 -> Q2R n <> 0 -> 0 < Q2R i -> Q2R t <> 0 ->
  exp_impl fuel x sum n i t = Running.
Proof.
  induction fuel as [|f IH]; intros x sum n i t X N I T; [reflexivity|].
  cbn [exp_impl]. destruct (Qeq_bool n 0) eqn:Z0; [apply Qeqb_R in Z0; rewrite Q2R_0' in Z0; contradiction|].
  destruct (Qeq_bool sum (sum + t / n)) eqn:C.
  - exfalso. apply Qeqb_R in C. rewrite Q2R_plus, Q2R_divn in C by exact N.
    assert (Q2R t / Q2R n <> 0); [|lra]. unfold Rdiv. apply Rmult_integral_contrapositive_currified; [exact T|].
    apply Rinv_neq_0_compat. exact N.
  - apply IH; [exact X| | |].
    + rewrite Q2R_mult. apply Rmult_integral_contrapositive_currified; lra.
    + rewrite Q2R_plus, Q2R_1'. lra.
    + rewrite Q2R_mult. apply Rmult_integral_contrapositive_currified; assumption.
Qed.
Lemma exp_big_runs : forall fuel x, Q2R x <> 0 -> exp_big fuel x = Running.
Proof. intros fuel x X. apply exp_runs; [exact X|rewrite Q2R_1'; lra|rewrite Q2R_2'; lra|exact X]. Qed.
Lemma exp_big_0 : forall fuel x, Q2R x = 0 -> exp_big (Datatypes.S fuel) x = Got 1%Q.
Proof.
  intros fuel x X. unfold exp_big. cbn [exp_impl].
  assert (A : Qeq_bool 1 0 = false) by reflexivity. rewrite A.
  assert (B : Qeq_bool 1 (1 + x / 1) = true).
  { apply Qeqb_R. rewrite Q2R_plus, Q2R_divn, Q2R_1', X by (rewrite Q2R_1'; lra). lra. }
  rewrite B. reflexivity.
Qed.
Lemma log_big_runs : forall fuel x, Q2R x <> 1 -> Q2R x <> -1 -> log_big fuel x = Running.
Proof.
  intros fuel x X Y. unfold log_big. destruct fuel as [|f]; [reflexivity|].
  cbn [log_impl]. unfold log_iter at 1. rewrite (exp_big_0 _ Q2R_0').
  assert (D : Q2R (x + 1) <> 0) by (rewrite Q2R_plus, Q2R_1'; lra).
  destruct (Qeq_bool (x + 1) 0) eqn:Z0; [apply Qeqb_R in Z0; rewrite Q2R_0' in Z0; contradiction|].
  assert (V : Q2R (0 + 2 * (x - 1) / (x + 1)) <> 0).
  { rewrite Q2R_plus, Q2R_divn, Q2R_mult, Q2R_minus, Q2R_0', Q2R_1', Q2R_2' by exact D. rewrite Rplus_0_l.
    unfold Rdiv. apply Rmult_integral_contrapositive_currified; [lra|]. apply Rinv_neq_0_compat. exact D. }
  destruct (Qeq_bool 0 (0 + 2 * (x - 1) / (x + 1))) eqn:C.
  - exfalso. apply Qeqb_R in C. rewrite Q2R_0' in C. congruence.
  - destruct f as [|f]; [reflexivity|]. cbn [log_impl]. unfold log_iter. rewrite (exp_big_runs _ V). reflexivity.
Qed.
Lemma log_big_1 : forall fuel x, Q2R x = 1 -> log_big (Datatypes.S fuel) x = Got 0%Q.
Proof.
  intros fuel x X. unfold log_big. cbn [log_impl]. unfold log_iter. rewrite (exp_big_0 _ Q2R_0').
  destruct (Qeq_bool (x + 1) 0) eqn:Z0; [apply Qeqb_R in Z0; rewrite Q2R_plus, Q2R_1', Q2R_0' in Z0; lra|].
  assert (B : Qeq_bool 0 (0 + 2 * (x - 1) / (x + 1)) = true).
  { apply Qeqb_R. rewrite Q2R_plus, Q2R_divn, Q2R_mult, Q2R_minus, Q2R_0', Q2R_1', Q2R_2', X by (rewrite Q2R_plus, Q2R_1'; lra). lra. }
  rewrite B. reflexivity.
Qed.

(** * In terms of rationals *)
Lemma Qpos_R : forall x, (0 < x)%Q -> 0 < Q2R x.
Proof. intros x H. apply Qlt_Rlt in H. rewrite Q2R_0' in H. exact H. Qed.
Lemma Qnn_R : forall x, (0 <= x)%Q -> 0 <= Q2R x.
Proof. intros x H. apply Qle_Rle in H. rewrite Q2R_0' in H. exact H. Qed.
Lemma RQpos : forall x, 0 < Q2R x -> (0 < x)%Q.
Proof. intros x H. apply Rlt_Qlt. rewrite Q2R_0'. exact H. Qed.

Lemma sqrt_total : forall num v eps saver, (0 <= v)%Q -> (0 < num)%Q -> (0 < eps)%Q ->
  ((saver <= eps)%Q -> near num (sqrt (Q2R v)) saver) ->
  exists F r s, (forall fuel, (F <= fuel)%nat -> sqrt_to_new true fuel num v eps saver = Got (r, s)) /\
  near r (sqrt (Q2R v)) s /\ (s <= eps)%Q /\ (0 < r)%Q.
Proof.
  intros num v eps saver V N E P. apply Qnn_R in V. apply Qpos_R in N, E.
  destruct (sqrt_to_new_ends saver V N E) as (F & [r s] & H). exists F, r, s. split; [exact H|].
  destruct (@sqrt_loop_good F num v eps saver r s V N) as (A & B & C).
  - intros L. apply P. apply Rle_Qle. exact L.
  - exact (H F (le_n F)).
  - split; [exact A|]. split; [apply Rle_Qle; exact B|apply RQpos; exact C].
Qed.
Lemma sqrt_eps_total : forall start v eps, (0 <= v)%Q -> (0 < start)%Q -> (0 < eps)%Q ->
  exists F r s, (forall fuel, (F <= fuel)%nat -> sqrt_eps true fuel start v eps = Got (r, s)) /\ near r (sqrt (Q2R v)) eps.
Proof.
  intros start v eps V N E. destruct (@sqrt_total start v eps (eps * 2) V N E) as (F & r & s & H & A & B & _).
  - intros L. exfalso. apply Qle_Rle in L. rewrite Q2R_mult, Q2R_2' in L. apply Qpos_R in E. lra.
  - exists F, r, s. split; [exact H|]. apply Qle_Rle in B. unfold near in *. lra.
Qed.
Lemma sqrt_negative : forall fuel num v eps saver x, (v < 0)%Q -> (0 <= eps)%Q -> (eps * eps < - v)%Q -> (eps < saver)%Q ->
  sqrt_to_new true fuel num v eps saver <> Got x.
Proof.
  intros fuel num v eps saver x V E0 E S. apply Qlt_Rlt in V, E, S. rewrite Q2R_0' in V. rewrite Q2R_mult, Q2R_opp in E.
  apply Qnn_R in E0. apply sqrt_negative_runs; [exact V| |exact S].
  rewrite <- (sqrt_square (Q2R eps) E0). apply sqrt_lt_1_alt. split; [|exact E]. apply Rle_0_sqr.
Qed.
Lemma sqrt_unsigned_wrong : forall num v, (0 <= v)%Q -> (0 < num)%Q -> no_square v ->
  exists d, (0 < d)%Q /\ forall fuel eps saver, (3 <= fuel)%nat -> (0 <= eps)%Q -> (eps < d)%Q -> (eps < saver)%Q ->
  exists r s, sqrt_to_new false fuel num v eps saver = Got (r, s) /\ ~ near r (sqrt (Q2R v)) eps.
Proof.
  intros num v V N NS. apply Qnn_R in V. apply Qpos_R in N.
  set (x1 := sqrt_iteration num v). set (x2 := sqrt_iteration x1 v).
  pose proof (no_square_far x1 NS V) as D1. pose proof (no_square_far x2 NS V) as D2.
  assert (M : 0 < Rmin (Rabs (Q2R x1 - sqrt (Q2R v))) (Rabs (Q2R x2 - sqrt (Q2R v)))) by (apply Rmin_glb_lt; assumption).
  destruct (Q_below M) as (d & D0 & D). exists d. split; [apply RQpos; exact D0|].
  intros fuel eps saver F E0 E S. apply Qnn_R in E0. apply Qlt_Rlt in E, S.
  destruct (sqrt_unsigned_two F V N E0 S) as (r & s & H & C). exists r, s. split; [exact H|].
  unfold near. fold x1 x2 in C. pose proof (Rmin_l (Rabs (Q2R x1 - sqrt (Q2R v))) (Rabs (Q2R x2 - sqrt (Q2R v)))).
  pose proof (Rmin_r (Rabs (Q2R x1 - sqrt (Q2R v))) (Rabs (Q2R x2 - sqrt (Q2R v)))).
  destruct C as [->| ->]; lra.
Qed.
Lemma invsqrt_total : forall num v eps saver, (0 < v)%Q -> (0 < num)%Q -> (25/64 <= num * num * v <= 841/400)%Q -> (0 < eps)%Q ->
  ((saver <= eps)%Q -> near num (/ sqrt (Q2R v)) saver) ->
  exists F r s, (forall fuel, (F <= fuel)%nat -> invsqrt_to_new fuel num v eps saver = Got (r, s)) /\
  near r (/ sqrt (Q2R v)) s /\ (s <= eps)%Q.
Proof.
  intros num v eps saver V N [L U] E P. apply Qpos_R in V, N, E. apply Qle_Rle in L, U. rewrite !Q2R_mult in L, U.
  assert (S0 : 0 < sqrt (Q2R v)) by (apply sqrt_lt_R0; exact V).
  assert (SS : sqrt (Q2R v) * sqrt (Q2R v) = Q2R v) by (apply sqrt_sqrt; lra).
  assert (B : 5/8 <= Q2R num * sqrt (Q2R v) <= 29/20).
  { assert (Y : Q2R num * Q2R num * Q2R v = (Q2R num * sqrt (Q2R v)) * (Q2R num * sqrt (Q2R v))) by (rewrite <- SS at 1; ring).
    rewrite Y in L, U. assert (A : 0 < Q2R num * sqrt (Q2R v)) by (apply Rmult_lt_0_compat; assumption).
    replace (Q2R (25 / 64)) with (25/64) in L by (unfold Q2R; cbn; field).
    replace (Q2R (841 / 400)) with (841/400) in U by (unfold Q2R; cbn; field).
    set (y := Q2R num * sqrt (Q2R v)) in *. split.
    - destruct (Rle_or_lt (5/8) y) as [G|G]; [exact G|exfalso].
      assert (y * y < 5/8 * (5/8)) by (apply Rmult_le_0_lt_compat; lra). lra.
    - destruct (Rle_or_lt y (29/20)) as [G|G]; [exact G|exfalso].
      assert (29/20 * (29/20) < y * y) by (apply Rmult_le_0_lt_compat; lra). lra. }
  destruct (@invsqrt_ends num v eps saver V B E) as (F & [r s] & H). exists F, r, s. split; [exact H|].
  destruct (@inv_loop_good F num v eps saver r s V B) as (A & C).
  - intros LE. apply P. apply Rle_Qle. exact LE.
  - exact (H F (le_n F)).
  - split; [exact A|apply Rle_Qle; exact C].
Qed.
Lemma sin_total : forall x eps, (0 < eps)%Q -> (eps <= 2 \/ eps < Qabs x)%Q ->
  exists F r, (forall fuel, (F <= fuel)%nat -> sin_eps fuel x eps = Got r) /\ near r (sin (Q2R x)) eps.
Proof.
  intros x eps E C. apply Qpos_R in E. destruct (sin_eps_ends x E) as (F & r & H). exists F, r. split; [exact H|].
  refine (@sin_eps_good F x eps r _ (H F (le_n F))).
  destruct C as [C|C]; [left; apply Qle_Rle in C; rewrite Q2R_2' in C; exact C|right; apply Qlt_Rlt in C; rewrite Q2R_abs in C; exact C].
Qed.
Lemma cos_total : forall p x eps, (0 < eps)%Q -> (eps <= 2)%Q ->
  exists F r, (forall fuel, (F <= fuel)%nat -> cos_eps fuel p x eps = Got r) /\
  forall d, near p PI d -> near r (cos (Q2R x)) (eps + d / 2).
Proof.
  intros p x eps E C. apply Qpos_R in E. apply Qle_Rle in C. rewrite Q2R_2' in C.
  destruct (sin_eps_ends (p / 2 - x) E) as (F & r & H). exists F, r. split; [exact H|].
  intros d D. unfold near. rewrite Q2R_plus, half_Q. exact (cos_eps_good C D (H F (le_n F))).
Qed.
Lemma atan_total : forall x, ~ (x == 0)%Q -> exists d, (0 < d)%Q /\
  forall p eps, (0 < eps)%Q -> (eps < d)%Q -> near p PI eps ->
  exists F r, (forall fuel, (F <= fuel)%nat -> atan_eps fuel p x eps = Got r) /\ ~ near r (atan (Q2R x)) eps.
Proof.
  intros x X. assert (X' : Q2R x <> 0) by (intros A; apply X; apply eqR_Qeq; rewrite Q2R_0'; exact A).
  destruct (far_from (coded_far X')) as (d & D0 & D). exists d. split; [apply RQpos; exact D0|].
  intros p eps E0 E P. apply Qpos_R in E0. apply Qlt_Rlt in E.
  destruct (atan_eps_ends p x E0) as (F & r & H). exists F, r. split; [exact H|].
  pose proof (atan_eps_good P (H F (le_n F))) as G. apply D; [exact E|]. lra.
Qed.
Lemma atan_value : forall p x eps, (0 < eps)%Q -> (0 <= x <= 1)%Q ->
  exists F r, (forall fuel, (F <= fuel)%nat -> atan_eps fuel p x eps = Got r) /\
  near r (Q2R x - Q2R x ^ 2 * atan (Q2R x)) eps.
Proof.
  intros p x eps E0 [X0 X1]. apply Qpos_R in E0. destruct (atan_eps_ends p x E0) as (F & r & H). exists F, r. split; [exact H|].
  pose proof (H F (le_n F)) as T. unfold atan_eps, atan_pos in T.
  rewrite (proj2 (Qle_bool_iff 0 x) X0), (proj2 (Qle_bool_iff x 1) X1) in T.
  apply Qnn_R in X0. apply Qle_Rle in X1. rewrite Q2R_1' in X1.
  pose proof (series_good (conj X0 X1) T) as G. unfold near, coded in *. replace (Q2R x ^ 2) with (Q2R x * Q2R x) by ring. exact G.
Qed.
Lemma Q01_R : forall x, (0 < x <= 1)%Q -> 0 < Q2R x <= 1.
Proof. intros x [A B]. apply Qpos_R in A. apply Qle_Rle in B. rewrite Q2R_1' in B. lra. Qed.
Lemma acos_total : forall x, (0 < x <= 1)%Q -> exists d, (0 < d)%Q /\
  forall p eps, (0 < eps)%Q -> (eps < d)%Q -> near p PI eps ->
  exists F r, (forall fuel, (F <= fuel)%nat -> acos_eps fuel p x eps = Got r) /\ ~ near r (acos (Q2R x)) eps.
Proof.
  intros x X. apply Q01_R in X. destruct (acos_eps_wrong X) as (d & D0 & D). exists d. split; [apply RQpos; exact D0|].
  intros p eps E0 E P. apply Qpos_R in E0. apply Qlt_Rlt in E.
  destruct (atan_eps_ends p x E0) as (F & r & H). exists F, (p / 2 - r)%Q.
  assert (T : forall fuel, (F <= fuel)%nat -> acos_eps fuel p x eps = Got (p / 2 - r)%Q).
  { intros fuel L. unfold acos_eps. rewrite (H fuel L). reflexivity. }
  split; [exact T|]. exact (D F p eps _ E P (T F (le_n F))).
Qed.
Lemma asin_total : forall x, (0 < x <= 1)%Q -> exists d, (0 < d)%Q /\
  forall p start eps, (0 < start)%Q -> (0 < eps)%Q -> (eps < d)%Q ->
  exists F r, (forall fuel, (F <= fuel)%nat -> asin_eps fuel p start x eps = Got r) /\ ~ near r (asin (Q2R x)) eps.
Proof.
  intros x X. pose proof X as XQ. apply Q01_R in X. destruct (asin_eps_wrong X) as (d & D0 & D). exists d. split; [apply RQpos; exact D0|].
  intros p start eps S E0 E.
  assert (V : (0 <= 1 - x * x)%Q).
  { apply Rle_Qle. rewrite Q2R_0', Q2R_minus, Q2R_mult, Q2R_1'.
    assert (Q2R x * Q2R x <= 1 * 1) by (apply Rmult_le_compat; lra). lra. }
  destruct (@sqrt_total start (1 - x * x) eps (eps * 2) V S E0) as (F1 & q & sv & H1 & _ & _ & Q0).
  { intros L. exfalso. apply Qle_Rle in L. rewrite Q2R_mult, Q2R_2' in L. apply Qpos_R in E0. lra. }
  apply Qpos_R in S, E0, Q0. apply Qlt_Rlt in E.
  destruct (atan_eps_ends p (x / / q) E0) as (F2 & r & H2). exists (F1 + F2)%nat, r.
  assert (T : forall fuel, (F1 + F2 <= fuel)%nat -> asin_eps fuel p start x eps = Got r).
  { intros fuel L. unfold asin_eps, sqrt_eps. rewrite (H1 fuel ltac:(lia)).
    destruct (Qeq_bool q 0) eqn:Z0; [apply Qeqb_R in Z0; rewrite Q2R_0' in Z0; lra|]. apply H2. lia. }
  split; [exact T|]. exact (D _ p start eps _ S E0 E (T _ (le_n _))).
Qed.
Lemma Qneq_R : forall x y, ~ (x == y)%Q -> Q2R x <> Q2R y.
Proof. intros x y H E. apply H. apply eqR_Qeq. exact E. Qed.
Lemma log_total : forall x, ~ (x == 1)%Q -> ~ (x == -1)%Q -> forall fuel, log_big fuel x = Running.
Proof.
  intros x A B fuel. apply log_big_runs.
  - rewrite <- Q2R_1'. apply Qneq_R. exact A.
  - rewrite <- (Q2R_int (-1)). apply Qneq_R. exact B.
Qed.
Lemma exp_total : forall x, ~ (x == 0)%Q -> forall fuel, exp_big fuel x = Running.
Proof. intros x A fuel. apply exp_big_runs. rewrite <- Q2R_0'. apply Qneq_R. exact A. Qed.
Lemma no_root_2 : forall a b : Z, (0 < b)%Z -> (a * a = 2 * (b * b))%Z -> False.
Proof.
  assert (P : forall n : nat, forall a b : Z, (0 < b)%Z -> (Z.to_nat b <= n)%nat -> (a * a = 2 * (b * b))%Z -> False).
  { induction n as [|n IH]; intros a b B L E; [lia|].
    assert (EA : (a mod 2 = 0)%Z).
    { destruct (Z.eq_dec (a mod 2) 0) as [?|NE]; [assumption|exfalso].
      assert (M : (a mod 2 = 1)%Z) by (pose proof (Z.mod_pos_bound a 2 ltac:(lia)); lia).
      pose proof (Z.div_mod a 2 ltac:(lia)) as D. rewrite M in D. set (q := (a / 2)%Z) in *. rewrite D in E.
      assert (2 * (2 * q * q + 2 * q) + 1 = 2 * (b * b))%Z by (rewrite <- E; ring). lia. }
    pose proof (Z.div_mod a 2 ltac:(lia)) as D. rewrite EA in D. set (q := (a / 2)%Z) in *.
    assert (E2 : (b * b = 2 * (q * q))%Z).
    { rewrite D in E. assert (2 * (2 * (q * q)) = 2 * (b * b))%Z by (rewrite <- E; ring). lia. }
    assert (Q0 : (q <> 0)%Z) by (intros Z0; rewrite Z0 in E2; nia).
    apply (IH b (Z.abs q)); [lia| |].
    - assert (Z.abs q < b)%Z; [|lia]. nia.
    - rewrite <- Z.abs_mul, Z.abs_eq by nia. exact E2. }
  intros a b B. exact (P (Z.to_nat b) a b B (le_n _)).
Qed.
