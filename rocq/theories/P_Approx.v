(** C93-C96: functions that approximate to a given ε. *)
From Verif Require Import Base.
From Verif Require Import Approx_Model.
From Verif Require Import Approx_Spec.
From Verif Require Import Approx_Proofs.
From Coq Require Import QArith Qabs Qreals Reals Lra.
Local Open Scope Q_scope.

(** * C93: square roots *)

(** Signed fractions: the loop ends and is right, also when it goes on from a
    value and an accuracy kept from an earlier call. *)
Theorem C93_sqrt_partial : forall num v eps saver, 0 <= v -> 0 < num -> 0 < eps ->
  (saver <= eps -> near num (sqrt (Q2R v)) saver) ->
  exists F r s, (forall fuel, (F <= fuel)%nat -> sqrt_to_new true fuel num v eps saver = Got (r, s)) /\
  near r (sqrt (Q2R v)) s /\ s <= eps /\ 0 < r.
Proof. exact sqrt_total. Qed.
Print Assumptions C93_sqrt_partial.
Theorem C93_sqrt_eps_partial : forall start v eps, 0 <= v -> 0 < start -> 0 < eps ->
  exists F r s, (forall fuel, (F <= fuel)%nat -> sqrt_eps true fuel start v eps = Got (r, s)) /\
  near r (sqrt (Q2R v)) eps.
Proof. exact sqrt_eps_total. Qed.
Print Assumptions C93_sqrt_eps_partial.

(** Of a negative number: never a value, for every ε below the root of its size. *)
Theorem C93_negative_diverges : forall fuel num v eps saver x,
  v < 0 -> 0 <= eps -> eps * eps < - v -> eps < saver -> sqrt_to_new true fuel num v eps saver <> Got x.
Proof. exact sqrt_negative. Qed.
Print Assumptions C93_negative_diverges.

(** Unsigned fractions (the cached root of 640320 behind π): two steps at most,
    so every small ε is missed. *)
Theorem C93_unsigned_wrong : forall num v, 0 <= v -> 0 < num -> no_square v ->
  exists d, 0 < d /\ forall fuel eps saver, (3 <= fuel)%nat -> 0 <= eps -> eps < d -> eps < saver ->
  exists r s, sqrt_to_new false fuel num v eps saver = Got (r, s) /\ ~ near r (sqrt (Q2R v)) eps.
Proof. exact sqrt_unsigned_wrong. Qed.
Print Assumptions C93_unsigned_wrong.

(** With ε 0 the first guess is returned, right or wrong. *)
Theorem C93_zero_eps_wrong : forall signed fuel start v,
  exists s, sqrt_eps signed (Datatypes.S fuel) start v 0 = Got (start, s).
Proof. intros signed fuel start v. eexists. reflexivity. Qed.
Print Assumptions C93_zero_eps_wrong.

(** Inverse roots: from a guess between 0.625 and 1.45 times the right value. *)
Theorem C93_invsqrt_partial : forall num v eps saver,
  0 < v -> 0 < num -> 25/64 <= num * num * v <= 841/400 -> 0 < eps ->
  (saver <= eps -> near num (/ sqrt (Q2R v)) saver) ->
  exists F r s, (forall fuel, (F <= fuel)%nat -> invsqrt_to_new fuel num v eps saver = Got (r, s)) /\
  near r (/ sqrt (Q2R v)) s /\ s <= eps.
Proof. exact invsqrt_total. Qed.
Print Assumptions C93_invsqrt_partial.

(** The guess 2/v is not always one of those: of 1 it gives -1. *)
Theorem C93_invsqrt_refuted : exists v eps saver r s, 0 < v /\ 0 < eps /\
  invsqrt_to_new 3 (quick_invsqrt v) v eps saver = Got (r, s) /\ ~ near r (/ sqrt (Q2R v)) eps.
Proof.
  exists 1, (1#10), 1. do 2 eexists. split; [reflexivity|]. split; [reflexivity|]. split; [vm_compute; reflexivity|].
  intros N. unfold near in N. rewrite Q2R_1', sqrt_1, Rinv_1 in N.
  rewrite Rabs_minus_sym in N. pose proof (Rle_abs (1 - Q2R (-16 # 16)))%R as A. unfold Q2R in N, A. cbn in N, A. lra.
Qed.
Print Assumptions C93_invsqrt_refuted.

(** The root of 2 from 1, to a tenth, and to a millionth: unsigned stops after two steps. *)
Example C93_sqrt_case : exists r s, sqrt_eps true 4 1 2 (1#10) = Got (r, s) /\ r == 17/12.
Proof. do 2 eexists. split; [vm_compute; reflexivity|]. reflexivity. Qed.
Example C93_unsigned_case : no_square 2 /\
  (exists r s, sqrt_eps false 9 1 2 (1#1000000) = Got (r, s) /\ r == 17/12 /\ s == 0) /\
  exists r s, sqrt_eps true 9 1 2 (1#1000000) = Got (r, s) /\ r == 886731088897#627013566048.
Proof.
  split.
  - intros q E. destruct q as [n d]. unfold Qeq in E. cbn [Qnum Qden Qmult] in E.
    rewrite Pos2Z.inj_mul in E. assert (E' : (n * n = 2 * (Z.pos d * Z.pos d))%Z) by lia.
    exact (no_root_2 (Pos2Z.is_pos d) E').
  - split; do 2 eexists; (split; [vm_compute; reflexivity|]); [split|]; reflexivity.
Qed.
Example C93_negative_case : forall fuel x, sqrt_to_new true fuel 1 (-3) (1#10) 1 <> Got x.
Proof. intros fuel x. apply sqrt_negative; reflexivity || discriminate. Qed.
Example C93_invsqrt_case : exists r s, invsqrt_to_new 5 (3#4) 2 (1#1000) 1 = Got (r, s) /\ 25/64 <= (3#4) * (3#4) * 2 <= 841/400.
Proof. do 2 eexists. split; [vm_compute; reflexivity|split; discriminate]. Qed.

(** * C94: sine and cosine *)
Theorem C94_sin_partial : forall x eps, 0 < eps -> eps <= 2 \/ eps < Qabs x ->
  exists F r, (forall fuel, (F <= fuel)%nat -> sin_eps fuel x eps = Got r) /\ near r (sin (Q2R x)) eps.
Proof. exact sin_total. Qed.
Print Assumptions C94_sin_partial.
(** The cosine is as good as ε and half the error of the π used. *)
Theorem C94_cos_partial : forall p x eps, 0 < eps -> eps <= 2 ->
  exists F r, (forall fuel, (F <= fuel)%nat -> cos_eps fuel p x eps = Got r) /\
  forall d, near p PI d -> near r (cos (Q2R x)) (eps + d / 2).
Proof. exact cos_total. Qed.
Print Assumptions C94_cos_partial.
(** A large ε lets the loop stop before it has begun: 5 for the sine of 5, to within 5. *)
Theorem C94_sin_refuted : exists x eps r, 0 < eps /\ sin_eps 1 x eps = Got r /\ ~ near r (sin (Q2R x)) eps.
Proof.
  exists 5, 5, 5. split; [reflexivity|]. split; [vm_compute; reflexivity|].
  unfold near. change 5 with (inject_Z 5). rewrite Q2R_int. intros N. pose proof PI2_3_2. pose proof PI_4.
  assert (sin 5 < 0)%R by (apply sin_lt_0; lra). rewrite Rabs_right in N by lra. lra.
Qed.
Print Assumptions C94_sin_refuted.
Example C94_sin_case : exists r, sin_eps 9 (-3) (1#100) = Got r /\ Qabs (r + (141120#1000000)) <= 1#1000.
Proof. eexists. split; [vm_compute; reflexivity|]. vm_compute. discriminate. Qed.
Example C94_cos_case : exists r, cos_eps 9 (22#7) 1 (1#100) = Got r /\ Qabs (r - (540302#1000000)) <= 12#1000.
Proof. eexists. split; [vm_compute; reflexivity|]. vm_compute. discriminate. Qed.

(** * C95: inverse trigonometric functions *)

(** What the loop adds up to. *)
Theorem C95_arctan_value : forall p x eps, 0 < eps -> 0 <= x <= 1 ->
  exists F r, (forall fuel, (F <= fuel)%nat -> atan_eps fuel p x eps = Got r) /\
  near r (Q2R x - Q2R x ^ 2 * atan (Q2R x)) eps.
Proof. exact atan_value. Qed.
Print Assumptions C95_arctan_value.
(** Not the arc tangent, of any number but 0. *)
Theorem C95_arctan_wrong : forall x, ~ x == 0 -> exists d, 0 < d /\
  forall p eps, 0 < eps -> eps < d -> near p PI eps ->
  exists F r, (forall fuel, (F <= fuel)%nat -> atan_eps fuel p x eps = Got r) /\ ~ near r (atan (Q2R x)) eps.
Proof. exact atan_total. Qed.
Print Assumptions C95_arctan_wrong.
Theorem C95_arccos_wrong : forall x, 0 < x <= 1 -> exists d, 0 < d /\
  forall p eps, 0 < eps -> eps < d -> near p PI eps ->
  exists F r, (forall fuel, (F <= fuel)%nat -> acos_eps fuel p x eps = Got r) /\ ~ near r (acos (Q2R x)) eps.
Proof. exact acos_total. Qed.
Print Assumptions C95_arccos_wrong.
Theorem C95_arcsin_wrong : forall x, 0 < x <= 1 -> exists d, 0 < d /\
  forall p start eps, 0 < start -> 0 < eps -> eps < d ->
  exists F r, (forall fuel, (F <= fuel)%nat -> asin_eps fuel p start x eps = Got r) /\ ~ near r (asin (Q2R x)) eps.
Proof. exact asin_total. Qed.
Print Assumptions C95_arcsin_wrong.
(** Of 0 it is right. *)
Theorem C95_arctan_partial : forall p x eps, 0 < eps -> x == 0 ->
  exists F r, (forall fuel, (F <= fuel)%nat -> atan_eps fuel p x eps = Got r) /\ near r (atan (Q2R x)) eps.
Proof.
  intros p x eps E X. destruct (@atan_value p x eps E) as (F & r & H & N).
  - rewrite X. split; discriminate.
  - exists F, r. split; [exact H|]. apply Qeq_eqR in X. rewrite Q2R_0' in X. unfold near in *. rewrite X, atan_0 in *.
    replace (0 - 0 ^ 2 * 0)%R with 0%R in N by ring. exact N.
Qed.
Print Assumptions C95_arctan_partial.
(** The arc tangent of 1 is 0.785; the code says 0.2. *)
Example C95_arctan_case : exists r, atan_eps 30 (22#7) 1 (1#20) = Got r /\ (r < 1#4).
Proof. eexists. split; [vm_compute; reflexivity|]. vm_compute. reflexivity. Qed.

(** * C96: exponential and logarithm of big types *)
Theorem C96_exp_diverges : forall x, ~ x == 0 -> forall fuel, exp_big fuel x = Running.
Proof. exact exp_total. Qed.
Print Assumptions C96_exp_diverges.
Theorem C96_log_diverges : forall x, ~ x == 1 -> ~ x == -1 -> forall fuel, log_big fuel x = Running.
Proof. exact log_total. Qed.
Print Assumptions C96_log_diverges.
(** What is left: exp 0 is 1 and log 1 is 0. *)
Theorem C96_exp_log_partial : forall x fuel, (0 < fuel)%nat ->
  (x == 0 -> exp_big fuel x = Got 1 /\ Q2R 1 = exp (Q2R x)) /\ (x == 1 -> log_big fuel x = Got 0 /\ Q2R 0 = ln (Q2R x)).
Proof.
  intros x [|fuel] F; [lia|]. split; intros X; apply Qeq_eqR in X.
  - rewrite Q2R_0' in X. split; [exact (exp_big_0 fuel X)|]. rewrite X, exp_0. exact Q2R_1'.
  - rewrite Q2R_1' in X. split; [exact (log_big_1 fuel X)|]. rewrite X, ln_1. exact Q2R_0'.
Qed.
Print Assumptions C96_exp_log_partial.
Example C96_case : exp_big 6 (1#2) = Running /\ log_big 6 2 = Running /\ log_big 6 (-1) = NoValue /\ exp_big 6 0 = Got 1.
Proof. repeat split. Qed.
