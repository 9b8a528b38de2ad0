(** Proofs about fractions. *)
From Coq Require Import QArith Qpower Qround.
From Verif Require Import Base UBig_Model UBig_Spec UBig_Basics UBig_AddSub UBig_Mul UBig_Kara
  UBig_Div UBig_Shift UBig_Bits Math_Model Math_Gcd Math_Misc Bits_Model BigInt_Model BigInt_Proofs
  Frac_Model Frac_Spec.
Local Open Scope Z_scope.
Local Open Scope omonad_scope.

(** ** Rationals with positive integer denominators *)
Section Rat.
Variables n1 d1 n2 d2 n d : Z.
Hypothesis H1 : 0 < d1.
Hypothesis H2 : 0 < d2.
Hypothesis H : 0 < d.
Notation q1 := (Qmake n1 (Z.to_pos d1)).
Notation q2 := (Qmake n2 (Z.to_pos d2)).
Notation q := (Qmake n (Z.to_pos d)).
Lemma rat_eq : (q1 == q2)%Q <-> n1 * d2 = n2 * d1.
Proof. unfold Qeq. cbn [Qnum Qden]. rewrite !Z2Pos.id by auto. tauto. Qed.
Lemma rat_cmp : (q1 ?= q2)%Q = (n1 * d2 ?= n2 * d1).
Proof. unfold Qcompare. cbn [Qnum Qden]. now rewrite !Z2Pos.id by auto. Qed.
Lemma rat_le : (q1 <= q2)%Q <-> n1 * d2 <= n2 * d1.
Proof. unfold Qle. cbn [Qnum Qden]. rewrite !Z2Pos.id by auto. tauto. Qed.
Lemma rat_lt : (q1 < q2)%Q <-> n1 * d2 < n2 * d1.
Proof. unfold Qlt. cbn [Qnum Qden]. rewrite !Z2Pos.id by auto. tauto. Qed.
Lemma rat_add : n * (d1 * d2) = (n1 * d2 + n2 * d1) * d -> (q == q1 + q2)%Q.
Proof.
  intros E. unfold Qeq, Qplus. cbn [Qnum Qden]. rewrite Pos2Z.inj_mul, !Z2Pos.id by auto. exact E.
Qed.
Lemma rat_mul : n * (d1 * d2) = (n1 * n2) * d -> (q == q1 * q2)%Q.
Proof.
  intros E. unfold Qeq, Qmult. cbn [Qnum Qden]. rewrite Pos2Z.inj_mul, !Z2Pos.id by auto. exact E.
Qed.
Lemma rat_sub : n * (d1 * d2) = (n1 * d2 - n2 * d1) * d -> (q == q1 - q2)%Q.
Proof.
  intros E. unfold Qeq, Qminus, Qplus, Qopp. cbn [Qnum Qden].
  rewrite Pos2Z.inj_mul, !Z2Pos.id by auto. rewrite E. ring.
Qed.
End Rat.

Lemma qdiv_of_mul a b r : ~ (b == 0)%Q -> (r * b == a)%Q -> (r == a / b)%Q.
Proof. intros Hb E. rewrite <- E. field. exact Hb. Qed.

Lemma rat_zero n d : 0 < d -> (Qmake n (Z.to_pos d) == 0)%Q <-> n = 0.
Proof. intros H. unfold Qeq. cbn [Qnum Qden]. lia. Qed.

Ltac bindS E :=
  repeat match type of E with
  | obind ?x _ = Some _ =>
      let e := fresh "E" in destruct x eqn:e; cbn [obind] in E; [|discriminate]
  end.

Section P.
Variable w : Z.
Hypothesis Hw : 0 < w.
Notation B := (base w).
Let HB : 2 <= B := base_ge2 Hw.
Notation V := (val B).

Lemma umul_ok a b r : umul w a b = Some r -> canon B a -> canon B b ->
  canon B r /\ V r = V a * V b.
Proof. intros E Ha Hb. exact (umul_sound Hw Ha Hb E). Qed.

Lemma umul_total a b : canon B a -> canon B b -> (length b < 64)%nat ->
  exists r, umul w a b = Some r /\ canon B r /\ V r = V a * V b.
Proof. intros Ha Hb L. apply (umul_small Hw Ha Hb). lia. Qed.
Lemma umul_total_l a b : canon B a -> canon B b -> (length a < 64)%nat ->
  exists r, umul w a b = Some r /\ canon B r /\ V r = V a * V b.
Proof. intros Ha Hb L. apply (umul_small Hw Ha Hb). lia. Qed.

Lemma canon1 : canon B [1].
Proof. split; [constructor; [pose proof HB; lia|constructor]|cbn; lia]. Qed.
Lemma V_one : V [1] = 1.
Proof. cbn [val]. lia. Qed.
Lemma f_of_uint_ok n : canon B n -> fcanon B (f_of_uint n) /\ (qval B (f_of_uint n) == inject_Z (V n))%Q.
Proof.
  intros H. split.
  - split; [exact H|]. split; [exact canon1|]. cbn [f_of_uint den]. rewrite V_one. lia.
  - unfold qval, f_of_uint. cbn [num den]. rewrite V_one. reflexivity.
Qed.

Lemma qval_nonneg a : fcanon B a -> (0 <= qval B a)%Q.
Proof.
  intros (Hn & Hd & Hp). unfold qval, Qle. cbn [Qnum Qden].
  pose proof (val_ge0 Hw Hn). lia.
Qed.

(** ** Arithmetic *)
Lemma fadd_sound a b r : fcanon B a -> fcanon B b -> fadd w a b = Some r ->
  fcanon B r /\ (qval B r == qval B a + qval B b)%Q.
Proof.
  intros (Na & Da & Pa) (Nb & Db & Pb) E. unfold fadd in E. bindS E. inversion E; subst r. clear E.
  destruct (umul_ok E0 Na Db) as [C0 V0]. destruct (umul_ok E1 Nb Da) as [C1 V1].
  destruct (umul_ok E3 Da Db) as [C3 V3].
  destruct (add_base_spec Hw C0 C1) as (s & Es & Cs & Vs). rewrite Es in E2. inversion E2; subst l1.
  assert (0 < V l2) by (rewrite V3; nia).
  split; [split; [exact Cs|split; [exact C3|exact H]]|].
  apply rat_add; cbn [num den]; auto. rewrite V3, Vs, V0, V1. ring.
Qed.

Lemma fadd_total a b : fcanon B a -> fcanon B b -> fsmall b -> exists r, fadd w a b = Some r.
Proof.
  intros (Na & Da & Pa) (Nb & Db & Pb) [Sn Sd]. unfold fadd.
  destruct (umul_total Na Db Sd) as (x & -> & Cx & _). cbn [obind].
  destruct (umul_total_l Nb Da Sn) as (y & -> & Cy & _). cbn [obind].
  destruct (add_base_spec Hw Cx Cy) as (s & -> & _). cbn [obind].
  destruct (umul_total Da Db Sd) as (z & -> & _). cbn [obind]. eauto.
Qed.

Lemma fsub_sound a b r : fcanon B a -> fcanon B b -> fsub w a b = Some r ->
  fcanon B r /\
  ((qval B b <= qval B a)%Q -> (qval B r == qval B a - qval B b)%Q) /\
  ((qval B a <= qval B b)%Q -> (qval B r == 0)%Q).
Proof.
  intros (Na & Da & Pa) (Nb & Db & Pb) E. unfold fsub in E. bindS E. inversion E; subst r. clear E.
  destruct (umul_ok E0 Na Db) as [C0 V0]. destruct (umul_ok E1 Nb Da) as [C1 V1].
  destruct (umul_ok E3 Da Db) as [C3 V3].
  destruct (usub_spec Hw C0 C1) as (s & Es & Cs & Vs). rewrite Es in E2. inversion E2; subst l1.
  assert (0 < V l2) by (rewrite V3; nia).
  split; [split; [exact Cs|split; [exact C3|exact H]]|]. unfold qval. cbn [num den]. split.
  - intros L. rewrite rat_le in L by auto. apply rat_sub; auto.
    rewrite V3, Vs, V0, V1. rewrite Z.max_r by lia. ring.
  - intros L. rewrite rat_le in L by auto. apply rat_zero; auto. rewrite Vs, V0, V1. lia.
Qed.

Lemma fsub_total a b : fcanon B a -> fcanon B b -> fsmall b -> exists r, fsub w a b = Some r.
Proof.
  intros (Na & Da & Pa) (Nb & Db & Pb) [Sn Sd]. unfold fsub.
  destruct (umul_total Na Db Sd) as (x & -> & Cx & _). cbn [obind].
  destruct (umul_total_l Nb Da Sn) as (y & -> & Cy & _). cbn [obind].
  destruct (usub_spec Hw Cx Cy) as (s & -> & _). cbn [obind].
  destruct (umul_total Da Db Sd) as (z & -> & _). cbn [obind]. eauto.
Qed.

Lemma fmul_sound a b r : fcanon B a -> fcanon B b -> fmul w a b = Some r ->
  fcanon B r /\ (qval B r == qval B a * qval B b)%Q.
Proof.
  intros (Na & Da & Pa) (Nb & Db & Pb) E. unfold fmul in E. bindS E. inversion E; subst r. clear E.
  destruct (umul_ok E0 Na Nb) as [C0 V0]. destruct (umul_ok E1 Da Db) as [C1 V1].
  assert (0 < V l0) by (rewrite V1; nia).
  split; [split; [exact C0|split; [exact C1|exact H]]|].
  apply rat_mul; cbn [num den]; auto. rewrite V0, V1. ring.
Qed.

Lemma fmul_total a b : fcanon B a -> fcanon B b -> fsmall b -> exists r, fmul w a b = Some r.
Proof.
  intros (Na & Da & Pa) (Nb & Db & Pb) [Sn Sd]. unfold fmul.
  destruct (umul_total Na Nb Sn) as (x & -> & Cx & _). cbn [obind].
  destruct (umul_total Da Db Sd) as (z & -> & _). cbn [obind]. eauto.
Qed.

Lemma qval_pos a : fcanon B a -> ~ (qval B a == 0)%Q -> 0 < V (num a).
Proof.
  intros (Na & Da & Pa) Hz. pose proof (val_ge0 Hw Na). unfold qval in Hz.
  rewrite rat_zero in Hz by auto. lia.
Qed.

Lemma fdiv_sound a b r : fcanon B a -> fcanon B b -> ~ (qval B b == 0)%Q -> fdiv w a b = Some r ->
  fcanon B r /\ (qval B r == qval B a / qval B b)%Q.
Proof.
  intros (Na & Da & Pa) Hb Hz E. pose proof (qval_pos Hb Hz) as Pn.
  destruct Hb as (Nb & Db & Pb).
  unfold fdiv in E. bindS E. inversion E; subst r. clear E.
  destruct (umul_ok E0 Na Db) as [C0 V0]. destruct (umul_ok E1 Da Nb) as [C1 V1].
  assert (0 < V l0) by (rewrite V1; nia).
  split; [split; [exact C0|split; [exact C1|exact H]]|].
  apply qdiv_of_mul; auto. symmetry. apply rat_mul; cbn [num den]; auto.
  rewrite V0, V1. ring.
Qed.

Lemma fdiv_total a b : fcanon B a -> fcanon B b -> fsmall b -> exists r, fdiv w a b = Some r.
Proof.
  intros (Na & Da & Pa) (Nb & Db & Pb) [Sn Sd]. unfold fdiv.
  destruct (umul_total Na Db Sd) as (x & -> & Cx & _). cbn [obind].
  destruct (umul_total Da Nb Sn) as (z & -> & _). cbn [obind]. eauto.
Qed.

(** Division by zero: an infinity, i.e. a zero denominator. *)
Lemma fdiv_zero a b r : fcanon B a -> fcanon B b -> (qval B b == 0)%Q -> fdiv w a b = Some r ->
  den r = [].
Proof.
  intros (Na & Da & Pa) (Nb & Db & Pb) Hz E. unfold qval in Hz. rewrite rat_zero in Hz by auto.
  unfold fdiv in E. bindS E. inversion E; subst r. cbn [den].
  destruct (umul_ok E1 Da Nb) as [C1 V1]. apply (canon_nil_iff Hw C1). rewrite V1, Hz. ring.
Qed.

(** x/=x is the reciprocal of the denominator, not 1. *)
Lemma fdiv_self_value a r : fcanon B a -> 0 < V (num a) -> fdiv_self w a = Some r ->
  (qval B r == 1 # Z.to_pos (V (den a)))%Q.
Proof.
  intros (Na & Da & Pa) Pn E. unfold fdiv_self in E. bindS E. inversion E; subst r. clear E.
  destruct (umul_ok E0 Na Da) as [C0 V0]. destruct (umul_ok E1 Da C0) as [C1 V1].
  assert (0 < V l0) by (rewrite V1, V0; nia).
  unfold qval. cbn [num den]. apply rat_eq; auto. rewrite V1, V0. ring.
Qed.

Lemma freciprocal_ok a : fcanon B a -> ~ (qval B a == 0)%Q ->
  fcanon B (freciprocal a) /\ (qval B (freciprocal a) == / qval B a)%Q.
Proof.
  intros Ha Hz. pose proof (qval_pos Ha Hz) as Pn. destruct Ha as (Na & Da & Pa).
  split; [split; [exact Da|split; [exact Na|exact Pn]]|].
  assert (E : (qval B (freciprocal a) * qval B a == 1)%Q).
  { symmetry. change 1%Q with (Qmake 1 (Z.to_pos 1)). apply rat_mul; cbn [num den freciprocal]; auto; lia. }
  apply qdiv_of_mul in E; auto. rewrite E. field. auto.
Qed.

(** *** An integer on the right *)
Lemma fadd_int_sound a t r : fcanon B a -> canon B t -> fadd_int w a t = Some r ->
  fcanon B r /\ (qval B r == qval B a + inject_Z (V t))%Q.
Proof.
  intros (Na & Da & Pa) Ct E. unfold fadd_int in E. bindS E. inversion E; subst r. clear E.
  destruct (umul_ok E0 Ct Da) as [C0 V0].
  destruct (add_base_spec Hw Na C0) as (s & Es & Cs & Vs). rewrite Es in E1. inversion E1; subst l0.
  split; [split; [exact Cs|split; [exact Da|exact Pa]]|].
  change (inject_Z (V t)) with (Qmake (V t) (Z.to_pos 1)). apply rat_add; cbn [num den]; auto; try lia.
Qed.
Lemma fsub_int_sound a t r : fcanon B a -> canon B t -> fsub_int w a t = Some r ->
  fcanon B r /\
  ((inject_Z (V t) <= qval B a)%Q -> (qval B r == qval B a - inject_Z (V t))%Q) /\
  ((qval B a <= inject_Z (V t))%Q -> (qval B r == 0)%Q).
Proof.
  intros (Na & Da & Pa) Ct E. unfold fsub_int in E. bindS E. inversion E; subst r. clear E.
  destruct (umul_ok E0 Ct Da) as [C0 V0].
  destruct (usub_spec Hw Na C0) as (s & Es & Cs & Vs). rewrite Es in E1. inversion E1; subst l0.
  split; [split; [exact Cs|split; [exact Da|exact Pa]]|].
  change (inject_Z (V t)) with (Qmake (V t) (Z.to_pos 1)). unfold qval. cbn [num den]. split.
  - intros L. rewrite rat_le in L by lia. apply rat_sub; auto; try lia. rewrite Vs, V0, Z.max_r by lia. ring.
  - intros L. rewrite rat_le in L by lia. apply rat_zero; auto. rewrite Vs, V0. lia.
Qed.
Lemma fmul_int_sound a t r : fcanon B a -> canon B t -> fmul_int w a t = Some r ->
  fcanon B r /\ (qval B r == qval B a * inject_Z (V t))%Q.
Proof.
  intros (Na & Da & Pa) Ct E. unfold fmul_int in E. bindS E. inversion E; subst r. clear E.
  destruct (umul_ok E0 Na Ct) as [C0 V0].
  split; [split; [exact C0|split; [exact Da|exact Pa]]|].
  change (inject_Z (V t)) with (Qmake (V t) (Z.to_pos 1)). apply rat_mul; cbn [num den]; auto; try lia.
Qed.
Lemma fdiv_int_sound a t r : fcanon B a -> canon B t -> V t <> 0 -> fdiv_int w a t = Some r ->
  fcanon B r /\ (qval B r == qval B a / inject_Z (V t))%Q.
Proof.
  intros (Na & Da & Pa) Ct Hz E. unfold fdiv_int in E. bindS E. inversion E; subst r. clear E.
  destruct (umul_ok E0 Da Ct) as [C0 V0]. pose proof (val_ge0 Hw Ct).
  assert (0 < V l) by (rewrite V0; nia).
  split; [split; [exact Na|split; [exact C0|assumption]]|].
  change (inject_Z (V t)) with (Qmake (V t) (Z.to_pos 1)). apply qdiv_of_mul.
  - rewrite rat_zero; lia.
  - symmetry. apply rat_mul; cbn [num den]; auto; try lia.
Qed.

(** ** Comparison *)
Lemma feq_sound a b r : fcanon B a -> fcanon B b -> feq w a b = Some r ->
  (r = true <-> (qval B a == qval B b)%Q).
Proof.
  intros (Na & Da & Pa) (Nb & Db & Pb) E. unfold feq in E. bindS E. inversion E; subst r. clear E.
  destruct (umul_ok E0 Na Db) as [C0 V0]. destruct (umul_ok E1 Nb Da) as [C1 V1].
  unfold qval. rewrite rat_eq by auto. rewrite (eq_digits_val HB C0 C1), V0, V1. tauto.
Qed.
Lemma fcmp_sound a b r : fcanon B a -> fcanon B b -> fcmp w a b = Some r ->
  r = (qval B a ?= qval B b)%Q.
Proof.
  intros (Na & Da & Pa) (Nb & Db & Pb) E. unfold fcmp in E. bindS E. inversion E; subst r. clear E.
  destruct (umul_ok E0 Na Db) as [C0 V0]. destruct (umul_ok E1 Nb Da) as [C1 V1].
  unfold qval. rewrite rat_cmp by auto. now rewrite (ucompare_spec HB C0 C1), V0, V1.
Qed.
Lemma fcmp_total a b : fcanon B a -> fcanon B b -> fsmall b -> exists r, fcmp w a b = Some r.
Proof.
  intros (Na & Da & Pa) (Nb & Db & Pb) [Sn Sd]. unfold fcmp.
  destruct (umul_total Na Db Sd) as (x & -> & Cx & _). cbn [obind].
  destruct (umul_total_l Nb Da Sn) as (y & -> & Cy & _). cbn [obind]. eauto.
Qed.
Lemma feq_total a b : fcanon B a -> fcanon B b -> fsmall b -> exists r, feq w a b = Some r.
Proof.
  intros (Na & Da & Pa) (Nb & Db & Pb) [Sn Sd]. unfold feq.
  destruct (umul_total Na Db Sd) as (x & -> & Cx & _). cbn [obind].
  destruct (umul_total_l Nb Da Sn) as (y & -> & Cy & _). cbn [obind]. eauto.
Qed.
Lemma fcmp_int_sound a t : fcanon B a -> canon B t ->
  (forall r, feq_int w a t = Some r -> (r = true <-> (qval B a == inject_Z (V t))%Q)) /\
  (forall r, fcmp_int w a t = Some r -> r = (qval B a ?= inject_Z (V t))%Q).
Proof.
  intros (Na & Da & Pa) Ct. change (inject_Z (V t)) with (Qmake (V t) (Z.to_pos 1)).
  split; intros r E; [unfold feq_int in E|unfold fcmp_int in E];
    bindS E; inversion E; subst r; destruct (umul_ok E0 Ct Da) as [C0 V0]; unfold qval.
  - rewrite rat_eq by lia. rewrite (eq_digits_val HB Na C0), V0. lia.
  - rewrite rat_cmp by lia. rewrite (ucompare_spec HB Na C0), V0. f_equal; lia.
Qed.

(** ** Integer part *)
Lemma fsplit_sound a q r : fcanon B a -> (length (num a) <= 32)%nat -> fsplit w a = Some (q, r) ->
  canon B q /\ fcanon B r /\ (qval B a == inject_Z (V q) + qval B r)%Q /\
  (0 <= qval B r)%Q /\ (qval B r < 1)%Q.
Proof.
  intros (Na & Da & Pa) L E. unfold fsplit in E. bindS E. destruct p as [q' m].
  inversion E; subst q r. clear E.
  assert (Dn : den a <> []). { intros X. apply (canon_nil_iff Hw Da) in X. lia. }
  destruct (udivmod_sound Hw Na Da L Dn E0) as (Cq & Cm & Vq & Vm).
  pose proof (Z.mod_pos_bound (V (num a)) (V (den a)) Pa) as M.
  split; [exact Cq|]. split; [split; [exact Cm|split; [exact Da|exact Pa]]|].
  unfold qval. cbn [num den]. split; [|split].
  - change (inject_Z (V q')) with (Qmake (V q') (Z.to_pos 1)). apply rat_add; auto; try lia.
  - unfold Qle. cbn [Qnum Qden]. lia.
  - change 1%Q with (Qmake 1 (Z.to_pos 1)). rewrite rat_lt; auto; lia.
Qed.

(** ** Reduction to lowest terms *)
Lemma fsimplify_ok fuel a : fcanon B a -> (length (num a) <= 32)%nat -> (length (den a) <= 32)%nat ->
  (V (num a) = 0 -> Z.odd (V (den a)) = true) ->
  V (num a) + V (den a) + 1 < Z.of_nat fuel ->
  exists r, fsimplify w fuel a = Some r /\ fcanon B r /\ (qval B r == qval B a)%Q /\
    Z.gcd (V (num r)) (V (den r)) = 1.
Proof.
  intros (Na & Da & Pa) Ln Ld Ho Hf. unfold fsimplify.
  destruct (@ugcd_spec w Hw fuel (num a) (den a)) as (g & Eg & Cg & Vg); auto; try lia.
  rewrite Eg. cbn [obind]. pose proof (val_ge0 Hw Na) as Gn.
  pose proof (Z.gcd_divide_l (V (num a)) (V (den a))) as D1.
  pose proof (Z.gcd_divide_r (V (num a)) (V (den a))) as D2. rewrite <- Vg in D1, D2.
  destruct (udiv_multiple Hw Na Cg Ln D1) as (n & En & Cn & Vn). rewrite En. cbn [obind].
  destruct (udiv_multiple Hw Da Cg Ld D2) as (d & Ed & Cd & Vd). rewrite Ed. cbn [obind].
  eexists. split; [reflexivity|].
  assert (Gp : 0 < V g).
  { rewrite Vg. pose proof (Z.gcd_nonneg (V (num a)) (V (den a))).
    destruct (Z.eq_dec (Z.gcd (V (num a)) (V (den a))) 0) as [X|X]; [|lia].
    apply Z.gcd_eq_0_r in X. lia. }
  destruct D1 as [x Hx]. destruct D2 as [y Hy].
  assert (Xn : V n = x) by (rewrite Vn, Hx; apply Z.div_mul; lia).
  assert (Xd : V d = y) by (rewrite Vd, Hy; apply Z.div_mul; lia).
  assert (0 < y) by nia.
  split; [split; [exact Cn|split; [exact Cd|cbn [den]; lia]]|]. cbn [num den]. split.
  - unfold qval. cbn [num den]. apply rat_eq; auto; try lia.
  - rewrite Xn, Xd.
    pose proof (Z.gcd_mul_mono_r_nonneg x y (V g) ltac:(lia)) as M.
    rewrite <- Hx, <- Hy in M. rewrite <- Vg in M. pose proof (Z.gcd_nonneg x y). nia.
Qed.

(** Fractions in lowest terms are determined by their value. *)
Lemma reduced_unique a b : fcanon B a -> fcanon B b ->
  Z.gcd (V (num a)) (V (den a)) = 1 -> Z.gcd (V (num b)) (V (den b)) = 1 ->
  (qval B a == qval B b)%Q -> a = b.
Proof.
  intros (Na & Da & Pa) (Nb & Db & Pb) Ga Gb E. unfold qval in E. rewrite rat_eq in E by auto.
  pose proof (val_ge0 Hw Na). pose proof (val_ge0 Hw Nb).
  assert (X : V (den a) = V (den b)).
  { apply Z.divide_antisym_nonneg; try lia.
    - apply (Z.gauss _ (V (num a))); [exists (V (num b)); lia|]. rewrite Z.gcd_comm. exact Ga.
    - apply (Z.gauss _ (V (num b))); [exists (V (num a)); lia|]. rewrite Z.gcd_comm. exact Gb. }
  assert (Y : V (num a) = V (num b)) by (rewrite X in E; nia).
  destruct a as [na da], b as [nb db]. cbn [num den] in *. f_equal; apply (canon_unique HB); auto.
Qed.

Lemma fhash_reduced s a b r : fcanon B a -> fcanon B b ->
  Z.gcd (V (num a)) (V (den a)) = 1 -> Z.gcd (V (num b)) (V (den b)) = 1 ->
  feq w a b = Some r -> r = true -> fhash s a = fhash s b.
Proof.
  intros Ha Hb Ga Gb E T. apply (feq_sound Ha Hb E) in T.
  now rewrite (reduced_unique Ha Hb Ga Gb T).
Qed.

(** ** Powers *)
Lemma fpow_loop_sound f : forall x a b r, fcanon B x -> fcanon B a -> 0 <= b ->
  fpow_loop w f x a b = Some r -> fcanon B r /\ (qval B r == qval B x * qval B a ^ b)%Q.
Proof.
  induction f as [|f IH]; intros x a b r Hx Ha Hb E; [discriminate|]. cbn [fpow_loop] in E.
  destruct (Z.eqb_spec b 0) as [->|N].
  - inversion E; subst r. split; auto. cbn. ring.
  - bindS E. destruct (fmul_sound Ha Ha E1) as [Ca Va].
    assert (X : fcanon B u /\ (qval B u == qval B x * qval B a ^ (b mod 2))%Q).
    { destruct (Z.odd b) eqn:O; rewrite Zmod_odd, O.
      - destruct (fmul_sound Hx Ha E0) as [C2 V2]. split; auto.
      - inversion E0; subst u. split; auto. cbn. ring. }
    destruct X as [Cu Vu].
    assert (Hb2 : 0 <= b / 2) by (apply Z.div_pos; lia).
    destruct (IH _ _ _ _ Cu Ca Hb2 E) as [Cr Vr]. split; auto.
    rewrite Vr, Vu, Va. clear - N Hb.
    rewrite (Z.div_mod b 2) at 3 by lia.
    pose proof (Z.mod_pos_bound b 2 ltac:(lia)) as M.
    pose proof (Z.div_pos b 2 Hb ltac:(lia)) as D.
    set (q := qval B a). rewrite Qpower_plus' .
    + rewrite Qpower_mult. change (q ^ 2)%Q with (q * q)%Q. ring.
    + pose proof (Z.div_mod b 2 ltac:(lia)). lia.
Qed.

Lemma fpow_sound f a e r : fcanon B a -> (e < 0 -> ~ (qval B a == 0)%Q) ->
  fpow w f a e = Some r -> fcanon B r /\ (qval B r == qval B a ^ e)%Q.
Proof.
  intros Ha Hz E. unfold fpow, fpow_nat in E.
  destruct (f_of_uint_ok canon1) as [C1 V1].
  pose proof V_one as Vo.
  destruct (Z.ltb_spec e 0) as [L|L].
  - destruct (freciprocal_ok Ha (Hz L)) as [Cr Vr].
    destruct (fpow_loop_sound C1 Cr (Z.abs_nonneg e) E) as [C W]. split; auto.
    rewrite W, V1, Vo, Vr. replace e with (- Z.abs e) at 2 by lia.
    rewrite Qpower_opp, Qinv_power. ring.
  - destruct (fpow_loop_sound C1 Ha (Z.abs_nonneg e) E) as [C W]. split; auto.
    rewrite W, V1, Vo. rewrite Z.abs_eq by auto. ring.
Qed.

(** ** Signed fractions *)
Lemma fgt_sound a b g : fcanon B a -> fcanon B b -> fgt w a b = Some g ->
  (g = true -> (qval B b <= qval B a)%Q) /\ (g = false -> (qval B a <= qval B b)%Q) /\
  (g = true -> ~ (qval B a == qval B b)%Q).
Proof.
  intros Ha Hb E. unfold fgt in E. bindS E. inversion E; subst g. clear E.
  rewrite (fcmp_sound Ha Hb E0). destruct (Qcompare_spec (qval B a) (qval B b)) as [H|H|H].
  - split; [discriminate|]. split; [intros _; rewrite H; apply Qle_refl|discriminate].
  - split; [discriminate|]. split; [intros _; now apply Qlt_le_weak|discriminate].
  - split; [intros _; now apply Qlt_le_weak|]. split; [discriminate|].
    intros _ X. rewrite X in H. now apply Qlt_irrefl in H.
Qed.

Lemma sdiff_sound s a b r : fcanon B a -> fcanon B b -> sdiff w s a b = Some r ->
  scanon B r /\
  (sval B r == if s then - (qval B a - qval B b) else qval B a - qval B b)%Q /\
  (~ snorm B r <-> s = false /\ (qval B a == qval B b)%Q).
Proof.
  intros Ha Hb E. unfold sdiff in E. bindS E. destruct (fgt_sound Ha Hb E0) as (Lt & Le & Ne).
  destruct b0; bindS E; inversion E; subst r; clear E; unfold scanon, sval, snorm; cbn [sneg smag].
  - destruct (fsub_sound Ha Hb E1) as (C & W & _). specialize (W (Lt eq_refl)).
    split; auto. split; [destruct s; now rewrite W|].
    assert (P : 0 < V (num u)).
    { apply qval_pos; auto. rewrite W. intros X. apply (Ne eq_refl).
      rewrite <- (Qplus_0_l (qval B b)), <- X. ring. }
    destruct s; split; try tauto; intros X; exfalso; apply X; auto.
  - destruct (fsub_sound Hb Ha E1) as (C & W & _). specialize (W (Le eq_refl)).
    split; auto. split; [destruct s; cbn [negb]; rewrite W; ring|].
    pose proof (val_ge0 Hw (proj1 C)) as G.
    assert (P : V (num u) = 0 <-> (qval B a == qval B b)%Q).
    { rewrite <- (rat_zero (V (num u)) (proj2 (proj2 C))). fold (qval B u). rewrite W. split; intros X.
      - rewrite <- (Qplus_0_r (qval B a)), <- X. ring.
      - rewrite X. ring. }
    destruct s; cbn [negb]; split.
    + intros X. exfalso. apply X. discriminate.
    + intros [X _]. discriminate.
    + intros X. split; auto. apply P. destruct (Z.eq_dec (V (num u)) 0); auto. exfalso. apply X. lia.
    + intros [_ Y] X. apply P in Y. specialize (X eq_refl). lia.
Qed.

Lemma sadd_sound a b r : scanon B a -> scanon B b -> sadd w a b = Some r ->
  scanon B r /\ (sval B r == sval B a + sval B b)%Q.
Proof.
  intros Ha Hb E. unfold sadd in E. destruct (Bool.eqb_spec (sneg a) (sneg b)) as [S|S].
  - bindS E. inversion E; subst r. destruct (fadd_sound Ha Hb E0) as [C W].
    split; [exact C|]. unfold sval. cbn [sneg smag]. rewrite <- S. destruct (sneg a); rewrite W; ring.
  - destruct (sdiff_sound Ha Hb E) as (C & W & _). split; auto. rewrite W. unfold sval.
    destruct (sneg a), (sneg b); try congruence; ring.
Qed.
Lemma ssub_sound a b r : scanon B a -> scanon B b -> ssub w a b = Some r ->
  scanon B r /\ (sval B r == sval B a - sval B b)%Q.
Proof.
  intros Ha Hb E. unfold ssub in E. destruct (Bool.eqb_spec (sneg a) (sneg b)) as [S|S]; cbn [negb] in E.
  - destruct (sdiff_sound Ha Hb E) as (C & W & _). split; auto. rewrite W. unfold sval.
    rewrite <- S. destruct (sneg a); ring.
  - bindS E. inversion E; subst r. destruct (fadd_sound Ha Hb E0) as [C W].
    split; [exact C|]. unfold sval. cbn [sneg smag].
    destruct (sneg a), (sneg b); try congruence; rewrite W; ring.
Qed.
(** Adding an opposite value gives a negative zero exactly when the left operand
    is the positive one. *)
Lemma sadd_cancel a b r : scanon B a -> scanon B b -> sneg a <> sneg b ->
  (qval B (smag a) == qval B (smag b))%Q -> sadd w a b = Some r ->
  (snorm B r <-> sneg a = true).
Proof.
  intros Ha Hb S Q E. unfold sadd in E. destruct (Bool.eqb_spec (sneg a) (sneg b)); [contradiction|].
  destruct (sdiff_sound Ha Hb E) as (C & W & Z).
  destruct (sneg a) eqn:Ea; [|split; [|discriminate]].
  - split; auto. intros _. unfold snorm. intros X.
    destruct (Z.lt_ge_cases 0 (V (num (smag r)))); auto. exfalso.
    assert (Y : ~ snorm B r) by (intros Y; specialize (Y X); lia). apply Z in Y. destruct Y. discriminate.
  - intros X. exfalso. assert (Y : ~ snorm B r) by tauto. auto.
Qed.
Lemma sadd_total a b : scanon B a -> scanon B b -> fsmall (smag a) -> fsmall (smag b) ->
  (exists r, sadd w a b = Some r) /\ (exists r, ssub w a b = Some r).
Proof.
  intros Ha Hb Sa Sb.
  assert (D : exists r, sdiff w (sneg a) (smag a) (smag b) = Some r).
  { unfold sdiff, fgt. destruct (fcmp_total Ha Hb Sb) as (c & ->). cbn [obind].
    destruct c; [destruct (fsub_total Hb Ha Sa) as (m & ->)|destruct (fsub_total Hb Ha Sa) as (m & ->)
      |destruct (fsub_total Ha Hb Sb) as (m & ->)]; cbn [obind]; eauto. }
  assert (A : exists r, (m <- fadd w (smag a) (smag b) ;; Some (Sf (sneg a) m)) = Some r).
  { destruct (fadd_total Ha Hb Sb) as (m & ->). cbn [obind]. eauto. }
  unfold sadd, ssub. destruct (Bool.eqb (sneg a) (sneg b)); cbn [negb]; auto.
Qed.
Lemma smul_sound a b r : scanon B a -> scanon B b -> smul w a b = Some r ->
  scanon B r /\ (sval B r == sval B a * sval B b)%Q.
Proof.
  intros Ha Hb E. unfold smul in E. bindS E. inversion E; subst r.
  destruct (fmul_sound Ha Hb E0) as [C W]. split; [exact C|]. unfold sval. cbn [sneg smag].
  destruct (sneg a), (sneg b); cbn [Bool.eqb negb]; rewrite W; ring.
Qed.
Lemma sdiv_sound a b r : scanon B a -> scanon B b -> ~ (sval B b == 0)%Q -> sdiv w a b = Some r ->
  scanon B r /\ (sval B r == sval B a / sval B b)%Q.
Proof.
  intros Ha Hb Hz E. unfold sdiv in E. bindS E. inversion E; subst r.
  assert (Z : ~ (qval B (smag b) == 0)%Q).
  { intros X. apply Hz. unfold sval. destruct (sneg b); rewrite X; reflexivity. }
  destruct (fdiv_sound Ha Hb Z E0) as [C W]. split; [exact C|]. unfold sval. cbn [sneg smag].
  destruct (sneg a), (sneg b); cbn [Bool.eqb negb]; rewrite W; field; auto.
Qed.
(** The overload for unsigned operands adds to the magnitude. *)
Lemma sadd_unsigned_value a b r : scanon B a -> fcanon B b -> sadd_unsigned w a b = Some r ->
  (sval B r == if sneg a then sval B a - qval B b else sval B a + qval B b)%Q.
Proof.
  intros Ha Hb E. unfold sadd_unsigned in E. bindS E. inversion E; subst r.
  destruct (fadd_sound Ha Hb E0) as [C W]. unfold sval. cbn [sneg smag].
  destruct (sneg a); rewrite W; ring.
Qed.
Lemma smul_unsigned_sound a b r : scanon B a -> fcanon B b -> smul_unsigned w a b = Some r ->
  scanon B r /\ (sval B r == sval B a * qval B b)%Q.
Proof.
  intros Ha Hb E. unfold smul_unsigned in E. bindS E. inversion E; subst r.
  destruct (fmul_sound Ha Hb E0) as [C W]. split; [exact C|]. unfold sval. cbn [sneg smag].
  destruct (sneg a); rewrite W; ring.
Qed.
Lemma sdiv_unsigned_sound a b r : scanon B a -> fcanon B b -> ~ (qval B b == 0)%Q ->
  sdiv_unsigned w a b = Some r -> scanon B r /\ (sval B r == sval B a / qval B b)%Q.
Proof.
  intros Ha Hb Hz E. unfold sdiv_unsigned in E. bindS E. inversion E; subst r.
  destruct (fdiv_sound Ha Hb Hz E0) as [C W]. split; [exact C|]. unfold sval. cbn [sneg smag].
  destruct (sneg a); rewrite W; field; auto.
Qed.

Lemma sval_sign a : scanon B a -> snorm B a -> (sneg a = true -> (sval B a < 0)%Q) /\
  (sneg a = false -> (0 <= sval B a)%Q).
Proof.
  intros (Na & Da & Pa) Hn. unfold sval, snorm, qval in *. destruct (sneg a); split; intros X; try discriminate.
  - specialize (Hn eq_refl). unfold Qlt, Qopp. cbn [Qnum Qden]. lia.
  - pose proof (val_ge0 Hw Na). unfold Qle. cbn [Qnum Qden]. lia.
Qed.
Lemma scmp_sound a b : scanon B a -> scanon B b -> snorm B a -> snorm B b ->
  (forall r, seq_ w a b = Some r -> (r = true <-> (sval B a == sval B b)%Q)) /\
  (forall r, scmp w a b = Some r -> r = (sval B a ?= sval B b)%Q).
Proof.
  intros Ha Hb Na Nb. destruct (sval_sign Ha Na) as [Sa Sa']. destruct (sval_sign Hb Nb) as [Sb Sb'].
  unfold seq_, scmp. destruct (Bool.eqb_spec (sneg a) (sneg b)) as [S|S]; cbn [negb].
  - split; intros r E.
    + rewrite (feq_sound Ha Hb E). unfold sval. rewrite <- S. destruct (sneg a); [|tauto].
      split; intros X; [now rewrite X|]. rewrite <- (Qopp_involutive (qval B (smag a))), X. ring.
    + bindS E. inversion E; subst r. rewrite (fcmp_sound Ha Hb E0). unfold sval. rewrite <- S.
      destruct (sneg a); auto. unfold Qcompare, Qopp. cbn [Qnum Qden].
      rewrite !Z.mul_opp_l. now rewrite <- Z.compare_opp, <- Z.compare_antisym.
  - assert (L : if sneg a then (sval B a < sval B b)%Q else (sval B b < sval B a)%Q).
    { destruct (sneg a), (sneg b); try congruence.
      - apply Qlt_le_trans with 0%Q; auto.
      - apply Qlt_le_trans with 0%Q; auto. }
    split; intros r E; inversion E; subst r.
    + split; [discriminate|]. intros X. exfalso.
      destruct (sneg a); rewrite X in L; now apply Qlt_irrefl in L.
    + destruct (sneg a); symmetry; [now apply Qlt_alt|now apply Qgt_alt].
Qed.

Lemma sneg_of_sound a : scanon B a ->
  scanon B (sneg_of a) /\ (sval B (sneg_of a) == - sval B a)%Q /\
  (snorm B (sneg_of a) <-> (sneg a = true \/ ~ (sval B a == 0)%Q)).
Proof.
  intros Ha. split; [exact Ha|]. split.
  - unfold sval, sneg_of. cbn [sneg smag]. destruct (sneg a); cbn [negb]; [ring|reflexivity].
  - unfold snorm, sval, sneg_of. cbn [sneg smag]. destruct (sneg a) eqn:E; cbn [negb].
    + split; [now left|discriminate].
    + split; [|intros [X|X] _; [discriminate|now apply (qval_pos Ha)]].
      intros X. right. specialize (X eq_refl). intros Y. unfold qval in Y. apply rat_zero in Y; [lia|]. apply Ha.
Qed.
Lemma shash_reduced s a b : scanon B a -> scanon B b ->
  Z.gcd (V (num (smag a))) (V (den (smag a))) = 1 -> Z.gcd (V (num (smag b))) (V (den (smag b))) = 1 ->
  seq_ w a b = Some true -> shash s a = shash s b.
Proof.
  intros Ha Hb Ga Gb. unfold seq_, shash. destruct (Bool.eqb_spec (sneg a) (sneg b)) as [Q|Q]; cbn [negb]; [|discriminate].
  intros E. rewrite <- Q, (fhash_reduced s Ha Hb Ga Gb E eq_refl). reflexivity.
Qed.

Lemma spow_sound f a e r : scanon B a -> spow w f a e = Some r ->
  scanon B r /\ (sval B r == sval B a ^ Z.abs e)%Q.
Proof.
  intros Ha E. unfold spow, fpow_nat in E. bindS E. inversion E; subst r.
  destruct (f_of_uint_ok canon1) as [C1 V1]. pose proof V_one as Vo.
  destruct (fpow_loop_sound C1 Ha (Z.abs_nonneg e) E0) as [C W]. split; [exact C|].
  rewrite V1, Vo in W. unfold sval. cbn [sneg smag].
  destruct (sneg a); cbn [andb]; [|rewrite W; ring].
  assert (X : (- qval B (smag a) == (-1 # 1) * qval B (smag a))%Q) by ring.
  rewrite X. rewrite Qmult_power.
  assert (Y : ((-1 # 1) ^ Z.abs e == if Z.odd e then -1 # 1 else 1)%Q).
  { assert (O : Z.odd e = Z.odd (Z.abs e)).
    { destruct (Z.abs_eq_or_opp e) as [->| ->]; auto. now rewrite Z.odd_opp. }
    rewrite O. set (n := Z.abs e). assert (Hn : 0 <= n) by (unfold n; lia). clearbody n. clear - Hn.
    pose proof (Zmod_odd n) as M. pose proof (Z.div_mod n 2 ltac:(lia)) as D.
    assert (P : (((-1 # 1) ^ (2 * (n / 2))) == 1)%Q).
    { rewrite Qpower_mult. change ((-1 # 1) ^ 2)%Q with 1%Q. apply Qpower_1. }
    destruct (Z.odd n).
    - replace n with (2 * (n / 2) + 1) by lia. rewrite Qpower_plus by discriminate. rewrite P. reflexivity.
    - replace n with (2 * (n / 2)) by lia. exact P. }
  rewrite Y. destruct (Z.odd e); rewrite W; ring.
Qed.
(** Truncation. *)
Lemma ftrunc_floor a : fcanon B a -> (length (num a) <= 32)%nat -> (2 * length (den a) <= length (num a) + 2)%nat ->
  denotes B (ftrunc w a) (Qround.Qfloor (qval B a)).
Proof.
  intros (Hn & Hd & Hp) L L2. unfold ftrunc, qval, Qround.Qfloor. rewrite Z2Pos.id by lia. now apply udiv_exact.
Qed.
End P.
