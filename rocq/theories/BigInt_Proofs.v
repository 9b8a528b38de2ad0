(** Proofs about signed big integers. *)
From Verif Require Import Base UBig_Model UBig_Spec UBig_Basics UBig_AddSub UBig_Mul UBig_Kara
  UBig_Div UBig_Shift UBig_Bits Math_Model BigInt_Model.
Local Open Scope Z_scope.
Local Open Scope omonad_scope.

(** ** Specification: the integer a sign and magnitude denote *)
Definition ival (B : Z) (a : bi) : Z := if neg a then - val B (mag a) else val B (mag a).
(** Canonical magnitude. *)
Definition icanon (B : Z) (a : bi) : Prop := canon B (mag a).
(** No negative zero. *)
Definition inorm (a : bi) : Prop := neg a = true -> mag a <> [].
(** Result [r] is defined, canonical without negative zero, and denotes [n]. *)
Definition idenotes (B : Z) (r : option bi) (n : Z) : Prop :=
  exists x, r = Some x /\ icanon B x /\ inorm x /\ ival B x = n.

Section P.
Variable w : Z.
Hypothesis Hw : 0 < w.
Notation B := (base w).
Let HB : 2 <= B := base_ge2 Hw.

Lemma canon_nil_iff m : canon B m -> (m = [] <-> val B m = 0).
Proof.
  intros H. split; [intros ->; reflexivity|]. intros E.
  apply (canon_unique HB (a := m) (b := [])); auto. split; [constructor|cbn; lia].
Qed.

Lemma val_ge0 m : canon B m -> 0 <= val B m.
Proof. intros [H _]. apply val_nonneg; auto. Qed.

Lemma unot_canon m : canon B m -> unot m = true <-> val B m = 0.
Proof. intros H. apply (unot_spec Hw H). Qed.

Lemma mk_ok m (s : bool) n : canon B m -> n = (if s then - val B m else val B m) ->
  icanon B (mk m s) /\ inorm (mk m s) /\ ival B (mk m s) = n.
Proof.
  intros Hc ->. unfold mk, icanon, inorm, ival. cbn [neg mag]. split; [auto|].
  pose proof (unot_canon Hc). destruct (unot m).
  - split; [discriminate|]. assert (val B m = 0) by tauto. destruct s; lia.
  - split; auto. intros -> E. apply (canon_nil_iff Hc) in E. assert (false = true) by tauto. discriminate.
Qed.

Lemma mk_denotes r (s : bool) n :
  denotes B r (if s then - n else n) -> forall k, k = n ->
  idenotes B (m <- r ;; Some (mk m s)) k.
Proof.
  intros (l & -> & Hc & Hv) k ->. cbn [obind]. exists (mk l s). split; [auto|].
  apply mk_ok; auto. destruct s; lia.
Qed.

(** ** Comparison *)
Lemma ieq_sound a b : icanon B a -> icanon B b -> inorm a -> inorm b ->
  (ieq a b = true <-> ival B a = ival B b) /\ icmp a b = (ival B a ?= ival B b) /\
  (ival B a = ival B b -> a = b).
Proof.
  destruct a as [sa ma]; destruct b as [sb mb]. unfold icanon, inorm, ival, ieq, icmp.
  cbn [neg mag]. intros Ca Cb Na Nb.
  pose proof (val_ge0 Ca) as Ga. pose proof (val_ge0 Cb) as Gb.
  pose proof (canon_nil_iff Ca) as Za. pose proof (canon_nil_iff Cb) as Zb.
  pose proof (eq_digits_val HB Ca Cb) as E. pose proof (ucompare_spec HB Ca Cb) as C.
  pose proof (canon_unique HB (a := ma) (b := mb) Ca Cb) as U.
  destruct sa, sb; cbn [Bool.eqb negb].
  - split; [rewrite E; lia|]. split; [rewrite C; now rewrite <- Z.compare_antisym, Z.compare_opp|].
    intros H. f_equal. apply U. lia.
  - assert (val B ma <> 0) by (intros X; apply Na; tauto).
    split; [split; [discriminate|lia]|]. split; [symmetry; apply Z.compare_lt_iff; lia|lia].
  - assert (val B mb <> 0) by (intros X; apply Nb; tauto).
    split; [split; [discriminate|lia]|]. split; [symmetry; apply Z.compare_gt_iff; lia|lia].
  - split; [auto|]. split; [auto|]. intros H. f_equal. auto.
Qed.

Lemma ihash_eq d a b : icanon B a -> icanon B b -> inorm a -> inorm b ->
  ieq a b = true -> ihash d a = ihash d b.
Proof.
  intros Ca Cb Na Nb E. destruct (ieq_sound Ca Cb Na Nb) as (H1 & _ & H2).
  now rewrite (H2 (proj1 H1 E)).
Qed.

Lemma ltb_cmp x y : match x ?= y with Lt => true | _ => false end = (x <? y).
Proof. unfold Z.ltb. destruct (x ?= y); reflexivity. Qed.

(** ** Addition and subtraction *)
Lemma iadd_same_sign fuel a b : icanon B a -> icanon B b -> neg a = neg b ->
  idenotes B (iadd w fuel a b) (ival B a + ival B b).
Proof.
  intros Ca Cb E. unfold iadd. rewrite <- E. rewrite Bool.eqb_reflx.
  destruct (add_base_spec Hw Ca Cb) as (l & El & Cl & Vl). rewrite El. cbn [obind].
  exists (mk l (neg a)). split; [auto|]. apply mk_ok; auto. unfold ival. rewrite <- E, Vl.
  destruct (neg a); lia.
Qed.

Lemma val_sum_pos m n l : canon B m -> canon B n -> canon B l -> val B l = val B m + val B n ->
  m <> [] -> l <> [].
Proof.
  intros Cm Cn Cl E Hm Hl. pose proof (val_ge0 Cm). pose proof (val_ge0 Cn).
  pose proof (canon_nil_iff Cm). pose proof (canon_nil_iff Cl).
  assert (val B l = 0) by tauto. apply Hm. assert (val B m = 0) by lia. tauto.
Qed.

Lemma iadd_assign_same_sign fuel a b : icanon B a -> icanon B b -> inorm a -> neg a = neg b ->
  idenotes B (iadd_assign w (S fuel) a b) (ival B a + ival B b).
Proof.
  intros Ca Cb Na E. cbn [iadd_assign]. rewrite <- E, Bool.eqb_reflx.
  destruct (add_to_base_spec Hw Ca Cb) as (l & El & Cl & Vl). rewrite El. cbn [obind].
  exists (Bi (neg a) l). split; [auto|]. split; [exact Cl|]. split.
  - intros N. cbn [mag neg] in *. apply (@val_sum_pos (mag a) (mag b)); auto.
  - unfold ival. cbn [neg mag]. rewrite <- E, Vl. destruct (neg a); lia.
Qed.

(** Adding a non-negative number to a negative one never returns. *)
Lemma ineg_move_twice a : ineg_move (ineg_move a) = a.
Proof. destruct a as [s m]. unfold ineg_move. cbn. now rewrite negb_involutive. Qed.

Lemma iadd_assign_diverges fuel a b : neg a = true -> neg b = false ->
  iadd_assign w fuel a b = None.
Proof.
  intros Na Nb. induction fuel as [|f IH]; [auto|]. cbn [iadd_assign]. rewrite Na, Nb.
  cbn [Bool.eqb]. now rewrite ineg_move_twice.
Qed.

Lemma iadd_diverges fuel a b : icanon B a -> icanon B b -> inorm a -> inorm b ->
  neg a <> neg b -> iadd w fuel a b = None.
Proof.
  intros Ca Cb Na Nb D. unfold iadd. destruct (neg a) eqn:Ea; destruct (neg b) eqn:Eb;
    try congruence; cbn [Bool.eqb].
  - unfold isub_rv. apply iadd_assign_diverges; auto. unfold ineg_move, ineg, mk. cbn.
    rewrite Ea. cbn. destruct (unot (mag a)); reflexivity.
  - unfold isub_rv. apply iadd_assign_diverges; auto. unfold ineg_move, ineg, mk. cbn.
    rewrite Eb. cbn. destruct (unot (mag b)); reflexivity.
Qed.

(** Adding a negative number to a non-negative one changes nothing. *)
Lemma isub_assign_same a b : icanon B a -> icanon B b -> neg a = neg b ->
  isub_assign w a b = Some a.
Proof.
  intros Ca Cb E. unfold isub_assign. rewrite <- E, Bool.eqb_reflx.
  destruct (add_to_base_spec Hw Ca Cb) as (l & El & Cl & Vl). rewrite El. cbn [obind].
  rewrite (ucompare_spec HB Cl Cb), ltb_cmp.
  pose proof (val_ge0 Ca). pose proof (val_ge0 Cb).
  destruct (Z.ltb_spec (val B l) (val B (mag b))); [lia|].
  destruct (usub_spec Hw Cl Cb) as (r & Er & Cr & Vr). rewrite Er. cbn [obind].
  assert (r = mag a). { apply (canon_unique HB); auto. rewrite Vr. lia. }
  subst r. destruct a; reflexivity.
Qed.

Lemma ineg_ok a : icanon B a -> icanon B (ineg a) /\ inorm (ineg a) /\ ival B (ineg a) = - ival B a.
Proof.
  intros C. apply mk_ok; auto. unfold ival. destruct (neg a); cbn; lia.
Qed.

Lemma iadd_assign_pos_neg fuel a b : icanon B a -> icanon B b -> inorm b ->
  neg a = false -> neg b = true -> iadd_assign w (S fuel) a b = Some a.
Proof.
  intros Ca Cb Nb Ea Eb. cbn [iadd_assign]. rewrite Ea, Eb. cbn [Bool.eqb].
  destruct (ineg_ok Cb) as (C & N & V).
  apply isub_assign_same; auto. unfold ineg, mk. cbn. rewrite Ea, Eb. cbn.
  destruct (unot (mag b)); reflexivity.
Qed.

(** Subtraction assignment: defined, and wrong for every non-zero operand. *)
Lemma isub_assign_wrong a b : icanon B a -> icanon B b -> inorm a -> inorm b ->
  exists x, isub_assign w a b = Some x /\ (ival B x = ival B a - ival B b <-> ival B b = 0).
Proof.
  intros Ca Cb Na Nb. destruct (Bool.bool_dec (neg a) (neg b)) as [E|E].
  - exists a. split; [now apply isub_assign_same|lia].
  - unfold isub_assign. destruct (Bool.eqb_spec (neg a) (neg b)); [contradiction|]. cbn [obind].
    rewrite (ucompare_spec HB Ca Cb), ltb_cmp.
    pose proof (val_ge0 Ca). pose proof (val_ge0 Cb).
    pose proof (canon_nil_iff Ca) as Za. pose proof (canon_nil_iff Cb) as Zb.
    destruct (Z.ltb_spec (val B (mag a)) (val B (mag b))) as [L|L].
    + destruct (usub_spec Hw Cb Ca) as (r & Er & Cr & Vr). rewrite Er. cbn [obind].
      eexists. split; [reflexivity|]. unfold ival. cbn [neg mag]. rewrite Vr.
      destruct (neg a) eqn:Ea, (neg b) eqn:Eb; try congruence; cbn [negb].
      * assert (val B (mag a) <> 0) by (intros X; apply (Na Ea); tauto). lia.
      * lia.
    + destruct (usub_spec Hw Ca Cb) as (r & Er & Cr & Vr). rewrite Er. cbn [obind].
      eexists. split; [reflexivity|]. unfold ival. cbn [neg mag]. rewrite Vr.
      destruct (neg a) eqn:Ea, (neg b) eqn:Eb; try congruence; cbn [negb]; lia.
Qed.

(** Subtraction of lvalues, as if it compiled. *)
Lemma isub_exact a b : icanon B a -> icanon B b ->
  idenotes B (isub w a b) (ival B a - ival B b).
Proof.
  intros Ca Cb. unfold isub.
  pose proof (val_ge0 Ca). pose proof (val_ge0 Cb).
  destruct (Bool.eqb_spec (neg a) (neg b)) as [E|E]; cbn [negb].
  - rewrite (ucompare_spec HB Ca Cb), ltb_cmp.
    destruct (Z.ltb_spec (val B (mag a)) (val B (mag b))) as [L|L].
    + destruct (usub_spec Hw Cb Ca) as (r & Er & Cr & Vr). rewrite Er. cbn [obind].
      eexists. split; [reflexivity|]. apply mk_ok; auto. unfold ival. rewrite <- E, Vr.
      destruct (neg a); cbn [negb]; lia.
    + destruct (usub_spec Hw Ca Cb) as (r & Er & Cr & Vr). rewrite Er. cbn [obind].
      eexists. split; [reflexivity|]. apply mk_ok; auto. unfold ival. rewrite <- E, Vr.
      destruct (neg a); cbn [negb]; lia.
  - destruct (add_base_spec Hw Ca Cb) as (l & El & Cl & Vl). rewrite El. cbn [obind].
    eexists. split; [reflexivity|]. apply mk_ok; auto. unfold ival. rewrite Vl.
    destruct (neg a), (neg b); try congruence; lia.
Qed.

(** ** Multiplication and division *)
Lemma sign_mul a b n : n = val B (mag a) * val B (mag b) ->
  ival B a * ival B b = (if negb (Bool.eqb (neg a) (neg b)) then - n else n).
Proof. intros ->. unfold ival. destruct (neg a), (neg b); cbn; lia. Qed.

Lemma imul_sound a b : icanon B a -> icanon B b ->
  (forall r, imul w a b = Some r -> icanon B r /\ inorm r /\ ival B r = ival B a * ival B b) /\
  ((Nat.min (length (mag a)) (length (mag b)) < 64)%nat ->
     idenotes B (imul w a b) (ival B a * ival B b)).
Proof.
  intros Ca Cb. unfold imul. split.
  - intros r. destruct (umul w (mag a) (mag b)) as [m|] eqn:E; cbn [obind]; [|discriminate].
    intros X; inversion X; subst r. destruct (umul_sound Hw Ca Cb E) as [Cm Vm].
    apply mk_ok; auto. now apply sign_mul.
  - intros L. destruct (umul_small Hw Ca Cb L) as (m & E & Cm & Vm). rewrite E. cbn [obind].
    eexists. split; [reflexivity|]. apply mk_ok; auto. now apply sign_mul.
Qed.

Lemma imul_assign_sound a b : icanon B a -> icanon B b ->
  (Nat.min (length (mag a)) (length (mag b)) < 64)%nat ->
  exists x, imul_assign w a b = Some x /\ icanon B x /\ ival B x = ival B a * ival B b /\
    (inorm x <-> (ival B a * ival B b <> 0 \/ neg a = neg b)).
Proof.
  intros Ca Cb L. unfold imul_assign.
  destruct (umul_small Hw Ca Cb L) as (m & E & Cm & Vm). rewrite E. cbn [obind].
  eexists. split; [reflexivity|]. split; [exact Cm|]. split.
  - unfold ival. cbn [neg mag]. destruct (neg a), (neg b); cbn; lia.
  - unfold inorm. cbn [neg mag]. pose proof (canon_nil_iff Cm) as Z.
    assert (V : val B m = 0 <-> ival B a * ival B b = 0).
    { unfold ival. rewrite Vm. destruct (neg a), (neg b); lia. }
    destruct (neg a), (neg b); cbn; split; intros; try tauto; try congruence; try (left; tauto).
    + destruct H; [tauto|congruence].
    + destruct H; [tauto|congruence].
Qed.

Lemma quot_signs x y : 0 <= x -> 0 <= y ->
  Z.quot (- x) (- y) = x / y /\ Z.quot (- x) y = - (x / y) /\ Z.quot x (- y) = - (x / y) /\
  Z.quot x y = x / y.
Proof.
  intros Hx Hy. destruct (Z.eq_dec y 0) as [->|N].
  - cbn. rewrite !Zdiv_0_r, !Z.quot_0_r_ext by reflexivity. lia.
  - rewrite Z.quot_opp_opp, Z.quot_opp_l, Z.quot_opp_r by lia.
    rewrite Z.quot_div_nonneg by lia. lia.
Qed.

Lemma idiv_exact a b : icanon B a -> icanon B b ->
  (length (mag a) <= 32)%nat -> (2 * length (mag b) <= length (mag a) + 2)%nat ->
  idenotes B (idiv w a b) (Z.quot (ival B a) (ival B b)).
Proof.
  intros Ca Cb L L2. unfold idiv. destruct (udiv_exact Hw Ca Cb L L2) as (m & E & Cm & Vm).
  rewrite E. cbn [obind]. eexists. split; [reflexivity|]. apply mk_ok; auto. rewrite Vm.
  pose proof (quot_signs (val_ge0 Ca) (val_ge0 Cb)) as (Q1 & Q2 & Q3 & Q4).
  unfold ival. destruct (neg a), (neg b); cbn [Bool.eqb negb]; auto.
Qed.

Lemma imod_exact a b : icanon B a -> icanon B b -> mag b <> [] ->
  (length (mag a) <= 32)%nat ->
  idenotes B (imod w a b) (Z.rem (ival B a) (ival B b)).
Proof.
  intros Ca Cb Nb L. unfold imod. destruct (umod_spec Hw Ca Cb L) as (m & E & Cm & Vm).
  rewrite E. cbn [obind]. eexists. split; [reflexivity|]. apply mk_ok; auto. rewrite Vm.
  pose proof (canon_nil_iff Cb) as Z. pose proof (val_ge0 Ca). pose proof (val_ge0 Cb).
  destruct (Z.eqb_spec (val B (mag b)) 0); [tauto|].
  unfold ival. rewrite <- Z.rem_mod_nonneg by lia.
  destruct (neg a), (neg b); rewrite ?Z.rem_opp_opp, ?Z.rem_opp_l, ?Z.rem_opp_r by lia; auto.
Qed.

(** ** Shifts, increment, decrement *)
Lemma ishl_exact a n : icanon B a -> 0 <= n ->
  idenotes B (Some (ishl w a n)) (ival B a * 2 ^ n).
Proof.
  intros Ca Hn. eexists. split; [reflexivity|]. destruct (ushl_spec Hw Ca Hn) as [C V].
  apply mk_ok; auto. rewrite V. unfold ival. destruct (neg a); lia.
Qed.

(** ** Assigning operators: the sign is set without looking at the magnitude *)
Lemma norm_iff (s : bool) m q : canon B m -> q = (if s then - val B m else val B m) ->
  (inorm (Bi s m) <-> (q <> 0 \/ s = false)).
Proof.
  intros Cm ->. pose proof (canon_nil_iff Cm) as Z. unfold inorm. cbn [neg mag]. generalize dependent (val B m). intros v Z.
  destruct s; split; intros X; auto.
  - left. specialize (X eq_refl). intros Y. apply X, Z. lia.
  - intros _ Y. destruct X as [X|X]; [|discriminate]. apply X. apply Z in Y. lia.
  - discriminate.
Qed.
Lemma idiv_assign_sound a b : icanon B a -> icanon B b ->
  (length (mag a) <= 32)%nat -> (2 * length (mag b) <= length (mag a) + 2)%nat ->
  exists x, idiv_assign w a b = Some x /\ icanon B x /\ ival B x = Z.quot (ival B a) (ival B b) /\
    (inorm x <-> (Z.quot (ival B a) (ival B b) <> 0 \/ neg a = neg b)).
Proof.
  intros Ca Cb L L2. unfold idiv_assign. destruct (udiv_exact Hw Ca Cb L L2) as (m & E & Cm & Vm).
  rewrite E. cbn [obind]. eexists. split; [reflexivity|]. split; [exact Cm|].
  pose proof (quot_signs (val_ge0 Ca) (val_ge0 Cb)) as (Q1 & Q2 & Q3 & Q4).
  assert (V : Z.quot (ival B a) (ival B b) = if negb (Bool.eqb (neg a) (neg b)) then - val B m else val B m).
  { rewrite Vm. unfold ival. destruct (neg a), (neg b); cbn [Bool.eqb negb]; assumption. }
  split; [unfold ival at 1; cbn [neg mag]; now rewrite V|].
  rewrite (norm_iff Cm V). destruct (neg a), (neg b); cbn [Bool.eqb negb]; split; (intros [?|?]; [now left|]); try discriminate; now right.
Qed.
Lemma imod_assign_sound a b : icanon B a -> icanon B b -> mag b <> [] -> (length (mag a) <= 32)%nat ->
  exists x, imod_assign w a b = Some x /\ icanon B x /\ ival B x = Z.rem (ival B a) (ival B b) /\
    (inorm x <-> (Z.rem (ival B a) (ival B b) <> 0 \/ neg a = false)).
Proof.
  intros Ca Cb Nb L. unfold imod_assign. destruct (umod_spec Hw Ca Cb L) as (m & E & Cm & Vm).
  rewrite E. cbn [obind]. eexists. split; [reflexivity|]. split; [exact Cm|].
  pose proof (canon_nil_iff Cb) as Z. pose proof (val_ge0 Ca). pose proof (val_ge0 Cb).
  destruct (Z.eqb_spec (val B (mag b)) 0); [tauto|].
  assert (V : Z.rem (ival B a) (ival B b) = if neg a then - val B m else val B m).
  { unfold ival. rewrite Vm, <- Z.rem_mod_nonneg by lia.
    destruct (neg a), (neg b); rewrite ?Z.rem_opp_opp, ?Z.rem_opp_l, ?Z.rem_opp_r by lia; auto. }
  split; [unfold ival at 1; cbn [neg mag]; now rewrite V|]. exact (norm_iff Cm V).
Qed.
Lemma ishr_assign_sound a n : icanon B a -> 0 <= n ->
  icanon B (ishr_assign w a n) /\ ival B (ishr_assign w a n) = Z.quot (ival B a) (2 ^ n) /\
    (inorm (ishr_assign w a n) <-> (Z.quot (ival B a) (2 ^ n) <> 0 \/ neg a = false)).
Proof.
  intros Ca Hn. destruct (ushr_assign_spec Hw Ca Hn) as [C V]. split; [exact C|].
  assert (P : 0 <= 2 ^ n) by (apply Z.pow_nonneg; lia).
  pose proof (quot_signs (val_ge0 Ca) P) as (_ & Q2 & _ & Q4).
  assert (X : Z.quot (ival B a) (2 ^ n) = if neg a then - val B (ushr_assign w (mag a) n) else val B (ushr_assign w (mag a) n)).
  { rewrite V. unfold ival. destruct (neg a); assumption. }
  split; [unfold ival at 1, ishr_assign; cbn [neg mag]; now rewrite X|]. exact (norm_iff C X).
Qed.

Lemma iinc_exact a : icanon B a -> inorm a ->
  (neg a = true -> nth 0 (mag a) 0 <> 0) ->
  idenotes B (Some (iinc w a)) (ival B a + 1).
Proof.
  intros Ca Na Hz. eexists. split; [reflexivity|]. unfold iinc.
  destruct (neg a) eqn:E.
  - destruct a as [s [|x l]]; cbn [neg mag] in *; subst; [now destruct (Na eq_refl)|].
    destruct (sub_one_spec Hw Ca (Hz eq_refl)) as [C V].
    set (m := sub_one w (x :: l)) in *.
    replace (Bi (if unot m then false else true) m) with (mk m true) by reflexivity.
    apply mk_ok; auto. unfold ival. cbn [neg mag]. lia.
  - unfold icanon, inorm, ival. cbn [neg mag]. rewrite E. split; [now apply add_one_canon|].
    split; [discriminate|]. destruct (add_one_val Hw (canon_ok Ca)). lia.
Qed.

Lemma idec_exact a : icanon B a -> inorm a ->
  (ival B a > 0 -> nth 0 (mag a) 0 <> 0) ->
  idenotes B (Some (idec w a)) (ival B a - 1).
Proof.
  intros Ca Na Hz. eexists. split; [reflexivity|]. unfold idec.
  pose proof (unot_canon Ca) as U. pose proof (val_ge0 Ca).
  destruct (add_one_val Hw (canon_ok Ca)) as [_ V]. pose proof (add_one_canon Hw Ca) as C.
  assert (N : add_one w (mag a) <> []).
  { intros X. apply (canon_nil_iff C) in X. lia. }
  destruct (neg a) eqn:E; cbn [negb andb].
  - unfold icanon, inorm, ival. cbn [neg mag]. rewrite E. repeat split; auto; lia || apply C.
  - destruct (unot (mag a)) eqn:Eu.
    + assert (val B (mag a) = 0) by tauto.
      unfold icanon, inorm, ival. cbn [neg mag]. rewrite E. repeat split; auto; lia || apply C.
    + assert (val B (mag a) <> 0) by (intros X; apply U in X; discriminate).
      unfold ival in *. rewrite E in *.
      destruct a as [s [|x l]]; cbn [neg mag] in *; subst; [cbn in *; lia|].
      destruct (sub_one_spec Hw Ca (Hz ltac:(lia))) as [C' V'].
      unfold icanon, inorm. cbn [neg mag]. repeat split; auto; try discriminate; lia || apply C'.
Qed.

(** ** Native signed values *)
Lemma native_round_trip fuel d v : 1 <= d -> 2 ^ d <= B ^ Z.of_nat fuel ->
  - 2 ^ (d - 1) < v < 2 ^ (d - 1) ->
  exists x, of_native w fuel d v = Some x /\ icanon B x /\ inorm x /\ ival B x = v /\
    to_native w d x = v.
Proof.
  intros Hd Hf Hv. assert (P : 2 ^ d = 2 * 2 ^ (d - 1)).
  { rewrite <- Z.pow_succ_r by lia. f_equal. lia. }
  unfold of_native, abs_signed.
  assert (E : (if v <? 0 then if v =? - 2 ^ (d - 1) then None else Some (- v) else Some v)
              = Some (Z.abs v)).
  { destruct (Z.ltb_spec v 0); [|f_equal; lia].
    destruct (Z.eqb_spec v (- 2 ^ (d - 1))); [lia|f_equal; lia]. }
  rewrite E. cbn [obind].
  destruct (@round_trip_native w Hw fuel (2 ^ d) (Z.abs v)) as (l & El & Cl & Vl & Kl); try lia.
  rewrite El. cbn [obind]. eexists. split; [reflexivity|]. split; [exact Cl|].
  unfold inorm, ival, to_native. cbn [neg mag]. rewrite Kl, Vl. split.
  - intros N ->. cbn in Vl. lia.
  - split; [destruct (Z.ltb_spec v 0); lia|].
    destruct (Z.ltb_spec v 0).
    + replace (0 - Z.abs v) with (v + 2 ^ d + (-1) * 2 ^ d) by lia.
      rewrite Z.mod_add, Z.mod_small by lia.
      destruct (Z.ltb_spec (v + 2 ^ d) (2 ^ (d - 1))); lia.
    + rewrite Z.mod_small by lia. destruct (Z.ltb_spec (Z.abs v) (2 ^ (d - 1))); lia.
Qed.

(** Conversion of any value is reduction into the signed range. *)
Lemma to_native_modulo d a : 1 <= d ->
  (to_native w d a - ival B a) mod 2 ^ d = 0 /\
  - 2 ^ (d - 1) <= to_native w d a < 2 ^ (d - 1).
Proof.
  intros Hd. assert (P : 2 ^ d = 2 * 2 ^ (d - 1)).
  { rewrite <- Z.pow_succ_r by lia. f_equal. lia. }
  assert (0 < 2 ^ d) by (apply Z.pow_pos_nonneg; lia).
  unfold to_native. rewrite convert_to_spec by lia.
  set (x := (if neg a then 0 - val B (mag a) mod 2 ^ d else val B (mag a) mod 2 ^ d) mod 2 ^ d).
  assert (X : x = ival B a mod 2 ^ d).
  { unfold x, ival. destruct (neg a).
    - rewrite Zminus_mod, Z.mod_mod, <- Zminus_mod by lia. f_equal.
    - now rewrite Z.mod_mod by lia. }
  pose proof (Z.mod_pos_bound (ival B a) (2 ^ d) ltac:(lia)). rewrite <- X in H0.
  destruct (Z.ltb_spec x (2 ^ (d - 1))); (split; [|lia]).
  - rewrite X, Zminus_mod, Z.mod_mod, Z.sub_diag by lia. reflexivity.
  - replace (x - 2 ^ d - ival B a) with ((x - ival B a) + (-1) * 2 ^ d) by lia.
    rewrite Z.mod_add by lia. rewrite X, Zminus_mod, Z.mod_mod, Z.sub_diag by lia. reflexivity.
Qed.
End P.
