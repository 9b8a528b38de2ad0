(** Proofs about fractions as text. *)
From Coq Require Import QArith Qpower Lqa Znumtheory.
From Verif Require Import Base NumRepr_Model NumRepr_Spec NumRepr_Proofs NumRepr_Frac FracText_Model FracText_Spec.
Local Open Scope Z_scope.

(** ** Splitting *)
Lemma split_last_none c s : ~ In c s -> split_last c s = None.
Proof.
  induction s as [|x s IH]; intro H; cbn [split_last]; [reflexivity|].
  rewrite IH by (intro; apply H; now right).
  destruct (Z.eqb_spec x c) as [->|_]; [destruct H; now left|reflexivity].
Qed.
Lemma split_last_at c a b : ~ In c b -> split_last c (a ++ c :: b) = Some (a, b).
Proof.
  intro H. induction a as [|x a IH]; cbn [app split_last].
  - rewrite (split_last_none H), Z.eqb_refl. reflexivity.
  - rewrite IH. reflexivity.
Qed.
Lemma split_last_inv c s : match split_last c s with
  | Some (a, b) => s = a ++ c :: b /\ ~ In c b
  | None => ~ In c s end.
Proof.
  induction s as [|x s IH]; cbn [split_last]; [intros []|].
  destruct (split_last c s) as [[a b]|].
  - destruct IH as [-> H]. now split.
  - destruct (Z.eqb_spec x c) as [->|N].
    + now split.
    + intros [E|E]; [now apply N|now apply IH].
Qed.
Lemma split_first_none c s : ~ In c s -> split_first c s = None.
Proof.
  induction s as [|x s IH]; intro H; cbn [split_first]; [reflexivity|].
  destruct (Z.eqb_spec x c) as [->|_]; [destruct H; now left|].
  rewrite IH by (intro; apply H; now right). reflexivity.
Qed.
Lemma split_first_at c a b : ~ In c a -> split_first c (a ++ c :: b) = Some (a, b).
Proof.
  induction a as [|x a IH]; intro H; cbn [app split_first].
  - now rewrite Z.eqb_refl.
  - destruct (Z.eqb_spec x c) as [->|_]; [destruct H; now left|].
    rewrite IH by (intro; apply H; now right). reflexivity.
Qed.
Lemma split_first_inv c s : match split_first c s with
  | Some (a, b) => s = a ++ c :: b /\ ~ In c a
  | None => ~ In c s end.
Proof.
  induction s as [|x s IH]; cbn [split_first]; [intros []|].
  destruct (Z.eqb_spec x c) as [->|N].
  - split; [reflexivity|intros []].
  - destruct (split_first c s) as [[a b]|].
    + destruct IH as [-> H]. split; [reflexivity|]. intros [E|E]; auto.
    + intros [E|E]; auto.
Qed.
Lemma same_spec a : forall b, same a b = true <-> a = b.
Proof.
  induction a as [|x a IH]; intros [|y b]; cbn [same]; try (split; [discriminate|discriminate]).
  - split; reflexivity.
  - rewrite andb_true_iff, Z.eqb_eq, IH. split; [intros [-> ->]; reflexivity|intro E; injection E; auto].
Qed.

(** ** Arithmetic *)
Lemma prime_divisor n : 1 < n -> exists p, prime p /\ (p | n).
Proof.
  intro H. revert H. pattern n. apply (well_founded_induction (Z.lt_wf 0)). clear n.
  intros n IH H. destruct (prime_dec n) as [P|P].
  - exists n. split; [exact P|apply Z.divide_refl].
  - destruct (not_prime_divide n H P) as (m & L & D).
    destruct (IH m ltac:(lia) ltac:(lia)) as (p & Pp & Dp). exists p. split; [exact Pp|].
    etransitivity; eassumption.
Qed.
Lemma log2_turns n : 0 <= n -> n < 2 ^ Z.of_nat (turns n).
Proof.
  intro H. unfold turns. rewrite Nat2Z.inj_succ, Z2Nat.id by apply Z.log2_nonneg.
  destruct (Z.eq_dec n 0) as [->|N]; [now cbn|].
  now apply Z.log2_spec; lia.
Qed.
Lemma half_turn n i f : 2 <= i -> 0 <= n < 2 ^ Z.of_nat (S f) -> 0 <= n / i < 2 ^ Z.of_nat f.
Proof.
  intros Hi [H0 H1]. rewrite Nat2Z.inj_succ, Z.pow_succ_r in H1 by lia.
  split; [apply Z.div_pos; lia|]. apply Z.div_lt_upper_bound; [lia|].
  assert (0 < 2 ^ Z.of_nat f) by (apply Z.pow_pos_nonneg; lia). nia.
Qed.

Lemma divide_out_spec i f : 2 <= i -> forall d, 0 < d < 2 ^ Z.of_nat f ->
  let '(d', k) := divide_out f d i in
  0 <= k /\ 0 < d' /\ d = d' * i ^ k /\ ~ (i | d').
Proof.
  intro Hi. induction f as [|f IH]; intros d Hd.
  - cbn in Hd. lia.
  - cbn [divide_out].
    destruct (Z.eqb_spec (d / i) 0) as [Q0|Q0]; cbn [negb andb].
    { refine (conj _ (conj _ (conj _ _))).
      - lia.
      - lia.
      - rewrite Z.pow_0_r. lia.
      - intro D. apply Z.mod_divide in D; [|lia].
        assert (d = i * (d / i) + d mod i) by (apply Z.div_mod; lia). lia. }
    destruct (Z.eqb_spec (d mod i) 0) as [M0|M0].
    2:{ refine (conj _ (conj _ (conj _ _))).
      - lia.
      - lia.
      - rewrite Z.pow_0_r. lia.
      - intro D. apply M0. apply Z.mod_divide; [lia|exact D]. }
    assert (E : d = i * (d / i)) by (pose proof (Z.div_mod d i); lia).
    destruct (@half_turn d i f Hi ltac:(lia)) as [A B].
    specialize (IH (d / i) ltac:(lia)).
    destruct (divide_out f (d / i) i) as [d' k].
    destruct IH as (K & P & E' & N).
    refine (conj _ (conj _ (conj _ N))); try lia.
    rewrite Z.pow_add_r, Z.pow_1_r by lia. rewrite E at 1. rewrite E' at 1. ring.
Qed.

Section FT.
Variable R : repr.
Variable M : marks.
Hypothesis HR : repr_ok R.
Notation r := (radix R).

Lemma r2 : 2 <= r. Proof. exact (proj1 HR). Qed.

Lemma strip_spec f : forall n e, 0 < n < 2 ^ Z.of_nat f ->
  let '(n', e') := strip R f n e in
  0 < n' /\ e <= e' /\ n = n' * r ^ (e' - e) /\ ~ (r | n').
Proof.
  pose proof r2 as Hr.
  induction f as [|f IH]; intros n e Hn; [cbn in Hn; lia|].
  cbn [strip]. destruct (Z.eqb_spec n 0); [lia|].
  destruct (Z.eqb_spec (n mod r) 0) as [M0|M0]; cbn [negb].
  2:{ refine (conj _ (conj _ (conj _ _))).
      - lia.
      - lia.
      - rewrite Z.sub_diag, Z.pow_0_r. lia.
      - intro D. apply M0. apply Z.mod_divide; [lia|exact D]. }
  assert (E : n = r * (n / r)) by (pose proof (Z.div_mod n r); lia).
  destruct (@half_turn n r f Hr ltac:(lia)) as [A B].
  assert (0 < n / r) by nia.
  specialize (IH (n / r) (e + 1) ltac:(lia)).
  destruct (strip R f (n / r) (e + 1)) as [n' e'].
  destruct IH as (P & L & E' & N).
  refine (conj P (conj _ (conj _ N))); [lia|].
  rewrite E at 1. rewrite E' at 1.
  replace (e' - e) with (Z.succ (e' - (e + 1))) by lia.
  rewrite Z.pow_succ_r by lia. ring.
Qed.

Lemma complement_spec table : Forall (fun i => 1 < i /\ (i | r)) table ->
  forall d e, 0 < d ->
  let '(d', c, e') := complement R table d e in
  0 < d' /\ 0 < c /\ e' <= e /\ (d' | d) /\ d * c = d' * r ^ (e - e') /\
  Forall (fun i => ~ (i | d')) table.
Proof.
  pose proof r2 as Hr.
  induction 1 as [|i table [Hi [q Hq]] HT IH]; intros d e Hd; cbn [complement].
  - refine (conj Hd (conj _ (conj _ (conj _ (conj _ _))))).
    + lia.
    + lia.
    + apply Z.divide_refl.
    + rewrite Z.sub_diag. rewrite Z.pow_0_r. lia.
    + constructor.
  - pose proof (@divide_out_spec i (turns d) ltac:(lia) d
      (conj Hd (@log2_turns d ltac:(lia)))) as D.
    destruct (divide_out (turns d) d i) as [d1 k].
    destruct D as (K & P1 & E1 & N1).
    specialize (IH d1 (e - k) P1).
    destruct (complement R table d1 (e - k)) as [[d2 c] e'].
    destruct IH as (P2 & C & L & Dv & E2 & F).
    assert (Q : r / i = q) by (rewrite Hq; apply Z.div_mul; lia).
    assert (0 < q) by nia.
    assert (0 < q ^ k) by (apply Z.pow_pos_nonneg; lia).
    rewrite Q.
    refine (conj P2 (conj _ (conj _ (conj _ (conj _ _))))).
    + nia.
    + lia.
    + etransitivity; [exact Dv|]. exists (i ^ k). rewrite E1 at 1. ring.
    + replace (e - e') with (k + (e - k - e')) by lia.
      rewrite Z.pow_add_r by lia. rewrite Hq at 1.
      rewrite Z.pow_mul_l.
      transitivity (q ^ k * i ^ k * (d1 * c)); [rewrite E1 at 1; ring|].
      rewrite E2. ring.
    + constructor; [|exact F]. intro D. apply N1. etransitivity; [exact D|exact Dv].
Qed.

(** ** Integer texts *)
Lemma utext_numeral n : 0 <= n -> numeral_of R n (utext R n).
Proof.
  intro H. unfold utext.
  destruct (@print_native_spec R HR (turns n) n [] (conj H (@log2_turns n H))) as (s & E & N).
  - unfold turns. discriminate.
  - rewrite E, app_nil_r. exact N.
Qed.
Lemma utext_digits n : 0 <= n ->
  all_digits R (utext R n) = true /\ text_val R (utext R n) = n /\ utext R n <> [].
Proof. intro H. apply (numeral_digits HR). now apply utext_numeral. Qed.

Lemma uparse_spec s : forall acc, uparse R acc s =
  if all_digits R s then Got (acc * r ^ Z.of_nat (length s) + text_val R s) else Err.
Proof.
  induction s as [|c s IH]; intro acc.
  - cbn [uparse all_digits forallb length Z.of_nat]. f_equal. rewrite Z.pow_0_r. cbn. lia.
  - cbn [uparse all_digits forallb]. destruct (is_valid_char R c); cbn [andb]; [|reflexivity].
    rewrite IH. unfold all_digits. destruct (forallb (is_valid_char R) s); [|reflexivity].
    f_equal. unfold text_val. cbn [map length]. rewrite pos_val_cons, map_length.
    rewrite Nat2Z.inj_succ, Z.pow_succ_r by lia. ring.
Qed.
Lemma uparse0 s : uparse R 0 s = if all_digits R s then Got (text_val R s) else Err.
Proof. rewrite uparse_spec. destruct (all_digits R s); [f_equal; lia|reflexivity]. Qed.

Lemma digits_not c s : all_digits R s = true -> is_valid_char R c = false -> ~ In c s.
Proof.
  unfold all_digits. intros H N I. rewrite forallb_forall in H. rewrite (H _ I) in N. discriminate.
Qed.
Lemma all_digits_app a b : all_digits R (a ++ b) = all_digits R a && all_digits R b.
Proof. apply forallb_app. Qed.
Lemma zero_valid : is_valid_char R (get_char R 0) = true.
Proof. destruct HR as (A & B & C). apply B. lia. Qed.
Lemma zero_index : get_index R (get_char R 0) = 0.
Proof. destruct HR as (A & B & C). apply B. lia. Qed.
Lemma zeros_digits n : all_digits R (repeat (get_char R 0) n) = true.
Proof. induction n as [|n IH]; [reflexivity|]. cbn. rewrite zero_valid. exact IH. Qed.
Lemma zeros_val n : text_val R (repeat (get_char R 0) n) = 0.
Proof.
  unfold text_val. replace (map (get_index R) (repeat (get_char R 0) n)) with (repeat 0 n).
  - apply pos_val_zeros.
  - induction n as [|n IH]; [reflexivity|]. cbn [repeat map]. now rewrite zero_index, IH.
Qed.
Lemma digits_firstn n s : all_digits R s = true -> all_digits R (firstn n s) = true.
Proof.
  intro H. rewrite <- (firstn_skipn n s), all_digits_app in H. now apply andb_true_iff in H.
Qed.
Lemma digits_skipn n s : all_digits R s = true -> all_digits R (skipn n s) = true.
Proof.
  intro H. rewrite <- (firstn_skipn n s), all_digits_app in H. now apply andb_true_iff in H.
Qed.

(** ** Powers of the radix *)
Local Open Scope Q_scope.
Lemma rad_pos : 0 < rad R.
Proof. unfold rad. change 0 with (inject_Z 0). rewrite <- Zlt_Qlt. pose proof r2. lia. Qed.
Lemma rad_nz : ~ rad R == 0.
Proof. pose proof rad_pos. lra. Qed.
Lemma rad_pow_pos e : 0 < rad R ^ e.
Proof. apply Qpower_0_lt. exact rad_pos. Qed.
Lemma rad_pow_nz e : ~ rad R ^ e == 0.
Proof. pose proof (rad_pow_pos e). lra. Qed.
Lemma rad_pow_Z e : (0 <= e)%Z -> inject_Z (radix R ^ e) == rad R ^ e.
Proof. intro H. unfold rad. now apply Zpower_Qpower. Qed.
Lemma rad_pow_add a b : rad R ^ (a + b) == rad R ^ a * rad R ^ b.
Proof. apply Qpower_plus. exact rad_nz. Qed.
Lemma rad_pow_opp a : rad R ^ (- a) == / rad R ^ a.
Proof. apply Qpower_opp. Qed.

Local Close Scope Q_scope.

(** ** Reading *)
Section Read.
Hypothesis HM : marks_ok R M.

Lemma mark_no_digit c : In c (mark_list M) -> is_valid_char R c = false.
Proof. destruct HM as (_ & F & _). rewrite Forall_forall in F. apply F. Qed.
Lemma point_slash : m_point M <> m_slash M.
Proof.
  destruct HM as (N & _). intro E. unfold mark_list in N. rewrite E in N.
  inversion N as [|? ? A B]; subst. apply A. cbn. tauto.
Qed.
Lemma point_exp : m_point M <> m_exp M.
Proof.
  destruct HM as (N & _). intro E. unfold mark_list in N. rewrite E in N.
  inversion N as [|? ? A B]; subst. apply A. cbn. tauto.
Qed.
Lemma slash_exp : m_slash M <> m_exp M.
Proof.
  destruct HM as (N & _). intro E. unfold mark_list in N. rewrite E in N.
  inversion N as [|? ? A B]; subst. inversion B as [|? ? A' B']; subst.
  inversion B' as [|? ? A'' B'']; subst. inversion B'' as [|? ? A3 B3]; subst. apply A3. cbn. tauto.
Qed.
Lemma plus_minus : m_plus M <> m_minus M.
Proof.
  destruct HM as (N & _). intro E. unfold mark_list in N. rewrite E in N.
  inversion N as [|? ? A B]; subst. inversion B as [|? ? A' B']; subst. apply A'. cbn. tauto.
Qed.
Lemma plus_exp : m_plus M <> m_exp M.
Proof.
  destruct HM as (N & _). intro E. unfold mark_list in N. rewrite E in N.
  inversion N as [|? ? A B]; subst. inversion B as [|? ? A' B']; subst. apply A'. cbn. tauto.
Qed.
Lemma minus_exp : m_minus M <> m_exp M.
Proof.
  destruct HM as (N & _). intro E. unfold mark_list in N. rewrite E in N.
  inversion N as [|? ? A B]; subst. inversion B as [|? ? A' B']; subst.
  inversion B' as [|? ? A'' B'']; subst. apply A''. cbn. tauto.
Qed.
Lemma mark_not_in c s : In c (mark_list M) -> all_digits R s = true -> ~ In c s.
Proof. intros I D. exact (digits_not D (mark_no_digit I)). Qed.
Lemma in_point : In (m_point M) (mark_list M). Proof. cbn. tauto. Qed.
Lemma in_slash : In (m_slash M) (mark_list M). Proof. cbn. tauto. Qed.
Lemma in_exp : In (m_exp M) (mark_list M). Proof. cbn. tauto. Qed.
Lemma in_plus : In (m_plus M) (mark_list M). Proof. cbn. tauto. Qed.
Lemma in_minus : In (m_minus M) (mark_list M). Proof. cbn. tauto. Qed.

Lemma plain_shape_no s : plain_shape R M s -> ~ In (m_slash M) s /\ ~ In (m_exp M) s.
Proof.
  destruct 1 as [s D|a b Da Db].
  - split; apply mark_not_in; auto using in_slash, in_exp.
  - split; rewrite in_app_iff; intros [I|[E|I]];
      try (revert I; apply mark_not_in; auto using in_slash, in_exp; fail).
    + now apply point_slash.
    + now apply point_exp.
Qed.
Lemma ratio_shape_no s : ratio_shape R M s -> ~ In (m_exp M) s.
Proof.
  induction 1 as [s P|a b Pa Rb IH]; [apply (plain_shape_no P)|].
  rewrite in_app_iff. intros [I|[E|I]].
  - exact (proj2 (plain_shape_no Pa) I).
  - now apply slash_exp.
  - now apply IH.
Qed.
Lemma exp_text_no t e : exp_text R M t e -> ~ In (m_exp M) t.
Proof.
  destruct 1 as [s N D|s D|s D].
  - apply mark_not_in; auto using in_exp.
  - intros [E|I]; [now apply plus_exp|]. revert I. apply mark_not_in; auto using in_exp.
  - intros [E|I]; [now apply minus_exp|]. revert I. apply mark_not_in; auto using in_exp.
Qed.
Lemma plain_text_shape s v : plain_text R M s v -> plain_shape R M s.
Proof. destruct 1; constructor; assumption. Qed.
Lemma ratio_text_shape s v : ratio_text R M s v -> ratio_shape R M s.
Proof.
  induction 1 as [s v P|a b va vb Pa Rb IH N].
  - constructor. exact (plain_text_shape P).
  - apply RS_over; [exact (plain_text_shape Pa)|exact IH].
Qed.
Lemma number_text_shape s v : number_text R M s v -> number_shape R M s.
Proof.
  induction 1 as [s v P|s v t e N IH E].
  - constructor. exact (ratio_text_shape P).
  - exact (NS_exp IH E).
Qed.

(** Characters of numbers. *)
Lemma shape_chars s c : number_shape R M s -> In c s ->
  is_valid_char R c = true \/ In c (mark_list M).
Proof.
  assert (D : forall s c, all_digits R s = true -> In c s ->
    is_valid_char R c = true \/ In c (mark_list M)).
  { intros s' c' H I. left. unfold all_digits in H. rewrite forallb_forall in H. auto. }
  assert (P : forall s c, plain_shape R M s -> In c s ->
    is_valid_char R c = true \/ In c (mark_list M)).
  { intros s' c' H. destruct H as [s' H|a b Ha Hb]; [now apply D|].
    rewrite in_app_iff. intros [I|[<-|I]]; [exact (D _ _ Ha I)|right; exact in_point|exact (D _ _ Hb I)]. }
  assert (Q : forall s c, ratio_shape R M s -> In c s ->
    is_valid_char R c = true \/ In c (mark_list M)).
  { intros s' c' H. induction H as [s' H|a b Ha Hb IH]; [now apply P|].
    rewrite in_app_iff. intros [I|[<-|I]]; [exact (P _ _ Ha I)|right; exact in_slash|exact (IH I)]. }
  induction 1 as [s H|s t e H IH T]; [now apply Q|].
  rewrite in_app_iff. intros [I|[<-|I]]; [exact (IH I)|right; exact in_exp|].
  destruct T as [t N H'|t H'|t H'].
  - exact (D _ _ H' I).
  - destruct I as [<-|I]; [right; exact in_plus|exact (D _ _ H' I)].
  - destruct I as [<-|I]; [right; exact in_minus|exact (D _ _ H' I)].
Qed.
Lemma shape_not_foreign s : number_shape R M s -> ~ has_foreign R M s.
Proof.
  intros H (c & I & V & N). destruct (shape_chars H I) as [E|E]; [congruence|auto].
Qed.

(** What [parse_base] does on the three kinds of texts. *)
Lemma parse_exp f a t : ~ In (m_exp M) t ->
  parse_base R M (S f) (a ++ m_exp M :: t) =
  rbind (sparse R M t) (fun e => rbind (parse_base R M f a) (fun b =>
    let p := radix_pow R e in Got (fst b * fst p, snd b * snd p))).
Proof. intro H. cbn [parse_base]. now rewrite (split_last_at a H). Qed.
Lemma parse_slash f a t : ~ In (m_exp M) (a ++ m_slash M :: t) -> ~ In (m_slash M) a ->
  parse_base R M (S f) (a ++ m_slash M :: t) =
  rbind (parse_base R M f a) (fun n => rbind (parse_base R M f t) (fun d =>
    Got (fst n * snd d, snd n * fst d))).
Proof. intros H N. cbn [parse_base]. now rewrite (split_last_none H), (split_first_at t N). Qed.
Lemma parse_point f a b : ~ In (m_exp M) (a ++ m_point M :: b) ->
  ~ In (m_slash M) (a ++ m_point M :: b) -> ~ In (m_point M) a ->
  parse_base R M (S f) (a ++ m_point M :: b) =
  rbind (uparse R 0 a) (fun i => rbind (uparse R 0 b) (fun fr =>
    let scale := r ^ Z.of_nat (length b) in Got (i * scale + fr, scale))).
Proof.
  intros H N K. cbn [parse_base].
  now rewrite (split_last_none H), (split_first_none N), (split_first_at b K).
Qed.
Lemma parse_int f s : ~ In (m_exp M) s -> ~ In (m_slash M) s -> ~ In (m_point M) s ->
  parse_base R M (S f) s = rbind (uparse R 0 s) (fun n => Got (n, 1)).
Proof.
  intros H N K. cbn [parse_base].
  now rewrite (split_last_none H), (split_first_none N), (split_first_none K).
Qed.

Lemma sparse_spec t e : exp_text R M t e -> sparse R M t = Got e.
Proof.
  destruct 1 as [s N D|s D|s D].
  - destruct s as [|c s]; [now destruct N|]. cbn [sparse].
    assert (V : is_valid_char R c = true).
    { unfold all_digits in D. cbn in D. now apply andb_true_iff in D. }
    destruct (Z.eqb_spec c (m_minus M)) as [->|_].
    { rewrite (mark_no_digit in_minus) in V. discriminate. }
    destruct (Z.eqb_spec c (m_plus M)) as [->|_].
    { rewrite (mark_no_digit in_plus) in V. discriminate. }
    rewrite uparse0, D. reflexivity.
  - cbn [sparse]. destruct (Z.eqb_spec (m_plus M) (m_minus M)) as [E|_]; [now destruct plus_minus|].
    rewrite Z.eqb_refl, uparse0, D. reflexivity.
  - cbn [sparse]. rewrite Z.eqb_refl, uparse0, D. reflexivity.
Qed.
Lemma sparse_inv t : match sparse R M t with
  | Got e => exp_text R M t e | Bad => t = [] | Deep => False | Err => True end.
Proof.
  destruct t as [|c t]; cbn [sparse]; [reflexivity|].
  destruct (Z.eqb_spec c (m_minus M)) as [->|_].
  { rewrite uparse0. destruct (all_digits R t) eqn:D; cbn [rbind]; [|exact Logic.I]. now constructor. }
  destruct (Z.eqb_spec c (m_plus M)) as [->|_].
  { rewrite uparse0. destruct (all_digits R t) eqn:D; [|exact Logic.I]. now constructor. }
  rewrite uparse0. destruct (all_digits R (c :: t)) eqn:D; [|exact Logic.I].
  constructor; [discriminate|exact D].
Qed.

Lemma inject_pos n : (0 < n)%Z -> ~ (inject_Z n == 0)%Q.
Proof. intros H E. change 0%Q with (inject_Z 0) in E. rewrite inject_Z_injective in E. lia. Qed.

Lemma read_plain s v : plain_text R M s v -> forall f, exists n d,
  parse_base R M (S f) s = Got (n, d) /\ frac_is n d v.
Proof.
  pose proof r2 as Hr.
  intros H f. destruct H as [s D|a b Da Db].
  - exists (text_val R s), 1. split.
    + rewrite parse_int by (apply mark_not_in; auto using in_point, in_slash, in_exp).
      rewrite uparse0, D. reflexivity.
    + split; [lia|]. field.
  - exists (text_val R a * r ^ Z.of_nat (length b) + text_val R b), (r ^ Z.of_nat (length b)). split.
    + destruct (plain_shape_no (PS_point M Da Db)) as [N1 N2].
      rewrite parse_point; auto; [|apply mark_not_in; auto using in_point].
      rewrite !uparse0, Da, Db. reflexivity.
    + assert (0 < r ^ Z.of_nat (length b)) by (apply Z.pow_pos_nonneg; lia).
      split; [assumption|].
      rewrite inject_Z_plus, inject_Z_mult, rad_pow_Z by lia.
      field. apply rad_pow_nz.
Qed.

Lemma frac_is_sign n d v : frac_is n d v -> (v == 0)%Q <-> n = 0.
Proof.
  intros [P E]. pose proof (inject_pos P) as N. rewrite <- E. split; intro H.
  - assert (X : (inject_Z n == inject_Z 0)%Q).
    { setoid_replace (inject_Z n) with ((inject_Z n / inject_Z d) * inject_Z d)%Q by (field; exact N).
      rewrite H. change (inject_Z 0) with 0%Q. ring. }
    rewrite inject_Z_injective in X. exact X.
  - rewrite H. field. exact N.
Qed.

Lemma plain_nonneg s v n d : plain_text R M s v -> forall f, parse_base R M (S f) s = Got (n, d) -> 0 <= n.
Proof.
  intros H f P.
  pose proof r2 as Hr. destruct H as [s D|a b Da Db].
  - rewrite parse_int in P by (apply mark_not_in; auto using in_point, in_slash, in_exp).
    rewrite uparse0, D in P. injection P as <- <-. apply (text_val_bound HR D).
  - destruct (plain_shape_no (PS_point M Da Db)) as [N1 N2].
    rewrite parse_point in P; auto; [|apply mark_not_in; auto using in_point].
    rewrite !uparse0, Da, Db in P. cbn [rbind] in P. injection P as <- <-.
    pose proof (text_val_bound HR Da). pose proof (text_val_bound HR Db).
    assert (0 < r ^ Z.of_nat (length b)) by (apply Z.pow_pos_nonneg; lia). nia.
Qed.

Lemma read_ratio s v : ratio_text R M s v -> forall f, (length s < f)%nat -> exists n d,
  parse_base R M f s = Got (n, d) /\ 0 <= n /\ frac_is n d v.
Proof.
  induction 1 as [s v P|a b va vb Pa Rb IH N]; intros f L.
  - destruct f as [|f]; [lia|]. destruct (read_plain P f) as (n & d & E & F).
    exists n, d. split; [exact E|]. split; [|exact F]. exact (plain_nonneg P E).
  - destruct f as [|f]; [lia|].
    rewrite app_length in L. cbn [length] in L.
    pose proof (RS_over (plain_text_shape Pa) (ratio_text_shape Rb)) as Sh.
    rewrite parse_slash; [|exact (ratio_shape_no Sh)|exact (proj1 (plain_shape_no (plain_text_shape Pa)))].
    destruct f as [|f]; [lia|].
    destruct (read_plain Pa f) as (n1 & d1 & E1 & F1).
    destruct (IH (S f) ltac:(lia)) as (n2 & d2 & E2 & G2 & F2).
    rewrite E1, E2. cbn [rbind fst snd].
    exists (n1 * d2), (d1 * n2). split; [reflexivity|].
    pose proof (plain_nonneg Pa E1) as G1.
    assert (n2 <> 0) by (intro Z0; apply N; apply (frac_is_sign F2); exact Z0).
    destruct F1 as [P1 Q1], F2 as [P2 Q2].
    split; [nia|]. split; [nia|].
    rewrite <- Q1, <- Q2. rewrite !inject_Z_mult.
    field. repeat split; apply inject_pos; lia.
Qed.

Lemma radix_pow_is e : 0 < fst (radix_pow R e) /\ frac_is (fst (radix_pow R e)) (snd (radix_pow R e)) (rad R ^ e)%Q.
Proof.
  pose proof r2 as Hr. unfold radix_pow, frac_is. destruct (Z.ltb_spec e 0) as [L|L]; cbn [fst snd].
  - assert (0 < r ^ (- e)) by (apply Z.pow_pos_nonneg; lia).
    split; [lia|]. split; [assumption|].
    rewrite rad_pow_Z by lia. rewrite rad_pow_opp. field. apply rad_pow_nz.
  - assert (0 < r ^ e) by (apply Z.pow_pos_nonneg; lia).
    split; [assumption|]. split; [lia|].
    rewrite rad_pow_Z by lia. field.
Qed.

Lemma read_number s v : number_text R M s v -> forall f, (length s < f)%nat -> exists n d,
  parse_base R M f s = Got (n, d) /\ 0 <= n /\ frac_is n d v.
Proof.
  induction 1 as [s v P|s v t e N IH E]; intros f L.
  - exact (read_ratio P L).
  - rewrite app_length in L. cbn [length] in L. destruct f as [|f]; [lia|].
    rewrite parse_exp by (exact (exp_text_no E)). rewrite (sparse_spec E). cbn [rbind].
    destruct (IH f ltac:(lia)) as (n & d & -> & G & P & Q). cbn [rbind fst snd].
    destruct (radix_pow_is e) as [P1 [P2 Q2]].
    eexists _, _. split; [reflexivity|]. split; [nia|]. split; [nia|].
    rewrite !inject_Z_mult, <- Q, <- Q2. field. split; apply inject_pos; assumption.
Qed.

(** Which texts are accepted. *)
Lemma shape_reads s : number_shape R M s -> forall f, (length s < f)%nat ->
  exists x, parse_base R M f s = Got x.
Proof.
  assert (P : forall s, plain_shape R M s -> forall f, exists x, parse_base R M (S f) s = Got x).
  { intros s' H f.
    assert (T : exists v, plain_text R M s' v).
    { destruct H as [s' D|a b Da Db]; eexists; [apply PT_int|apply PT_point]; assumption. }
    destruct T as [v T]. destruct (read_plain T f) as (n & d & E & _). now exists (n, d). }
  assert (Q : forall s, ratio_shape R M s -> forall f, (length s < f)%nat -> exists x, parse_base R M f s = Got x).
  { intros s' H. induction H as [s' H|a b Ha Hb IH]; intros f L; (destruct f as [|f]; [lia|]).
    - now apply P.
    - rewrite app_length in L. cbn [length] in L.
      rewrite parse_slash; [|exact (ratio_shape_no (RS_over Ha Hb))|exact (proj1 (plain_shape_no Ha))].
      destruct f as [|f]; [lia|].
      destruct (P _ Ha f) as [x ->]. destruct (IH (S f) ltac:(lia)) as [y ->]. eexists. reflexivity. }
  induction 1 as [s H|s t e H IH T]; intros f L; [now apply Q|].
  rewrite app_length in L. cbn [length] in L. destruct f as [|f]; [lia|].
  rewrite parse_exp by (exact (exp_text_no T)). rewrite (sparse_spec T).
  destruct (IH f ltac:(lia)) as [x ->]. eexists. reflexivity.
Qed.

Lemma no_exp_sub a c b : ~ In (m_exp M) (a ++ c :: b) -> ~ In (m_exp M) a /\ ~ In (m_exp M) b.
Proof. rewrite in_app_iff. cbn [In]. tauto. Qed.

Lemma read_shape f : forall s, (length s < f)%nat ->
  match parse_base R M f s with
  | Got _ => number_shape R M s /\ (~ In (m_exp M) s -> ratio_shape R M s) /\
             (~ In (m_exp M) s -> ~ In (m_slash M) s -> plain_shape R M s)
  | Deep => False
  | _ => True end.
Proof.
  induction f as [|f IH]; intros s L; [lia|].
  cbn [parse_base].
  pose proof (split_last_inv (m_exp M) s) as E.
  destruct (split_last (m_exp M) s) as [[a t]|].
  { destruct E as [-> N]. rewrite app_length in L. cbn [length] in L.
    pose proof (sparse_inv t) as SI. destruct (sparse R M t) as [e| | |]; cbn [rbind]; auto.
    specialize (IH a ltac:(lia)). destruct (parse_base R M f a) as [x| | |]; cbn [rbind]; auto.
    destruct IH as (S1 & S2 & S3). split; [exact (NS_exp S1 SI)|].
    split; intro X; destruct X; rewrite in_app_iff; right; now left. }
  pose proof (split_first_inv (m_slash M) s) as F.
  destruct (split_first (m_slash M) s) as [[a t]|].
  { destruct F as [-> N]. rewrite app_length in L. cbn [length] in L.
    destruct (no_exp_sub E) as [Ea Et].
    pose proof (IH a ltac:(lia)) as IHa. destruct (parse_base R M f a) as [x| | |]; cbn [rbind]; auto.
    pose proof (IH t ltac:(lia)) as IHt. destruct (parse_base R M f t) as [y| | |]; cbn [rbind]; auto.
    destruct IHa as (_ & _ & Pa). destruct IHt as (_ & Rt & _).
    assert (RS : ratio_shape R M (a ++ m_slash M :: t)) by (apply RS_over; auto).
    split; [now constructor|]. split; [auto|].
    intros _ X. destruct X. rewrite in_app_iff. right. now left. }
  assert (FIN : forall s', plain_shape R M s' -> number_shape R M s' /\
    (~ In (m_exp M) s' -> ratio_shape R M s') /\
    (~ In (m_exp M) s' -> ~ In (m_slash M) s' -> plain_shape R M s')).
  { intros s' P. split; [|split]; auto; [apply NS_ratio|]; intros; apply RS_plain; exact P. }
  pose proof (split_first_inv (m_point M) s) as G.
  destruct (split_first (m_point M) s) as [[a t]|].
  { destruct G as [-> N]. rewrite !uparse0.
    destruct (all_digits R a) eqn:Da; cbn [rbind]; auto.
    destruct (all_digits R t) eqn:Dt; cbn [rbind]; auto.
    apply FIN. now constructor. }
  rewrite uparse0. destruct (all_digits R s) eqn:D; cbn [rbind]; auto.
  apply FIN. now constructor.
Qed.

Lemma not_special s : number_shape R M s -> same s (m_nan M) = false /\ same s (m_inf M) = false.
Proof.
  intro H. destruct HM as (_ & _ & A & B & _). pose proof (shape_not_foreign H) as N.
  split.
  - destruct (same s (m_nan M)) eqn:E; [|reflexivity]. apply same_spec in E. subst. contradiction.
  - destruct (same s (m_inf M)) eqn:E; [|reflexivity]. apply same_spec in E. subst. contradiction.
Qed.

Theorem parse_frac_value s v : number_text R M s v -> exists n d,
  parse_frac R M s = Got (n, d) /\ 0 <= n /\ frac_is n d v.
Proof.
  intro H. destruct (not_special (number_text_shape H)) as [A B].
  unfold parse_frac. rewrite A, B. apply (read_number H). lia.
Qed.
Theorem parse_frac_accepts s : (exists x, parse_frac R M s = Got x) <->
  number_shape R M s \/ s = m_nan M \/ s = m_inf M.
Proof.
  unfold parse_frac. split.
  - intros [x E]. destruct (same s (m_nan M)) eqn:A; [right; left; now apply same_spec|].
    destruct (same s (m_inf M)) eqn:B; [right; right; now apply same_spec|].
    pose proof (@read_shape (S (length s)) s ltac:(lia)) as X. rewrite E in X. left. apply X.
  - intros [H|[->| ->]].
    + destruct (not_special H) as [-> ->]. apply (shape_reads H). lia.
    + replace (same (m_nan M) (m_nan M)) with true; [now eexists|].
      symmetry. now apply same_spec.
    + destruct (same (m_inf M) (m_nan M)); [now eexists|].
      replace (same (m_inf M) (m_inf M)) with true; [now eexists|].
      symmetry. now apply same_spec.
Qed.
Theorem parse_frac_ends s : parse_frac R M s <> Deep.
Proof.
  unfold parse_frac. destruct (same s (m_nan M)); [discriminate|]. destruct (same s (m_inf M)); [discriminate|].
  pose proof (@read_shape (S (length s)) s ltac:(lia)) as X. intro E. rewrite E in X. exact X.
Qed.

(** ** Printing *)

Lemma digits_denote s : all_digits R s = true -> denotes R M s (inject_Z (text_val R s)).
Proof. intro D. eexists. split; [|reflexivity]. apply NT_ratio, RT_plain, PT_int, D. Qed.

Lemma stext_exp e : exp_text R M (stext R M e) e.
Proof.
  unfold stext. destruct (Z.ltb_spec e 0) as [L|L].
  - destruct (@utext_digits (- e) ltac:(lia)) as (D & V & _).
    replace e with (- text_val R (utext R (- e))) at 2 by lia. now constructor.
  - destruct (@utext_digits e L) as (D & V & N).
    rewrite <- V at 2. now constructor.
Qed.
Lemma utext_exp e : 0 <= e -> exp_text R M (utext R e) e.
Proof.
  intro L. destruct (@utext_digits e L) as (D & V & N). rewrite <- V at 2. now constructor.
Qed.

Lemma build_denotes base e : all_digits R base = true ->
  denotes R M (build R M base e) (inject_Z (text_val R base) * rad R ^ e)%Q /\
  (~ In (m_slash M) (build R M base e)).
Proof.
  intro D. pose proof r2 as Hr.
  assert (EXP : forall t, exp_text R M t e ->
    denotes R M (base ++ m_exp M :: t) (inject_Z (text_val R base) * rad R ^ e)%Q).
  { intros t T. eexists. split; [|reflexivity]. apply NT_exp; [|exact T].
    apply NT_ratio, RT_plain, PT_int, D. }
  assert (NOS : forall t, exp_text R M t e -> ~ In (m_slash M) (base ++ m_exp M :: t)).
  { intros t T. rewrite in_app_iff. intros [I|[I|I]].
    - revert I. apply mark_not_in; auto using in_slash.
    - symmetry in I. now apply slash_exp.
    - destruct HM as (ND & _). unfold mark_list in ND.
      inversion ND as [|? ? A1 B1]; subst. inversion B1 as [|? ? A2 B2]; subst.
      inversion B2 as [|? ? A3 B3]; subst.
      destruct T as [s N D'|s D'|s D'].
      + revert I. apply mark_not_in; auto using in_slash.
      + destruct I as [I|I]; [apply A2; cbn; rewrite I; tauto|].
        revert I. apply mark_not_in; auto using in_slash.
      + destruct I as [I|I]; [apply A3; cbn; rewrite I; tauto|].
        revert I. apply mark_not_in; auto using in_slash. }
  unfold build. destruct (Z.ltb_spec e 0) as [L|L].
  - set (nz := Z.max 0 (- e + 1 - Z.of_nat (length base))).
    destruct (Z.of_nat (length (stext R M e)) <? nz); [split; auto using stext_exp|].
    set (full := repeat (get_char R 0) (Z.to_nat nz) ++ base).
    assert (Df : all_digits R full = true).
    { unfold full. rewrite all_digits_app, zeros_digits. exact D. }
    assert (Vf : text_val R full = text_val R base).
    { unfold full. rewrite text_val_app, zeros_val. lia. }
    assert (Lf : Z.of_nat (length full) = nz + Z.of_nat (length base)).
    { unfold full. rewrite app_length, repeat_length, Nat2Z.inj_add, Z2Nat.id by lia. reflexivity. }
    set (k := Z.to_nat (Z.of_nat (length full) + e)).
    assert (Lk : Z.of_nat (length (skipn k full)) = - e).
    { rewrite skipn_length. unfold k. lia. }
    split.
    + eexists. split; [apply NT_ratio, RT_plain, PT_point; [apply digits_firstn|apply digits_skipn]; exact Df|].
      rewrite Lk. rewrite <- Vf. rewrite <- (firstn_skipn k full) at 3.
      rewrite text_val_app, Lk.
      rewrite inject_Z_plus, inject_Z_mult, rad_pow_Z by lia.
      rewrite rad_pow_opp. field. apply rad_pow_nz.
    + rewrite in_app_iff. intros [I|[I|I]].
      * revert I. apply mark_not_in; [exact in_slash|now apply digits_firstn].
      * now apply point_slash.
      * revert I. apply mark_not_in; [exact in_slash|now apply digits_skipn].
  - destruct (Z.ltb_spec 0 e) as [L'|L'].
    + unfold build_up. destruct (Z.eqb_spec e 0); [lia|].
      destruct (Z.of_nat (length (utext R e)) + 1 <? e); [split; auto using utext_exp|].
      assert (Df : all_digits R (base ++ repeat (get_char R 0) (Z.to_nat e)) = true).
      { rewrite all_digits_app, D, zeros_digits. reflexivity. }
      split; [|apply mark_not_in; [exact in_slash|exact Df]].
      destruct (digits_denote Df) as (v & T & E). exists v. split; [exact T|].
      rewrite E, text_val_app, zeros_val, repeat_length, Z2Nat.id, Z.add_0_r by lia.
      rewrite inject_Z_mult, rad_pow_Z by lia. reflexivity.
    + assert (e = 0) by lia. subst e. split; [|apply mark_not_in; [exact in_slash|exact D]].
      destruct (digits_denote D) as (v & T & E). exists v. split; [exact T|].
      rewrite E. cbn. ring.
Qed.

Lemma builder_denotes n e : 0 < n ->
  denotes R M (string_builder R M n e) (inject_Z n * rad R ^ e)%Q /\ ~ In (m_slash M) (string_builder R M n e).
Proof.
  intro P. unfold string_builder.
  pose proof (@strip_spec (turns n) n e (conj P (@log2_turns n ltac:(lia)))) as X.
  destruct (strip R (turns n) n e) as [n' e']. destruct X as (P' & L & E & _).
  destruct (@utext_digits n' ltac:(lia)) as (D & V & _).
  destruct (build_denotes e' D) as [A B]. split; [|exact B].
  destruct A as (v & T & Q). exists v. split; [exact T|].
  rewrite Q, V. rewrite E. rewrite inject_Z_mult, rad_pow_Z by lia.
  replace e' with ((e' - e) + e) at 1 by lia. rewrite rad_pow_add. ring.
Qed.

Section Print.
Hypothesis HT : table_ok R M.

(** A reduced fraction whose denominator is not 1. *)
Lemma reduced_print num den : 0 < num -> 1 < den -> Z.gcd num den = 1 ->
  let '(d0, k) := divide_out (turns den) den r in
  let '(d1, complete, e) := complement R (m_primes M) d0 (- k) in
  0 < complete /\ (d1 = 1 -> den * complete = r ^ (- e) /\ e <= 0) /\
  (terminating r num den <-> d1 = 1).
Proof.
  intros Pn Pd G. pose proof r2 as Hr.
  assert (Pd' : 0 < den) by lia.
  pose proof (@divide_out_spec r (turns den) Hr den (conj Pd' (@log2_turns den ltac:(lia)))) as X.
  destruct (divide_out (turns den) den r) as [d0 k]. destruct X as (K & P0 & E0 & _).
  destruct HT as [T1 T2].
  pose proof (@complement_spec _ T1 d0 (- k) P0) as Y.
  destruct (complement R (m_primes M) d0 (- k)) as [[d1 c] e].
  destruct Y as (P1 & C & Le & Dv & E1 & F).
  assert (ONE : d1 = 1 -> den * c = r ^ (- e) /\ e <= 0).
  { intros ->. split; [|lia].
    replace (- e) with (k + (- k - e)) by lia. rewrite Z.pow_add_r by lia.
    rewrite E0. transitivity (r ^ k * (d0 * c)); [ring|]. rewrite E1. ring. }
  refine (conj C (conj ONE _)). split.
  - intros (j & J & D).
    assert (D' : (den | r ^ j)).
    { apply (Z.gauss den num); [exact D|]. now rewrite Z.gcd_comm. }
    destruct (Z.eq_dec d1 1) as [|N1]; [assumption|exfalso].
    destruct (@prime_divisor d1 ltac:(lia)) as (p & Pp & Dp).
    assert (Dr : (p | r ^ j)).
    { etransitivity; [exact Dp|]. etransitivity; [exact Dv|]. etransitivity; [|exact D'].
      exists (r ^ k). rewrite E0. ring. }
    assert (p | r).
    { clear -Pp Dr J. revert Dr. pattern j. apply natlike_ind; [| |exact J].
      - rewrite Z.pow_0_r. intro D. exfalso. destruct Pp as [P1 _].
        apply Z.divide_1_r_nonneg in D; lia.
      - intros x Hx IH D. rewrite Z.pow_succ_r in D by lia.
        destruct (prime_mult p Pp _ _ D); auto. }
    rewrite Forall_forall in F. exact (F p (T2 p Pp H) Dp).
  - intros D1. destruct (ONE D1) as [E L]. exists (- e). split; [lia|].
    apply Z.divide_mul_r. exists c. rewrite <- E. ring.
Qed.

Lemma gcd_parts num den : 0 <= num -> 0 < den ->
  let g := Z.gcd num den in
  0 < g /\ num = num / g * g /\ den = den / g * g /\ 0 <= num / g /\ 0 < den / g /\
  Z.gcd (num / g) (den / g) = 1.
Proof.
  intros Hn Hd g.
  assert (G : 0 < g).
  { pose proof (Z.gcd_nonneg num den). assert (g <> 0); [|unfold g in *; lia].
    intro E. apply Z.gcd_eq_0_r in E. lia. }
  pose proof (Z.gcd_divide_l num den) as [a A]. pose proof (Z.gcd_divide_r num den) as [b B].
  fold g in A, B.
  assert (Ea : num / g = a) by (rewrite A at 1; apply Z.div_mul; lia).
  assert (Eb : den / g = b) by (rewrite B at 1; apply Z.div_mul; lia).
  refine (conj G (conj _ (conj _ (conj _ (conj _ _))))).
  - now rewrite Ea.
  - now rewrite Eb.
  - rewrite Ea. nia.
  - rewrite Eb. nia.
  - apply Z.gcd_div_gcd; [lia|reflexivity].
Qed.
Lemma terminating_reduced num den g : 0 < g -> num = num / g * g -> den = den / g * g ->
  terminating r num den <-> terminating r (num / g) (den / g).
Proof.
  intros G A B. split; intros (k & K & D); exists k; (split; [exact K|]).
  - rewrite A, B in D. apply (Z.mul_divide_cancel_r _ _ g); [lia|].
    replace (num / g * r ^ k * g) with (num / g * g * r ^ k) by ring. exact D.
  - rewrite A, B. replace (num / g * g * r ^ k) with (num / g * r ^ k * g) by ring.
    apply Z.mul_divide_mono_r. exact D.
Qed.
Lemma reduced_value num den g : 0 < g -> 0 < den / g -> num = num / g * g -> den = den / g * g ->
  (inject_Z (num / g) / inject_Z (den / g) == inject_Z num / inject_Z den)%Q.
Proof.
  intros G P A B. rewrite A at 2. rewrite B at 2. rewrite !inject_Z_mult.
  field. split; apply inject_pos; assumption.
Qed.

Lemma print_frac_spec num den : 0 <= num -> 0 < den ->
  denotes R M (print_frac R M num den) (inject_Z num / inject_Z den)%Q /\
  (terminating r num den -> ~ In (m_slash M) (print_frac R M num den)) /\
  (~ terminating r num den -> exists a b, 0 <= a /\ 0 < b /\ Z.gcd a b = 1 /\ num * b = a * den /\
     exists s t, numeral_of R a s /\ numeral_of R b t /\ print_frac R M num den = s ++ m_slash M :: t).
Proof.
  intros Hn Hd. pose proof r2 as Hr.
  unfold print_frac. destruct (Z.eqb_spec den 0) as [?|_]; [lia|]. unfold print_frac_base.
  destruct (gcd_parts Hn Hd) as (G & A & B & Pn & Pd & G1).
  set (g := Z.gcd num den) in *.
  pose proof (terminating_reduced G A B) as TR. pose proof (reduced_value G Pd A B) as RV.
  set (n := num / g) in *. set (d := den / g) in *.
  destruct (Z.eqb_spec n 0) as [N0|N0].
  { assert (D : all_digits R [get_char R 0] = true) by (exact (zeros_digits 1)).
    assert (TT : terminating r num den).
    { exists 0. split; [lia|]. replace num with 0 by nia. exists 0. ring. }
    split; [|split; [intros _; apply mark_not_in; [exact in_slash|exact D]|contradiction]].
    destruct (digits_denote D) as (v & T & Q). exists v. split; [exact T|].
    rewrite Q, <- RV, N0. change [get_char R 0] with (repeat (get_char R 0) 1).
    rewrite zeros_val. change (inject_Z 0) with 0%Q. field. now apply inject_pos. }
  destruct (Z.eqb_spec d 1) as [D1|D1].
  { assert (TT : terminating r num den).
    { apply TR. exists 0. split; [lia|]. rewrite D1. apply Z.divide_1_l. }
    destruct (@builder_denotes n 0 ltac:(lia)) as [(v & T & Q) NS].
    split; [|split; [intros _; exact NS|contradiction]].
    exists v. split; [exact T|]. rewrite Q, <- RV, D1. cbn. field. }
  pose proof (@reduced_print n d ltac:(lia) ltac:(lia) G1) as X.
  destruct (divide_out (turns d) d r) as [d0 k].
  destruct (complement R (m_primes M) d0 (- k)) as [[d1 c] e].
  destruct X as (C & ONE & TE).
  destruct (Z.eqb_spec d1 1) as [O|O]; cbn [negb].
  - destruct (ONE O) as [E L].
    destruct (@builder_denotes (n * c) e ltac:(nia)) as [(v & T & Q) NS].
    assert (TT : terminating r num den) by (apply TR, TE, O).
    split; [|split; [intros _; exact NS|contradiction]].
    exists v. split; [exact T|]. rewrite Q, <- RV, inject_Z_mult.
    replace e with (- - e) by lia. rewrite rad_pow_opp, <- rad_pow_Z, <- E, inject_Z_mult by lia.
    field. split; apply inject_pos; lia.
  - assert (TT : ~ terminating r num den) by (intro T; apply O, TE, TR, T).
    destruct (@utext_digits n ltac:(lia)) as (Dn & Vn & _).
    destruct (@utext_digits d ltac:(lia)) as (Dd & Vd & _).
    split; [|split; [contradiction|]].
    + exists (inject_Z (text_val R (utext R n)) / inject_Z (text_val R (utext R d)))%Q. split.
      * apply NT_ratio, RT_over; [now apply PT_int|now apply RT_plain, PT_int|].
        rewrite Vd. apply inject_pos. lia.
      * rewrite Vn, Vd. exact RV.
    + intros _. exists n, d. refine (conj Pn (conj Pd (conj G1 (conj _ _)))); [nia|].
      exists (utext R n), (utext R d). refine (conj _ (conj _ eq_refl)); apply utext_numeral; lia.
Qed.

Theorem frac_round_trip num den : 0 <= num -> 0 < den -> exists n d,
  parse_frac R M (print_frac R M num den) = Got (n, d) /\ 0 <= n /\ 0 < d /\ n * den = num * d.
Proof.
  intros Hn Hd. destruct (print_frac_spec Hn Hd) as ((v & T & Q) & _).
  destruct (parse_frac_value T) as (n & d & E & P & D & V).
  exists n, d. refine (conj E (conj P (conj D _))).
  apply inject_Z_injective. rewrite !inject_Z_mult.
  setoid_replace (inject_Z n) with (inject_Z n / inject_Z d * inject_Z d)%Q by (field; now apply inject_pos).
  rewrite V, Q. field. now apply inject_pos.
Qed.

Lemma app_not_nil (a b : list Z) c : a ++ c :: b <> [].
Proof. destruct a; discriminate. Qed.
Lemma build_not_nil base e : base <> [] -> build R M base e <> [].
Proof.
  intro N. unfold build, build_up.
  repeat match goal with |- context[if ?x then _ else _] => destruct x end; try apply app_not_nil; auto.
  destruct base; [now destruct N|discriminate].
Qed.
Lemma builder_not_nil n e : 0 < n -> string_builder R M n e <> [].
Proof.
  intro P. unfold string_builder.
  pose proof (@strip_spec (turns n) n e (conj P (@log2_turns n ltac:(lia)))) as X.
  destruct (strip R (turns n) n e) as [n' e']. destruct X as (P' & _).
  apply build_not_nil. apply utext_digits. lia.
Qed.
Lemma print_frac_not_nil num den : 0 <= num -> 0 < den -> print_frac R M num den <> [].
Proof.
  intros Hn Hd. unfold print_frac. destruct (Z.eqb_spec den 0) as [?|_]; [lia|]. unfold print_frac_base.
  destruct (gcd_parts Hn Hd) as (G & A & B & Pn & Pd & G1).
  set (g := Z.gcd num den) in *. set (n := num / g) in *. set (d := den / g) in *.
  destruct (Z.eqb_spec n 0) as [N0|N0]; [discriminate|].
  destruct (Z.eqb_spec d 1) as [D1|D1]; [apply builder_not_nil; lia|].
  pose proof (@reduced_print n d ltac:(lia) ltac:(lia) G1) as X.
  destruct (divide_out (turns d) d r) as [d0 k].
  destruct (complement R (m_primes M) d0 (- k)) as [[d1 c] e].
  destruct X as (C & _). destruct (negb (d1 =? 1)); [apply app_not_nil|].
  apply builder_not_nil. nia.
Qed.

Definition no_sign (s : list Z) : Prop :=
  match s with [] => True | c :: _ => c <> m_minus M /\ c <> m_plus M end.
Lemma digit_no_sign c : is_valid_char R c = true -> c <> m_minus M /\ c <> m_plus M.
Proof.
  intro V. split; intros ->.
  - rewrite (mark_no_digit in_minus) in V. discriminate.
  - rewrite (mark_no_digit in_plus) in V. discriminate.
Qed.
Lemma digits_no_sign s t : all_digits R s = true -> no_sign t -> no_sign (s ++ t).
Proof.
  destruct s as [|c s]; [auto|]. intros D _. cbn in D. apply andb_true_iff in D.
  apply digit_no_sign, D.
Qed.
Lemma mark_no_sign c t : In c [m_point M; m_slash M; m_exp M] -> no_sign (c :: t).
Proof.
  intro H. destruct HM as (ND & _). unfold mark_list in ND.
  inversion ND as [|? ? A1 B1]; subst. inversion B1 as [|? ? A2 B2]; subst.
  inversion B2 as [|? ? A3 B3]; subst. cbn in H, A1, A2, A3 |- *.
  destruct H as [<-|[<-|[<-|[]]]]; split; intro E; rewrite E in *; tauto.
Qed.
Lemma shape_no_sign s : number_shape R M s -> no_sign s.
Proof.
  assert (J : forall a b, no_sign a -> no_sign b -> no_sign (a ++ b)) by (intros [|x a] b; auto).
  assert (P : forall s, plain_shape R M s -> no_sign s).
  { intros s' H. destruct H as [s' D|a b Da Db].
    - rewrite <- (app_nil_r s'). now apply digits_no_sign.
    - apply digits_no_sign; [exact Da|]. apply mark_no_sign. cbn. tauto. }
  assert (Q : forall s, ratio_shape R M s -> no_sign s).
  { intros s' H. induction H as [s' H|a b Ha Hb IH]; [now apply P|].
    apply J; [now apply P|]. apply mark_no_sign. cbn. tauto. }
  induction 1 as [s H|s t e H IH T]; [now apply Q|].
  apply J; [exact IH|]. apply mark_no_sign. cbn. tauto.
Qed.

Theorem sfrac_round_trip neg num den : 0 <= num -> 0 < den -> exists n d,
  parse_sfrac R M (print_sfrac R M neg num den) = Got (neg, (n, d)) /\ 0 <= n /\ 0 < d /\ n * den = num * d.
Proof.
  intros Hn Hd. destruct (frac_round_trip Hn Hd) as (n & d & E & P).
  exists n, d. split; [|exact P]. destruct neg; cbn [print_sfrac parse_sfrac].
  - rewrite Z.eqb_refl, E. reflexivity.
  - destruct (print_frac_spec Hn Hd) as ((v & T & _) & _).
    pose proof (shape_no_sign (number_text_shape T)) as NS.
    pose proof (print_frac_not_nil Hn Hd) as NN.
    destruct (print_frac R M num den) as [|c t]; [now destruct NN|].
    destruct NS as [N1 N2]. apply Z.eqb_neq in N1, N2. cbn [parse_sfrac].
    rewrite N1, N2, E. reflexivity.
Qed.

Lemma coprime_unique a b c d : 0 < b -> 0 < d -> Z.gcd a b = 1 -> Z.gcd c d = 1 -> a * d = c * b -> a = c /\ b = d.
Proof.
  intros Pb Pd G H E.
  assert (D1 : (b | d)). { apply (Z.gauss b a); [exists c; lia|now rewrite Z.gcd_comm]. }
  assert (D2 : (d | b)). { apply (Z.gauss d c); [exists a; lia|now rewrite Z.gcd_comm]. }
  assert (b = d) by (apply Z.divide_antisym_nonneg; try lia; assumption).
  subst d. split; [nia|reflexivity].
Qed.
End Print.

(** Equal fractions have the same text. *)
Theorem equal_same_text num den num' den' : 0 <= num -> 0 < den -> 0 <= num' -> 0 < den' ->
  num * den' = num' * den -> print_frac R M num den = print_frac R M num' den'.
Proof.
  intros Hn Hd Hn' Hd' E.
  destruct (gcd_parts Hn Hd) as (G & A & B & Pn & Pd & G1).
  destruct (gcd_parts Hn' Hd') as (G' & A' & B' & Pn' & Pd' & G1').
  unfold print_frac. destruct (Z.eqb_spec den 0) as [?|_]; [lia|]. destruct (Z.eqb_spec den' 0) as [?|_]; [lia|].
  unfold print_frac_base. set (g := Z.gcd num den) in *. set (g' := Z.gcd num' den') in *.
  destruct (@coprime_unique (num / g) (den / g) (num' / g') (den' / g') Pd Pd' G1 G1') as [-> ->]; [|reflexivity].
  rewrite A, B, A', B' in E. apply (Z.mul_reg_r _ _ (g * g')); [nia|].
  transitivity (num / g * g * (den' / g' * g')); [ring|]. rewrite E. ring.
Qed.

Theorem infinite_round_trip num :
  parse_frac R M (print_frac R M num 0) = Got (1, 0) /\
  (forall neg, parse_sfrac R M (print_sfrac R M neg num 0) = Got (neg, (1, 0))).
Proof.
  assert (E : parse_frac R M (print_frac R M num 0) = Got (1, 0)).
  { cbn [print_frac Z.eqb]. unfold print_frac. cbn [Z.eqb]. unfold parse_frac.
    destruct HM as (_ & _ & _ & _ & N & _).
    destruct (same (m_inf M) (m_nan M)) eqn:X; [apply same_spec in X; now destruct N|].
    replace (same (m_inf M) (m_inf M)) with true; [reflexivity|]. symmetry. now apply same_spec. }
  split; [exact E|].
  intros [|]; cbn [print_sfrac parse_sfrac].
  - rewrite Z.eqb_refl, E. reflexivity.
  - unfold print_frac in *. cbn [Z.eqb] in *.
    destruct HM as (_ & _ & _ & _ & _ & N1 & N2).
    destruct (m_inf M) as [|c t]; [now destruct N1|]. cbn [hd] in N1, N2.
    apply Z.eqb_neq in N1, N2. cbn [parse_sfrac]. rewrite N1, N2, E. reflexivity.
Qed.
End Read.

(** A text that ends in the exponent separator. *)
Theorem dangling_exponent s : s ++ [m_exp M] <> m_nan M -> s ++ [m_exp M] <> m_inf M ->
  parse_frac R M (s ++ [m_exp M]) = Bad.
Proof.
  intros N1 N2. unfold parse_frac.
  destruct (same (s ++ [m_exp M]) (m_nan M)) eqn:X; [apply same_spec in X; contradiction|].
  destruct (same (s ++ [m_exp M]) (m_inf M)) eqn:Y; [apply same_spec in Y; contradiction|].
  cbn [parse_base]. rewrite (@split_last_at (m_exp M) s []) by (intros []). reflexivity.
Qed.

(** The same character as decimal point and fraction separator. *)
Theorem point_read_as_slash a b : m_slash M = m_point M -> m_exp M <> m_point M ->
  is_valid_char R (m_point M) = false -> is_valid_char R (m_exp M) = false ->
  all_digits R a = true -> all_digits R b = true ->
  a ++ m_point M :: b <> m_nan M -> a ++ m_point M :: b <> m_inf M ->
  parse_frac R M (a ++ m_point M :: b) = Got (text_val R a, text_val R b).
Proof.
  intros E NE VP VE Da Db N1 N2. unfold parse_frac.
  destruct (same (a ++ m_point M :: b) (m_nan M)) eqn:X; [apply same_spec in X; contradiction|].
  destruct (same (a ++ m_point M :: b) (m_inf M)) eqn:Y; [apply same_spec in Y; contradiction|].
  assert (NX : forall s, all_digits R s = true -> ~ In (m_exp M) s) by (intros s D; exact (digits_not D VE)).
  assert (NP : forall s, all_digits R s = true -> ~ In (m_point M) s) by (intros s D; exact (digits_not D VP)).
  rewrite <- E.
  rewrite parse_slash.
  - rewrite app_length. cbn [length]. rewrite Nat.add_succ_r.
    rewrite !parse_int; try (rewrite ?E; auto; fail).
    rewrite !uparse0, Da, Db. cbn [rbind fst snd]. f_equal. f_equal; lia.
  - rewrite in_app_iff. intros [I|[I|I]]; [exact (NX _ Da I)|congruence|exact (NX _ Db I)].
  - rewrite E. now apply NP.
Qed.
End FT.

(** ** The representations of the library *)
Lemma prime_check p : 1 < p ->
  forallb (fun n => Z.gcd (Z.of_nat n) p =? 1) (seq 1 (Z.to_nat p - 1)) = true -> prime p.
Proof.
  intros P H. constructor; [exact P|]. intros n Hn.
  rewrite forallb_forall in H. specialize (H (Z.to_nat n)).
  rewrite in_seq, Z2Nat.id in H by lia.
  apply Zgcd_1_rel_prime. apply Z.eqb_eq. apply H. lia.
Qed.
Lemma prime_2' : prime 2. Proof. apply prime_check; [lia|reflexivity]. Qed.
Lemma prime_3' : prime 3. Proof. apply prime_check; [lia|reflexivity]. Qed.
Lemma prime_5 : prime 5. Proof. apply prime_check; [lia|reflexivity]. Qed.
Lemma prime_233 : prime 233. Proof. apply prime_check; [lia|vm_compute; reflexivity]. Qed.

Lemma primes_of_product l r : Forall prime l -> r = fold_right Z.mul 1 l ->
  forall p, prime p -> (p | r) -> In p l.
Proof.
  intros F -> p Pp. induction F as [|q l Pq F IH]; cbn [fold_right].
  - intro D. destruct Pp as [P1 _]. apply Z.divide_1_r_nonneg in D; lia.
  - intro D. destruct (prime_mult p Pp _ _ D) as [D'|D'].
    + left. symmetry. now apply prime_div_prime.
    + right. now apply IH.
Qed.

Lemma table_ok_by R M l : Forall prime l -> radix R = fold_right Z.mul 1 l ->
  incl l (m_primes M) ->
  forallb (fun i => (1 <? i) && (radix R mod i =? 0)) (m_primes M) = true -> table_ok R M.
Proof.
  intros F E I B. split.
  - rewrite Forall_forall. rewrite forallb_forall in B. intros i Hi. specialize (B i Hi).
    apply andb_true_iff in B. destruct B as [B1 B2]. apply Z.ltb_lt in B1. apply Z.eqb_eq in B2.
    split; [exact B1|]. apply Z.mod_divide; [lia|exact B2].
  - intros p Pp D. apply I. exact (primes_of_product F E Pp D).
Qed.

Ltac marks_tac :=
  refine (conj _ (conj _ (conj _ (conj _ (conj _ (conj _ _))))));
  [repeat (constructor; [cbn; intuition discriminate|]); constructor
  |repeat (constructor; [vm_compute; reflexivity|]); constructor
  |eexists; split; [left; reflexivity|]; split; [vm_compute; reflexivity|cbn; intuition discriminate]
  |eexists; split; [left; reflexivity|]; split; [vm_compute; reflexivity|cbn; intuition discriminate]
  |discriminate|discriminate|discriminate].

Lemma std_usable :
  marks_ok decimal decimal_marks /\ marks_ok binary binary_marks /\ marks_ok octal octal_marks /\
  marks_ok trinary trinary_marks /\ marks_ok hexadecimal hexadecimal_marks /\
  marks_ok hexadecimal_upper hexadecimal_upper_marks /\ marks_ok valanlottish valanlottish_marks.
Proof.
  refine (conj _ (conj _ (conj _ (conj _ (conj _ (conj _ _)))))); marks_tac.
Qed.
Ltac table_tac l :=
  apply (@table_ok_by _ _ l);
  [repeat (constructor; [first [exact prime_2'|exact prime_3'|exact prime_5|exact prime_233]|]); constructor
  |reflexivity|intros ? ?; cbn in *; tauto|vm_compute; reflexivity].
Lemma std_tables :
  table_ok decimal decimal_marks /\ table_ok binary binary_marks /\ table_ok octal octal_marks /\
  table_ok trinary trinary_marks /\ table_ok hexadecimal hexadecimal_marks /\
  table_ok hexadecimal_upper hexadecimal_upper_marks /\ table_ok valanlottish valanlottish_marks.
Proof.
  refine (conj _ (conj _ (conj _ (conj _ (conj _ (conj _ _)))))).
  - table_tac [2; 5].
  - table_tac [2].
  - table_tac [2; 2; 2].
  - table_tac [3].
  - table_tac [2; 2; 2; 2].
  - table_tac [2; 2; 2; 2].
  - table_tac [5; 233].
Qed.

Lemma runtime_round_trip :
  let R := tabled [48;49;50;51;52;53;54;55;56;57] in
  repr_ok R /\ exists num den n d,
    print_frac R runtime_marks num den = [48;46;53] /\ num = 1 /\ den = 2 /\
    parse_frac R runtime_marks (print_frac R runtime_marks num den) = Got (n, d) /\
    n = 0 /\ d = 5.
Proof.
  intro R. split.
  - apply tabled_ok; [repeat (constructor; [cbn; intuition discriminate|]); constructor|cbn; lia].
  - exists 1, 2, 0, 5. vm_compute. repeat split.
Qed.
