(** Proofs about built-in floating-point numbers as text: when printing is defined, the
    infinities, and the theorems for all formats. *)
From Coq Require Import QArith Qpower Qround Qabs Lqa Znumtheory.
From Verif Require Import Base NumRepr_Model NumRepr_Spec NumRepr_Proofs FracText_Model FracText_Spec FracText_Proofs
  Float_Model Float_Spec Float_Proofs Ref_Model FloatBig_Model FloatBig_Spec FloatBig_Proofs FloatOut_Proofs
  FloatText_Model FloatText_Spec FloatText_Proofs FloatRead_Proofs NumRepr_Frac.
Local Open Scope Z_scope.

Section Defined.
Variables (F : finfo) (f : fmt).
Hypothesis G : In (F, f) good_formats.
Let A : fits_all F f := good_all G.
Variables sw ew : Z.
Hypothesis Hew : 16 <= ew.
Variable R : repr.
Hypothesis HR : repr_ok R.
Variable M : marks.
Hypothesis HM : marks_ok R M.
Notation r := (radix R).
Notation w := (bw F).
Notation m := (fm f).
Notation val n e := (inject_Z n * rad R ^ e)%Q.

(** Conversions that are defined. *)
Lemma convert_defined n d : 0 < n -> 0 < d -> (pow2 (-66) <= ratio n d)%Q -> (ratio n d < pow2 (bias f + 2))%Q ->
  exists y, convert_to_float F f ew (enough d) n d = Ok y.
Proof.
  intros N0 D0 V1 V2. pose proof (afit A) as Fit. pose proof (ew_room A Hew) as Room.
  pose proof (bias_127 G) as B127. assert (AA := A). destruct AA as (_ & Hw & Hsh & M17 & M4 & _ & B64 & _).
  destruct (@convert_outcome F f ltac:(lia) (enough d) n d ew N0 D0 (enough_fuel D0)) as (num & e & O & E).
  destruct (Z.lt_ge_cases num (2 ^ w)) as [N|N].
  - pose proof (@outcome_log F ltac:(lia) ew ltac:(lia) _ _ _ _ O N) as (L1 & L2 & L3). pose proof (proj1 O) as N1.
    assert (R1 : e + Z.log2 num < bias f + 2) by (apply pow2_lt_inv; lra).
    assert (R2 : -66 < e + Z.log2 num + 1) by (apply pow2_lt_inv; lra).
    rewrite Z.mod_small in E by lia. rewrite wrap_range in E by lia.
    destruct (Z.le_gt_cases (e + Z.log2 num) (bias f)) as [S2|S2].
    + destruct (@make_float_truncates F f Fit num e ltac:(lia) ltac:(lia)) as (y & Ey & _). rewrite Ey in E. exists y. exact E.
    + rewrite (make_float_too_large Fit) in E by lia. exists 0. exact E.
  - destruct (@outcome_full F ltac:(lia) ew _ _ _ _ O N) as (-> & Y1 & Y2).
    assert (R1 : -66 < e + w) by (apply pow2_lt_inv; lra).
    assert (R2 : e + w - 1 < bias f + 2).
    { apply pow2_lt_inv. eapply Qle_lt_trans; [|exact V2]. apply Qlt_le_weak. eapply Qle_lt_trans; [|exact Y1].
      assert (H1 : (pow2 (1 + (e + w - 1)) == pow2 1 * pow2 (e + w - 1))%Q) by apply pow2_add.
      replace (1 + (e + w - 1)) with (e + w) in H1 by lia. change (pow2 1) with 2%Q in H1.
      assert (H2 : (pow2 e <= pow2 (e + w - 1))%Q) by (apply pow2_le; lia). lra. }
    rewrite Z_mod_same_full in E. rewrite wrap_range in E by lia. rewrite (make_float_zero Fit) in E by lia.
    exists 0. exact E.
Qed.

Lemma convert_zero_defined d : 0 < d -> Z.log2 d < bias f + w - 2 ->
  convert_to_float F f ew (enough d) 0 d = Ok 0.
Proof.
  intros D0 L. pose proof (afit A) as Fit. pose proof (ew_room A Hew) as Room.
  assert (AA := A). destruct AA as (_ & Hw & Hsh & M17 & M4 & _ & B64 & _).
  unfold convert_to_float. destruct (Z.eqb_spec d 0); [lia|].
  destruct (tz_spec D0) as (k & E & E2 & K & _ & T0). rewrite E.
  assert (T1 : tz d <= Z.log2 d).
  { apply Z.log2_le_pow2; [exact D0|]. rewrite E2 at 2. pose proof (zpow_pos (x := tz d) T0). nia. }
  change (tz 0) with 0. change (Z.shiftr 0 0) with 0.
  replace (scale F (enough d) 0 k (0 - tz d)) with (Ok (0, 0 - tz d)).
  2:{ unfold enough. cbn [scale]. rewrite Zmod_0_l, Zdiv_0_l. reflexivity. }
  change (tz 0) with 0. change (Z.shiftr 0 0) with 0. change (bitnum 0) with 0.
  destruct (Z.ltb_spec 0 (0 - w)); [lia|]. rewrite Zmod_0_l.
  rewrite wrap_range by lia. rewrite (make_float_zero Fit) by lia. reflexivity.
Qed.

Lemma round_half n : r mod 2 = 0 -> 4 <= r -> 0 < n -> 0 <= round_digit R n /\ 2 * round_digit R n <= n.
Proof.
  intros E R4 N. unfold round_digit. pose proof (Z.div_mod n r ltac:(lia)) as D. pose proof (Z.mod_pos_bound n r ltac:(lia)) as B.
  pose proof (Z.div_mod r 2 ltac:(lia)) as H2. rewrite E in H2.
  set (q := n / r) in *. set (t := n mod r) in *. assert (0 <= q) by (apply Z.div_pos; lia).
  destruct (Z.leb_spec (r / 2) t) as [C|C]; nia.
Qed.

Lemma round_to_defined limit fuel : r mod 2 = 0 -> 4 <= r -> 0 <= limit -> forall n e, 0 < n -> Z.log2 n < Z.of_nat fuel ->
  exists n' e', round_to R fuel limit n e = Ok (n', e').
Proof.
  intros E R4 L0. induction fuel as [|fuel IH]; intros n e N L.
  - pose proof (Z.log2_nonneg n). cbn in L. lia.
  - cbn [round_to]. destruct (Z.ltb_spec limit n) as [_|_]; [|do 2 eexists; reflexivity].
    destruct (@round_half n E R4 N) as [K0 K1]. set (k := round_digit R n) in *.
    destruct (Z.eq_dec k 0) as [->|K].
    + destruct fuel; cbn [round_to]; (destruct (Z.ltb_spec limit 0); [lia|do 2 eexists; reflexivity]).
    + apply IH; [lia|]. assert (Z.log2 (2 * k) <= Z.log2 n) by (apply Z.log2_le_mono; exact K1).
      rewrite Z.log2_double in * by lia. lia.
Qed.

Lemma shorten_defined fuel check : r mod 2 = 0 -> 4 <= r -> 0 < check < inf_bits f -> (pow2 (-64) < fabs f check)%Q ->
  forall n e pn pd bn be,
  0 < n -> 0 < pn -> 0 < pd -> Z.log2 pd < bias f + w - 2 -> (ratio pn pd == rad R ^ e)%Q ->
  stands F f (val n e) check -> Z.log2 n < Z.of_nat fuel ->
  exists n' e', shorten F f ew R fuel check n e pn pd bn be = Ok (n', e').
Proof.
  intros E R4 C Lx. pose proof (r2 HR) as H2.
  induction fuel as [|fuel IH]; intros n e pn pd bn be N PN PD LP RP SV L.
  { pose proof (Z.log2_nonneg n). cbn in L. lia. }
  cbn [shorten].
  assert (Go : forall n e pn bn be, 0 < n -> 0 < pn -> (ratio pn pd == rad R ^ e)%Q ->
    stands F f (val n e) check -> Z.log2 n < Z.of_nat (S fuel) -> exists n' e',
    match convert_to_float F f ew (enough pd) (round_digit R n * (pn * r)) pd with
    | Ok x => if x =? check
        then shorten F f ew R fuel check (round_digit R n) (e + 1) (pn * r) pd (round_digit R n) (e + 1)
        else Ok (bn, be)
    | Ub => Ub | Out => Out end = Ok (n', e')).
  { clear n e pn bn be N PN RP SV L. intros n e pn bn be N PN RP SV L.
    assert (P2 : (ratio (pn * r) pd == rad R ^ (e + 1))%Q).
    { rewrite (rad_pow_add HR). change (rad R ^ 1)%Q with (rad R). rewrite <- RP. unfold ratio, rad.
      rewrite inject_Z_mult. field. intros Q. apply (inj_pos) in PD. lra. }
    destruct (@round_digit_spec R HR n E ltac:(lia)) as (_ & _ & K0 & K1).
    destruct (@round_half n E R4 N) as [_ K2]. set (k := round_digit R n) in *.
    destruct (Z.eq_dec k 0) as [Z0|Z0].
    { rewrite Z0, Z.mul_0_l, (convert_zero_defined PD LP). destruct (Z.eqb_spec 0 check); [lia|]. do 2 eexists; reflexivity. }
    assert (K : 0 < k) by lia.
    assert (VE : (ratio (k * (pn * r)) pd == val k (e + 1))%Q).
    { rewrite <- P2. unfold ratio. rewrite inject_Z_mult. unfold Qdiv. ring. }
    specialize (K1 K) as [K3 K4].
    pose proof (stands_large G C Lx SV) as V0. destruct SV as (_ & V1 & V2). pose proof (rad_pow_pos HR e) as Gp.
    assert (VS : (val k (e + 1) == inject_Z (k * r) * rad R ^ e)%Q) by (symmetry; apply (val_step HR)).
    assert (L1 : (val n e <= 2 * val k (e + 1))%Q).
    { rewrite VS. assert (Q1 : (inject_Z n <= inject_Z (2 * (k * r)))%Q) by (rewrite <- Zle_Qle; exact K4).
      rewrite inject_Z_mult in Q1. change (inject_Z 2) with 2%Q in Q1.
      assert (Q2 : (inject_Z n * rad R ^ e <= 2 * inject_Z (k * r) * rad R ^ e)%Q) by (apply Qmult_le_compat_r; lra).
      lra. }
    assert (L2 : (val k (e + 1) <= 2 * val n e)%Q).
    { rewrite VS. assert (Q1 : (inject_Z (k * r) <= inject_Z (2 * n))%Q) by (rewrite <- Zle_Qle; exact K3).
      rewrite (inject_Z_mult 2 n) in Q1. change (inject_Z 2) with 2%Q in Q1.
      assert (Q2 : (inject_Z (k * r) * rad R ^ e <= 2 * inject_Z n * rad R ^ e)%Q) by (apply Qmult_le_compat_r; lra).
      lra. }
    assert (D2 : (pow2 (bias f + 2) == 2 * pow2 (bias f + 1))%Q).
    { replace (bias f + 2) with (1 + (bias f + 1)) by lia. rewrite pow2_add. reflexivity. }
    assert (D3 : (pow2 (-65) == 2 * pow2 (-66))%Q) by reflexivity.
    assert (W1 : (pow2 (-66) <= val k (e + 1))%Q) by lra.
    assert (W2 : (val k (e + 1) < pow2 (bias f + 2))%Q) by lra.
    assert (KP : 0 < k * (pn * r)) by nia.
    destruct (@convert_defined (k * (pn * r)) pd KP PD) as [y CV]; [rewrite VE; exact W1|rewrite VE; exact W2|].
    rewrite CV. destruct (Z.eqb_spec y check) as [->|Ne]; [|do 2 eexists; reflexivity].
    apply IH; auto; [nia| |].
    - destruct (@convert_some F f A ew Hew (enough pd) (k * (pn * r)) pd check KP PD (enough_fuel PD)) as (Fa & Ra); auto.
      + rewrite VE. pose proof (bias_127 G).
        eapply Qle_trans; [|exact W1]. apply pow2_le. pose proof (ew_room A Hew).
        assert (AA := A). destruct AA as (_ & Hw & Hsh & M17 & M4 & _ & B64 & _). lia.
      + rewrite VE. exact W2.
      + lia.
      + apply (@stands_eq F f _ _ _ VE). split; [exact Fa|exact Ra].
    - assert (Z.log2 (2 * k) <= Z.log2 n) by (apply Z.log2_le_mono; exact K2).
      rewrite Z.log2_double in * by lia. lia. }
  destruct (Z.eqb_spec (n mod r) 0) as [Z0|Z0].
  - pose proof (Z.div_mod n r ltac:(lia)) as D. rewrite Z0, Z.add_0_r in D.
    assert (N1 : 0 < n / r) by nia.
    assert (VV : (val (n / r) (e + 1) == val n e)%Q).
    { rewrite <- (val_step HR). rewrite (Z.mul_comm (n / r)), <- D. reflexivity. }
    apply (Go (n / r) (e + 1) (pn * r)); auto; [nia| | |].
    + rewrite (rad_pow_add HR). change (rad R ^ 1)%Q with (rad R). rewrite <- RP. unfold ratio, rad.
      rewrite inject_Z_mult. field. intros Q. apply (inj_pos) in PD. lra.
    + apply (@stands_eq F f (val n e)); [symmetry; exact VV|exact SV].
    + assert (Z.log2 (n / r) <= Z.log2 n) by (apply Z.log2_le_mono; nia). lia.
  - apply (Go n e pn); auto.
Qed.

(** *** Printing *)
Hypothesis Hr : r mod 2 = 0.
Variable limit_digits : Z.
Hypothesis Hld : 0 <= limit_digits.
Hypothesis Hdigits : 2 ^ all_bits f - 1 <= r ^ limit_digits.
Hypothesis S64 : sw = 64.
Hypothesis Hroom : 2 ^ (m + 1) * r < 2 ^ Z.max (all_bits f) sw.

Lemma show_digits : 2 ^ (m + 3) <= r ^ limit_digits.
Proof. exact (wide_digits G sw Hld Hdigits). Qed.
Lemma show_room : 2 ^ (m + 1) * r < 2 ^ Z.max w sw.
Proof. exact (room G Hroom). Qed.

Lemma threshold_defined check n e : 0 < check < inf_bits f -> (pow2 (-64) < fabs f check)%Q -> 0 < n ->
  (val n e == fabs f check)%Q -> 4 <= r \/ n <= 2 ^ (m + 1) ->
  exists n' e', apply_threshold F f sw ew R limit_digits check n e = Ok (n', e').
Proof.
  intros C Lx N V S4. pose proof (r2 HR) as H2. pose proof (afit A) as Fit. pose proof (m1 Fit) as M1.
  pose proof show_digits as HD. pose proof show_room as HRm.
  assert (P0 : 0 < 2 ^ (m + 1)) by (apply zpow_pos; lia).
  unfold apply_threshold. rewrite (base_is A sw R limit_digits).
  rewrite (Z.mod_small (2 ^ (m + 1) * r)) by (split; [apply Z.mul_nonneg_nonneg; lia|exact HRm]).
  pose proof (fun n2 e2 => @threshold_cut F f A sw R HR Hr limit_digits Hld HD HRm check n e n2 e2 C N V S4) as Cut. cbv zeta in Cut.
  destruct (ilog_spec HR (turns n) N) as [I0 I1]. set (L := ilog R (turns n) n) in *.
  assert (M3 : 2 ^ (m + 3) = 4 * 2 ^ (m + 1)).
  { replace (m + 3) with (2 + (m + 1)) by lia. rewrite Z.pow_add_r by lia. reflexivity. }
  assert (Q : exists n2 e2, (let '(n1, e1) := if 0 <? L - limit_digits then (n / r ^ (L - limit_digits), e + (L - limit_digits)) else (n, e) in
     round_to R (turns n1) (2 ^ (m + 1) * r) n1 e1) = Ok (n2, e2)).
  { destruct S4 as [R4|Short].
    - destruct (Z.ltb_spec 0 (L - limit_digits)) as [D|D].
      + assert (LK : r ^ L = r ^ limit_digits * r ^ (L - limit_digits)).
        { rewrite <- Z.pow_add_r by lia. f_equal. lia. }
        assert (K : 0 < r ^ (L - limit_digits)) by (apply Z.pow_pos_nonneg; lia).
        assert (Gt : r ^ limit_digits <= n / r ^ (L - limit_digits)).
        { apply Z.div_le_lower_bound; [exact K|]. lia. }
        apply round_to_defined; [exact Hr|exact R4|nia|lia|]. unfold turns. pose proof (Z.log2_nonneg (n / r ^ (L - limit_digits))). lia.
      + apply round_to_defined; [exact Hr|exact R4|nia|lia|]. unfold turns. pose proof (Z.log2_nonneg n). lia.
    - assert (D : (0 <? L - limit_digits) = false).
      { apply Z.ltb_ge. destruct (Z.le_gt_cases L limit_digits) as [|Gt]; [lia|exfalso].
        assert (r ^ limit_digits <= r ^ L) by (apply Z.pow_le_mono_r; lia). lia. }
      rewrite D. unfold turns. cbn [round_to]. assert (2 ^ (m + 1) * 1 <= 2 ^ (m + 1) * r) by (apply Z.mul_le_mono_nonneg_l; lia).
      destruct (Z.ltb_spec (2 ^ (m + 1) * r) n); [lia|do 2 eexists; reflexivity]. }
  destruct Q as (n2 & e2 & Q). destruct (if 0 <? L - limit_digits then _ else _) as [n1 e1]. rewrite Q.
  destruct (Cut n2 e2 Q) as (N2 & S2 & LE & R4).
  destruct (Z.ltb_spec (2 ^ (m + 1)) n2) as [Big|Big]; [|do 2 eexists; reflexivity].
  assert (R4' : 4 <= r) by (destruct R4 as [R4|R4]; [exact R4|lia]).
  destruct (radix_pow_ratio HR e2) as (PP1 & PP2 & PP3).
  apply shorten_defined; auto; [|unfold turns; pose proof (Z.log2_nonneg n2); lia].
  pose proof (stands_large G C Lx S2) as V0. pose proof (bias_127 G) as B127.
  assert (AA := A). destruct AA as (_ & Hw & Hsh & M17 & M4 & _ & B64 & _).
  unfold radix_pow. destruct (Z.ltb_spec e2 0) as [E0|E0]; cbn [snd].
  2:{ change (Z.log2 1) with 0. lia. }
  assert (LR : 0 < r ^ (- e2)) by (apply Z.pow_pos_nonneg; lia).
  assert (B : r ^ (- e2) <= 2 ^ (65 + Z.max w sw)).
  { assert (Q1 : (inject_Z (r ^ (- e2)) <= inject_Z n2 * pow2 65)%Q).
    { rewrite (@pow_inject R (- e2)) by lia.
      assert (RP : (rad R ^ e2 * rad R ^ (- e2) == 1)%Q).
      { rewrite <- (rad_pow_add HR). replace (e2 + - e2) with 0 by lia. reflexivity. }
      pose proof (rad_pow_pos HR (- e2)) as GP.
      assert (H : (pow2 (-65) * rad R ^ (- e2) <= inject_Z n2 * rad R ^ e2 * rad R ^ (- e2))%Q) by (apply Qmult_le_compat_r; lra).
      assert (E1 : (inject_Z n2 * rad R ^ e2 * rad R ^ (- e2) == inject_Z n2)%Q) by (rewrite <- Qmult_assoc, RP; ring).
      rewrite E1 in H.
      assert (H' : (pow2 (-65) * rad R ^ (- e2) * pow2 65 <= inject_Z n2 * pow2 65)%Q) by (apply Qmult_le_compat_r; [exact H|apply Qlt_le_weak, pow2_pos]).
      assert (E2 : (pow2 (-65) * pow2 65 == 1)%Q) by reflexivity.
      setoid_replace (pow2 (-65) * rad R ^ (- e2) * pow2 65)%Q with (rad R ^ (- e2) * (pow2 (-65) * pow2 65))%Q in H' by ring.
      rewrite E2 in H'. lra. }
    rewrite pow2_Z in Q1 by lia. rewrite <- inject_Z_mult, <- Zle_Qle in Q1.
    rewrite Z.pow_add_r, Z.mul_comm by lia. apply Z.le_trans with (n2 * 2 ^ 65); [exact Q1|].
    apply Z.mul_le_mono_nonneg_r; lia. }
  apply Z.log2_le_mono in B. rewrite Z.log2_pow2 in B by lia.
  assert (Wc : w <= 64 \/ 16383 <= bias f).
  { clear - G. cbn in G. destruct G as [E|[E|[E|[]]]]; injection E as <- <-; vm_compute; [left|left|right]; discriminate. }
  assert (W32 : 32 <= w).
  { clear - G. cbn in G. destruct G as [E|[E|[E|[]]]]; injection E as <- <-; vm_compute; discriminate. }
  lia.
Qed.

Lemma builder_defined check n e : 0 < check < inf_bits f -> (pow2 (-64) < fabs f check)%Q -> 0 < n ->
  (val n e == fabs f check)%Q -> 4 <= r \/ n <= 2 ^ (m + 1) ->
  exists s, float_builder F f sw ew R M limit_digits check n e = Ok s.
Proof.
  intros C Lx N V S4. unfold float_builder. destruct (threshold_defined C Lx N V S4) as (n' & e' & ->). eexists. reflexivity.
Qed.

Lemma parts_defined x : 0 < x < inf_bits f -> (pow2 (-64) < fabs f x)%Q ->
  exists s, print_parts F f sw ew R M limit_digits x = Ok s.
Proof.
  intros C Lx. destruct (parts_form A sw Hew HR M Hr Hld C) as (n & e & E & N & V & S4). rewrite E.
  exact (builder_defined C Lx N V S4).
Qed.
End Defined.

Lemma limit_rounded F f : In (F, f) good_formats -> fm f < 63 -> Qle_bool (inject_Z (2 ^ 64)) (max_size f 64) = true.
Proof.
  intros G M63. cbn in G. destruct G as [E|[E|[E|[]]]]; injection E as <- <-; [vm_compute; reflexivity|vm_compute; reflexivity|].
  cbn in M63. lia.
Qed.
Lemma infinity_facts F f : In (F, f) good_formats ->
  isInf f (inf_bits f) = true /\ isInf f (inf_bits f + 2 ^ (all_bits f - 1)) = true /\
  clear_sign f (inf_bits f) = inf_bits f /\ 0 < 2 ^ (all_bits f - 1).
Proof.
  intros G. cbn in G. destruct G as [E|[E|[E|[]]]]; injection E as <- <-; vm_compute; repeat split; reflexivity.
Qed.

Section Shown.
Variables (F : finfo) (f : fmt).
Hypothesis G : In (F, f) good_formats.
Let A : fits_all F f := good_all G.
Variable ew : Z.
Variable R : repr.
Variable M : marks.
Variable limit_digits : Z.
Hypothesis T : text_setting f ew R M limit_digits.
Notation r := (radix R).
Notation m := (fm f).

Lemma Hew : 16 <= ew.
Proof. exact (proj1 T). Qed.
Lemma HR : repr_ok R.
Proof. exact (proj1 (proj2 T)). Qed.
Lemma HM : marks_ok R M.
Proof. exact (proj1 (proj2 (proj2 T))). Qed.
Lemma HT : table_ok R M.
Proof. exact (proj1 (proj2 (proj2 (proj2 T)))). Qed.
Lemma Hld : 0 <= limit_digits.
Proof. exact (proj1 (proj2 (proj2 (proj2 (proj2 T))))). Qed.
Lemma Hdigits : 2 ^ all_bits f - 1 <= r ^ limit_digits.
Proof. exact (proj1 (proj2 (proj2 (proj2 (proj2 (proj2 T)))))). Qed.
Lemma Hroom : 2 ^ (m + 1) * r < 2 ^ Z.max (all_bits f) 64.
Proof. exact (proj2 (proj2 (proj2 (proj2 (proj2 (proj2 T)))))). Qed.
Lemma Hsw : 64 <= 64.
Proof. lia. Qed.
Notation show := (print_float F f 64 ew R M limit_digits).
Notation scan := (parse_float F f ew R M).

Lemma max_size_upper : (max_size f 64 <= pow2 64)%Q.
Proof.
  pose proof (afit A) as Fit. pose proof (bias_127 G) as B127. pose proof (m1 Fit) as M1.
  destruct (@representable F f Fit 1 64) as (z & Rz & E).
  - pose proof (zpow_pos (x := m) ltac:(lia)). rewrite Z.pow_add_r by lia. lia.
  - unfold tiny. lia.
  - change (Z.log2 1) with 0. lia.
  - assert (E' : (fabs f z == pow2 64)%Q) by (rewrite E; reflexivity).
    rewrite <- E'. unfold max_size, rv.
    assert (Q0 : (0 <= inject_Z (2 ^ 64 - 1))%Q) by (change 0%Q with (inject_Z 0); rewrite <- Zle_Qle; lia).
    apply (fabs_le Fit); [exact (proj1 (rn_range Fit Q0))| |lia].
    apply (rn_upper Fit); [exact Q0|exact Rz|]. rewrite E'. change (pow2 64) with (inject_Z (2 ^ 64)). rewrite <- Zle_Qle. lia.
Qed.

Lemma base_defined x : r mod 2 = 0 -> 0 < x < inf_bits f ->
  (1 <= fabs f x)%Q /\ m <= 56 \/ (pow2 (-56) <= fabs f x)%Q /\ (fabs f x < 1)%Q -> ~ (fabs f x == pow2 64)%Q ->
  exists s, print_float_base F f 64 ew R M limit_digits x = Ok s.
Proof.
  intros Hr C H N64. pose proof (afit A) as Fit. assert (AA := A). destruct AA as (_ & Hw & Hsh & M17 & M4 & BL & B64 & _).
  assert (Lx : (pow2 (-64) < fabs f x)%Q).
  { assert (pow2 (-64) < pow2 (-56))%Q by reflexivity. assert (pow2 (-56) < 1)%Q by reflexivity.
    destruct H as [[H _]|[H _]]; lra. }
  destruct (parts_defined G Hew HR M Hr Hld Hdigits eq_refl Hroom C Lx) as [s P].
  destruct (@finite_nonneg F f Fit x ltac:(lia)) as [Fin _].
  pose proof (@to_divide_defined F f Fit 64 M17 x Fin ltac:(lia) ltac:(lia) H) as D.
  unfold print_float_base. destruct (to_divide f 64 (fabs f x)) as [[[p q]|]|] eqn:X; [|exists s; exact P|contradiction].
  destruct (guess_spec G R limit_digits C X) as [(-> & n & N & -> & E)|(n & E & SF)].
  - cbn [Z.eqb negb Pos.eqb]. destruct (Qle_bool (inject_Z n) (max_size f 64)) eqn:Q; [|exists s; exact P].
    apply Qle_bool_iff in Q. pose proof max_size_upper as MU. unfold to_size_t. rewrite Qfloor_Z.
    assert (n <= 2 ^ 64).
    { rewrite Zle_Qle. change (inject_Z (2 ^ 64)) with (pow2 64). lra. }
    destruct (Z.ltb_spec n (2 ^ 64)); [eexists; reflexivity|]. exfalso. apply N64. rewrite E.
    replace n with (2 ^ 64) by lia. reflexivity.
  - assert (SF' := SF). destruct SF' as (_ & N1 & Q1 & _).
    destruct (Z.eqb_spec q 1) as [|_]; [lia|]. cbn [negb].
    destruct (complement R (m_primes M) q 0) as [[rest c] e'] eqn:CO.
    destruct (Z.eqb_spec rest 1) as [R1|R1]; cbn [negb]; [exists s; exact P|].
    unfold print_integer. pose proof (max_size_large G R limit_digits Hsw) as ML.
    assert (PL : Qle_bool p (max_size f 64) = true).
    { apply Qle_bool_iff. rewrite E. apply Qle_trans with 127%Q; [|exact ML]. change 127%Q with (inject_Z 127).
      rewrite <- Zle_Qle. lia. }
    rewrite PL. unfold to_size_t.
    assert (FL : Qfloor p = n) by (rewrite (Qfloor_comp _ _ E); apply Qfloor_Z). rewrite FL.
    destruct (Z.ltb_spec n (2 ^ 64)); [eexists; reflexivity|]. assert (127 < 2 ^ 64) by reflexivity. lia.
Qed.

Lemma sign_print d : finite f d -> clear_sign f d <> 0 ->
  let x := clear_sign f d in
  0 < x < inf_bits f /\ (fabs f x == fabs f d)%Q /\
  ((forall s, print_float_base F f 64 ew R M limit_digits x = Ok s -> exists s', show d = Ok s') /\
   (print_float_base F f 64 ew R M limit_digits x = Ub -> show d = Ub)).
Proof.
  intros Hf NZ x. destruct (data_cases G R Hld Hsw Hf) as (Rx & I & Cs). cbv zeta in Rx, Cs.
  refine (conj _ (conj _ _)); [fold x in Rx, NZ |- *; lia| |].
  - unfold x. rewrite (clear_sign_fabs (afit A) (proj1 Hf)). reflexivity.
  - unfold print_float. rewrite I. fold x. split.
    + intros s E. rewrite E. destruct (is_negative f d); eexists; reflexivity.
    + intros E. rewrite E. destruct (is_negative f d); reflexivity.
Qed.

(** Printing is defined. *)
Theorem show_defined d : r mod 2 = 0 -> finite f d ->
  (1 <= fabs f d)%Q /\ m <= 56 \/ (pow2 (-56) <= fabs f d)%Q /\ (fabs f d < 1)%Q -> ~ (fabs f d == pow2 64)%Q ->
  exists s, show d = Ok s.
Proof.
  intros Hr Hf H N64.
  assert (NZ : clear_sign f d <> 0).
  { intros Z0. pose proof (clear_sign_fabs (afit A) (proj1 Hf)) as E. rewrite Z0 in E. pose proof (fabs_0 (afit A)) as E0.
    rewrite E in E0. pose proof (pow2_pos (-56)). destruct H as [[H _]|[H _]]; lra. }
  destruct (sign_print Hf NZ) as (C & E & K & _). cbv zeta in C, E, K.
  destruct (@base_defined (clear_sign f d) Hr C) as [s B]; [rewrite E; exact H|rewrite E; exact N64|].
  exact (K s B).
Qed.

(** Small numbers. *)
Theorem tiny_undefined d : finite f d -> (0 < fabs f d)%Q -> (fabs f d <= pow2 (-64))%Q -> show d = Ub.
Proof.
  intros Hf H0 H1.
  assert (NZ : clear_sign f d <> 0).
  { intros Z0. pose proof (clear_sign_fabs (afit A) (proj1 Hf)) as E. rewrite Z0 in E. pose proof (fabs_0 (afit A)) as E0.
    rewrite E in E0. lra. }
  destruct (sign_print Hf NZ) as (C & E & _ & K). cbv zeta in C, E, K. apply K. set (x := clear_sign f d) in *.
  rewrite <- E in H0, H1.
  pose proof (afit A) as Fit. assert (AA := A). destruct AA as (_ & Hw & _ & M17 & M4 & BL & B64 & _).
  assert (L1 : (pow2 (-64) < 1)%Q) by reflexivity.
  assert (FL : Qfloor (fabs f x) = 0).
  { apply floor_between; [change (inject_Z 0) with 0%Q; lra|change (inject_Z (0 + 1)) with 1%Q; lra]. }
  unfold print_float_base, to_divide. rewrite FL.
  destruct (Qeq_bool (fabs f x - inject_Z 0) 0) eqn:Q.
  { apply Qeq_bool_eq in Q. change (inject_Z 0) with 0%Q in Q. lra. }
  rewrite (try_undefined Fit BL M17); [reflexivity|lia| |].
  - change (inject_Z 0) with 0%Q. lra.
  - change (inject_Z 0) with 0%Q. change (- (64)) with (-64). lra.
Qed.

(** 2^64 in formats that do not have 2^64-1. *)
Theorem size_limit_undefined d : m < 63 -> finite f d -> (fabs f d == pow2 64)%Q -> show d = Ub.
Proof.
  intros M63 Hf H.
  assert (NZ : clear_sign f d <> 0).
  { intros Z0. pose proof (clear_sign_fabs (afit A) (proj1 Hf)) as E. rewrite Z0 in E. pose proof (fabs_0 (afit A)) as E0.
    rewrite E in E0. rewrite H in E0. discriminate. }
  destruct (sign_print Hf NZ) as (C & E & _ & K). cbv zeta in C, E, K. apply K. set (x := clear_sign f d) in *.
  rewrite <- E in H.
  assert (FL : Qfloor (fabs f x) = 2 ^ 64) by (rewrite (Qfloor_comp _ _ H); reflexivity).
  unfold print_float_base, to_divide. rewrite FL.
  assert (Q : Qeq_bool (fabs f x - inject_Z (2 ^ 64)) 0 = true).
  { apply Qeq_eq_bool. rewrite H. reflexivity. }
  rewrite Q. cbn [Z.eqb negb Pos.eqb].
  assert (ML : Qle_bool (inject_Z (2 ^ 64)) (max_size f 64) = true).
  { exact (limit_rounded G M63). }
  rewrite ML. unfold to_size_t. rewrite Qfloor_Z. rewrite Z.ltb_irrefl. reflexivity.
Qed.

(** The infinities. *)
Theorem infinity_text : exists s,
  show (inf_bits f) = Ok s /\ scan s = Got (inf_bits f) /\
  show (inf_bits f + 2 ^ (all_bits f - 1)) = Ok (m_minus M :: s) /\
  scan (m_minus M :: s) = Got (inf_bits f + 2 ^ (all_bits f - 1)).
Proof.
  exists (m_inf M).
  assert (I : isInf f (inf_bits f) = true /\ isInf f (inf_bits f + 2 ^ (all_bits f - 1)) = true /\
    clear_sign f (inf_bits f) = inf_bits f /\ 0 < 2 ^ (all_bits f - 1)).
  { exact (infinity_facts G). }
  destruct I as (I1 & I2 & I3 & I4).
  assert (U : parse_ufloat F f ew R M (m_inf M) = Got (inf_bits f)).
  { unfold parse_ufloat. replace (same (m_inf M) (m_inf M)) with true; [reflexivity|]. symmetry. now apply same_spec. }
  destruct (reading_sign HM U) as [S1 _]. rewrite I3 in S1.
  refine (conj _ (conj _ (conj _ S1))).
  - unfold print_float. rewrite I1, Z.eqb_refl. reflexivity.
  - assert (HM' := HM). destruct HM' as (_ & _ & _ & _ & _ & N1 & N2).
    unfold parse_float. destruct (m_inf M) as [|c t]; [now destruct N1|]. cbn [hd] in N1, N2.
    apply Z.eqb_neq in N1, N2. rewrite N1, N2. exact U.
  - unfold print_float. rewrite I2. destruct (Z.eqb_spec (inf_bits f + 2 ^ (all_bits f - 1)) (inf_bits f)) as [X|_]; [lia|reflexivity].
Qed.

Theorem show_close d s : r mod 2 = 0 -> finite f d -> clear_sign f d <> 0 ->
  plain_guess f r (clear_sign f d) -> show d = Ok s ->
  exists t v, s = (if 2 ^ (all_bits f - 1) <=? d then m_minus M :: t else t) /\
    denotes R M t v /\ faithful f v (clear_sign f d).
Proof. intros Hr. exact (text_close G Hew HR HM Hld Hdigits Hroom HT Hsw Hr eq_refl). Qed.

Theorem show_near d s : r mod 2 = 0 -> finite f d -> clear_sign f d <> 0 ->
  plain_guess f r (clear_sign f d) -> show d = Ok s ->
  exists y, scan s = Got y /\
    (next_to y d \/
     clear_sign f y = 0 /\ exists t v, (t = s \/ m_minus M :: t = s) /\ denotes R M t v /\ just_below_power (all_bits f) v).
Proof. intros Hr. exact (near_round_trip G Hew HR HM Hld Hdigits Hroom HT Hsw Hr eq_refl). Qed.

Theorem show_power j d s : 1 <= j -> r = 2 ^ j -> finite f d -> clear_sign f d <> 0 ->
  no_guess f r (clear_sign f d) -> show d = Ok s -> scan s = Got d.
Proof. exact (power_round_trip G Hew HR HM Hld Hdigits Hroom HT Hsw (s := s)). Qed.

Theorem show_zero d : finite f d -> clear_sign f d = 0 -> show d = Ok (utext R 0) /\ scan (utext R 0) = Got 0.
Proof. exact (zero_text G Hew HR HM Hld Hsw (d := d)). Qed.

Theorem scan_value s v : number_text R M s v ->
  (pow2 (2 - bias f - all_bits f) <= v)%Q -> (v < pow2 (bias f + 1))%Q -> ~ just_below_power (all_bits f) v ->
  exists y, scan s = Got y /\ faithful f v y.
Proof. exact (reading_faithful G Hew HR HM (s := s) (v := v)). Qed.
Theorem scan_large s v : number_text R M s v ->
  (pow2 (bias f + 1) <= v)%Q -> (v < pow2 (2 ^ (ew - 1)))%Q -> scan s = Got 0.
Proof. exact (reading_large G Hew HR HM (s := s) (v := v)). Qed.
Theorem scan_small s v : number_text R M s v ->
  (pow2 (all_bits f - 2 ^ (ew - 1)) <= v)%Q -> (v < pow2 (1 - bias f - all_bits f))%Q -> scan s = Bad.
Proof. exact (reading_small G Hew HR HM (s := s) (v := v)). Qed.
Theorem scan_sign s v y : number_text R M s v -> s <> [] -> scan s = Got y ->
  scan (m_minus M :: s) = Got (clear_sign f y + 2 ^ (all_bits f - 1)) /\ scan (m_plus M :: s) = Got y.
Proof.
  intros N NE E. rewrite (number_no_sign F f ew HM N NE) in E. exact (reading_sign HM E).
Qed.
End Shown.

(** ** Short fractions *)
Section Short.
Variables (F : finfo) (f : fmt).
Hypothesis G : In (F, f) good_formats.
Let A : fits_all F f := good_all G.
Notation m := (fm f).

Lemma nearest_close v x : (0 <= v)%Q -> (v < 1)%Q -> nearest f v x -> (Qabs (fabs f x - v) <= pow2 (- (m + 1)))%Q.
Proof.
  intros V0 V1 (_ & N). pose proof (afit A) as Fit. pose proof (m1 Fit) as M1. assert (AA := A).
  destruct AA as (_ & _ & _ & M17 & _ & BL & _).
  pose proof (pow2_pos (- (m + 1))) as P0. pose proof (pow2_pos (m + 1)) as P1.
  assert (PI : (pow2 (m + 1) * pow2 (- (m + 1)) == 1)%Q) by apply pow2_inv.
  set (n := Qfloor (v * pow2 (m + 1))).
  assert (N0 : (inject_Z n <= v * pow2 (m + 1))%Q) by apply Qfloor_le.
  assert (N1 : (v * pow2 (m + 1) < inject_Z (n + 1))%Q) by apply Qlt_floor.
  rewrite inject_Z_plus in N1. change (inject_Z 1) with 1%Q in N1.
  assert (R : 0 <= n < 2 ^ (m + 1)).
  { split.
    - assert (X : (0 <= v * pow2 (m + 1))%Q) by (apply Qmult_le_0_compat; lra). apply Qfloor_resp_le in X. exact X.
    - rewrite Zlt_Qlt. eapply Qle_lt_trans; [exact N0|]. rewrite <- (pow2_Z (k := m + 1)) by lia.
      assert (X : (v * pow2 (m + 1) < 1 * pow2 (m + 1))%Q) by (apply Qmult_lt_compat_r; lra). lra. }
  destruct (@representable F f Fit n (- (m + 1))) as (s & Rs & E); [exact R|unfold tiny; lia| |].
  - destruct (Z.eq_dec n 0) as [->|]; [change (Z.log2 0) with 0; lia|].
    assert (Z.log2 n < m + 1) by (apply Z.log2_lt_pow2; lia). lia.
  - eapply Qle_trans; [exact (N s Rs)|]. rewrite E. unfold scaled. fold (pow2 (- (m + 1))).
    set (g := pow2 (- (m + 1))) in *. set (h := pow2 (m + 1)) in *.
    assert (X1 : (inject_Z n * g <= v * h * g)%Q) by (apply Qmult_le_compat_r; lra).
    assert (X2 : (v * h * g < (inject_Z n + 1) * g)%Q) by (apply Qmult_lt_compat_r; lra).
    assert (X3 : (v * h * g == v)%Q) by (rewrite <- Qmult_assoc, PI; ring).
    rewrite X3 in X1, X2. rewrite Qabs_Qminus, Qabs_pos by lra. lra.
Qed.

Lemma short_below x n q : short_fraction f x n q -> (0 <= ratio n q)%Q /\ (ratio n q < 1)%Q.
Proof.
  intros (L & N & Q & _ & (_ & Nr)). pose proof (afit A) as Fit. assert (AA := A). destruct AA as (_ & _ & _ & M17 & _ & BL & _).
  assert (Q0 : (0 < inject_Z q)%Q) by (apply inj_pos; lia).
  assert (N0 : (0 < inject_Z n)%Q) by (apply inj_pos; lia).
  assert (P : (0 <= ratio n q)%Q) by (unfold ratio; apply Qle_shift_div_l; lra). split; [exact P|].
  apply Qnot_le_lt. intros V.
  destruct (@representable_int F f Fit BL 1) as (s & Rs & E).
  { split; [lia|]. change 1 with (2 ^ 0). apply Z.pow_lt_mono_r; lia. }
  pose proof (Nr s Rs) as H. rewrite E in H. change (inject_Z 1) with 1%Q in H.
  rewrite Qabs_Qminus, Qabs_pos, (Qabs_Qminus 1), Qabs_pos in H by lra. lra.
Qed.

(** In formats with at least 36 bits of fraction the short fraction is unique. *)
Theorem short_unique x a b n q : 36 <= m -> short_fraction f x a b -> short_fraction f x n q -> n = a /\ q = b.
Proof.
  intros M36 S1 S2. destruct (short_below S1) as [A0 A1]. destruct (short_below S2) as [B0 B1].
  destruct S1 as (_ & Na & Qb & G1 & N1). destruct S2 as (_ & Nn & Qq & G2 & N2).
  pose proof (nearest_close A0 A1 N1) as C1. pose proof (nearest_close B0 B1 N2) as C2.
  assert (E : n * b = a * q).
  { destruct (Z.eq_dec (n * b) (a * q)) as [E|NE]; [exact E|exfalso].
    assert (P : (pow2 (- (m + 1)) <= pow2 (-37))%Q) by (apply pow2_le; lia).
    rewrite Qabs_le_iff in C1, C2.
    assert (D : (- (1 # 34359738368) <= ratio n q - ratio a b <= (1 # 34359738368))%Q).
    { assert (X : (pow2 (-37) == 1 # 137438953472)%Q) by reflexivity. lra. }
    assert (Q0 : (0 < inject_Z q)%Q) by (apply inj_pos; lia). assert (Bq : (0 < inject_Z b)%Q) by (apply inj_pos; lia).
    assert (X : (inject_Z (n * b - a * q) == (ratio n q - ratio a b) * inject_Z (q * b))%Q).
    { unfold Z.sub. rewrite inject_Z_plus, inject_Z_opp, !inject_Z_mult. unfold ratio. field. split; lra. }
    assert (W : (inject_Z (q * b) <= inject_Z (2 ^ 34))%Q) by (rewrite <- Zle_Qle; nia).
    assert (W0 : (0 <= inject_Z (q * b))%Q) by (change 0%Q with (inject_Z 0); rewrite <- Zle_Qle; nia).
    set (t := (ratio n q - ratio a b)%Q) in *.
    assert (U1 : (t * inject_Z (q * b) <= (1 # 34359738368) * inject_Z (q * b))%Q) by (apply Qmult_le_compat_r; lra).
    assert (U2 : (- (1 # 34359738368) * inject_Z (q * b) <= t * inject_Z (q * b))%Q) by (apply Qmult_le_compat_r; lra).
    change (inject_Z (2 ^ 34)) with (17179869184 # 1)%Q in W.
    assert (U3 : ((1 # 34359738368) * inject_Z (q * b) < 1)%Q) by lra.
    assert (V1 : (inject_Z (n * b - a * q) < inject_Z 1)%Q) by (change (inject_Z 1) with 1%Q; lra).
    assert (V2 : (inject_Z (-1) < inject_Z (n * b - a * q))%Q) by (change (inject_Z (-1)) with (-1)%Q; lra).
    rewrite <- Zlt_Qlt in V1, V2. lia. }
  assert (D1 : (q | b)).
  { apply (Z.gauss q n b); [exists a; lia|]. rewrite Z.gcd_comm. exact G2. }
  assert (D2 : (b | q)).
  { apply (Z.gauss b a q); [exists n; lia|]. rewrite Z.gcd_comm. exact G1. }
  assert (q = b) by (apply Z.divide_antisym_nonneg; lia || assumption). split; [nia|assumption].
Qed.

(** So the conditions on the fractions can be checked with one of them. *)
Corollary short_plain r x a b : 36 <= m -> short_fraction f x a b ->
  (factors_in r b -> no_guess f r x) /\
  (factors_in r b \/ factors_out r b /\ ~ (r ^ 3 | a) -> plain_guess f r x).
Proof.
  intros M36 S. split; intros H n q S2; destruct (short_unique M36 S S2) as [-> ->]; exact H.
Qed.
Corollary large_plain r x : (1 <= fabs f x)%Q -> no_guess f r x /\ plain_guess f r x.
Proof. intros L. split; intros n q (X & _); lra. Qed.
End Short.

(** ** Findings *)
Definition show_float32 := print_float float32_info binary32 64 16.
Definition scan_float32 := parse_float float32_info binary32 16.

(** Pi, shown in decimal. *)
Lemma decimal_round_trip_refuted : exists d s y, finite binary32 d /\
  show_float32 decimal decimal_marks 10 d = Ok s /\ scan_float32 decimal decimal_marks s = Got y /\ y <> d.
Proof.
  exists 0x40490FDB, [51; 46; 49; 52; 49; 53; 57; 50; 55], 0x40490FDA.
  refine (conj _ (conj _ (conj _ _))); [split; [split|]|..]; vm_compute; (reflexivity || discriminate).
Qed.
(** 2^100 reads back as zero. *)
Lemma reads_zero_refuted : exists d s, finite binary32 d /\ (fabs binary32 d == pow2 100)%Q /\
  show_float32 decimal decimal_marks 10 d = Ok s /\ scan_float32 decimal decimal_marks s = Got 0.
Proof.
  exists 0x71800000, [49; 50; 54; 55; 54; 53; 48; 54; 101; 50; 51].
  refine (conj _ (conj _ (conj _ _))); [split; [split|]|..]; vm_compute; (reflexivity || discriminate).
Qed.
(** The number next to 1/6 is shown as 1/15. *)
Lemma fraction_text_refuted : exists d, finite binary64 d /\ nearest binary64 (1 # 6) d /\
  print_double d = Ok [49; 47; 49; 53].
Proof.
  exists 0x3FC5555555555555. refine (conj _ (conj _ _)).
  - split; [split|]; vm_compute; (reflexivity || discriminate).
  - replace 0x3FC5555555555555 with (rn binary64 (1 # 6)) by (vm_compute; reflexivity).
    apply (@rn_nearest float64_info binary64); [|discriminate|vm_compute; reflexivity].
    apply (afit (@good_all float64_info binary64 (or_intror (or_introl eq_refl)))).
  - vm_compute. reflexivity.
Qed.
(** 40.5 in radix three has a text that is not a number. *)
Lemma odd_radix_refuted : exists d s, finite binary32 d /\ (fabs binary32 d == 81 # 2)%Q /\
  show_float32 trinary trinary_marks 21 d = Ok s /\ (forall v, ~ number_text trinary trinary_marks s v) /\
  scan_float32 trinary trinary_marks s = Err.
Proof.
  exists 0x42220000. eexists. refine (conj _ (conj _ (conj _ (conj _ _)))).
  - split; [split|]; vm_compute; (reflexivity || discriminate).
  - vm_compute. reflexivity.
  - vm_compute. reflexivity.
  - intros v N.
    destruct (@parse_unsigned float32_info binary32 16 trinary trinary_ok trinary_marks (proj1 (proj2 (proj2 (proj2 std_usable)))) _ v N)
      as (n & d & _ & _ & _ & E).
    assert (X : parse_ufloat float32_info binary32 16 trinary trinary_marks
      [50; 48; 49; 50; 50; 50; 49; 48; 49; 49; 50; 101; 49; 49; 47; 49; 49; 49; 48; 50; 50; 49; 50; 49; 48; 48; 49] = Err)
      by (vm_compute; reflexivity).
    rewrite X in E. destruct (convert_to_float _ _ _ _ _ _); discriminate.
  - vm_compute. reflexivity.
Qed.
