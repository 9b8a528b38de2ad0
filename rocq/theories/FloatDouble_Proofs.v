(** The texts of doubles with the representations of the library: what the theorems for all
    settings say about them. *)
From Coq Require Import QArith Qround Lqa.
From Verif Require Import Base NumRepr_Model NumRepr_Spec NumRepr_Proofs NumRepr_Frac FracText_Model FracText_Spec FracText_Proofs
  Float_Model Float_Spec Float_Proofs Ref_Model FloatBig_Model FloatBig_Spec FloatBig_Proofs FloatOut_Proofs
  FloatText_Model FloatText_Spec FloatText_Proofs FloatRead_Proofs FloatShow_Proofs.
Local Open Scope Z_scope.

Lemma double_good : In (float64_info, binary64) [(float32_info, binary32); (float64_info, binary64); (float128_info, binary128)].
Proof. right. left. reflexivity. Qed.
Lemma double_setting_decimal : text_setting binary64 16 decimal decimal_marks 20.
Proof.
  destruct std_usable as (U1 & _). destruct std_tables as (T1 & _).
  refine (conj _ (conj _ (conj _ (conj _ (conj _ (conj _ _)))))); try assumption; try exact decimal_ok;
    vm_compute; (reflexivity || discriminate).
Qed.
Lemma double_setting_hexadecimal : text_setting binary64 16 hexadecimal hexadecimal_marks 16.
Proof.
  destruct std_usable as (_ & _ & _ & _ & U2 & _). destruct std_tables as (_ & _ & _ & _ & T2 & _).
  refine (conj _ (conj _ (conj _ (conj _ (conj _ (conj _ _)))))); try assumption; try exact hexadecimal_ok;
    vm_compute; (reflexivity || discriminate).
Qed.
Lemma from_one d : finite binary64 d -> (1 <= fabs binary64 d)%Q ->
  (1 <= fabs binary64 (clear_sign binary64 d))%Q /\ clear_sign binary64 d <> 0.
Proof.
  intros [D N] L.
  assert (E : fabs binary64 (clear_sign binary64 d) = fabs binary64 d).
  { unfold fabs. rewrite (clear_sign_abs (afit (good_all double_good)) D). reflexivity. }
  rewrite E. split; [exact L|]. intros Z. rewrite Z in E. rewrite <- E in L. vm_compute in L. now apply L.
Qed.

Lemma double_decimal_near d : finite binary64 d -> (1 <= fabs binary64 d)%Q -> ~ (fabs binary64 d == pow2 64)%Q ->
  exists s y, print_double d = Ok s /\ parse_double s = Got y /\
    (next_to y d \/ clear_sign binary64 y = 0 /\
     exists t v, (t = s \/ m_minus decimal_marks :: t = s) /\ denotes decimal decimal_marks t v /\ just_below_power 64 v).
Proof.
  intros Fd L N. destruct (from_one Fd L) as [Lc Nz].
  destruct (@show_defined _ _ double_good _ _ _ _ double_setting_decimal d) as [s Hs];
    [reflexivity|exact Fd|left; split; [exact L|vm_compute; discriminate]|exact N|].
  destruct (@show_near _ _ double_good _ _ _ _ double_setting_decimal d s) as [y Hy];
    [reflexivity|exact Fd|exact Nz|apply large_plain; exact Lc|exact Hs|].
  exists s, y. destruct Hy as [Hy1 Hy2]. split; [exact Hs|]. split; [exact Hy1|exact Hy2].
Qed.
Lemma double_hexadecimal_exact d : finite binary64 d -> (1 <= fabs binary64 d)%Q -> ~ (fabs binary64 d == pow2 64)%Q ->
  exists s, print_float float64_info binary64 64 16 hexadecimal hexadecimal_marks 16 d = Ok s /\
    parse_float float64_info binary64 16 hexadecimal hexadecimal_marks s = Got d.
Proof.
  intros Fd L N. destruct (from_one Fd L) as [Lc Nz].
  destruct (@show_defined _ _ double_good _ _ _ _ double_setting_hexadecimal d) as [s Hs];
    [reflexivity|exact Fd|left; split; [exact L|vm_compute; discriminate]|exact N|].
  exists s. split; [exact Hs|].
  apply (@show_power _ _ double_good _ _ _ _ double_setting_hexadecimal 4 d s); auto; try lia; try reflexivity.
  apply large_plain; exact Lc.
Qed.
