(** C70: NaNs as text and back. *)
From Verif Require Import Base NumRepr_Model NumRepr_Spec NumRepr_Frac FracText_Model FracText_Spec FracText_Proofs
  Float_Model Float_Spec Ref_Model FloatBig_Model FloatText_Model NanText_Model NanText_Spec NanText_Proofs.
Local Open Scope Z_scope.

(** A NaN that is shown and read again has the same bits, sign and payload included.
    Missing: representations with 256 digits or more, see below. *)
Theorem C70_round_trip_partial : forall F f size snan qnan sw ew R M K limit_digits,
  nan_setting f size snan qnan R M K ->
  forall d, radix R < 256 -> is_nan f d -> exists s,
  print_any F f size snan qnan sw ew R M K limit_digits d = Ok s /\
  parse_any F f size snan qnan ew R M K s = Got d.
Proof. exact nan_round_trip. Qed.
Print Assumptions C70_round_trip_partial.
(** "NaN[1,2,0,0,0,0,248,255]", "-quiet_NaN"; in radix sixteen "NaN[1,0,c0,7f]". *)
Example C70_round_trip_case :
  nan_setting binary64 8 0x7FF4000000000000 0x7FF8000000000000 decimal decimal_marks std_nan_marks /\
  nan_setting binary32 4 0x7FA00000 0x7FC00000 hexadecimal hexadecimal_marks std_nan_marks /\
  is_nan binary64 0xFFF8000000000201 /\
  show_double 0xFFF8000000000201 =
    Ok [78;97;78;91;49;44;50;44;48;44;48;44;48;44;48;44;50;52;56;44;50;53;53;93] /\
  show_double 0xFFF8000000000000 = Ok [45;113;117;105;101;116;95;78;97;78] /\
  print_any float32_info binary32 4 0x7FA00000 0x7FC00000 64 16 hexadecimal hexadecimal_marks std_nan_marks 8 0x7FC00001 =
    Ok [78;97;78;91;49;44;48;44;99;48;44;55;102;93].
Proof.
  refine (conj double_decimal (conj float_hexadecimal (conj _ (conj _ (conj _ _))))); [|vm_compute; reflexivity..].
  refine (conj _ (conj _ _)); [split; vm_compute; (discriminate || reflexivity)|reflexivity|vm_compute; discriminate].
Qed.

(** Every NaN of type double, with the default representation. *)
Theorem C70_double_round_trip : forall d, is_nan binary64 d -> exists s,
  show_double d = Ok s /\ scan_double s = Got d.
Proof. intros d. exact (@nan_round_trip _ _ _ _ _ _ _ _ _ _ _ double_decimal d eq_refl). Qed.
Print Assumptions C70_double_round_trip.
Example C70_double_case : is_nan binary64 0xFFF8000000000201 /\
  scan_double [78;97;78;91;49;44;50;44;48;44;48;44;48;44;48;44;50;52;56;44;50;53;53;93] = Got 0xFFF8000000000201.
Proof.
  split; [|vm_compute; reflexivity].
  refine (conj _ (conj _ _)); [split; vm_compute; (discriminate || reflexivity)|reflexivity|vm_compute; discriminate].
Qed.

(** The default NaNs of the type, with either sign, can be read again in every
    representation. *)
Theorem C70_default_round_trip : forall F f size snan qnan sw ew R M K limit_digits,
  nan_setting f size snan qnan R M K ->
  forall d, is_nan f d -> ~ (clear_sign f d <> snan /\ clear_sign f d <> qnan) -> exists s,
  print_any F f size snan qnan sw ew R M K limit_digits d = Ok s /\
  parse_any F f size snan qnan ew R M K s = Got d.
Proof. exact named_text. Qed.
Print Assumptions C70_default_round_trip.
Example C70_default_round_trip_case :
  nan_setting binary64 8 0x7FF4000000000000 0x7FF8000000000000 valanlottish valanlottish_marks valanlottish_nan_marks /\
  print_any float64_info binary64 8 0x7FF4000000000000 0x7FF8000000000000 64 16 valanlottish valanlottish_marks
    valanlottish_nan_marks 7 0xFFF4000000000000 = Ok [0xA49D; 0xA497].
Proof. split; [exact double_valanlottish|vm_compute; reflexivity]. Qed.

(** With 256 digits or more every other NaN is shown as a text that cannot be read:
    reading runs over the end of the text. *)
Theorem C70_wide_radix_undefined : forall F f size snan qnan sw ew R M K limit_digits,
  nan_setting f size snan qnan R M K ->
  forall d, 256 <= radix R -> is_nan f d -> clear_sign f d <> snan /\ clear_sign f d <> qnan -> exists s,
  print_any F f size snan qnan sw ew R M K limit_digits d = Ok s /\
  parse_any F f size snan qnan ew R M K s = Bad.
Proof. exact wide_nan. Qed.
Print Assumptions C70_wide_radix_undefined.
Example C70_wide_radix_case :
  256 <= radix valanlottish /\
  print_any float64_info binary64 8 0x7FF4000000000000 0x7FF8000000000000 64 16 valanlottish valanlottish_marks
    valanlottish_nan_marks 7 0x7FF8000000000001 =
    Ok [0xA498; 0xA4B8; 0xA001; 0xA000; 0xA000; 0xA000; 0xA000; 0xA000; 0xA0F8; 0xA07F; 0xA4B9].
Proof. split; [vm_compute; discriminate|vm_compute; reflexivity]. Qed.

(** Different NaNs have different texts, in every representation. *)
Theorem C70_texts_differ : forall F f size snan qnan sw ew R M K limit_digits,
  nan_setting f size snan qnan R M K ->
  forall d e s, is_nan f d -> is_nan f e ->
  print_any F f size snan qnan sw ew R M K limit_digits d = Ok s ->
  print_any F f size snan qnan sw ew R M K limit_digits e = Ok s -> d = e.
Proof. exact nan_texts_differ. Qed.
Print Assumptions C70_texts_differ.
Example C70_texts_differ_case :
  show_double 0x7FF8000000000001 <> show_double 0xFFF8000000000001 /\
  show_double 0x7FF8000000000000 <> show_double 0x7FF4000000000000.
Proof. split; vm_compute; discriminate. Qed.

(** "NaN[a,b,c,...]": if each of the first parts, as many as the type has bytes, is made
    of digits (or is empty), and there are no more and no fewer, the parts modulo 256 are
    the bytes of the result; a wrong character in these parts is reported; with other
    numbers of parts the result is undefined (memory behind the number is written, or
    bytes that were not written are used).  What stands in place of the bracket does not
    matter. *)
Theorem C70_data_text : forall F f size snan qnan ew R M K,
  nan_setting f size snan qnan R M K ->
  forall c parts, radix R < 256 -> parts <> [] -> Forall (fun p => ~ In (n_split K) p) parts ->
  parse_any F f size snan qnan ew R M K (m_nan M ++ c :: joined (n_split K) parts ++ [n_end K]) =
  if forallb (all_digits R) (firstn size parts) then
    if Nat.eqb (length parts) size then Got (bytes_value (map (fun p => text_val R p mod 256) parts)) else Bad
  else Err.
Proof. exact data_text. Qed.
Print Assumptions C70_data_text.
(** "NaN[1,0,300]" and nine bytes are undefined, "NaN[x,0]" is an error,
    "NaN<257,,,,,,248,127]" is the NaN whose first byte is 1. *)
Example C70_data_text_case :
  scan_double [78;97;78;91;49;44;48;44;51;48;48;93] = Bad /\
  scan_double [78;97;78;91;49;44;49;44;49;44;49;44;49;44;49;44;49;44;49;44;49;93] = Bad /\
  scan_double [78;97;78;91;120;44;48;93] = Err /\
  scan_double [78;97;78;60;50;53;55;44;44;44;44;44;44;50;52;56;44;49;50;55;93] = Got 0x7FF8000000000001.
Proof. refine (conj _ (conj _ (conj _ _))); vm_compute; reflexivity. Qed.

(** With 256 digits or more no such text gives a value. *)
Theorem C70_wide_data_undefined : forall F f size snan qnan ew R M K,
  nan_setting f size snan qnan R M K ->
  forall c s, 256 <= radix R ->
  parse_any F f size snan qnan ew R M K (m_nan M ++ c :: s ++ [n_end K]) =
  if all_digits R (firstn size s) then Bad else Err.
Proof. exact wide_text. Qed.
Print Assumptions C70_wide_data_undefined.
Example C70_wide_data_case :
  parse_any float64_info binary64 8 0x7FF4000000000000 0x7FF8000000000000 16 valanlottish valanlottish_marks
    valanlottish_nan_marks [0xA498; 0xA4B8; 0xA001; 120; 0xA4B9] = Err.
Proof. vm_compute. reflexivity. Qed.

(** "NaN]" is undefined. *)
Theorem C70_bare_end_undefined : forall F f size snan qnan ew R M K,
  nan_setting f size snan qnan R M K ->
  parse_any F f size snan qnan ew R M K (m_nan M ++ [n_end K]) = Bad.
Proof. exact bare_end. Qed.
Print Assumptions C70_bare_end_undefined.
Example C70_bare_end_case : m_nan decimal_marks ++ [n_end std_nan_marks] = [78;97;78;93].
Proof. reflexivity. Qed.

(** Every text that begins like a NaN and does not end with the end sign is taken for
    the default NaN, whatever follows; no error is reported. *)
Theorem C70_nan_prefix_wrong : forall F f size snan qnan ew R M K,
  nan_setting f size snan qnan R M K ->
  forall t, last t (n_end K + 1) <> n_end K -> m_nan M ++ t <> n_signaling K ->
  parse_any F f size snan qnan ew R M K (m_nan M ++ t) = Got qnan.
Proof. exact nan_prefix. Qed.
Print Assumptions C70_nan_prefix_wrong.
(** "NaN[1,2" and "NaNo". *)
Example C70_nan_prefix_case :
  scan_double [78;97;78;91;49;44;50] = Got 0x7FF8000000000000 /\
  scan_double [78;97;78;111] = Got 0x7FF8000000000000.
Proof. split; vm_compute; reflexivity. Qed.

(** "NaN[0,0,0,0,0,0,240,63]" is read as the number 1. *)
Theorem C70_data_not_nan_refuted :
  exists s y, starts (m_nan decimal_marks) s /\ scan_double s = Got y /\ finite binary64 y.
Proof. exact data_not_nan. Qed.
Print Assumptions C70_data_not_nan_refuted.

(** Texts of numbers and of infinity, with or without sign, are read as C69 says. *)
Theorem C70_numbers_unchanged : forall F f size snan qnan ew R M K,
  nan_setting f size snan qnan R M K ->
  forall s, number_shape R M s \/ s = m_inf M ->
  parse_any F f size snan qnan ew R M K s = parse_float F f ew R M s /\
  parse_any F f size snan qnan ew R M K (m_minus M :: s) = parse_float F f ew R M (m_minus M :: s) /\
  parse_any F f size snan qnan ew R M K (m_plus M :: s) = parse_float F f ew R M (m_plus M :: s).
Proof. exact numbers_unchanged. Qed.
Print Assumptions C70_numbers_unchanged.
(** "1.5" *)
Example C70_numbers_case :
  number_shape decimal decimal_marks [49;46;53] /\ scan_double [49;46;53] = Got 0x3FF8000000000000.
Proof.
  split; [|vm_compute; reflexivity]. apply NS_ratio, RS_plain. exact (@PS_point decimal decimal_marks [49] [53] eq_refl eq_refl).
Qed.
