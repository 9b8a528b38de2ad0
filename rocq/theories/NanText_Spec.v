(** NaNs, their bytes, and usable texts for them.  Nothing here refers to how the code
    prints or reads. *)
From Verif Require Import Base NumRepr_Model NumRepr_Spec FracText_Model FracText_Spec Float_Spec NanText_Model.
Local Open Scope Z_scope.

(** Not a number: the greatest exponent, some bit of the significand. *)
Definition is_nan (f : fmt) (d : Z) : Prop :=
  is_data f d /\ exp_field f d = 2 ^ fe f - 1 /\ frac_field f d <> 0.

Definition starts (p s : list Z) : Prop := exists t, s = p ++ t.
(** Begins with a character that is no sign. *)
Definition unsigned_text (M : marks) (s : list Z) : Prop :=
  exists c t, s = c :: t /\ c <> m_minus M /\ c <> m_plus M.

(** The signs that separate and end bytes are no digits, the special texts are
    different, are no numbers, begin with no sign and do not end like bytes. *)
Definition nan_marks_ok (R : repr) (M : marks) (K : nan_marks) : Prop :=
  is_valid_char R (n_split K) = false /\ is_valid_char R (n_end K) = false /\
  n_signaling K <> n_quiet K /\ ~ In (n_end K) (n_signaling K) /\ ~ In (n_end K) (n_quiet K) /\
  unsigned_text M (m_nan M) /\ unsigned_text M (n_signaling K) /\ unsigned_text M (n_quiet K) /\
  has_foreign R M (n_signaling K) /\ has_foreign R M (n_quiet K) /\
  n_signaling K <> m_inf M /\ n_quiet K <> m_inf M /\ ~ starts (m_nan M) (m_inf M).

(** What the theorems ask of the surroundings: a type without padding, two different
    positive NaNs, usable texts. *)
Definition nan_setting (f : fmt) (size : nat) (snan qnan : Z) (R : repr) (M : marks) (K : nan_marks) : Prop :=
  0 <= fm f /\ 1 <= fe f /\ all_bits f = 8 * Z.of_nat size /\
  is_nan f snan /\ clear_sign f snan = snan /\ is_nan f qnan /\ clear_sign f qnan = qnan /\ snan <> qnan /\
  repr_ok R /\ marks_ok R M /\ nan_marks_ok R M K.

(** Texts joined with a sign between them. *)
Fixpoint joined (c : Z) (parts : list (list Z)) : list Z :=
  match parts with
  | [] => []
  | [p] => p
  | p :: ps => p ++ c :: joined c ps
  end.

(** The number whose bytes, the least significant one first, are [b]. *)
Definition bytes_value (b : list Z) : Z := fold_right (fun x v => x + 256 * v) 0 b.
