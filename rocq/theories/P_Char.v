(** Properties C86, C87: what the character classes contain and how they fit together. *)
From Verif Require Import Base Char_Unicode Char_Spec Char_Model Char_Proofs.
Local Open Scope Z_scope.

(** Every 32-bit value has exactly one category. *)
Theorem C86_one_category : forall c, char32 c -> exists g, category_of c g /\ forall h, category_of c h -> h = g.
Proof.
  intros c C. destruct (category_exists C) as [g G]. exists g. split; [exact G|].
  intros h H. exact (category_unique C H G).
Qed.
Print Assumptions C86_one_category.

(** For every 32-bit value each function returns (nothing is read outside the table), and what it
    returns is decided by that category (and, for some, by the value itself). *)
Theorem C86_classes : forall c, char32 c ->
  says (islower c) (has_category c [Ll]) /\
  says (isupper c) (has_category c [Lu]) /\
  says (istitle c) (has_category c [Lt]) /\
  says (isdigit c) (has_category c [Nd]) /\
  says (isxdigit c) (has_category c [Nd] \/
    65 <= c <= 70 \/ 97 <= c <= 102 \/ 65313 <= c <= 65318 \/ 65345 <= c <= 65350) /\
  says (isalpha c) (has_category c letters) /\
  says (isalnum c) (has_category c (Nd :: letters)) /\
  says (isdefined c) (~ has_category c [Cn]) /\
  says (isbase c) (has_category c (letters ++ numbers ++ [Mc; Me])) /\
  says (iscntrl c) (has_category c [Cc; Cf; Zl; Zp]) /\
  (isISOControl c = true <-> has_category c [Cc]) /\
  says (isspace c) (has_category c separators \/ 9 <= c <= 13 \/ 28 <= c <= 31 \/ c = 133) /\
  says (isblank c) (has_category c [Zs] \/ c = 9) /\
  says (isprint c) (~ has_category c others) /\
  says (isgraph c) (~ has_category c (separators ++ [Cc; Cf; Cs; Cn])) /\
  says (ispunct c) (has_category c punctuation).
Proof.
  intros c C.
  exact (conj (islower_says C) (conj (isupper_says C) (conj (istitle_says C) (conj (isdigit_says C)
    (conj (isxdigit_says C) (conj (isalpha_says C) (conj (isalnum_says C) (conj (isdefined_says C)
    (conj (isbase_says C) (conj (iscntrl_says C) (conj (isISO_says C) (conj (isspace_says C)
    (conj (isblank_says C) (conj (isprint_says C) (conj (isgraph_says C) (ispunct_says C)))))))))))))))).
Qed.
Print Assumptions C86_classes.
(** A small German letter, a Chinese character beyond the first plane, and a value that is no
    code point. *)
Example C86_case : char32 223 /\ category_of 223 Ll /\ char32 131072 /\ category_of 131072 Lo /\ char32 4294967295.
Proof.
  refine (conj _ (conj _ (conj _ (conj _ _)))); try (unfold char32; lia); left;
    [exists 223, 246, V14|exists 131072, 173791, V14]; (split; [apply row_in; vm_compute; reflexivity|lia]).
Qed.

(** The classes fit together as those of C's <ctype.h>, save that characters for private use are
    graphic and not printable, and that the two separators 2028 and 2029 are control characters
    that can be printed. *)
Theorem C87_classes_fit_partial : forall c, char32 c ->
  (islower c = Some true -> isalpha c = Some true) /\ (isupper c = Some true -> isalpha c = Some true) /\
  (istitle c = Some true -> isalpha c = Some true) /\
  (isalnum c = Some true <-> isalpha c = Some true \/ isdigit c = Some true) /\
  (isdigit c = Some true -> isxdigit c = Some true) /\ (isxdigit c = Some true -> isalnum c = Some true) /\
  (isalnum c = Some true -> isgraph c = Some true /\ isprint c = Some true /\ isbase c = Some true) /\
  (ispunct c = Some true -> isgraph c = Some true /\ isprint c = Some true /\ isalnum c = Some false) /\
  (isblank c = Some true -> isspace c = Some true) /\ (isspace c = Some true -> isgraph c = Some false) /\
  (isprint c = Some true -> isgraph c = Some true \/ isspace c = Some true) /\
  (isISOControl c = true -> iscntrl c = Some true) /\
  (isprint c = Some true -> isdefined c = Some true /\ isISOControl c = false) /\
  (isgraph c = Some true -> isprint c = Some true \/ has_category c [Co]) /\
  (iscntrl c = Some true -> isprint c = Some false \/ has_category c [Zl; Zp]).
Proof. exact classes_fit. Qed.
Print Assumptions C87_classes_fit_partial.
(** The Arabic-Indic digit three is a digit, and so in six classes. *)
Example C87_case : char32 1635 /\ category_of 1635 Nd.
Proof.
  split; [unfold char32; lia|left]. exists 1632, 1641, V14. split; [apply row_in; vm_compute; reflexivity|lia].
Qed.

(** Not every graphic character can be printed. *)
Theorem C87_graph_print_refuted : exists c, char32 c /\ isgraph c = Some true /\ isprint c = Some false.
Proof. exists 57344. split; [unfold char32; lia|exact graph_not_print]. Qed.
Print Assumptions C87_graph_print_refuted.

(** Some control character can be printed. *)
Theorem C87_cntrl_print_refuted : exists c, char32 c /\ iscntrl c = Some true /\ isprint c = Some true.
Proof. exists 8232. split; [unfold char32; lia|exact cntrl_print]. Qed.
Print Assumptions C87_cntrl_print_refuted.
