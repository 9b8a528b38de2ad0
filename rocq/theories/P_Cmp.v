(** Property C59: comparing arrays and zero-terminated strings. *)
From Verif Require Import Base Cmp_Model Cmp_Spec Cmp_Proofs.
Open Scope Z_scope.

(** The two orders are strict and total, so a comparison that reports one of them
    is consistent: its result is unique. *)
Theorem C59_orders : forall A (lt : A -> A -> Prop), strict_total lt ->
  strict_total (dict lt) /\ strict_total (shorter_first lt) /\
  (forall c d x y, reports (dict lt) c x y -> reports (dict lt) d x y -> c = d) /\
  (forall c d x y, reports (shorter_first lt) c x y -> reports (shorter_first lt) d x y -> c = d).
Proof.
  exact (fun A lt H => conj (dict_strict_total H) (conj (shorter_first_strict_total H)
    (conj (reports_unique (dict_strict_total H)) (reports_unique (shorter_first_strict_total H))))).
Qed.
Print Assumptions C59_orders.

(** [equal]: all forms decide equality of the sequences (the form for a part: that
    it is a prefix). *)
Theorem C59_equal : forall A (eqb : A -> A -> bool) zero, (forall x y, eqb x y = true <-> x = y) ->
  (forall s t a b n, block_at a n s -> block_at b n t ->
     exists r, equal_n eqb a b n = Some r /\ (r = true <-> s = t)) /\
  (forall s t a b n m, block_at a n s -> block_at b m t ->
     exists r, equal_sizes eqb a n b m = Some r /\ (r = true <-> s = t)) /\
  (forall s t a b n, block_at a n s -> string_at zero b t ->
     exists r, equal_size_zero eqb zero a n b = Some r /\ (r = true <-> s = t)) /\
  (forall s t a b, string_at zero a s -> string_at zero b t ->
     exists r, equal_zero_zero eqb zero a b = Some r /\ (r = true <-> s = t)) /\
  (forall s t a b n, block_at a n s -> string_at zero b t ->
     exists r, equal_part_zero eqb zero a n b = Some r /\ (r = true <-> exists u, t = s ++ u)).
Proof.
  intros A eqb zero H.
  split; [intros; eapply equal_n_spec; eassumption|].
  split; [intros; eapply equal_sizes_spec; eassumption|].
  split; [intros; eapply equal_size_zero_spec; eassumption|].
  split; [intros; eapply equal_zero_zero_spec; eassumption|].
  intros; eapply equal_part_zero_spec; eassumption.
Qed.
Print Assumptions C59_equal.

(** [compare] of blocks, and of a block with a string: shorter first, then
    dictionary order. *)
Theorem C59_compare_partial : forall A eqb cmp (lt : A -> A -> Prop) zero, elements_ok eqb cmp lt ->
  (forall s t a b n, block_at a n s -> block_at b n t ->
     exists c, compare_n cmp a b n = Some c /\ reports (dict lt) c s t) /\
  (forall s t a b n m, block_at a n s -> block_at b m t ->
     exists c, compare_sizes cmp a n b m = Some c /\ reports (shorter_first lt) c s t) /\
  (forall s t a b n, block_at a n s -> string_at zero b t ->
     exists c, compare_size_zero eqb cmp zero Eq a n b = Some c /\ reports (shorter_first lt) c s t) /\
  (forall s t a b n, block_at a n s -> string_at zero b t ->
     exists c, compare_part_zero eqb cmp zero Eq a n b = Some c /\
       ((length t < n)%nat -> c = Gt) /\
       ((n <= length t)%nat -> reports (dict lt) c s (firstn n t))).
Proof.
  intros A eqb cmp lt zero (H1 & H2 & H3).
  split; [intros; eapply compare_n_spec; eassumption|].
  split; [intros; eapply compare_sizes_spec; eassumption|].
  split; [intros; eapply compare_size_zero_spec; eassumption|].
  intros; eapply compare_part_zero_spec; eassumption.
Qed.
Print Assumptions C59_compare_partial.

(** A string on the left: right when the left one is shorter (for two strings: not
    longer).  Missing: the other sizes, for which the statement is false, below. *)
Theorem C59_compare_string_partial : forall A eqb cmp (lt : A -> A -> Prop) zero, elements_ok eqb cmp lt ->
  (forall s t a b n, string_at zero a s -> block_at b n t -> (length s < n)%nat ->
     compare_zero_size eqb cmp zero Eq a b n = Some Lt) /\
  (forall s t a b, string_at zero a s -> string_at zero b t -> (length s <= length t)%nat ->
     exists c, compare_zero_zero eqb cmp zero Eq a b = Some c /\ reports (shorter_first lt) c s t).
Proof.
  intros A eqb cmp lt zero (H1 & H2 & H3).
  split; [intros; eapply compare_zero_size_short; eassumption|].
  intros; eapply compare_zero_zero_spec; eassumption.
Qed.
Print Assumptions C59_compare_string_partial.

(** [compare.lexicographical]: dictionary order, for blocks, for a block and a
    string, and for two strings without elements below the terminator. *)
Theorem C59_lexicographical_partial : forall A eqb cmp (lt : A -> A -> Prop) zero, elements_ok eqb cmp lt ->
  (forall s t a b n m, block_at a n s -> block_at b m t ->
     exists c, lex_sizes cmp a n b m = Some c /\ reports (dict lt) c s t) /\
  (forall s t a b n, block_at a n s -> string_at zero b t ->
     exists c, lex_size_zero eqb cmp zero a n b = Some c /\ reports (dict lt) c s t) /\
  (forall s t a b n, block_at a n s -> string_at zero b t ->
     exists c, lex_part_zero eqb cmp zero a n b = Some c /\ reports (dict lt) c s (firstn n t)) /\
  (forall s t a b, string_at zero a s -> string_at zero b t -> (forall x, In x s -> lt zero x) ->
     exists c, lex_zero_zero eqb cmp zero a b = Some c /\ reports (dict lt) c s t) /\
  (forall n s t a b, string_at zero a s -> block_at b n t -> t <> firstn n s ->
     exists c, lex_zero_size eqb cmp zero a b n = Some c /\ reports (dict lt) c s t).
Proof.
  intros A eqb cmp lt zero (H1 & H2 & H3).
  split; [intros; eapply lex_sizes_spec; eassumption|].
  split; [intros; eapply lex_size_zero_spec; eassumption|].
  split; [intros; eapply lex_part_zero_spec; eassumption|].
  split; [intros; eapply lex_zero_zero_spec; eassumption|].
  intros; eapply lex_zero_size_gen; eassumption.
Qed.
Print Assumptions C59_lexicographical_partial.

(** Cases: "ab" with "ab", "abc" with "ab", "b" with "ab", and "ab" as a part. *)
Example C59_case :
  elements_ok Z.eqb Z.compare Z.lt /\
  block_at [97; 98; 99] 2 [97; 98] /\ string_at 0 [97; 98; 0; 7] [97; 98] /\
  equal_size_zero Z.eqb 0 [97; 98; 99] 2 [97; 98; 0; 7] = Some true /\
  equal_zero_zero Z.eqb 0 [97; 98; 0] [97; 0] = Some false /\
  equal_part_zero Z.eqb 0 [97; 98] 2 [97; 98; 99; 0] = Some true /\
  compare_sizes Z.compare [98] 1 [97; 98] 2 = Some Lt /\
  lex_sizes Z.compare [98] 1 [97; 98] 2 = Some Gt /\
  compare_size_zero Z.eqb Z.compare 0 Eq [97; 98; 99] 3 [98; 98; 0] = Some Gt /\
  compare_zero_zero Z.eqb Z.compare 0 Eq [98; 97; 0] [97; 98; 0] = Some Gt /\
  lex_zero_zero Z.eqb Z.compare 0 [97; 98; 0] [97; 0] = Some Gt.
Proof.
  split; [exact (conj Z_strict_total (conj Z_eqb_ok Z_cmp_ok))|].
  split; [split; [reflexivity|exists [99]; reflexivity]|].
  split; [split; [intros [H|[H|[]]]; discriminate|exists [7]; reflexivity]|].
  vm_compute. repeat split.
Qed.

(** [compare.reverse] exchanges the operands and undoes itself; an unordered result
    stays. *)
Theorem C59_reverse : (forall c, reverse (reverse c) = c) /\
  (forall o, reverse_partial (reverse_partial o) = o) /\ reverse_partial None = None /\
  (forall X (R : X -> X -> Prop) c x y, reports R c x y -> reports R (reverse c) y x).
Proof.
  exact (conj reverse_involutive (conj reverse_partial_involutive (conj eq_refl (@reports_reverse)))).
Qed.
Print Assumptions C59_reverse.
Example C59_reverse_case : reverse Lt = Gt /\ reports Z.lt Lt 3 5 /\ reports Z.lt (reverse Lt) 5 3.
Proof. cbn. repeat split. Qed.

(** ** Where the comparison is undefined or wrong *)

(** A string on the left and an array of exactly [n] elements on the right: unless
    the string is shorter, the element after the array is read. *)
Theorem C59_string_array_undefined : forall A eqb cmp (lt : A -> A -> Prop) zero, elements_ok eqb cmp lt ->
  (forall s t a n, string_at zero a s -> length t = n -> (n <= length s)%nat ->
     compare_zero_size eqb cmp zero Eq a t n = None) /\
  (forall s t a n, string_at zero a s -> length t = n -> t = firstn n s ->
     lex_zero_size eqb cmp zero a t n = None).
Proof.
  intros A eqb cmp lt zero (H1 & H2 & H3).
  split; [intros; eapply compare_zero_size_ub; eassumption|].
  intros; eapply lex_zero_size_ub; eassumption.
Qed.
Print Assumptions C59_string_array_undefined.

(** Inside a longer array the result depends on that element: less unless it is
    zero, and if it is zero the length of the string is disregarded. *)
Theorem C59_string_array_wrong : forall A eqb cmp (lt : A -> A -> Prop) zero, elements_ok eqb cmp lt ->
  forall s t a y rest n, string_at zero a s -> length t = n -> (n <= length s)%nat ->
  (y <> zero -> compare_zero_size eqb cmp zero Eq a (t ++ y :: rest) n = Some Lt) /\
  (y = zero -> exists c, compare_zero_size eqb cmp zero Eq a (t ++ y :: rest) n = Some c /\
     reports (dict lt) c (firstn n s) t).
Proof.
  intros A eqb cmp lt zero (H1 & H2 & H3).
  intros; eapply compare_zero_size_after; eassumption.
Qed.
Print Assumptions C59_string_array_wrong.
(** "b" compared with the first element of "ac", "abc" with "ab". *)
Theorem C59_string_array_refuted : exists s t a b n,
  string_at 0 a s /\ block_at b n t /\
  compare_zero_size Z.eqb Z.compare 0 Eq a b n = Some Lt /\ reports (shorter_first Z.lt) Gt s t /\
  exists s' t' a' b' n', string_at 0 a' s' /\ block_at b' n' t' /\
  compare_zero_size Z.eqb Z.compare 0 Eq a' b' n' = Some Eq /\ s' <> t'.
Proof.
  exists [98], [97], [98; 0], [97; 99; 0], 1%nat.
  split; [split; [intros [H|[]]; discriminate|exists []; reflexivity]|].
  split; [split; [reflexivity|exists [99; 0]; reflexivity]|].
  split; [reflexivity|].
  split; [right; split; [reflexivity|right; exists [], 97, 98, [], []; repeat split]|].
  exists [97; 98; 99], [97; 98], [97; 98; 99; 0], [97; 98; 0], 2%nat.
  split; [split; [intros [H|[H|[H|[]]]]; discriminate|exists []; reflexivity]|].
  split; [split; [reflexivity|exists [0]; reflexivity]|].
  split; [reflexivity|discriminate].
Qed.
Print Assumptions C59_string_array_refuted.

(** Two strings, the right one shorter: the loop runs past its terminator. *)
Theorem C59_two_strings_undefined : forall A eqb cmp (lt : A -> A -> Prop) zero, elements_ok eqb cmp lt ->
  forall s t a tmp, string_at zero a s -> (length t < length s)%nat ->
  compare_zero_zero eqb cmp zero tmp a (t ++ [zero]) = None.
Proof.
  intros A eqb cmp lt zero (H1 & H2 & H3).
  intros; eapply compare_zero_zero_ub; eassumption.
Qed.
Print Assumptions C59_two_strings_undefined.
(** With more memory behind it the result is wrong: "abc" against "a". *)
Theorem C59_two_strings_refuted : exists s t a b, string_at 0 a s /\ string_at 0 b t /\
  compare_zero_zero Z.eqb Z.compare 0 Eq a b = Some Lt /\ (length t < length s)%nat.
Proof.
  exists [97; 98; 99], [97], [97; 98; 99; 0], [97; 0; 7; 7].
  split; [split; [intros [H|[H|[H|[]]]]; discriminate|exists []; reflexivity]|].
  split; [split; [intros [H|[]]; discriminate|exists [7; 7]; reflexivity]|].
  split; [reflexivity|]. cbn. lia.
Qed.
Print Assumptions C59_two_strings_refuted.

(** Signed characters: a string that goes on with a negative one is put before the
    string it extends. *)
Theorem C59_negative_character_wrong : forall A eqb cmp (lt : A -> A -> Prop) zero, elements_ok eqb cmp lt ->
  forall p x s a b, string_at zero a (p ++ x :: s) -> string_at zero b p -> lt x zero ->
  lex_zero_zero eqb cmp zero a b = Some Lt /\ dict lt p (p ++ x :: s).
Proof.
  intros A eqb cmp lt zero (H1 & H2 & H3) p x s a b Ha Hb Hx.
  split; [eapply lex_zero_zero_below; eassumption|left; exists x, s; reflexivity].
Qed.
Print Assumptions C59_negative_character_wrong.
Example C59_negative_case : string_at 0 [97; -23; 0] ([97] ++ [-23]) /\ string_at 0 [97; 0] [97] /\
  lex_zero_zero Z.eqb Z.compare 0 [97; -23; 0] [97; 0] = Some Lt.
Proof.
  split; [split; [intros [H|[H|[]]]; discriminate|exists []; reflexivity]|].
  split; [split; [intros [H|[]]; discriminate|exists []; reflexivity]|]. reflexivity.
Qed.
