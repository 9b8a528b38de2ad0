(** C92: multibyte texts. *)
From Verif Require Import Base.
From Verif Require Import Mb_Model.
From Verif Require Import Mb_Spec.
From Verif Require Import Mb_Proofs.
Local Open Scope Z_scope.

(** Writing: the result is the text written in the locale; the program ends
    exactly when a character has no representation. *)
Theorem C92_write : forall L a,
  (forall bs, to_char_str L a = Text bs <-> spells L a bs) /\
  (to_char_str L a = Dies <-> exists c, In c a /\ l_enc L c = None) /\
  to_char_str L a <> Wild /\ to_char_str L a <> Busy.
Proof.
  intros L a. refine (conj (to_char_str_text L a) (conj (to_char_str_dies L a) _)).
  destruct (to_char_loop_cases L a []) as [(bs & T)|(D & _)]; unfold to_char_str; split; congruence.
Qed.
Print Assumptions C92_write.

(** Reading: bytes that spell a text without null characters give that text,
    whatever lies behind them in memory, and nothing else gives a text. *)
Theorem C92_read_partial : forall L, stateless L -> forall bs after cs,
  (spells L cs bs -> ~ In 0 cs -> forall fuel, (length bs < fuel)%nat -> to_char_t_str fuel L bs after = Text cs) /\
  (forall fuel, to_char_t_str fuel L bs after = Text cs -> spells L cs bs /\ ~ In 0 cs).
Proof.
  intros L SL bs after cs. split.
  - intros S Z0 fuel F. exact (decode_text SL after S Z0 F).
  - intros fuel T. exact (decode_sound SL T).
Qed.
Print Assumptions C92_read_partial.

(** There and back again. *)
Theorem C92_round_trip_partial : forall L, stateless L -> forall cs bs after fuel,
  to_char_str L cs = Text bs -> ~ In 0 cs -> (length bs < fuel)%nat ->
  to_char_t_str fuel L bs after = Text cs.
Proof. intros L SL cs bs after fuel T Z0 F. exact (round_trip SL after T Z0 F). Qed.
Print Assumptions C92_round_trip_partial.

(** A text with a null character anywhere is never read: the loop does not end. *)
Theorem C92_null_diverges : forall L, stateless L -> forall cs ds bs after,
  spells L (cs ++ 0 :: ds) bs -> forall fuel, to_char_t_str fuel L bs after = Busy.
Proof. intros L SL cs ds bs after S. exact (null_diverges SL after S). Qed.
Print Assumptions C92_null_diverges.

(** Bytes that are no character end the program. *)
Theorem C92_malformed_dies : forall L, stateless L -> forall cs bs p rest after fuel,
  spells L cs bs -> ~ In 0 cs -> broken_char L p -> (length bs < fuel)%nat ->
  to_char_t_str fuel L (bs ++ p ++ rest) after = Dies.
Proof. intros L SL cs bs p rest after fuel S Z0 B F. exact (broken_dies SL rest after S Z0 B F). Qed.
Print Assumptions C92_malformed_dies.

(** A text that breaks off inside of a character never gives a text, and what
    lies behind it is read: undefined if that is not readable. *)
Theorem C92_cut_undefined : forall L, stateless L -> forall cs bs p, spells L cs bs -> cut_char L p ->
  (forall after fuel r, to_char_t_str fuel L (bs ++ p) after <> Text r) /\
  (~ In 0 cs -> forall fuel, (length bs < fuel)%nat -> to_char_t_str fuel L (bs ++ p) [] = Wild).
Proof.
  intros L SL cs bs p S C. split.
  - intros after fuel r. exact (cut_wrong SL S C).
  - intros Z0 fuel F. exact (cut_undefined SL S Z0 C F).
Qed.
Print Assumptions C92_cut_undefined.

(** The round trip fails in UTF-8: a, null, b is written, but not read again. *)
Theorem C92_round_trip_refuted : exists cs bs, to_char_str utf8_locale cs = Text bs /\
  forall fuel, to_char_t_str fuel utf8_locale bs [] = Busy.
Proof.
  exists [97; 0; 98], [97; 0; 98]. split; [vm_compute; reflexivity|].
  apply (@null_diverges utf8_locale utf8_stateless [97] [98] _ []).
  exact (proj1 (to_char_str_text utf8_locale [97; 0; 98] [97; 0; 98]) eq_refl).
Qed.
Print Assumptions C92_round_trip_refuted.

(** All of the above holds of UTF-8. *)
Theorem C92_utf8 : stateless utf8_locale.
Proof. exact utf8_stateless. Qed.
Print Assumptions C92_utf8.

(** An e with acute, a euro sign and a clef between Latin letters; a surrogate
    ends the program. *)
Example C92_write_case :
  to_char_str utf8_locale [97; 0xE9; 0x20AC; 0x1D11E; 98] =
    Text [97; 0xC3; 0xA9; 0xE2; 0x82; 0xAC; 0xF0; 0x9D; 0x84; 0x9E; 98] /\
  to_char_str utf8_locale [97; 0xD800] = Dies.
Proof. vm_compute. split; reflexivity. Qed.
Example C92_read_case :
  to_char_t_str 12 utf8_locale [97; 0xC3; 0xA9; 0xE2; 0x82; 0xAC; 0xF0; 0x9D; 0x84; 0x9E; 98] [0xC3; 7] =
    Text [97; 0xE9; 0x20AC; 0x1D11E; 98].
Proof. vm_compute. reflexivity. Qed.
(** The bytes E2 82 break off inside of a character; E2 28 is none.  With AC 00
    behind the text the conversion leaves it and does not come back. *)
Example C92_broken_case :
  cut_char utf8_locale [0xE2; 0x82] /\ broken_char utf8_locale [0xE2; 0x28] /\
  to_char_t_str 9 utf8_locale [97; 0xE2; 0x82] [] = Wild /\
  to_char_t_str 9 utf8_locale [97; 0xE2; 0x82] [0xAC; 0] = Busy /\
  to_char_t_str 9 utf8_locale [97; 0xE2; 0x28; 98] [] = Dies.
Proof.
  split; [split; [discriminate|exists 0x20AC, [0xAC]; split; [discriminate|reflexivity]]|].
  split; [|vm_compute; repeat split; reflexivity].
  exists [0xE2], 0x28. split; [reflexivity|]. split.
  - right. split; [discriminate|]. exists 0x20AC, [0x82; 0xAC]. split; [discriminate|reflexivity].
  - intros c q E. pose proof (proj1 (sl_same utf8_stateless c _) E) as R.
    destruct q as [|x [|y [|z q]]]; cbn in R; discriminate.
Qed.
