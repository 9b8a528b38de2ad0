(** Property theorems C110: words, lines and values on text streams. *)
From Verif Require Import Base Stream_Model Stream_Spec Stream_Proofs Line_Proofs NumRepr_Model NumRepr_Spec
  Char_Model Word_Model Word_Spec Word_Proofs.
Local Open Scope Z_scope.

(** ** C110 *)
(** Values of any kinds written with spaces in between are read back, whatever the
    variables held before; the stream is left before the space behind the last. *)
Theorem C110_round_trip : forall (B : Type) (i : istream B) good coming room,
  obeys i good coming room -> forall l t fuel st rest olds,
  written isspace l t -> good st -> coming st = t ++ rest ->
  (length (coming st) < fuel)%nat -> map fst olds = map fst l ->
  exists st' sp', read_values i isspace fuel olds st = Fine (map snd l, st') /\ good st' /\
    coming st' = sp' ++ rest /\ Forall (fun c => isspace c = Some true) sp'.
Proof.
  intros B i good coming room O.
  exact (@values_read B i good coming room O isspace isspace_zero isspace_plain).
Qed.
Print Assumptions C110_round_trip.
(** A word: the characters up to the next space or the end, leading spaces left out;
    at the end of the text, the empty word. *)
Theorem C110_word : forall (B : Type) (i : istream B) good coming room,
  obeys i good coming room -> forall sp w t fuel st, good st -> coming st = sp ++ w ++ t ->
  Forall (fun c => isspace c = Some true) sp -> Forall (fun c => isspace c = Some false) w ->
  w <> [] \/ t = [] -> word_end isspace t -> (length (coming st) < fuel)%nat ->
  exists st', read_word i isspace fuel st = Fine (w, st') /\ good st' /\ coming st' = t.
Proof.
  intros B i good coming room O. exact (@word_read B i good coming room O isspace isspace_zero).
Qed.
Print Assumptions C110_word.
(** A line that begins with no space.  Missing: other lines (false, next theorem),
    and a last line ended by CR and followed by one character (C78). *)
Theorem C110_line_partial : forall (B : Type) (i : istream B) good coming room,
  obeys i good coming room -> (forall st, good st -> s_wait i st = false) ->
  forall l t fuel st, good st -> coming st = l ++ t -> no_ending l -> word_start isspace (l ++ t) ->
  match t with [] => True | c :: _ => c = 10 \/ c = 13 end -> (forall x, x <> 10 -> t <> [13; x]) ->
  (length (coming st) < fuel)%nat ->
  exists st', read_line i isspace fuel st = Fine (l, st') /\ good st' /\ coming st' = after_line t.
Proof.
  intros B i good coming room O W l t fuel st G C.
  exact (@line_read B i good coming room O isspace isspace_zero [] l t fuel st W G C (Forall_nil _)).
Qed.
Print Assumptions C110_line_partial.
(** Spaces and empty lines in front of a line are lost. *)
Theorem C110_line_wrong : forall (B : Type) (i : istream B) good coming room,
  obeys i good coming room -> (forall st, good st -> s_wait i st = false) ->
  forall sp l t fuel st, good st -> coming st = sp ++ l ++ t ->
  Forall (fun c => isspace c = Some true) sp -> no_ending l -> word_start isspace (l ++ t) ->
  match t with [] => True | c :: _ => c = 10 \/ c = 13 end -> (forall x, x <> 10 -> t <> [13; x]) ->
  (length (coming st) < fuel)%nat ->
  exists st', read_line i isspace fuel st = Fine (l, st') /\ good st' /\ coming st' = after_line t.
Proof.
  intros B i good coming room O W sp l t fuel st.
  exact (@line_read B i good coming room O isspace isspace_zero sp l t fuel st W).
Qed.
Print Assumptions C110_line_wrong.
(** Any word read as an unsigned number of [d] bits: the value of its digits modulo
    2^d; zero if it is no number — the variable is overwritten, and nothing tells
    the two from a zero that was read. *)
Theorem C110_number_wrong : forall (B : Type) (i : istream B) good coming room,
  obeys i good coming room -> forall d sp w t old fuel st, (1 <= d)%nat -> good st -> coming st = sp ++ w ++ t ->
  Forall (fun c => isspace c = Some true) sp -> Forall (fun c => isspace c = Some false) w ->
  w <> [] \/ t = [] -> word_end isspace t -> (length (coming st) < fuel)%nat ->
  exists st', read_value i isspace fuel (KU d) old st =
    Fine (Num (if all_digits decimal w then text_val decimal w mod 2 ^ Z.of_nat d else 0), st') /\
    good st' /\ coming st' = t.
Proof.
  intros B i good coming room O. exact (@number_any B i good coming room O isspace isspace_zero).
Qed.
Print Assumptions C110_number_wrong.
(** Reading a signed number at the end of the text looks at the first character of
    the empty string. *)
Theorem C110_end_undefined : forall (B : Type) (i : istream B) good coming room,
  obeys i good coming room -> forall d old fuel st, good st -> coming st = [] -> (0 < fuel)%nat ->
  read_value i isspace fuel (KS d) old st = Wild.
Proof.
  intros B i good coming room O. exact (@signed_at_end B i good coming room O isspace isspace_zero).
Qed.
Print Assumptions C110_end_undefined.
(** A word that is no truth value leaves the variable as it was. *)
Theorem C110_truth_unknown : forall (B : Type) (i : istream B) good coming room,
  obeys i good coming room -> forall sp w t old fuel st, good st -> coming st = sp ++ w ++ t ->
  Forall (fun c => isspace c = Some true) sp -> Forall (fun c => isspace c = Some false) w ->
  w <> [] \/ t = [] -> word_end isspace t -> (length (coming st) < fuel)%nat ->
  w <> true_text -> w <> false_text -> (forall r, w <> other_prefix ++ r) ->
  exists st', read_value i isspace fuel KB (Truth old) st = Fine (Truth old, st') /\ good st' /\ coming st' = t.
Proof.
  intros B i good coming room O. exact (@bool_unknown B i good coming room O isspace isspace_zero).
Qed.
Print Assumptions C110_truth_unknown.
(** The text other(n): 0 and 1 are read as bools; every other number makes a bool
    that is neither, which is undefined. *)
Theorem C110_other_undefined : forall (B : Type) (i : istream B) good coming room,
  obeys i good coming room -> forall sp n x t old fuel st, good st ->
  coming st = sp ++ (other_prefix ++ x ++ other_suffix) ++ t -> numeral_of decimal n x -> n < 256 ->
  Forall (fun c => isspace c = Some true) sp -> word_end isspace t -> (length (coming st) < fuel)%nat ->
  if (n =? 0) || (n =? 1) then
    exists st', read_value i isspace fuel KB old st = Fine (Truth (n =? 1), st') /\ good st' /\ coming st' = t
  else read_value i isspace fuel KB old st = Wild.
Proof.
  intros B i good coming room O sp n x t old fuel st G C N L F.
  exact (@bool_number B i good coming room O isspace isspace_zero isspace_plain sp n x t old fuel st G C N L F
    eq_refl eq_refl).
Qed.
Print Assumptions C110_other_undefined.
(** On a file: " -7 true ab 65535 " as signed, bool, string and 8-bit unsigned; the
    second line of " LF LF x y CR LF z"; the word x as a number; other(7). *)
Example C110_case :
  let file t := wnew (mksrc t 0 [] false) in
  let got {A} (r : so (A * wst src)) := match r with Fine (a, _) => Some a | _ => None end in
  obeys (wrap src_base) (ready false) left_of (@wpos src) /\ ready false (file [32; 10]) /\
  written isspace [(KS 32, Num (-7)); (KB, Truth true); (KW, Text [97; 98])]
    [32; 45; 55; 32; 116; 114; 117; 101; 9; 97; 98; 10] /\
  got (read_values (wrap src_base) isspace 40 [(KS 32, Num 1); (KB, Truth false); (KW, Text []); (KU 8, Num 3)]
    (file [32; 45; 55; 32; 116; 114; 117; 101; 9; 97; 98; 10; 54; 53; 53; 51; 53; 32]))
  = Some [Num (-7); Truth true; Text [97; 98]; Num 255] /\
  got (read_line (wrap src_base) isspace 40 (file [32; 10; 10; 120; 32; 121; 13; 10; 122]))
  = Some [120; 32; 121] /\
  got (read_value (wrap src_base) isspace 40 (KU 32) (Num 5) (file [120; 10])) = Some (Num 0) /\
  got (read_value (wrap src_base) isspace 40 KB (Truth true) (file [120; 10])) = Some (Truth true) /\
  read_value (wrap src_base) isspace 40 KB (Truth true) (file [111; 116; 104; 101; 114; 40; 55; 41; 10]) = Wild.
Proof.
  cbv zeta. split; [exact (file_obeys false)|]. split; [exact (fresh_ready [32; 10] false)|]. split.
  - assert (W3 : written isspace [(KW, Text [97; 98])] [97; 98; 10]).
    { apply (W_value (k := KW) (v := Text [97; 98]) (sp := []) (s := 10) (w := [97; 98]) (t := []));
        [reflexivity|split; [discriminate|now repeat constructor]|constructor|constructor|reflexivity]. }
    assert (W2 : written isspace [(KB, Truth true); (KW, Text [97; 98])] [116; 114; 117; 101; 9; 97; 98; 10]).
    { apply (W_value (k := KB) (v := Truth true) (sp := []) (s := 9) (w := true_text) (t := [97; 98; 10]));
        [reflexivity|exact I|exact W3|constructor|reflexivity]. }
    apply (W_value (k := KS 32) (v := Num (-7)) (sp := [32]) (s := 32) (w := [45; 55])
      (t := [116; 114; 117; 101; 9; 97; 98; 10])); [reflexivity|cbn; lia|exact W2|now repeat constructor|reflexivity].
  - vm_compute. auto 10.
Qed.
