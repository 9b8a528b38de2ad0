(** Proofs for words, lines and values on text streams. *)
From Verif Require Import Base Stream_Model Stream_Spec Stream_Proofs Line_Proofs NumRepr_Model NumRepr_Spec
  NumRepr_Proofs NumRepr_Frac Word_Model Word_Spec Char_Model Char_Spec Char_Proofs.
Local Open Scope Z_scope.

Section Words.
Context {B : Type} (i : istream B) (good : B -> Prop) (coming : B -> list Z) (room : B -> nat).
Hypothesis O : obeys i good coming room.
Variable space : Z -> option bool.
Hypothesis Z0 : space 0 = Some false.

Lemma get_at st : good st -> exists st', good st' /\
  match coming st with
  | [] => sget i st = Fine (0, st') /\ coming st' = []
  | c :: t => sget i st = Fine (c, st') /\ coming st' = t
  end.
Proof.
  intros G. destruct (@ob_read _ _ _ _ _ O 1%nat st G) as (got & st' & Hr & G' & C & L & N & _).
  exists st'. split; [exact G'|]. unfold sget. rewrite Hr. cbn [sbind fst snd].
  destruct got as [|c [|? ?]]; [| |cbn in L; lia].
  - destruct (N eq_refl) as [|E]; [lia|]. rewrite E in *. cbn [app] in C. auto.
  - rewrite C. cbn [app]. auto.
Qed.
Lemma peek_at st : good st -> exists st', good st' /\ coming st' = coming st /\
  speek i st = Fine (match coming st with [] => 0 | c :: _ => c end, st').
Proof.
  intros G. destruct (@ob_read _ _ _ _ _ O 1%nat st G) as (got & st' & Hr & G' & C & L & N & R1 & R2).
  unfold speek. rewrite Hr. cbn [sbind fst snd].
  destruct got as [|c [|? ?]]; [| |cbn in L; lia].
  - destruct (N eq_refl) as [|E]; [lia|]. rewrite E in *. cbn [app] in C. exists st'. auto.
  - destruct (@ob_unread _ _ _ _ _ O [c] st' G') as (st2 & Hu & G2 & C2 & _); [apply R2; discriminate|].
    exists st2. rewrite Hu. cbn [sbind]. rewrite C. cbn [app] in *. auto.
Qed.
Lemma ends_at st : good st -> s_end i st = match coming st with [] => true | _ => false end.
Proof. exact (@end_coming B i good coming room O st). Qed.

Lemma skip_spaces sp : forall fuel st t, good st -> coming st = sp ++ t ->
  Forall (fun c => space c = Some true) sp -> word_start space t -> (length sp < fuel)%nat ->
  exists st', skip i space fuel st = Fine st' /\ good st' /\ coming st' = t.
Proof.
  induction sp as [|c sp IH]; intros fuel st t G C F W L; (destruct fuel as [|fuel]; [cbn in L; lia|]); cbn [skip].
  - cbn [app] in C. destruct (peek_at G) as (st' & G' & C' & E). rewrite E, C. cbn [sbind fst snd].
    assert (S0 : space (match t with [] => 0 | c :: _ => c end) = Some false) by (destruct t; auto).
    rewrite S0. exists st'. rewrite C', C. auto.
  - inversion F as [|x l Fc Fl]; subst. destruct (peek_at G) as (st' & G' & C' & E).
    rewrite E, C. cbn [app sbind fst snd]. rewrite Fc.
    destruct (get_at G') as (st2 & G2 & E2). rewrite C', C in E2. cbn [app] in E2. destruct E2 as [E2 C2].
    rewrite E2. cbn [sbind snd]. apply (IH fuel st2 t); auto. cbn in L. lia.
Qed.

Lemma take_word w : forall fuel acc st t, good st -> coming st = w ++ t ->
  Forall (fun c => space c = Some false) w -> word_end space t -> (length w < fuel)%nat ->
  exists st', take i space fuel acc st = Fine (acc ++ w, st') /\ good st' /\ coming st' = t.
Proof.
  induction w as [|c w IH]; intros fuel acc st t G C F W L; (destruct fuel as [|fuel]; [cbn in L; lia|]); cbn [take].
  - cbn [app] in C. rewrite (ends_at G), C. rewrite app_nil_r. destruct t as [|c t]; [eauto|].
    destruct (peek_at G) as (st' & G' & C' & E). rewrite E, C. cbn [sbind fst snd].
    cbn [word_end] in W. rewrite W. exists st'. rewrite C', C. auto.
  - inversion F as [|x l Fc Fl]; subst. rewrite (ends_at G), C. cbn [app].
    destruct (peek_at G) as (st' & G' & C' & E). rewrite E, C. cbn [app sbind fst snd]. rewrite Fc.
    destruct (get_at G') as (st2 & G2 & E2). rewrite C', C in E2. cbn [app] in E2. destruct E2 as [E2 C2].
    rewrite E2. cbn [sbind fst snd].
    destruct (IH fuel (acc ++ [c]) st2 t) as (st3 & E3 & K); auto; [cbn in L; lia|].
    exists st3. rewrite E3, <- app_assoc. auto.
Qed.

Theorem word_read sp w t fuel st : good st -> coming st = sp ++ w ++ t ->
  Forall (fun c => space c = Some true) sp -> Forall (fun c => space c = Some false) w ->
  w <> [] \/ t = [] -> word_end space t -> (length (coming st) < fuel)%nat ->
  exists st', read_word i space fuel st = Fine (w, st') /\ good st' /\ coming st' = t.
Proof.
  intros G C Fs Fw N We L. rewrite C, !app_length in L. unfold read_word.
  destruct (@skip_spaces sp fuel st (w ++ t) G C Fs) as (st1 & E1 & G1 & C1); [|lia|].
  { destruct w as [|c w]; [|now inversion Fw]. destruct N as [N| ->]; [congruence|exact I]. }
  rewrite E1. cbn [sbind].
  destruct (@take_word w fuel [] st1 t G1 C1 Fw We) as (st2 & E2 & G2 & C2); [lia|].
  exists st2. auto.
Qed.

(** ** Lines *)
Lemma take_line_at l : forall fuel acc st t, good st -> coming st = l ++ t -> no_ending l ->
  match t with [] => True | c :: _ => c = 10 \/ c = 13 end -> (length l < fuel)%nat ->
  exists st', take_line i fuel acc st = Fine (acc ++ l, st') /\ good st' /\ coming st' = t.
Proof.
  induction l as [|c l IH]; intros fuel acc st t G C F W L; (destruct fuel as [|fuel]; [cbn in L; lia|]); cbn [take_line].
  - cbn [app] in C. rewrite (ends_at G), C. rewrite app_nil_r. destruct t as [|c t]; [eauto|].
    destruct (peek_at G) as (st' & G' & C' & E). rewrite E, C. cbn [sbind fst snd].
    destruct (Z.eqb_spec c 13) as [->|Nc]; [exists st'; rewrite C', C; auto|].
    destruct (peek_at G') as (st2 & G2 & C2 & E2). rewrite E2, C', C. cbn [sbind fst snd].
    destruct (Z.eqb_spec c 10) as [->|]; [|lia]. exists st2. rewrite C2, C', C. auto.
  - inversion F as [|x m [N1 N2] Fl]; subst. rewrite (ends_at G), C. cbn [app].
    destruct (peek_at G) as (st' & G' & C' & E). rewrite E, C. cbn [app sbind fst snd].
    destruct (Z.eqb_spec c 13); [contradiction|].
    destruct (peek_at G') as (st2 & G2 & C2 & E2). rewrite E2, C', C. cbn [app sbind fst snd].
    destruct (Z.eqb_spec c 10); [contradiction|].
    destruct (get_at G2) as (st3 & G3 & E3). rewrite C2, C', C in E3. cbn [app] in E3. destruct E3 as [E3 C3].
    rewrite E3. cbn [sbind fst snd].
    destruct (IH fuel (acc ++ [c]) st3 t) as (st4 & E4 & K); auto; [cbn in L; lia|].
    exists st4. rewrite E4, <- app_assoc. auto.
Qed.

Theorem line_read sp l t fuel st : (forall st, good st -> s_wait i st = false) ->
  good st -> coming st = sp ++ l ++ t ->
  Forall (fun c => space c = Some true) sp -> no_ending l -> word_start space (l ++ t) ->
  match t with [] => True | c :: _ => c = 10 \/ c = 13 end ->
  (forall x, x <> 10 -> t <> [13; x]) -> (length (coming st) < fuel)%nat ->
  exists st', read_line i space fuel st = Fine (l, st') /\ good st' /\ coming st' = after_line t.
Proof.
  intros Wt G C Fs Fl Ws We Nt L. rewrite C, !app_length in L. unfold read_line.
  destruct (@skip_spaces sp fuel st (l ++ t) G C Fs Ws) as (st1 & E1 & G1 & C1); [lia|].
  rewrite E1. cbn [sbind].
  destruct (@take_line_at l fuel [] st1 t G1 C1 Fl We) as (st2 & E2 & G2 & C2); [lia|].
  rewrite E2. cbn [sbind fst snd app].
  destruct (@endline_after B i good coming room O Wt st2 fuel G2) as (st3 & E3 & G3 & C3).
  - rewrite C2. lia.
  - intros pre x Hp Hx E. rewrite C2 in E. destruct pre as [|c pre]; [exact (Nt x Hx E)|].
    cbn [app] in E. inversion Hp as [|y z [A1 A2] Fz]; rewrite E in We; cbn in We; destruct We; congruence.
  - rewrite E3. cbn [sbind]. exists st3. rewrite C3, C2. auto.
Qed.

(** ** Values *)
Lemma numeral_chars n s : numeral_of decimal n s -> Forall (fun c => 48 <= c <= 57) s.
Proof.
  intros (ds & -> & D & _). unfold digits_in in D. cbn [radix decimal continuous] in D.
  apply Forall_forall. intros c H. apply in_map_iff in H. destruct H as (d & <- & H).
  rewrite Forall_forall in D. specialize (D d H). cbn [get_char decimal continuous].
  rewrite Z.mod_small; lia.
Qed.
Lemma numeral_some n s : numeral_of decimal n s -> s <> [].
Proof. intros (ds & -> & _ & _ & N & _). now destruct ds. Qed.

Hypothesis plain : forall c, 48 <= c <= 57 \/ c = 45 \/ 97 <= c <= 122 -> space c = Some false.

Lemma value_shown k v w old : show k v = Some w -> fits space k v ->
  w <> [] /\ Forall (fun c => space c = Some false) w /\ value_of k w old = Fine v.
Proof.
  destruct k as [d|d| |], v as [n|b|l]; cbn [show fits]; try (intros; easy).
  - intros E [Hd Hn]. destruct (@native_round_trip decimal d n decimal_ok Hd Hn) as (s & E' & N & P).
    rewrite E in E'. injection E' as <-. split; [exact (numeral_some N)|]. split.
    + eapply Forall_impl; [|exact (numeral_chars N)]. intros c Hc. apply plain. auto.
    + cbn [value_of]. rewrite P. reflexivity.
  - intros E [Hd Hn].
    assert (Hp : 2 ^ Z.of_nat d = 2 * 2 ^ (Z.of_nat d - 1)).
    { rewrite <- Z.pow_succ_r by lia. f_equal. lia. }
    assert (0 < 2 ^ (Z.of_nat d - 1)) by (apply Z.pow_pos_nonneg; lia).
    destruct (@native_signed_round_trip decimal decimal_ok minus_sign plus_sign eq_refl eq_refl
      d (2 ^ (Z.of_nat d - 1)) n) as (s & E' & P); try lia.
    rewrite E in E'. injection E' as <-.
    assert (K : w <> [] /\ Forall (fun c => space c = Some false) w).
    { unfold print_native_signed in E.
      destruct (@print_native_spec decimal decimal_ok d (Z.abs n) [] ltac:(lia) ltac:(lia)) as (s & E2 & N).
      rewrite E2 in E. cbn [obind] in E. rewrite app_nil_r in E.
      assert (F : Forall (fun c => space c = Some false) s).
      { eapply Forall_impl; [|exact (numeral_chars N)]. intros c Hc. apply plain. auto. }
      destruct (n <? 0); injection E as <-.
      - split; [discriminate|]. constructor; [|exact F]. apply plain. unfold minus_sign. lia.
      - split; [exact (numeral_some N)|exact F]. }
    destruct K as [K1 K2]. repeat split; auto. cbn [value_of]. rewrite Hp, P. reflexivity.
  - intros E _. injection E as <-. destruct b.
    + split; [discriminate|]. split; [repeat constructor; apply plain; lia|]. reflexivity.
    + split; [discriminate|]. split; [repeat constructor; apply plain; lia|]. reflexivity.
  - intros E [N F]. injection E as <-. auto.
Qed.

Lemma values_read_after l t : written space l t -> forall fuel st sp0 rest olds, good st ->
  coming st = sp0 ++ t ++ rest -> Forall (fun c => space c = Some true) sp0 ->
  (length (coming st) < fuel)%nat -> map fst olds = map fst l ->
  exists st' sp', read_values i space fuel olds st = Fine (map snd l, st') /\ good st' /\
    coming st' = sp' ++ rest /\ Forall (fun c => space c = Some true) sp'.
Proof.
  induction 1 as [|k v l t sp s w E F W IH Fs Ss]; intros fuel st sp0 rest olds G C F0 L Hm.
  - destruct olds; [|discriminate]. exists st, sp0. auto.
  - destruct olds as [|[k' old] olds]; [discriminate|]. cbn [map fst] in Hm. injection Hm as -> Hm.
    destruct (@value_shown k v w old E F) as (Nw & Fw & Ev).
    cbn [read_values]. unfold read_value.
    destruct (@word_read (sp0 ++ sp) w (s :: t ++ rest) fuel st G) as (st1 & E1 & G1 & C1); auto.
    { rewrite C, <- !app_assoc. reflexivity. }
    { apply Forall_app. auto. }
    rewrite E1. cbn [sbind fst snd]. rewrite Ev. cbn [sbind fst snd map].
    destruct (IH fuel st1 [s] rest olds G1 C1) as (st2 & sp' & E2 & K); auto.
    { rewrite C1. rewrite C, !app_length in L. cbn [length] in *. rewrite !app_length in *. cbn [length] in L. lia. }
    rewrite E2. cbn [sbind fst snd]. eauto.
Qed.
Theorem values_read l t fuel st rest olds : written space l t -> good st ->
  coming st = t ++ rest -> (length (coming st) < fuel)%nat -> map fst olds = map fst l ->
  exists st' sp', read_values i space fuel olds st = Fine (map snd l, st') /\ good st' /\
    coming st' = sp' ++ rest /\ Forall (fun c => space c = Some true) sp'.
Proof. intros W G C. exact (@values_read_after l t W fuel st [] rest olds G C (Forall_nil _)). Qed.

(** ** Words that are no values *)
Theorem number_any d sp w t old fuel st : (1 <= d)%nat -> good st -> coming st = sp ++ w ++ t ->
  Forall (fun c => space c = Some true) sp -> Forall (fun c => space c = Some false) w ->
  w <> [] \/ t = [] -> word_end space t -> (length (coming st) < fuel)%nat ->
  exists st', read_value i space fuel (KU d) old st =
    Fine (Num (if all_digits decimal w then text_val decimal w mod 2 ^ Z.of_nat d else 0), st') /\
    good st' /\ coming st' = t.
Proof.
  intros Hd G C Fs Fw N We L. destruct (@word_read sp w t fuel st G C Fs Fw N We L) as (st' & E & K).
  exists st'. split; [|exact K]. unfold read_value. rewrite E. cbn [sbind fst snd value_of].
  rewrite (@parse_native_exact decimal (2 ^ Z.of_nat d) w decimal_ok) by (apply Z.pow_pos_nonneg; lia).
  now destruct (all_digits decimal w).
Qed.
Theorem signed_at_end d old fuel st : good st -> coming st = [] -> (0 < fuel)%nat ->
  read_value i space fuel (KS d) old st = Wild.
Proof.
  intros G C L. destruct (@word_read [] [] [] fuel st G C) as (st' & E & _); auto; try constructor; try (now rewrite C).
  unfold read_value. now rewrite E.
Qed.
Theorem bool_unknown sp w t old fuel st : good st -> coming st = sp ++ w ++ t ->
  Forall (fun c => space c = Some true) sp -> Forall (fun c => space c = Some false) w ->
  w <> [] \/ t = [] -> word_end space t -> (length (coming st) < fuel)%nat ->
  w <> true_text -> w <> false_text -> (forall r, w <> other_prefix ++ r) ->
  exists st', read_value i space fuel KB (Truth old) st = Fine (Truth old, st') /\ good st' /\ coming st' = t.
Proof.
  intros G C Fs Fw N We L N1 N2 N3. destruct (@word_read sp w t fuel st G C Fs Fw N We L) as (st' & E & K).
  exists st'. split; [|exact K]. unfold read_value. rewrite E. cbn [sbind fst snd value_of]. unfold bool_of, str_eqb.
  destruct (list_eq_dec Z.eq_dec w true_text); [contradiction|].
  destruct (list_eq_dec Z.eq_dec w false_text); [contradiction|].
  destruct (list_eq_dec Z.eq_dec (firstn (length other_prefix) w) other_prefix) as [X|]; [|reflexivity].
  exfalso. apply (N3 (skipn (length other_prefix) w)). rewrite <- X at 1. symmetry. apply firstn_skipn.
Qed.
Theorem bool_number sp n x t old fuel st : good st ->
  coming st = sp ++ (other_prefix ++ x ++ other_suffix) ++ t -> numeral_of decimal n x -> n < 256 ->
  Forall (fun c => space c = Some true) sp -> space 40 = Some false -> space 41 = Some false ->
  word_end space t -> (length (coming st) < fuel)%nat ->
  if (n =? 0) || (n =? 1) then
    exists st', read_value i space fuel KB old st = Fine (Truth (n =? 1), st') /\ good st' /\ coming st' = t
  else read_value i space fuel KB old st = Wild.
Proof.
  intros G C Nx Hn Fs S1 S2 We L.
  assert (Fw : Forall (fun c => space c = Some false) (other_prefix ++ x ++ other_suffix)).
  { apply Forall_app. split; [repeat constructor; try (apply plain; lia); exact S1|].
    apply Forall_app. split; [|repeat constructor; exact S2].
    eapply Forall_impl; [|exact (numeral_chars Nx)]. intros c Hc. apply plain. auto. }
  destruct (@word_read sp (other_prefix ++ x ++ other_suffix) t fuel st G C Fs Fw) as (st' & E & K); auto.
  { left. discriminate. }
  assert (V : parse_native decimal 256 0 x = Some n).
  { change 256 with (2 ^ Z.of_nat 8). rewrite (@parse_native_exact decimal (2 ^ Z.of_nat 8) x decimal_ok) by reflexivity.
    destruct (numeral_digits decimal_ok Nx) as (H1 & H2 & _). rewrite H1, H2. f_equal. apply Z.mod_small.
    split; [|exact Hn]. destruct Nx as (ds & _ & D & <- & _). apply (pos_val_bound (r := radix decimal)) in D; [lia|cbn; lia]. }
  unfold read_value. rewrite E. cbn [sbind fst snd value_of]. unfold bool_of, str_eqb.
  destruct (list_eq_dec Z.eq_dec (other_prefix ++ x ++ other_suffix) true_text) as [X|_]; [discriminate|].
  destruct (list_eq_dec Z.eq_dec (other_prefix ++ x ++ other_suffix) false_text) as [X|_]; [discriminate|].
  change (firstn (length other_prefix) (other_prefix ++ x ++ other_suffix)) with other_prefix.
  change (skipn (length other_prefix) (other_prefix ++ x ++ other_suffix)) with (x ++ other_suffix).
  destruct (list_eq_dec Z.eq_dec other_prefix other_prefix) as [_|X]; [|congruence].
  rewrite app_length. change (length other_suffix) with 1%nat. rewrite Nat.add_sub.
  rewrite skipn_app, skipn_all, Nat.sub_diag. cbn [app skipn].
  destruct (list_eq_dec Z.eq_dec other_suffix other_suffix) as [_|X]; [|congruence].
  rewrite firstn_app, firstn_all, Nat.sub_diag, firstn_O, app_nil_r, V.
  destruct (Z.eqb_spec n 0) as [->|]; cbn [orb]; [exists st'; auto|].
  destruct (Z.eqb_spec n 1) as [->|]; [exists st'; auto|reflexivity].
Qed.
End Words.

(** ** The library's isspace *)
Definition below (n : nat) : list Z := map Z.of_nat (seq 0 n).
Lemma below_in n c : 0 <= c < Z.of_nat n -> In c (below n).
Proof.
  intros H. unfold below. apply in_map_iff. exists (Z.to_nat c). split; [lia|]. apply in_seq. lia.
Qed.
Lemma isspace_ascii : forallb (fun c => match isspace c with
    | Some b => Bool.eqb b (((9 <=? c) && (c <=? 13)) || ((28 <=? c) && (c <=? 32)))
    | None => false end) (below 128) = true.
Proof. vm_compute. reflexivity. Qed.
Lemma isspace_low c : 0 <= c < 128 ->
  isspace c = Some (((9 <=? c) && (c <=? 13)) || ((28 <=? c) && (c <=? 32))).
Proof.
  intros H. pose proof isspace_ascii as A. rewrite forallb_forall in A.
  specialize (A c (@below_in 128 c ltac:(lia))). destruct (isspace c) as [b|]; [|discriminate].
  apply eqb_prop in A. now rewrite A.
Qed.
Lemma isspace_zero : isspace 0 = Some false.
Proof. rewrite isspace_low by lia. reflexivity. Qed.
Lemma isspace_plain c : 48 <= c <= 57 \/ c = 45 \/ 97 <= c <= 122 -> isspace c = Some false.
Proof.
  intros H. rewrite isspace_low by lia. f_equal.
  repeat match goal with |- context [?a <=? ?b] => destruct (Z.leb_spec a b) end; cbn [andb orb]; lia || reflexivity.
Qed.
