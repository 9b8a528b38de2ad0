(** Proofs about number literals. *)
From Verif Require Import Base Lit_Model Lit_Spec.
From Coq Require Import Ascii String QArith Qpower Lqa.
Local Open Scope Z_scope.

(** * Digit characters *)
Definition std_base (b : Z) : Prop := b = 2 \/ b = 8 \/ b = 10 \/ b = 16.

Definition digit_table_ok (b : Z) : bool :=
  forallb (fun d => forallb (fun t => match nth_error t d with
     | Some c => char_ok b c && (hexval c =? Z.of_nat d) && negb (Ascii.eqb c "'")
                 && negb (Ascii.eqb c ".") && negb (Ascii.eqb c "-")
     | None => false end) [lower_digits; upper_digits]) (seq 0 (Z.to_nat b)).

Lemma digit_table b : std_base b -> digit_table_ok b = true.
Proof. intros [->|[->|[->| ->]]]; vm_compute; reflexivity. Qed.

Lemma digit_char_facts b c d : std_base b -> digit_char b c d ->
  char_ok b c = true /\ hexval c = d /\ Ascii.eqb c "'" = false /\ Ascii.eqb c "." = false /\
  Ascii.eqb c "-" = false.
Proof.
  intros B [R N]. pose proof (digit_table B) as T. unfold digit_table_ok in T.
  rewrite forallb_forall in T. specialize (T (Z.to_nat d)).
  assert (In (Z.to_nat d) (seq 0 (Z.to_nat b))) as I by (apply in_seq; lia).
  specialize (T I). cbn [forallb] in T. rewrite !andb_true_iff in T.
  destruct T as [T1 [T2 _]].
  destruct N as [N|N]; rewrite N in *;
    [rename T1 into T|rename T2 into T]; rewrite !andb_true_iff, !negb_true_iff in T;
    destruct T as [[[[A E] Q] P] M]; apply Z.eqb_eq in E; rewrite Z2Nat.id in E by lia; auto.
Qed.

(** Every character the checker admits is a digit. *)
Definition all_ascii : list ascii := map ascii_of_nat (seq 0 256).
Lemma all_ascii_in c : In c all_ascii.
Proof.
  unfold all_ascii. rewrite <- (ascii_nat_embedding c). apply in_map, in_seq.
  pose proof (nat_ascii_bounded c). lia.
Qed.
Definition admitted_ok (b : Z) : bool :=
  forallb (fun c => negb (char_ok b c) ||
     ((0 <=? hexval c) && (hexval c <? b) &&
      (match nth_error lower_digits (Z.to_nat (hexval c)) with Some c' => Ascii.eqb c c' | None => false end
       || match nth_error upper_digits (Z.to_nat (hexval c)) with Some c' => Ascii.eqb c c' | None => false end)))
    all_ascii.
Lemma admitted_table b : std_base b -> admitted_ok b = true.
Proof. intros [->|[->|[->| ->]]]; vm_compute; reflexivity. Qed.
Lemma char_ok_digit b c : std_base b -> char_ok b c = true -> digit_char b c (hexval c).
Proof.
  intros B C. pose proof (admitted_table B) as T. unfold admitted_ok in T.
  rewrite forallb_forall in T. specialize (T c (all_ascii_in c)). rewrite C in T. cbn [negb orb] in T.
  rewrite !andb_true_iff, orb_true_iff in T. destruct T as [[R1 R2] D].
  split; [lia|]. destruct D as [D|D]; [left|right];
  destruct (nth_error _ _); try discriminate; apply Ascii.eqb_eq in D; subst; reflexivity.
Qed.

Lemma digit_seq_range b cs ds : digit_seq b cs ds -> Forall (fun d => 0 <= d < b) ds.
Proof. induction 1; auto. constructor; auto. apply H. Qed.

Lemma digits_value_range b ds : 2 <= b -> Forall (fun d => 0 <= d < b) ds ->
  0 <= digits_value b ds < b ^ Z.of_nat (List.length ds).
Proof.
  intros B. induction 1 as [|d ds D F IH]; cbn [digits_value List.length].
  - change (b ^ Z.of_nat 0) with 1. lia.
  - rewrite Nat2Z.inj_succ, Z.pow_succ_r by lia. nia.
Qed.
Lemma digits_value_app b ds es : 2 <= b ->
  digits_value b (ds ++ es) = digits_value b ds * b ^ Z.of_nat (List.length es) + digits_value b es.
Proof.
  intros B. induction ds as [|d ds IH]; cbn [app digits_value]; [lia|].
  rewrite IH, app_length, Nat2Z.inj_add, Z.pow_add_r by lia. ring.
Qed.
Lemma digits_value_snoc b ds d : 2 <= b -> digits_value b (ds ++ [d]) = digits_value b ds * b + d.
Proof. intros B. rewrite digits_value_app by lia. cbn [digits_value List.length]. rewrite Z.pow_1_r. change (b ^ Z.of_nat 0) with 1. lia. Qed.

Lemma digit_seq_app b cs ds cs' ds' : digit_seq b cs ds -> digit_seq b cs' ds' -> digit_seq b (cs ++ cs') (ds ++ ds').
Proof. induction 1; intros; cbn [app]; auto; constructor; auto. Qed.

(** * The block accumulation *)
(** The wrapped scale is smaller exactly when the true one does not fit. *)
Definition block_table (sw b : Z) : bool :=
  forallb (fun k => let s := b ^ Z.of_nat k in
     negb (s <? 2 ^ sw) || Bool.eqb ((s * b) mod 2 ^ sw <? s) (2 ^ sw <=? s * b)) (seq 0 (S (Z.to_nat sw))).
Definition size_ok (sw b : Z) : Prop := std_base b /\ 0 < sw /\ 16 < 2 ^ sw /\ block_table sw b = true.
Lemma size_ok_64 b : std_base b -> size_ok 64 b.
Proof.
  intros B. split; [exact B|]. split; [lia|]. split; [reflexivity|].
  destruct B as [->|[->|[->| ->]]]; vm_compute; reflexivity.
Qed.
Lemma size_ok_32 b : std_base b -> b <> 10 -> size_ok 32 b.
Proof.
  intros B N. split; [exact B|]. split; [lia|]. split; [reflexivity|].
  destruct B as [->|[->|[->| ->]]]; try congruence; vm_compute; reflexivity.
Qed.

Section Blocks.
Variable sw : Z.

Lemma std_base_range b : std_base b -> 2 <= b <= 16.
Proof. intros [->|[->|[->| ->]]]; lia. Qed.

Lemma block_test b k : size_ok sw b -> b ^ Z.of_nat k < 2 ^ sw ->
  ((b ^ Z.of_nat k * b) mod 2 ^ sw <? b ^ Z.of_nat k) = (2 ^ sw <=? b ^ Z.of_nat k * b).
Proof.
  intros [B [P [_ T]]] L. unfold block_table in T.
  pose proof (std_base_range B) as R.
  rewrite forallb_forall in T. specialize (T k).
  assert (Z.of_nat k < sw) as K.
  { apply (Z.pow_lt_mono_r_iff 2); [lia|lia|].
    eapply Z.le_lt_trans; [|exact L]. apply Z.pow_le_mono_l. lia. }
  assert (In k (seq 0 (S (Z.to_nat sw)))) as I by (apply in_seq; lia).
  specialize (T I). cbv zeta in T. apply Z.ltb_lt in L. rewrite L in T. cbn [negb orb] in T.
  apply Bool.eqb_prop in T. exact T.
Qed.

(** The digits read so far are [done ++ blk]. *)
Definition iter_inv (b : Z) (ds : list Z) (i : blocks) : Prop :=
  exists dn blk, ds = dn ++ blk /\ i_val i = digits_value b dn /\ i_block i = digits_value b blk /\
    i_scale i = b ^ Z.of_nat (List.length blk) /\ i_scale i < 2 ^ sw.

Lemma iter_inv_start b : size_ok sw b -> iter_inv b [] iter_start.
Proof.
  intros [_ [_ [L _]]].
  exists [], []. repeat split. unfold iter_start, i_scale. lia.
Qed.

Lemma iter_inv_end b ds i : std_base b -> iter_inv b ds i -> iter_end i = digits_value b ds.
Proof.
  intros B [dn [blk [-> [V [K [S _]]]]]]. pose proof (std_base_range B).
  unfold iter_end. rewrite V, K, S, digits_value_app by lia. reflexivity.
Qed.

Lemma iter_inv_push b ds i c d : size_ok sw b -> Forall (fun d => 0 <= d < b) ds -> digit_char b c d ->
  iter_inv b ds i -> iter_inv b (ds ++ [d]) (iter_push sw b c i).
Proof.
  intros G F C [dn [blk [-> [V [K [Sc L]]]]]]. pose proof (proj1 G) as B. pose proof (std_base_range B) as R.
  destruct (digit_char_facts B C) as [_ [E _]]. destruct C as [D _].
  assert (Forall (fun d => 0 <= d < b) blk) as FB by (apply Forall_app in F; apply F).
  destruct (@digits_value_range b blk ltac:(lia) FB) as [B0 B1].
  unfold iter_push. rewrite Sc in *. rewrite block_test by assumption. rewrite E.
  destruct (2 ^ sw <=? b ^ Z.of_nat (List.length blk) * b) eqn:O.
  - exists (dn ++ blk), [d]. repeat split; cbn [i_val i_block i_scale].
    + rewrite V, K, digits_value_app by lia. reflexivity.
    + cbn [digits_value List.length]. change (b ^ Z.of_nat 0) with 1. lia.
    + cbn [List.length]. rewrite Z.pow_1_r. reflexivity.
    + destruct G as [_ [_ [L' _]]]. lia.
  - apply Z.leb_gt in O. exists dn, (blk ++ [d]). repeat split; cbn [i_val i_block i_scale].
    + rewrite app_assoc. reflexivity.
    + exact V.
    + rewrite K, digits_value_snoc by lia. apply Z.mod_small. nia.
    + rewrite app_length, Nat2Z.inj_add. cbn [List.length]. rewrite Z.pow_add_r by lia.
      change (Z.of_nat 1) with 1. rewrite Z.pow_1_r. apply Z.mod_small. lia.
    + rewrite Z.mod_small; lia.
Qed.

Lemma eval_impl_spec b cs ds : size_ok sw b -> digit_seq b cs ds ->
  forall pre i, Forall (fun d => 0 <= d < b) pre -> iter_inv b pre i ->
  exists i', eval_impl sw b cs i = Some i' /\ iter_inv b (pre ++ ds) i'.
Proof.
  intros G. pose proof (proj1 G) as B. induction 1 as [|cs ds Q IH|c d cs ds C Q IH]; intros pre i F I.
  - exists i. rewrite app_nil_r. split; [reflexivity|exact I].
  - cbn [eval_impl]. rewrite Ascii.eqb_refl. apply IH; assumption.
  - cbn [eval_impl]. destruct (digit_char_facts B C) as [O [E [Q1 _]]]. rewrite Q1, O.
    destruct (IH (pre ++ [d]) (iter_push sw b c i)) as [i' [E' I']].
    + apply Forall_app. split; auto. constructor; auto. apply C.
    + apply iter_inv_push; assumption.
    + exists i'. split; auto. rewrite <- app_assoc in I'. exact I'.
Qed.

Lemma do_eval_spec b cs ds : size_ok sw b -> digit_seq b cs ds -> do_eval sw b cs = Some (digits_value b ds).
Proof.
  intros G Q. destruct (@eval_impl_spec b cs ds G Q [] iter_start (Forall_nil _) (iter_inv_start G)) as [i [E I]].
  unfold do_eval. rewrite E. cbn [option_map]. f_equal. apply (iter_inv_end (proj1 G) I).
Qed.

(** What is read is always a sequence of digits. *)
Lemma eval_impl_digits b cs : std_base b -> forall i i', eval_impl sw b cs i = Some i' -> exists ds, digit_seq b cs ds.
Proof.
  intros B. induction cs as [|c cs IH]; intros i i' H; cbn [eval_impl] in H.
  - exists []. constructor.
  - destruct (Ascii.eqb c "'") eqn:Q.
    + apply Ascii.eqb_eq in Q. subst c. destruct (IH _ _ H) as [ds D]. exists ds. constructor. exact D.
    + destruct (char_ok b c) eqn:O; [|discriminate].
      destruct (IH _ _ H) as [ds D]. exists (hexval c :: ds). constructor; auto. apply char_ok_digit; auto.
Qed.
Lemma do_eval_digits b cs v : size_ok sw b -> do_eval sw b cs = Some v -> exists ds, digit_seq b cs ds /\ v = digits_value b ds.
Proof.
  intros G H. unfold do_eval in H. destruct (eval_impl sw b cs iter_start) as [i|] eqn:E; [|discriminate].
  destruct (eval_impl_digits (proj1 G) E) as [ds D]. exists ds. split; auto.
  pose proof (do_eval_spec G D) as V. unfold do_eval in V. rewrite E in V. congruence.
Qed.

Lemma std2 : std_base 2. Proof. unfold std_base; auto. Qed.
Lemma std8 : std_base 8. Proof. unfold std_base; auto. Qed.
Lemma std10 : std_base 10. Proof. unfold std_base; auto. Qed.
Lemma std16 : std_base 16. Proof. unfold std_base; auto. Qed.

(** A literal that starts with digits of base 8 has no x or b behind the zero. *)
Lemma oct_second c1 cs ds : digit_seq 8 (c1 :: cs) ds ->
  Ascii.eqb c1 "x" || Ascii.eqb c1 "X" = false /\ Ascii.eqb c1 "b" || Ascii.eqb c1 "B" = false.
Proof.
  intros Q.
  assert (c1 = "'"%char \/ char_ok 8 c1 = true) as [->|O].
  { inversion Q; subst; auto. right. apply (digit_char_facts std8 H1). }
  - split; reflexivity.
  - split; match goal with |- ?e = false => destruct e eqn:X; [|reflexivity] end;
    apply orb_true_iff in X; destruct X as [X|X]; apply Ascii.eqb_eq in X; subst c1; discriminate O.
Qed.

Lemma eval_with_base_oct db cs ds : size_ok sw 8 -> digit_seq 8 cs ds ->
  eval_with_base sw db ("0"%char :: cs) = Some (digits_value 8 ds).
Proof.
  intros G Q. cbn [eval_with_base]. rewrite Ascii.eqb_refl. destruct cs as [|c1 cs].
  - apply (do_eval_spec G Q).
  - destruct (oct_second Q) as [X Y]. rewrite X, Y. apply (do_eval_spec G Q).
Qed.
Lemma eval_with_base_plain db c cs ds : size_ok sw db -> c <> "0"%char -> digit_seq db (c :: cs) ds ->
  eval_with_base sw db (c :: cs) = Some (digits_value db ds).
Proof.
  intros B N Q. cbn [eval_with_base]. apply Ascii.eqb_neq in N. rewrite N. apply (do_eval_spec B Q).
Qed.

Lemma ubigint_literal_spec cs b ds : size_ok sw b -> integer_literal cs b ds ->
  ubigint_literal sw cs = Some (digits_value b ds).
Proof.
  unfold ubigint_literal. intros G L. destruct L as [x cs' ds' X Q|x cs' ds' X Q|cs' ds' Q|c cs' ds' N Q].
  - cbn [eval_with_base]. rewrite Ascii.eqb_refl.
    replace (Ascii.eqb x "x" || Ascii.eqb x "X") with true by (destruct X; subst; reflexivity).
    apply (do_eval_spec G Q).
  - cbn [eval_with_base]. rewrite Ascii.eqb_refl.
    replace (Ascii.eqb x "x" || Ascii.eqb x "X") with false by (destruct X; subst; reflexivity).
    replace (Ascii.eqb x "b" || Ascii.eqb x "B") with true by (destruct X; subst; reflexivity).
    apply (do_eval_spec G Q).
  - apply (eval_with_base_oct 10 G Q).
  - apply (eval_with_base_plain G N Q).
Qed.

Lemma ubigint_literal_only cs v : (forall b, std_base b -> size_ok sw b) -> cs <> [] -> ubigint_literal sw cs = Some v ->
  exists b ds, integer_literal cs b ds /\ v = digits_value b ds.
Proof.
  unfold ubigint_literal. intros G N H. destruct cs as [|c cs]; [congruence|]. cbn [eval_with_base] in H.
  destruct (Ascii.eqb c "0") eqn:C0.
  - apply Ascii.eqb_eq in C0. subst c. destruct cs as [|c1 cs].
    + destruct (do_eval_digits (G _ std8) H) as [ds [D E]]. exists 8, ds. split; [constructor; exact D|exact E].
    + destruct (Ascii.eqb c1 "x" || Ascii.eqb c1 "X") eqn:X.
      * destruct (do_eval_digits (G _ std16) H) as [ds [D E]]. exists 16, ds. split; [|exact E].
        constructor; auto. apply orb_true_iff in X. rewrite !Ascii.eqb_eq in X. exact X.
      * destruct (Ascii.eqb c1 "b" || Ascii.eqb c1 "B") eqn:Y.
        -- destruct (do_eval_digits (G _ std2) H) as [ds [D E]]. exists 2, ds. split; [|exact E].
           constructor; auto. apply orb_true_iff in Y. rewrite !Ascii.eqb_eq in Y. exact Y.
        -- destruct (do_eval_digits (G _ std8) H) as [ds [D E]]. exists 8, ds. split; [constructor; exact D|exact E].
  - destruct (do_eval_digits (G _ std10) H) as [ds [D E]]. exists 10, ds. split; [|exact E].
    constructor; auto. apply Ascii.eqb_neq. exact C0.
Qed.

Lemma signed_pos db c cs : c <> "-"%char -> signed_eval_with_base sw db (c :: cs) = eval_with_base sw db (c :: cs).
Proof. intros N. cbn [signed_eval_with_base]. apply Ascii.eqb_neq in N. rewrite N. reflexivity. Qed.

Lemma digit_seq_no_minus b cs ds : std_base b -> ~ digit_seq b ("-"%char :: cs) ds.
Proof.
  intros B Q. inversion Q; subst. destruct (digit_char_facts B H1) as [_ [_ [_ [_ M]]]]. discriminate M.
Qed.

Lemma bigint_literal_spec cs b ds : size_ok sw b -> integer_literal cs b ds ->
  bigint_literal sw cs = Some (digits_value b ds).
Proof.
  intros G L. pose proof (ubigint_literal_spec G L) as U. unfold bigint_literal, ubigint_literal in *.
  destruct L as [x cs' ds' X Q|x cs' ds' X Q|cs' ds' Q|c cs' ds' N Q];
  try (rewrite signed_pos by discriminate; exact U).
  rewrite signed_pos; [exact U|]. intros ->. exact (@digit_seq_no_minus 10 _ _ std10 Q).
Qed.

(** * Literals with a point and an exponent *)
Definition exp_clash (b : Z) (e : ascii) : bool :=
  forallb (fun c => negb (char_ok b c) || negb ((code c =? code e) || (code c =? code e - 32))) all_ascii.
Lemma exp_clash_10 : exp_clash 10 "e" = true. Proof. vm_compute. reflexivity. Qed.
Lemma exp_clash_16 : exp_clash 16 "p" = true. Proof. vm_compute. reflexivity. Qed.
Definition std_exp (b : Z) (e e' : ascii) : Prop :=
  (b = 10 /\ e = "e"%char /\ e' = "E"%char) \/ (b = 16 /\ e = "p"%char /\ e' = "P"%char).
Lemma exp_no_clash b e e' c : std_exp b e e' -> char_ok b c = true -> (code c =? code e) || (code c =? code e - 32) = false.
Proof.
  intros E C.
  assert (exp_clash b e = true) as T by (destruct E as [[-> [-> _]]|[-> [-> _]]]; [exact exp_clash_10|exact exp_clash_16]).
  unfold exp_clash in T. rewrite forallb_forall in T. specialize (T c (all_ascii_in c)).
  rewrite C in T. cbn [negb orb] in T. apply negb_true_iff. exact T.
Qed.
Lemma exp_sep b e e' : std_exp b e e' -> (code "'" =? code e) || (code "'" =? code e - 32) = false.
Proof. intros [[-> [-> _]]|[-> [-> _]]]; reflexivity. Qed.

(** The integer or the fraction digits are read. *)
Lemma feval_digits b e e' cs ds pointed rest : size_ok sw b -> std_exp b e e' -> digit_seq b cs ds ->
  forall pre i exp, Forall (fun d => 0 <= d < b) pre -> iter_inv b pre i ->
  exists i', iter_inv b (pre ++ ds) i' /\ Forall (fun d => 0 <= d < b) (pre ++ ds) /\
    feval_impl sw b e pointed (cs ++ rest) i exp =
    feval_impl sw b e pointed rest i' (if pointed then exp - Z.of_nat (List.length ds) else exp).
Proof.
  intros G E. pose proof (proj1 G) as B.
  induction 1 as [|cs ds Q IH|c d cs ds C Q IH]; intros pre i exp F I.
  - exists i. rewrite app_nil_r. repeat split; auto. cbn [app List.length Z.of_nat].
    destruct pointed; [rewrite Z.sub_0_r|]; reflexivity.
  - destruct (IH pre i exp F I) as [i' [I' [F' E']]]. exists i'. repeat split; auto.
    cbn [app feval_impl]. change (Ascii.eqb "'" ".") with false. cbv iota. rewrite (exp_sep E), Ascii.eqb_refl.
    exact E'.
  - destruct (digit_char_facts B C) as [O [_ [Q1 [Q2 _]]]].
    destruct (IH (pre ++ [d]) (iter_push sw b c i) (if pointed then exp - 1 else exp)) as [i' [I' [F' E']]].
    + apply Forall_app. split; auto. constructor; auto. apply C.
    + apply iter_inv_push; assumption.
    + rewrite <- app_assoc in I', F'. exists i'. repeat split; auto.
      cbn [app feval_impl]. rewrite Q2, (exp_no_clash E O), Q1, O. rewrite E'.
      f_equal. cbn [List.length]. destruct pointed; lia.
Qed.

(** The value the code gives a literal of these parts, [x] being the exponent it reads. *)
Definition code_value (b : Z) (ids fds : list Z) (x : Z) : Q :=
  (inject_Z (digits_value b (ids ++ fds)) * (inject_Z b) ^ (x - Z.of_nat (List.length fds)))%Q.
Definition exp_read (b : Z) (es : option (list ascii)) : option Z :=
  match es with None => Some 0 | Some es => signed_eval_with_base sw b es end.

Lemma fdo_eval_spec b e e' cs is fs es ids fds : size_ok sw b -> std_exp b e e' ->
  float_parts e e' cs is fs es ->
  digit_seq b is ids -> digit_seq b fs fds ->
  fdo_eval sw b e cs = option_map (code_value b ids fds) (exp_read b es).
Proof.
  intros G E P QI QF. pose proof (proj1 G) as B. unfold fdo_eval.
  assert (forall c, c = e \/ c = e' ->
    Ascii.eqb c "." = false /\ (code c =? code e) || (code c =? code e - 32) = true) as EC.
  { intros c. destruct E as [[-> [-> ->]]|[-> [-> ->]]]; intros [->| ->]; split; reflexivity. }
  pose proof (iter_inv_start G) as I0.
  destruct P as [is|is fs|is c es EE|is fs c es EE].
  - destruct (@feval_digits b e e' is ids false [] G E QI [] iter_start 0 (Forall_nil _) I0) as [i [I [F H]]].
    rewrite app_nil_r in H. rewrite H. cbn [feval_impl]. inversion QF; subst.
    cbn [exp_read option_map]. rewrite (iter_inv_end B I). unfold code_value.
    cbn [app List.length]. rewrite app_nil_r. reflexivity.
  - destruct (@feval_digits b e e' is ids false ("."%char :: fs) G E QI [] iter_start 0 (Forall_nil _) I0) as [i [I [F H]]].
    rewrite H. cbn [feval_impl]. rewrite Ascii.eqb_refl.
    destruct (@feval_digits b e e' fs fds true [] G E QF ([] ++ ids) i 0 F I) as [i2 [I2 [F2 H2]]].
    rewrite app_nil_r in H2. rewrite H2. cbn [feval_impl exp_read option_map].
    rewrite (iter_inv_end B I2). reflexivity.
  - destruct (EC c EE) as [C1 C2].
    destruct (@feval_digits b e e' is ids false (c :: es) G E QI [] iter_start 0 (Forall_nil _) I0) as [i [I [F H]]].
    rewrite H. cbn [feval_impl]. rewrite C1, C2. cbn [exp_read].
    destruct (signed_eval_with_base sw b es) as [x|]; [|reflexivity]. inversion QF; subst.
    rewrite (iter_inv_end B I). unfold code_value. cbn [app List.length option_map]. rewrite app_nil_r.
    do 3 f_equal. lia.
  - destruct (EC c EE) as [C1 C2].
    destruct (@feval_digits b e e' is ids false ("."%char :: fs ++ c :: es) G E QI [] iter_start 0 (Forall_nil _) I0) as [i [I [F H]]].
    rewrite H. cbn [feval_impl]. rewrite Ascii.eqb_refl.
    destruct (@feval_digits b e e' fs fds true (c :: es) G E QF ([] ++ ids) i 0 F I) as [i2 [I2 [F2 H2]]].
    rewrite H2. cbn [feval_impl]. rewrite C1, C2. cbn [exp_read].
    destruct (signed_eval_with_base sw b es) as [x|]; [|reflexivity].
    rewrite (iter_inv_end B I2). unfold code_value. cbn [app option_map]. do 3 f_equal. lia.
Qed.

Lemma ubigfloat_hex x cs : x = "x"%char \/ x = "X"%char ->
  ubigfloat_literal sw ("0"%char :: x :: cs) = fdo_eval sw 16 "p" cs.
Proof. intros [->| ->]; reflexivity. Qed.

Lemma digit_seq_head_not_x cs ds c : digit_seq 10 (c :: cs) ds -> Ascii.eqb c "x" || Ascii.eqb c "X" = false.
Proof.
  intros Q. inversion Q; subst; [reflexivity|].
  destruct (digit_char_facts std10 H1) as [O _].
  match goal with |- ?e = false => destruct e eqn:X; [|reflexivity] end.
  apply orb_true_iff in X; destruct X as [X|X]; apply Ascii.eqb_eq in X; subst c; discriminate O.
Qed.

Lemma ubigfloat_dec cs is fs es ids : float_parts "e" "E" cs is fs es -> digit_seq 10 is ids ->
  ubigfloat_literal sw cs = fdo_eval sw 10 "e" cs.
Proof.
  intros P Q. unfold ubigfloat_literal. destruct cs as [|c [|c1 cs2]]; try reflexivity.
  replace (Ascii.eqb c "0" && (Ascii.eqb c1 "x" || Ascii.eqb c1 "X")) with false; [reflexivity|].
  symmetry. apply andb_false_iff.
  assert (forall r, (r = [] \/ exists d t, r = d :: t /\ (d = "."%char \/ d = "e"%char \/ d = "E"%char)) ->
     c :: c1 :: cs2 = is ++ r -> Ascii.eqb c "0" = false \/ Ascii.eqb c1 "x" || Ascii.eqb c1 "X" = false) as K.
  { intros r R EQ. destruct is as [|i1 [|i2 is]]; cbn [app] in EQ.
    - left. destruct R as [->|[d [t [-> D]]]]; [discriminate|]. injection EQ as -> _.
      destruct D as [->|[->| ->]]; reflexivity.
    - right. destruct R as [->|[d [t [-> D]]]]; [discriminate|]. injection EQ as _ -> _.
      destruct D as [->|[->| ->]]; reflexivity.
    - right. injection EQ as -> -> _. inversion Q; subst; eapply digit_seq_head_not_x; eassumption. }
  inversion P; subst.
  - apply (K []); [left; reflexivity|]. rewrite app_nil_r. auto.
  - match goal with H : _ = c :: c1 :: cs2 |- _ => symmetry in H; refine (K _ _ H) end.
    right. do 2 eexists. split; [reflexivity|]. auto.
  - match goal with H : _ = c :: c1 :: cs2 |- _ => symmetry in H; refine (K _ _ H) end.
    right. do 2 eexists. split; [reflexivity|]. right. assumption.
  - match goal with H : _ = c :: c1 :: cs2 |- _ => symmetry in H; refine (K _ _ H) end.
    right. do 2 eexists. split; [reflexivity|]. auto.
Qed.
End Blocks.

(** * The exponents *)
Definition Qb (b : Z) (x : Z) : Q := ((inject_Z b) ^ x)%Q.
Lemma inject_nz b : 2 <= b -> ~ (inject_Z b == 0)%Q.
Proof. intros B E. unfold Qeq in E. cbn in E. lia. Qed.

Lemma code_value_float b ids fds x : 2 <= b -> (code_value b ids fds x == float_value b b ids fds x)%Q.
Proof.
  intros B. unfold code_value, float_value. rewrite <- Qmult_assoc, <- Qpower_plus by (apply inject_nz; lia).
  replace (- Z.of_nat (List.length fds) + x) with (x - Z.of_nat (List.length fds)) by lia. reflexivity.
Qed.


Definition sgn (neg : bool) (v : Z) : Z := if neg then - v else v.
Lemma exponent_value_sgn neg ds : exponent_value neg ds = sgn neg (digits_value 10 ds).
Proof. reflexivity. Qed.

Lemma signed_eval_digits sw b es neg eds v : exponent_part es neg eds -> es <> [] ->
  eval_with_base sw b (exp_digits es) = v -> signed_eval_with_base sw b es = option_map (sgn neg) v.
Proof.
  intros P N H. destruct P as [cs ds Q|cs ds Q].
  - destruct cs as [|c cs]; [congruence|].
    assert (c <> "-"%char) as C by (intros ->; exact (@digit_seq_no_minus 10 _ _ std10 Q)).
    rewrite signed_pos by exact C. cbn [exp_digits] in H. apply Ascii.eqb_neq in C. rewrite C in H. subst v.
    destruct (eval_with_base sw b (c :: cs)); reflexivity.
  - cbn [exp_digits] in H. rewrite Ascii.eqb_refl in H. subst v. cbn [signed_eval_with_base]. rewrite Ascii.eqb_refl.
    reflexivity.
Qed.

Lemma digit_char_mono b b' c d : b <= b' -> digit_char b c d -> digit_char b' c d.
Proof. intros L [R N]. split; [lia|exact N]. Qed.
Lemma digit_seq_mono b b' cs ds : b <= b' -> digit_seq b cs ds -> digit_seq b' cs ds.
Proof. intros L. induction 1; constructor; auto. eapply digit_char_mono; eassumption. Qed.
Lemma digit_char_fun b c d d' : std_base b -> digit_char b c d -> digit_char b c d' -> d = d'.
Proof. intros B C C'. destruct (digit_char_facts B C) as [_ [E _]]. destruct (digit_char_facts B C') as [_ [E' _]]. congruence. Qed.
Lemma digit_seq_fun b cs ds : std_base b -> digit_seq b cs ds -> forall ds', digit_seq b cs ds' -> ds = ds'.
Proof.
  intros B. induction 1 as [|cs ds Q IH|c d cs ds C Q IH]; intros ds' H.
  - inversion H. reflexivity.
  - inversion H; subst; [apply IH; assumption|]. destruct (digit_char_facts B H2) as [_ [_ [X _]]]. discriminate X.
  - inversion H; subst.
    + destruct (digit_char_facts B C) as [_ [_ [X _]]]. discriminate X.
    + f_equal; [eapply digit_char_fun; eassumption|apply IH; assumption].
Qed.


Lemma exp_digits_seq es neg eds : exponent_part es neg eds -> digit_seq 10 (exp_digits es) eds.
Proof.
  intros [cs ds Q|cs ds Q]; cbn [exp_digits].
  - destruct cs as [|c cs]; [exact Q|]. cbn [exp_digits]. destruct (Ascii.eqb c "-") eqn:C; [|exact Q].
    apply Ascii.eqb_eq in C. subst c. destruct (@digit_seq_no_minus 10 _ _ std10 Q).
  - rewrite Ascii.eqb_refl. exact Q.
Qed.

Lemma digit_zero b : std_base b -> digit_char b "0" 0.
Proof. intros B. pose proof (std_base_range B). split; [lia|]. left. reflexivity. Qed.

(** An exponent without leading zeros is read in the base of the literal. *)
Lemma exponent_read sw b es neg eds : size_ok sw b -> size_ok sw 8 -> 10 <= b ->
  exponent_part es neg eds -> no_leading_zero es ->
  signed_eval_with_base sw b es = Some (sgn neg (digits_value b eds)).
Proof.
  intros G G8 B P N. pose proof (exp_digits_seq P) as Q.
  assert (es <> []) as NE by (intros ->; destruct N as [N|[c [t [N _]]]]; discriminate N).
  destruct N as [N|[c [t [N C]]]].
  - rewrite N in Q.
    assert (eds = [0]) as ->.
    { apply (digit_seq_fun std10 Q). constructor; [apply digit_zero; exact std10|constructor]. }
    erewrite signed_eval_digits; [|exact P|exact NE|rewrite N; exact (@eval_with_base_oct sw b [] [] G8 (ds_nil 8))].
    reflexivity.
  - rewrite N in Q. apply (digit_seq_mono B) in Q.
    erewrite signed_eval_digits; [|exact P|exact NE|rewrite N; apply (eval_with_base_plain G C Q)].
    reflexivity.
Qed.

Lemma decimal_literal_spec cs is fs es ids fds neg eds : 
  float_parts "e" "E" cs is fs (Some es) -> digit_seq 10 is ids -> digit_seq 10 fs fds ->
  exponent_part es neg eds -> no_leading_zero es ->
  exists q, ubigfloat_literal 64 cs = Some q /\ (q == float_value 10 10 ids fds (exponent_value neg eds))%Q.
Proof.
  intros P QI QF PE N.
  exists (code_value 10 ids fds (exponent_value neg eds)). split; [|apply code_value_float; lia].
  rewrite (ubigfloat_dec 64 P QI).
  rewrite (fdo_eval_spec (size_ok_64 std10) (or_introl (conj eq_refl (conj eq_refl eq_refl))) P QI QF).
  cbn [exp_read]. rewrite (exponent_read (size_ok_64 std10) (size_ok_64 std8) (Z.le_refl 10) PE N). reflexivity.
Qed.
Lemma decimal_literal_no_exp cs is fs ids fds :
  float_parts "e" "E" cs is fs None -> digit_seq 10 is ids -> digit_seq 10 fs fds ->
  exists q, ubigfloat_literal 64 cs = Some q /\ (q == float_value 10 10 ids fds 0)%Q.
Proof.
  intros P QI QF. exists (code_value 10 ids fds 0). split; [|apply code_value_float; lia].
  rewrite (ubigfloat_dec 64 P QI).
  rewrite (fdo_eval_spec (size_ok_64 std10) (or_introl (conj eq_refl (conj eq_refl eq_refl))) P QI QF).
  reflexivity.
Qed.

Lemma Qb_pos b x : 2 <= b -> (0 < Qb b x)%Q.
Proof. intros B. apply Qpower_0_lt. unfold Qlt. cbn. lia. Qed.
Lemma Qb_lt b x y : 2 <= b -> x < y -> (Qb b x < Qb b y)%Q.
Proof. intros B L. apply Qpower_lt_compat_l; [exact L|]. unfold Qlt. cbn. lia. Qed.
Lemma Qb_inj b x y : 2 <= b -> (Qb b x == Qb b y)%Q -> x = y.
Proof.
  intros B E. destruct (Z.lt_trichotomy x y) as [L|[L|L]]; auto; apply (@Qb_lt b) in L; try lia; lra.
Qed.

Lemma float_value_inj b eb ids fds x y : 2 <= b -> 2 <= eb -> digits_value b (ids ++ fds) <> 0 ->
  (float_value b eb ids fds x == float_value b eb ids fds y)%Q -> x = y.
Proof.
  intros B EB N E. unfold float_value in E. apply (@Qb_inj eb); [lia|]. unfold Qb.
  apply Qmult_inj_l in E; [exact E|]. intros Z0. apply Qmult_integral in Z0. destruct Z0 as [Z0|Z0].
  - unfold Qeq in Z0. cbn in Z0. lia.
  - pose proof (Qb_pos (- Z.of_nat (List.length fds)) B) as P. unfold Qb in P. lra.
Qed.

(** Octal and decimal readings of the same digits. *)
Lemma oct_le_dec ds : Forall (fun d => 0 <= d < 8) ds -> digits_value 8 ds <= digits_value 10 ds.
Proof.
  induction 1 as [|d ds D F IH]; cbn [digits_value]; [lia|].
  assert (8 ^ Z.of_nat (List.length ds) <= 10 ^ Z.of_nat (List.length ds)) by (apply Z.pow_le_mono_l; lia). nia.
Qed.
Lemma oct_lt_dec ds : Forall (fun d => 0 <= d < 8) ds -> 10 <= digits_value 10 ds -> digits_value 8 ds < digits_value 10 ds.
Proof.
  induction 1 as [|d ds D F IH]; cbn [digits_value]; [lia|]. intros L.
  pose proof (oct_le_dec F) as W.
  assert (8 ^ Z.of_nat (List.length ds) <= 10 ^ Z.of_nat (List.length ds)) as M by (apply Z.pow_le_mono_l; lia).
  destruct (Z_le_gt_dec 10 (digits_value 10 ds)) as [G|G]; [specialize (IH G); nia|].
  destruct ds as [|d2 ds]; [cbn [digits_value List.length] in *; change (10 ^ Z.of_nat 0) with 1 in L; lia|].
  assert (0 < d) by nia.
  assert (8 ^ Z.of_nat (List.length (d2 :: ds)) < 10 ^ Z.of_nat (List.length (d2 :: ds))).
  { apply Z.pow_lt_mono_l; cbn [List.length]; lia. }
  nia.
Qed.
Lemma dec_le_hex ds : Forall (fun d => 0 <= d < 10) ds -> digits_value 10 ds <= digits_value 16 ds.
Proof.
  induction 1 as [|d ds D F IH]; cbn [digits_value]; [lia|].
  assert (10 ^ Z.of_nat (List.length ds) <= 16 ^ Z.of_nat (List.length ds)) by (apply Z.pow_le_mono_l; lia). nia.
Qed.

(** An exponent with a leading zero is read as an octal number. *)
Lemma octal_exponent_read sw b es t neg eds ods : size_ok sw 8 -> exponent_part es neg eds ->
  exp_digits es = "0"%char :: t -> digit_seq 8 t ods ->
  signed_eval_with_base sw b es = Some (sgn neg (digits_value 8 ods)) /\ eds = 0 :: ods.
Proof.
  intros G P E Q. pose proof (exp_digits_seq P) as D. rewrite E in D. split.
  - assert (es <> []) as NE by (intros ->; discriminate E).
    erewrite signed_eval_digits; [|exact P|exact NE|rewrite E; apply (eval_with_base_oct b G Q)]. reflexivity.
  - apply (digit_seq_fun std10 D). constructor; [apply digit_zero; exact std10|].
    eapply digit_seq_mono; [|exact Q]. lia.
Qed.

Lemma octal_exponent_wrong cs is fs es ids fds neg eds t ods :
  float_parts "e" "E" cs is fs (Some es) -> digit_seq 10 is ids -> digit_seq 10 fs fds ->
  exponent_part es neg eds -> exp_digits es = "0"%char :: t -> digit_seq 8 t ods ->
  10 <= digits_value 10 eds -> digits_value 10 (ids ++ fds) <> 0 ->
  exists q, ubigfloat_literal 64 cs = Some q /\ ~ (q == float_value 10 10 ids fds (exponent_value neg eds))%Q.
Proof.
  intros P QI QF PE E QO L M. destruct (octal_exponent_read 10 (size_ok_64 std8) PE E QO) as [R ->].
  exists (code_value 10 ids fds (sgn neg (digits_value 8 ods))). split.
  - rewrite (ubigfloat_dec 64 P QI).
    rewrite (fdo_eval_spec (size_ok_64 std10) (or_introl (conj eq_refl (conj eq_refl eq_refl))) P QI QF).
    cbn [exp_read]. rewrite R. reflexivity.
  - rewrite code_value_float by lia. intros H. apply float_value_inj in H; [|lia|lia|exact M].
    unfold exponent_value in H. cbn [digits_value] in H, L. rewrite Z.mul_0_l, Z.add_0_l in H, L.
    pose proof (oct_lt_dec (digit_seq_range QO) L). unfold sgn in H. destruct neg; lia.
Qed.

(** ... and is refused if it has an 8 or a 9. *)
Lemma octal_exponent_refused cs is fs es ids fds neg eds t :
  float_parts "e" "E" cs is fs (Some es) -> digit_seq 10 is ids -> digit_seq 10 fs fds ->
  exponent_part es neg eds -> exp_digits es = "0"%char :: t -> (forall ods, ~ digit_seq 8 t ods) ->
  ubigfloat_literal 64 cs = None.
Proof.
  intros P QI QF PE E N. rewrite (ubigfloat_dec 64 P QI).
  rewrite (fdo_eval_spec (size_ok_64 std10) (or_introl (conj eq_refl (conj eq_refl eq_refl))) P QI QF).
  cbn [exp_read]. assert (es <> []) as NE by (intros ->; discriminate E).
  erewrite signed_eval_digits; [|exact PE|exact NE|rewrite E; reflexivity].
  pose proof (exp_digits_seq PE) as D. rewrite E in D.
  assert (eval_with_base 64 10 ("0"%char :: t) = None) as ->; [|reflexivity].
  cbn [eval_with_base]. rewrite Ascii.eqb_refl. destruct t as [|c1 t]; [destruct (N [] (ds_nil 8))|].
  assert (exists ds1, digit_seq 10 (c1 :: t) ds1) as [ds1 D1] by (inversion D; subst; eauto).
  rewrite (digit_seq_head_not_x D1).
  replace (Ascii.eqb c1 "b" || Ascii.eqb c1 "B") with false.
  - destruct (do_eval 64 8 (c1 :: t)) as [v|] eqn:V; [|reflexivity].
    destruct (do_eval_digits (size_ok_64 std8) V) as [ds [Q _]]. destruct (N _ Q).
  - symmetry. match goal with |- ?e = false => destruct e eqn:X; [|reflexivity] end.
    apply orb_true_iff in X; destruct X as [X|X]; apply Ascii.eqb_eq in X; subst c1; inversion D1; subst;
    destruct (digit_char_facts std10 H1) as [O _]; discriminate O.
Qed.

(** A plus sign in the exponent is refused. *)
Lemma plus_refused cs is fs t ids fds : float_parts "e" "E" cs is fs (Some ("+"%char :: t)) ->
  digit_seq 10 is ids -> digit_seq 10 fs fds -> ubigfloat_literal 64 cs = None.
Proof.
  intros P QI QF. rewrite (ubigfloat_dec 64 P QI).
  rewrite (fdo_eval_spec (size_ok_64 std10) (or_introl (conj eq_refl (conj eq_refl eq_refl))) P QI QF).
  reflexivity.
Qed.

(** Hexadecimal literals. *)
Lemma pow16 x : (inject_Z 16 ^ x == inject_Z 2 ^ (4 * x))%Q.
Proof. change (inject_Z 16) with (inject_Z 2 ^ 4)%Q. rewrite Qpower_mult. reflexivity. Qed.

Lemma hex_value x cs is fs es ids fds neg eds : x = "x"%char \/ x = "X"%char ->
  float_parts "p" "P" cs is fs (Some es) -> digit_seq 16 is ids -> digit_seq 16 fs fds ->
  exponent_part es neg eds -> no_leading_zero es ->
  exists q, ubigfloat_literal 64 ("0"%char :: x :: cs) = Some q /\
    (q == float_value 16 2 ids fds (4 * sgn neg (digits_value 16 eds)))%Q.
Proof.
  intros X P QI QF PE N. exists (code_value 16 ids fds (sgn neg (digits_value 16 eds))). split.
  - rewrite (ubigfloat_hex 64 cs X).
    rewrite (fdo_eval_spec (size_ok_64 std16) (or_intror (conj eq_refl (conj eq_refl eq_refl))) P QI QF).
    cbn [exp_read]. rewrite (exponent_read (size_ok_64 std16) (size_ok_64 std8) ltac:(lia) PE N). reflexivity.
  - rewrite code_value_float by lia. unfold float_value. rewrite (pow16 (sgn neg (digits_value 16 eds))). reflexivity.
Qed.
Lemma hex_exponent_wrong x cs is fs es ids fds neg eds : x = "x"%char \/ x = "X"%char ->
  float_parts "p" "P" cs is fs (Some es) -> digit_seq 16 is ids -> digit_seq 16 fs fds ->
  exponent_part es neg eds -> no_leading_zero es ->
  digits_value 10 eds <> 0 -> digits_value 16 (ids ++ fds) <> 0 ->
  exists q, ubigfloat_literal 64 ("0"%char :: x :: cs) = Some q /\
    ~ (q == float_value 16 2 ids fds (exponent_value neg eds))%Q.
Proof.
  intros X P QI QF PE N NZ M. destruct (hex_value X P QI QF PE N) as [q [E V]]. exists q. split; [exact E|].
  rewrite V. intros H. apply float_value_inj in H; [|lia|lia|exact M].
  pose proof (digit_seq_range (exp_digits_seq PE)) as R.
  pose proof (dec_le_hex R). destruct (@digits_value_range 10 eds ltac:(lia) R) as [R0 _].
  unfold exponent_value, sgn in H. destruct neg; lia.
Qed.
Lemma hex_exponent_zero x cs is fs es ids fds neg eds : x = "x"%char \/ x = "X"%char ->
  float_parts "p" "P" cs is fs (Some es) -> digit_seq 16 is ids -> digit_seq 16 fs fds ->
  exponent_part es neg eds -> no_leading_zero es -> digits_value 16 eds = 0 ->
  exists q, ubigfloat_literal 64 ("0"%char :: x :: cs) = Some q /\ (q == float_value 16 2 ids fds 0)%Q.
Proof.
  intros X P QI QF PE N E0. destruct (hex_value X P QI QF PE N) as [q [E V]]. exists q. split; [exact E|].
  rewrite V, E0. destruct neg; reflexivity.
Qed.

(** * Literals of built-in types *)
Lemma neval_spec n b cs ds : 0 <= n -> std_base b -> digit_seq b cs ds ->
  forall pre, neval_impl n b cs (digits_value b pre mod 2 ^ n) = Some (digits_value b (pre ++ ds) mod 2 ^ n).
Proof.
  intros N B. pose proof (std_base_range B) as R.
  assert (2 ^ n <> 0) as NZ by (apply Z.pow_nonzero; lia).
  induction 1 as [|cs ds Q IH|c d cs ds C Q IH]; intros pre.
  - rewrite app_nil_r. reflexivity.
  - cbn [neval_impl]. rewrite Ascii.eqb_refl. apply IH.
  - cbn [neval_impl]. destruct (digit_char_facts B C) as [O [E [Q1 _]]]. rewrite Q1, O, E.
    rewrite Zmult_mod_idemp_l. rewrite Zplus_mod_idemp_l.
    rewrite <- (@digits_value_snoc b pre d) by lia. rewrite IH. rewrite <- app_assoc. reflexivity.
Qed.
Lemma neval_spec0 n b cs ds : 0 <= n -> std_base b -> digit_seq b cs ds ->
  neval_impl n b cs 0 = Some (digits_value b ds mod 2 ^ n).
Proof.
  intros N B Q. assert (2 ^ n <> 0) as NZ by (apply Z.pow_nonzero; lia).
  pose proof (neval_spec N B Q []) as H. cbn [digits_value app] in H. rewrite Z.mod_0_l in H by exact NZ. exact H.
Qed.
Lemma native_literal_spec n cs b ds : 0 <= n -> integer_literal cs b ds ->
  native_literal n cs = Some (digits_value b ds mod 2 ^ n).
Proof.
  intros G [x cs' ds' X Q|x cs' ds' X Q|cs' ds' Q|c cs' ds' N Q]; cbn [native_literal].
  - rewrite Ascii.eqb_refl.
    replace (Ascii.eqb x "x" || Ascii.eqb x "X") with true by (destruct X; subst; reflexivity).
    apply (neval_spec0 G std16 Q).
  - rewrite Ascii.eqb_refl.
    replace (Ascii.eqb x "x" || Ascii.eqb x "X") with false by (destruct X; subst; reflexivity).
    replace (Ascii.eqb x "b" || Ascii.eqb x "B") with true by (destruct X; subst; reflexivity).
    apply (neval_spec0 G std2 Q).
  - rewrite Ascii.eqb_refl. destruct cs' as [|c1 cs1]; [apply (neval_spec0 G std8 Q)|].
    destruct (oct_second Q) as [X Y]. rewrite X, Y. apply (neval_spec0 G std8 Q).
  - apply Ascii.eqb_neq in N. rewrite N. apply (neval_spec0 G std10 Q).
Qed.

Lemma integer_literal_base cs b ds : integer_literal cs b ds -> std_base b.
Proof. intros []; unfold std_base; auto. Qed.
Lemma ubigint_literal_64 cs b ds : integer_literal cs b ds -> ubigint_literal 64 cs = Some (digits_value b ds).
Proof. intros L. exact (ubigint_literal_spec (size_ok_64 (integer_literal_base L)) L). Qed.
Lemma bigint_literal_64 cs b ds : integer_literal cs b ds -> bigint_literal 64 cs = Some (digits_value b ds).
Proof. intros L. exact (bigint_literal_spec (size_ok_64 (integer_literal_base L)) L). Qed.
Lemma ubigint_literal_32 cs b ds : integer_literal cs b ds -> b <> 10 -> ubigint_literal 32 cs = Some (digits_value b ds).
Proof. intros L N. exact (ubigint_literal_spec (size_ok_32 (integer_literal_base L) N) L). Qed.
Lemma ubigint_literal_only_64 cs v : cs <> [] -> ubigint_literal 64 cs = Some v ->
  exists b ds, integer_literal cs b ds /\ v = digits_value b ds.
Proof. intros N. exact (@ubigint_literal_only 64 cs v size_ok_64 N). Qed.
Lemma ubigint_literal_32_dec : exists cs ds, integer_literal cs 10 ds /\ digits_value 10 ds = 9999999999 /\
  exists v, ubigint_literal 32 cs = Some v /\ v <> 9999999999.
Proof.
  exists (list_ascii_of_string "9999999999"), [9;9;9;9;9;9;9;9;9;9].
  split; [|split; [vm_compute; reflexivity|]].
  - apply il_dec; [discriminate|].
    repeat (apply ds_digit; [split; [lia|left; reflexivity]|]). constructor.
  - let v := eval vm_compute in (ubigint_literal 32 (list_ascii_of_string "9999999999")) in
    match v with Some ?x => exists x end. split; [vm_compute; reflexivity|discriminate].
Qed.
