(** Proofs about the texts of NaNs. *)
From Verif Require Import Base NumRepr_Model NumRepr_Spec NumRepr_Proofs NumRepr_Frac FracText_Model FracText_Spec FracText_Proofs
  Float_Model Float_Spec Ref_Model FloatBig_Model FloatText_Model NanText_Model NanText_Spec.
Local Open Scope Z_scope.

(** ** Bytes *)
Lemma bytes_length n : forall d, length (bytes_from n d) = n.
Proof. induction n as [|n IH]; intros d; cbn; [reflexivity|f_equal; apply IH]. Qed.

Lemma bytes_in n : forall d, Forall (fun b => 0 <= b < 256) (bytes_from n d).
Proof. induction n as [|n IH]; intros d; cbn [bytes_from]; constructor; [apply Z.mod_pos_bound; lia|apply IH]. Qed.

Lemma of_bytes_value b : of_bytes b = bytes_value b.
Proof. induction b as [|x b IH]; [reflexivity|]. cbn [of_bytes]. unfold bytes_value in *. cbn [fold_right]. rewrite IH. reflexivity. Qed.

Lemma bytes_back n : forall d, 0 <= d < 256 ^ Z.of_nat n -> of_bytes (bytes_from n d) = d.
Proof.
  induction n as [|n IH]; intros d Hd; cbn [bytes_from of_bytes].
  - change (256 ^ Z.of_nat 0) with 1 in Hd. lia.
  - rewrite IH. { pose proof (Z.div_mod d 256 ltac:(lia)). lia. }
    rewrite Nat2Z.inj_succ, Z.pow_succ_r in Hd by lia. split.
    + apply Z.div_pos; lia.
    + apply Z.div_lt_upper_bound; lia.
Qed.

Lemma bytes_inj n d e : 0 <= d < 256 ^ Z.of_nat n -> 0 <= e < 256 ^ Z.of_nat n ->
  bytes_from n d = bytes_from n e -> d = e.
Proof. intros Hd He E. rewrite <- (bytes_back Hd), <- (bytes_back He), E. reflexivity. Qed.

(** ** Blocks *)
Lemma put_next (done : list Z) v : forall n,
  put (map Some done ++ repeat None n) (length done) v =
  match n with O => None | S n' => Some (map Some (done ++ [v]) ++ repeat None n') end.
Proof.
  induction done as [|x done IH]; intros n.
  - destruct n; reflexivity.
  - cbn [map app length put]. rewrite IH. destruct n; reflexivity.
Qed.

Lemma take_full l : take_bytes (map Some l) = Some l.
Proof. induction l as [|x l IH]; [reflexivity|]. cbn [map take_bytes]. rewrite IH. reflexivity. Qed.

Lemma take_part l n : take_bytes (map Some l ++ repeat None (S n)) = None.
Proof. induction l as [|x l IH]; [reflexivity|]. cbn [map app take_bytes]. rewrite IH. reflexivity. Qed.

Lemma block_outcome l n : block_value (map Some l ++ repeat None n) =
  match n with O => Got (of_bytes l) | S _ => Bad end.
Proof.
  unfold block_value. destruct n as [|n].
  - cbn [repeat]. rewrite app_nil_r, take_full. reflexivity.
  - rewrite take_part. reflexivity.
Qed.

Lemma after_spec p : forall s, match after p s with Some t => s = p ++ t | None => ~ starts p s end.
Proof.
  induction p as [|x p IH]; intros s; cbn [after]; [reflexivity|].
  destruct s as [|y s]. { intros (t & E). discriminate. }
  destruct (Z.eqb_spec x y) as [->|N].
  - specialize (IH s). destruct (after p s) as [t|].
    + cbn. f_equal. exact IH.
    + intros (t & E). apply IH. exists t. cbn in E. congruence.
  - intros (t & E). cbn in E. congruence.
Qed.

Lemma after_app p t : after p (p ++ t) = Some t.
Proof. induction p as [|x p IH]; [reflexivity|]. cbn. rewrite Z.eqb_refl. exact IH. Qed.

Lemma last_end (A : Type) (l : list A) x d : last (l ++ [x]) d = x.
Proof. apply last_last. Qed.

(** ** Joined texts *)
Lemma joined_cons c p q ps : joined c (p :: q :: ps) = p ++ c :: joined c (q :: ps).
Proof. reflexivity. Qed.

Lemma joined_length c parts : (length parts <= S (length (joined c parts)))%nat.
Proof.
  induction parts as [|p ps IH]; cbn [joined length]; [lia|].
  destruct ps as [|q ps]; [cbn; lia|]. rewrite app_length. cbn [length] in *. lia.
Qed.

Section Reading.
Variables (size : nat) (qnan : Z).
Variable R : repr.
Hypothesis HR : repr_ok R.
Variable K : nan_marks.
Notation c := (n_split K).

(** The byte a part stands for. *)
Definition part_byte (p : list Z) : Z := text_val R p mod 256.
Definition part_ok (p : list Z) : bool := all_digits R p.

Lemma parse_part p : parse_native R 256 0 p = if part_ok p then Some (part_byte p) else None.
Proof. rewrite (@parse_native_spec R 256 p) by lia. reflexivity. Qed.

Lemma read_split_parts : forall parts fuel done n, parts <> [] -> Forall (fun p => ~ In c p) parts ->
  (length parts <= fuel)%nat ->
  read_split R K fuel (map Some done ++ repeat None n) (length done) (joined c parts) =
  if forallb part_ok (firstn n parts) then
    if Nat.eqb (length parts) n then Got (of_bytes (done ++ map part_byte parts)) else Bad
  else Err.
Proof.
  induction parts as [|p ps IH]; intros fuel done n NE HF Hf; [congruence|].
  destruct fuel as [|fuel]; [cbn in Hf; lia|].
  inversion HF as [|? ? Hp HF']; subst.
  destruct n as [|n].
  { cbn [firstn forallb]. cbn [read_split]. 
    destruct (match split_first c (joined c (p :: ps)) with Some (a, b) => (a, Some b) | None => (joined c (p :: ps), None) end) as [bs rest].
    rewrite put_next. reflexivity. }
  destruct ps as [|q ps].
  - cbn [joined read_split]. rewrite (@split_first_none _ _ Hp). rewrite parse_part, put_next.
    cbn [firstn forallb]. destruct (part_ok p); cbn [andb].
    + rewrite block_outcome. destruct n; cbn [firstn forallb length Nat.eqb map]; reflexivity.
    + reflexivity.
  - rewrite joined_cons. cbn [read_split]. rewrite (@split_first_at _ _ _ Hp), parse_part, put_next.
    destruct (part_ok p) eqn:E.
    + replace (S (length done)) with (length (done ++ [part_byte p])) by (rewrite app_length; cbn; lia).
      rewrite (IH fuel (done ++ [part_byte p]) n); [|discriminate|exact HF'|cbn in *; lia].
      cbn [firstn]. cbn [forallb]. rewrite E. cbn [andb length Nat.eqb map]. rewrite <- app_assoc. reflexivity.
    + cbn [firstn forallb]. rewrite E. reflexivity.
Qed.

Lemma read_chars_spec : forall s done n,
  read_chars R (map Some done ++ repeat None n) (length done) s =
  if forallb (is_valid_char R) (firstn n s) then Bad else Err.
Proof.
  induction s as [|ch s IH]; intros done n.
  - cbn [read_chars]. rewrite firstn_nil. reflexivity.
  - cbn [read_chars]. rewrite put_next. destruct n as [|n]; [reflexivity|].
    cbn [firstn forallb]. destruct (is_valid_char R ch); [|reflexivity].
    cbn [andb]. rewrite <- (IH (done ++ [get_index R ch mod 256]) n), app_length. cbn [length]. rewrite Nat.add_1_r. reflexivity.
Qed.

Lemma removelast_end (s : list Z) x : removelast (s ++ [x]) = s.
Proof. rewrite removelast_app by discriminate. cbn. apply app_nil_r. Qed.

Lemma parse_data_block ch s : parse_data size qnan R K (ch :: s ++ [n_end K]) =
  if needs_split R then read_split R K (S (length s)) (repeat None size) 0 s
  else read_chars R (repeat None size) 0 s.
Proof.
  unfold parse_data. replace (ch :: s ++ [n_end K]) with ((ch :: s) ++ [n_end K]) by reflexivity.
  rewrite last_end, Z.eqb_refl. cbn [app].
  destruct (s ++ [n_end K]) as [|a b] eqn:E; [destruct s; discriminate|].
  rewrite <- E, removelast_end. reflexivity.
Qed.

Theorem data_parts ch parts : radix R < 256 -> parts <> [] -> Forall (fun p => ~ In c p) parts ->
  parse_data size qnan R K (ch :: joined c parts ++ [n_end K]) =
  if forallb part_ok (firstn size parts) then
    if Nat.eqb (length parts) size then Got (bytes_value (map part_byte parts)) else Bad
  else Err.
Proof.
  intros Hr NE HF. rewrite parse_data_block. unfold needs_split. rewrite (proj2 (Z.ltb_lt _ _) Hr).
  pose proof (@read_split_parts parts (S (length (joined c parts))) [] size NE HF (joined_length _ _)) as H.
  cbn [map app length] in H. rewrite H. rewrite of_bytes_value. reflexivity.
Qed.

Theorem data_chars ch s : 256 <= radix R ->
  parse_data size qnan R K (ch :: s ++ [n_end K]) =
  if forallb (is_valid_char R) (firstn size s) then Bad else Err.
Proof.
  intros Hr. rewrite parse_data_block. unfold needs_split. rewrite (proj2 (Z.ltb_ge _ _) Hr).
  exact (read_chars_spec s [] size).
Qed.

(** ** What is printed *)
Lemma show_joined : forall b, needs_split R = true -> b <> [] ->
  show_bytes R K b = joined c (map (utext R) b) ++ [c].
Proof.
  intros b Hn. induction b as [|x b IH]; intros NE; [congruence|].
  cbn [show_bytes]. rewrite Hn. destruct b as [|y b].
  - cbn. reflexivity.
  - rewrite IH by discriminate. cbn [map]. rewrite joined_cons, <- app_assoc. reflexivity.
Qed.

Lemma wide_digit x : 0 <= x < radix R -> utext R x = [get_char R x].
Proof.
  intros Hx. apply (@numeral_unique R HR x); [apply utext_numeral; [exact HR|lia]|].
  exists [x]. refine (conj eq_refl (conj _ (conj (pos_val_one _ _) (conj _ _)))).
  - constructor; [exact Hx|constructor].
  - discriminate.
  - cbn. intros ->. reflexivity.
Qed.

Lemma show_wide : forall b, needs_split R = false -> Forall (fun x => 0 <= x < 256) b ->
  show_bytes R K b = map (get_char R) b.
Proof.
  intros b Hn. unfold needs_split in Hn. apply Z.ltb_ge in Hn.
  induction b as [|x b IH]; intros HF; [reflexivity|].
  inversion HF; subst. cbn [show_bytes map]. unfold needs_split. rewrite (proj2 (Z.ltb_ge _ _) Hn), IH by assumption.
  rewrite wide_digit by lia. reflexivity.
Qed.

Lemma wide_inj : forall b b', 256 <= radix R -> Forall (fun x => 0 <= x < 256) b -> Forall (fun x => 0 <= x < 256) b' ->
  map (get_char R) b = map (get_char R) b' -> b = b'.
Proof.
  intros b b' Hr Hb Hb' E. apply (f_equal (map (get_index R))) in E.
  rewrite !(@index_of_chars R HR) in E; [exact E| |].
  - eapply Forall_impl; [|exact Hb']. cbn. lia.
  - eapply Forall_impl; [|exact Hb]. cbn. lia.
Qed.

Lemma close_data p (b : list Z) : b <> [] -> Forall (fun x => 0 <= x < 256) b ->
  close R K (p ++ n_start K :: show_bytes R K b) =
  p ++ n_start K :: (if needs_split R then joined c (map (utext R) b) else map (get_char R) b) ++ [n_end K].
Proof.
  intros NE HF. unfold close. destruct (needs_split R) eqn:Hn.
  - rewrite show_joined by assumption.
    replace (p ++ n_start K :: joined c (map (utext R) b) ++ [c]) with ((p ++ n_start K :: joined c (map (utext R) b)) ++ [c])
      by (rewrite <- app_assoc; reflexivity).
    rewrite removelast_end, <- app_assoc. reflexivity.
  - rewrite show_wide by assumption. rewrite <- app_assoc. reflexivity.
Qed.

Lemma byte_part x : 0 <= x < 256 -> part_ok (utext R x) = true /\ part_byte (utext R x) = x.
Proof.
  intros Hx. destruct (@utext_digits R HR x) as (E1 & E2 & _); [lia|].
  split; [exact E1|]. unfold part_byte. rewrite E2. apply Z.mod_small. lia.
Qed.

Lemma bytes_parts b : Forall (fun x => 0 <= x < 256) b ->
  forallb part_ok (map (utext R) b) = true /\ map part_byte (map (utext R) b) = b.
Proof.
  induction 1 as [|x b Hx Hb (IH1 & IH2)]; [split; reflexivity|].
  destruct (byte_part Hx) as (E1 & E2). cbn [map forallb]. rewrite E1, E2, IH1, IH2. split; reflexivity.
Qed.
End Reading.

Section Whole.
Variables (F : finfo) (f : fmt) (size : nat) (snan qnan sw ew : Z) (R : repr) (M : marks) (K : nan_marks) (limit_digits : Z).
Hypothesis HS : nan_setting f size snan qnan R M K.

Lemma bits_bytes : 2 ^ all_bits f = 256 ^ Z.of_nat size.
Proof.
  destruct HS as (_ & _ & E & _). rewrite E. change 256 with (2 ^ 8). rewrite <- Z.pow_mul_r by lia. f_equal. 
Qed.

Lemma size_pos : (0 < size)%nat.
Proof. destruct HS as (H1 & H2 & E & _). unfold all_bits in E. lia. Qed.

Lemma sign_half : 2 ^ all_bits f = 2 * 2 ^ (all_bits f - 1) /\ 0 < 2 ^ (all_bits f - 1).
Proof.
  destruct HS as (H1 & H2 & E & _). unfold all_bits in *. split.
  - rewrite <- Z.pow_succ_r by lia. f_equal. lia.
  - apply Z.pow_pos_nonneg; lia.
Qed.

Lemma nan_isNaN d : is_nan f d -> isNaN f d = true.
Proof.
  intros (_ & H1 & H2). unfold isNaN, special. rewrite H1, Z.eqb_refl.
  destruct (Z.eqb_spec (frac_field f d) 0); [contradiction|reflexivity].
Qed.

(** A number is its value without sign, possibly with the sign. *)
Lemma sign_cases d : is_data f d -> d = clear_sign f d \/ d = negated f d.
Proof.
  destruct sign_half as (E & P). unfold is_data, clear_sign, negated, clear_sign. rewrite E. intros Hd.
  pose proof (Z.div_mod d (2 ^ (all_bits f - 1)) ltac:(lia)) as D.
  assert (Q0 : 0 <= d / 2 ^ (all_bits f - 1)) by (apply Z.div_pos; lia).
  assert (Q1 : d / 2 ^ (all_bits f - 1) < 2) by (apply Z.div_lt_upper_bound; lia).
  assert (Q : d / 2 ^ (all_bits f - 1) = 0 \/ d / 2 ^ (all_bits f - 1) = 1) by lia.
  destruct Q as [Q|Q]; rewrite Q in D; [left|right]; lia.
Qed.

Lemma clear_negated d : clear_sign f (negated f d) = clear_sign f d.
Proof.
  destruct sign_half as (E & P). unfold negated, clear_sign.
  rewrite Z.add_mod, Z.mod_same, Z.add_0_r, !Z.mod_mod by lia. reflexivity.
Qed.

Lemma named_differs d : clear_sign f d = d -> negated f d <> d.
Proof. intros E. unfold negated. rewrite E. pose proof (proj2 sign_half). lia. Qed.

(** Reading the sign. *)
Lemma parse_unsigned_text s : unsigned_text M s ->
  parse_any F f size snan qnan ew R M K s = parse_uany F f size snan qnan ew R M K s.
Proof.
  intros (c & t & -> & N1 & N2). cbn [parse_any].
  destruct (Z.eqb_spec c (m_minus M)); [contradiction|]. destruct (Z.eqb_spec c (m_plus M)); [contradiction|]. reflexivity.
Qed.

Lemma parse_minus s : parse_any F f size snan qnan ew R M K (m_minus M :: s) =
  rbind (parse_uany F f size snan qnan ew R M K s) (fun x => Got (negated f x)).
Proof. cbn [parse_any]. rewrite Z.eqb_refl. reflexivity. Qed.

Lemma unsigned_app s t : unsigned_text M s -> unsigned_text M (s ++ t).
Proof. intros (c & u & -> & N1 & N2). exists c, (u ++ t). repeat split; assumption. Qed.

Lemma same_refl s : same s s = true.
Proof. apply same_spec. reflexivity. Qed.
Lemma same_diff s t : s <> t -> same s t = false.
Proof. intros N. destruct (same s t) eqn:E; [apply same_spec in E; contradiction|reflexivity]. Qed.

Lemma read_signaling : parse_uany F f size snan qnan ew R M K (n_signaling K) = Got snan.
Proof. unfold parse_uany. rewrite same_refl. reflexivity. Qed.
Lemma read_quiet : parse_uany F f size snan qnan ew R M K (n_quiet K) = Got qnan.
Proof.
  unfold parse_uany. destruct HS as (_ & _ & _ & _ & _ & _ & _ & _ & _ & _ & (_ & _ & N & _)).
  rewrite same_diff by congruence. rewrite same_refl. reflexivity.
Qed.

(** A text that begins with the text of NaN and ends with the end sign. *)
Lemma read_nan_text t : parse_uany F f size snan qnan ew R M K (m_nan M ++ t ++ [n_end K]) =
  parse_data size qnan R K (t ++ [n_end K]).
Proof.
  unfold parse_uany. destruct HS as (_ & _ & _ & _ & _ & _ & _ & _ & _ & _ & (_ & _ & _ & N1 & N2 & _)).
  rewrite !same_diff, after_app; [reflexivity| |].
  - intros E. apply N2. rewrite <- E. apply in_or_app. right. apply in_or_app. right. left. reflexivity.
  - intros E. apply N1. rewrite <- E. apply in_or_app. right. apply in_or_app. right. left. reflexivity.
Qed.

Lemma nan_text_unsigned t : parse_any F f size snan qnan ew R M K (m_nan M ++ t) =
  parse_uany F f size snan qnan ew R M K (m_nan M ++ t).
Proof.
  apply parse_unsigned_text, unsigned_app.
  destruct HS as (_ & _ & _ & _ & _ & _ & _ & _ & _ & _ & (_ & _ & _ & _ & _ & U & _)). exact U.
Qed.

(** What is read from the bytes of a NaN. *)
Definition plain_nan (d : Z) : Prop := clear_sign f d <> snan /\ clear_sign f d <> qnan.

Lemma plain_text d : is_nan f d -> plain_nan d ->
  print_any F f size snan qnan sw ew R M K limit_digits d =
  Ok (m_nan M ++ (n_start K :: (if needs_split R then joined (n_split K) (map (utext R) (bytes_from size d))
                              else map (get_char R) (bytes_from size d))) ++ [n_end K]).
Proof.
  intros Hd (N1 & N2). unfold print_any. rewrite (nan_isNaN Hd).
  destruct HS as (_ & _ & _ & _ & Es & _ & Eq & _ & HR & _ & _).
  unfold print_nan.
  assert (A : forall q, clear_sign f q = q -> clear_sign f d <> q -> (d =? q) = false /\ (d =? negated f q) = false).
  { intros q E N. split; apply Z.eqb_neq; intros ->; apply N; [exact E|]. rewrite clear_negated. exact E. }
  destruct (A snan Es N1) as (-> & ->). destruct (A qnan Eq N2) as (-> & ->).
  rewrite close_data; [|exact HR| |apply bytes_in].
  - reflexivity.
  - pose proof size_pos. pose proof (bytes_length size d) as L. destruct (bytes_from size d); [cbn in L; lia|discriminate].
Qed.

Lemma named_text d : is_nan f d -> ~ plain_nan d -> exists s,
  print_any F f size snan qnan sw ew R M K limit_digits d = Ok s /\
  parse_any F f size snan qnan ew R M K s = Got d.
Proof.
  intros Hd NP. unfold print_any. rewrite (nan_isNaN Hd). eexists. split; [reflexivity|].
  pose proof HS as (_ & _ & _ & _ & Es & _ & Eq & NQ & HR & _ & HK).
  destruct HK as (_ & _ & _ & _ & _ & _ & U1 & U2 & _).
  unfold print_nan.
  destruct (Z.eqb_spec d snan) as [->|N1]. { rewrite (parse_unsigned_text U1). exact read_signaling. }
  destruct (Z.eqb_spec d (negated f snan)) as [->|N2].
  { rewrite parse_minus, read_signaling. reflexivity. }
  destruct (Z.eqb_spec d qnan) as [->|N3]. { rewrite (parse_unsigned_text U2). exact read_quiet. }
  destruct (Z.eqb_spec d (negated f qnan)) as [->|N4].
  { rewrite parse_minus, read_quiet. reflexivity. }
  exfalso. apply NP. 
  assert (A : forall q, clear_sign f q = q -> d <> q -> d <> negated f q -> clear_sign f d <> q).
  { intros q E M1 M2 E'. destruct (sign_cases (proj1 Hd)) as [C|C].
    - congruence.
    - apply M2. rewrite C at 1. unfold negated. rewrite E', E. reflexivity. }
  split; apply A; assumption.
Qed.

Lemma plain_dec d : plain_nan d \/ ~ plain_nan d.
Proof.
  unfold plain_nan. destruct (Z.eq_dec (clear_sign f d) snan) as [E|N]; [right; tauto|].
  destruct (Z.eq_dec (clear_sign f d) qnan) as [E|N']; [right; tauto|left; tauto].
Qed.

Theorem nan_round_trip d : radix R < 256 -> is_nan f d -> exists s,
  print_any F f size snan qnan sw ew R M K limit_digits d = Ok s /\
  parse_any F f size snan qnan ew R M K s = Got d.
Proof.
  intros Hr Hd. destruct (plain_dec d) as [P|P]; [|exact (named_text Hd P)].
  rewrite (plain_text Hd P). eexists. split; [reflexivity|].
  rewrite nan_text_unsigned, read_nan_text.
  unfold needs_split. rewrite (proj2 (Z.ltb_lt _ _) Hr).
  pose proof HS as (_ & _ & _ & _ & _ & _ & _ & _ & HR & _ & HK). destruct HK as (V1 & _).
  cbn [app]. 
  destruct (bytes_parts HR (bytes_in size d)) as (P1 & P2).
  rewrite (@data_parts size qnan R K (n_start K) (map (utext R) (bytes_from size d)) Hr).
  - rewrite firstn_all2 by (rewrite map_length, bytes_length; lia).
    rewrite P1, map_length, bytes_length, Nat.eqb_refl, P2, <- of_bytes_value.
    rewrite bytes_back; [reflexivity|]. rewrite <- bits_bytes. exact (proj1 Hd).
  - pose proof size_pos. intros E. apply (f_equal (@length _)) in E. rewrite map_length, bytes_length in E. cbn in E. lia.
  - apply Forall_map. eapply Forall_impl; [|apply bytes_in]. cbn. intros x Hx.
    destruct (@utext_digits R HR x) as (D & _); [lia|]. exact (digits_not D V1).
Qed.

Theorem wide_nan d : 256 <= radix R -> is_nan f d -> plain_nan d -> exists s,
  print_any F f size snan qnan sw ew R M K limit_digits d = Ok s /\
  parse_any F f size snan qnan ew R M K s = Bad.
Proof.
  intros Hr Hd P. rewrite (plain_text Hd P). eexists. split; [reflexivity|].
  rewrite nan_text_unsigned, read_nan_text.
  pose proof HS as (_ & _ & _ & _ & _ & _ & _ & _ & HR & _ & _).
  unfold needs_split. rewrite (proj2 (Z.ltb_ge _ _) Hr). cbn [app].
  rewrite data_chars by exact Hr.
  rewrite firstn_all2 by (rewrite map_length, bytes_length; lia).
  assert (V : all_digits R (map (get_char R) (bytes_from size d)) = true).
  { apply (chars_valid HR). eapply Forall_impl; [|apply bytes_in]. cbn. lia. }
  unfold all_digits in V. rewrite V. reflexivity.
Qed.

Theorem nan_texts_differ d e s : is_nan f d -> is_nan f e ->
  print_any F f size snan qnan sw ew R M K limit_digits d = Ok s ->
  print_any F f size snan qnan sw ew R M K limit_digits e = Ok s -> d = e.
Proof.
  intros Hd He Pd Pe. destruct (Z.lt_ge_cases (radix R) 256) as [Hr|Hr].
  - destruct (nan_round_trip Hr Hd) as (s1 & E1 & G1). destruct (nan_round_trip Hr He) as (s2 & E2 & G2).
    congruence.
  - destruct (plain_dec d) as [P1|P1], (plain_dec e) as [P2|P2].
    + rewrite (plain_text Hd P1) in Pd. rewrite (plain_text He P2) in Pe. rewrite <- Pd in Pe. injection Pe as E.
      unfold needs_split in E. rewrite (proj2 (Z.ltb_ge _ _) Hr) in E.
      apply app_inv_head in E. injection E as E. apply app_inv_tail in E.
      pose proof HS as (_ & _ & _ & _ & _ & _ & _ & _ & HR & _ & _).
      apply (wide_inj HR) in E; [|exact Hr|apply bytes_in|apply bytes_in].
      apply (@bytes_inj size); [rewrite <- bits_bytes; exact (proj1 Hd)|rewrite <- bits_bytes; exact (proj1 He)|congruence].
    + destruct (wide_nan Hr Hd P1) as (s1 & E1 & G1). destruct (named_text He P2) as (s2 & E2 & G2). congruence.
    + destruct (wide_nan Hr He P2) as (s1 & E1 & G1). destruct (named_text Hd P1) as (s2 & E2 & G2). congruence.
    + destruct (named_text Hd P1) as (s1 & E1 & G1). destruct (named_text He P2) as (s2 & E2 & G2). congruence.
Qed.

(** ** Other texts *)
Theorem data_text c parts : radix R < 256 -> parts <> [] -> Forall (fun p => ~ In (n_split K) p) parts ->
  parse_any F f size snan qnan ew R M K (m_nan M ++ c :: joined (n_split K) parts ++ [n_end K]) =
  if forallb (all_digits R) (firstn size parts) then
    if Nat.eqb (length parts) size then Got (bytes_value (map (fun p => text_val R p mod 256) parts)) else Bad
  else Err.
Proof.
  intros Hr NE HF. pose proof HS as (_ & _ & _ & _ & _ & _ & _ & _ & HR & _ & _).
  rewrite nan_text_unsigned. replace (c :: joined (n_split K) parts ++ [n_end K]) with ((c :: joined (n_split K) parts) ++ [n_end K]) by reflexivity.
  rewrite read_nan_text. cbn [app]. exact (@data_parts size qnan R K c parts Hr NE HF).
Qed.

Theorem wide_text c s : 256 <= radix R ->
  parse_any F f size snan qnan ew R M K (m_nan M ++ c :: s ++ [n_end K]) =
  if all_digits R (firstn size s) then Bad else Err.
Proof.
  intros Hr. rewrite nan_text_unsigned. replace (c :: s ++ [n_end K]) with ((c :: s) ++ [n_end K]) by reflexivity.
  rewrite read_nan_text. exact (@data_chars size qnan R K c s Hr).
Qed.

Theorem bare_end : parse_any F f size snan qnan ew R M K (m_nan M ++ [n_end K]) = Bad.
Proof.
  rewrite nan_text_unsigned. change [n_end K] with ([] ++ [n_end K]). rewrite read_nan_text.
  cbn. rewrite Z.eqb_refl. reflexivity.
Qed.

Theorem nan_prefix t : last t (n_end K + 1) <> n_end K ->
  m_nan M ++ t <> n_signaling K ->
  parse_any F f size snan qnan ew R M K (m_nan M ++ t) = Got qnan.
Proof.
  intros NL N. rewrite nan_text_unsigned. unfold parse_uany. rewrite (same_diff N).
  destruct (same (m_nan M ++ t) (n_quiet K)); [reflexivity|]. rewrite after_app. unfold parse_data.
  destruct t as [|x t]; [reflexivity|].
  replace (last (x :: t) 0) with (last (x :: t) (n_end K + 1)).
  - destruct (Z.eqb_spec (last (x :: t) (n_end K + 1)) (n_end K)); [contradiction|reflexivity].
  - clear. revert x. induction t as [|y t IH]; intros x; [reflexivity|]. cbn [last] in *. apply (IH y).
Qed.

(** Texts of numbers and of infinity are read as without NaNs. *)
Lemma uany_number s : number_shape R M s \/ s = m_inf M ->
  parse_uany F f size snan qnan ew R M K s = parse_ufloat F f ew R M s.
Proof.
  intros H. pose proof HS as (_ & _ & _ & _ & _ & _ & _ & _ & _ & HM & HK).
  destruct HK as (_ & _ & _ & _ & _ & _ & _ & _ & F1 & F2 & I1 & I2 & I3).
  assert (NF : forall p, has_foreign R M p -> forall t, number_shape R M (p ++ t) -> False).
  { intros p (x & H1 & H2 & H3) t Hs. apply (shape_not_foreign Hs). exists x. split; [apply in_or_app; left; exact H1|]. split; assumption. }
  assert (F0 : has_foreign R M (m_nan M)) by exact (proj1 (proj2 (proj2 HM))).
  unfold parse_uany. rewrite !same_diff.
  - pose proof (after_spec (m_nan M) s) as A. destruct (after (m_nan M) s) as [t|]; [|reflexivity].
    exfalso. destruct H as [H| ->].
    + subst s. exact (NF _ F0 _ H).
    + apply I3. exists t. exact A.
  - intros ->. destruct H as [H|H]; [|congruence]. apply (NF _ F2 []). rewrite app_nil_r. exact H.
  - intros ->. destruct H as [H|H]; [|congruence]. apply (NF _ F1 []). rewrite app_nil_r. exact H.
Qed.

Theorem numbers_unchanged s : number_shape R M s \/ s = m_inf M ->
  parse_any F f size snan qnan ew R M K s = parse_float F f ew R M s /\
  parse_any F f size snan qnan ew R M K (m_minus M :: s) = parse_float F f ew R M (m_minus M :: s) /\
  parse_any F f size snan qnan ew R M K (m_plus M :: s) = parse_float F f ew R M (m_plus M :: s).
Proof.
  intros H. pose proof (uany_number H) as U. unfold negated.
  pose proof HS as (_ & _ & _ & _ & _ & _ & _ & _ & HR & HM & _).
  refine (conj _ (conj _ _)).
  - destruct s as [|x s]; [reflexivity|]. 
    assert (N : x <> m_minus M /\ x <> m_plus M).
    { destruct H as [H|H]; [exact (shape_no_sign HM H)|].
      destruct HM as (_ & _ & _ & _ & _ & N1 & N2). rewrite <- H in N1, N2. cbn in N1, N2. split; assumption. }
    destruct N as (N1 & N2). cbn [parse_any parse_float].
    destruct (Z.eqb_spec x (m_minus M)); [contradiction|]. destruct (Z.eqb_spec x (m_plus M)); [contradiction|]. exact U.
  - cbn [parse_any parse_float]. rewrite Z.eqb_refl, U. reflexivity.
  - cbn [parse_any parse_float]. rewrite Z.eqb_refl, U. reflexivity.
Qed.
End Whole.

(** ** Usual settings *)
Ltac nan_setting_tac :=
  refine (conj _ (conj _ (conj _ (conj _ (conj _ (conj _ (conj _ (conj _ (conj _ (conj _ _))))))))));
  [vm_compute; discriminate|vm_compute; discriminate|reflexivity
  |refine (conj _ (conj _ _)); [split; vm_compute; (discriminate || reflexivity)|reflexivity|vm_compute; discriminate]
  |reflexivity
  |refine (conj _ (conj _ _)); [split; vm_compute; (discriminate || reflexivity)|reflexivity|vm_compute; discriminate]
  |reflexivity|discriminate| | |].
Ltac nan_marks_tac :=
  refine (conj _ (conj _ (conj _ (conj _ (conj _ (conj _ (conj _ (conj _ (conj _ (conj _ (conj _ (conj _ _))))))))))));
  [vm_compute; reflexivity|vm_compute; reflexivity|discriminate|vm_compute; intuition discriminate|vm_compute; intuition discriminate
  |eexists; eexists; split; [reflexivity|split; discriminate]
  |eexists; eexists; split; [reflexivity|split; discriminate]
  |eexists; eexists; split; [reflexivity|split; discriminate]
  |eexists; split; [left; reflexivity|]; split; [vm_compute; reflexivity|vm_compute; intuition discriminate]
  |eexists; split; [left; reflexivity|]; split; [vm_compute; reflexivity|vm_compute; intuition discriminate]
  |discriminate|discriminate|intros (? & E); discriminate E].

Lemma double_decimal : nan_setting binary64 8 0x7FF4000000000000 0x7FF8000000000000 decimal decimal_marks std_nan_marks.
Proof.
  nan_setting_tac; [exact decimal_ok|exact (proj1 std_usable)|]. nan_marks_tac.
Qed.
Lemma float_hexadecimal : nan_setting binary32 4 0x7FA00000 0x7FC00000 hexadecimal hexadecimal_marks std_nan_marks.
Proof.
  nan_setting_tac; [exact hexadecimal_ok|exact (proj1 (proj2 (proj2 (proj2 (proj2 std_usable)))))|]. nan_marks_tac.
Qed.
Lemma double_valanlottish :
  nan_setting binary64 8 0x7FF4000000000000 0x7FF8000000000000 valanlottish valanlottish_marks valanlottish_nan_marks.
Proof.
  nan_setting_tac; [exact valanlottish_ok|exact (proj2 (proj2 (proj2 (proj2 (proj2 (proj2 std_usable))))))|]. nan_marks_tac.
Qed.

Lemma data_not_nan : exists s y, starts (m_nan decimal_marks) s /\ scan_double s = Got y /\ finite binary64 y.
Proof.
  exists [78;97;78;91;48;44;48;44;48;44;48;44;48;44;48;44;50;52;48;44;54;51;93], 0x3FF0000000000000.
  refine (conj _ (conj _ (conj _ _))).
  - eexists. reflexivity.
  - vm_compute. reflexivity.
  - split; vm_compute; (discriminate || reflexivity).
  - vm_compute. discriminate.
Qed.
