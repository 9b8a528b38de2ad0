(** Proofs about the conversions between numbers and text. *)
From Verif Require Import Base UBig_Model UBig_Spec UBig_Basics UBig_AddSub UBig_Mul UBig_Kara
  UBig_Div UBig_Shift UBig_Bits BigInt_Model NumRepr_Model NumRepr_Spec.
Open Scope Z_scope.
Open Scope omonad_scope.

(** ** Positional notation *)

Lemma pos_fold r ds : forall acc,
  fold_left (fun acc d => acc * r + d) ds acc = acc * r ^ Z.of_nat (length ds) + pos_val r ds.
Proof.
  unfold pos_val. induction ds as [|d ds IH]; intros acc; cbn [fold_left length].
  - cbn [Z.of_nat]. rewrite Z.pow_0_r. lia.
  - rewrite IH, (IH (0 * r + d)). rewrite Nat2Z.inj_succ, Z.pow_succ_r by lia. ring.
Qed.

Lemma pos_val_cons r d ds : pos_val r (d :: ds) = d * r ^ Z.of_nat (length ds) + pos_val r ds.
Proof. unfold pos_val at 1. cbn [fold_left]. rewrite pos_fold. ring. Qed.

Lemma pos_val_app r a b : pos_val r (a ++ b) = pos_val r a * r ^ Z.of_nat (length b) + pos_val r b.
Proof. unfold pos_val at 1. rewrite fold_left_app, pos_fold. reflexivity. Qed.

Lemma pos_val_one r d : pos_val r [d] = d.
Proof. unfold pos_val. cbn [fold_left]. lia. Qed.

Lemma pos_val_zeros r n : pos_val r (repeat 0 n) = 0.
Proof.
  induction n as [|n IH]; [reflexivity|]. cbn [repeat]. rewrite pos_val_cons, IH. lia.
Qed.

Lemma pos_val_bound r ds : 2 <= r -> digits_in r ds -> 0 <= pos_val r ds < r ^ Z.of_nat (length ds).
Proof.
  intros Hr H. induction H as [|d ds Hd H IH].
  - cbn. lia.
  - rewrite pos_val_cons. cbn [length]. rewrite Nat2Z.inj_succ, Z.pow_succ_r by lia.
    pose proof (Z.pow_pos_nonneg r (Z.of_nat (length ds)) ltac:(lia) ltac:(lia)). nia.
Qed.

Lemma pos_val_lower r d ds : 2 <= r -> digits_in r ds -> 0 < d ->
  r ^ Z.of_nat (length ds) <= pos_val r (d :: ds).
Proof.
  intros Hr H Hd. rewrite pos_val_cons. pose proof (pos_val_bound Hr H). nia.
Qed.

Lemma digits_in_app r a b : digits_in r a -> digits_in r b -> digits_in r (a ++ b).
Proof. intros. apply Forall_app. auto. Qed.

Lemma pos_val_inj r a : 2 <= r -> forall b, digits_in r a -> digits_in r b -> length a = length b ->
  pos_val r a = pos_val r b -> a = b.
Proof.
  intros Hr. induction a as [|x a IH]; intros b Ha Hb Hl Hv; destruct b as [|y b]; try discriminate; auto.
  injection Hl as Hl. inversion_clear Ha as [|? ? Hx Ha']. inversion_clear Hb as [|? ? Hy Hb'].
  rewrite !pos_val_cons, Hl in Hv.
  pose proof (pos_val_bound Hr Ha') as B1. pose proof (pos_val_bound Hr Hb') as B2. rewrite Hl in B1.
  assert (x = y) by nia. subst y. f_equal. apply IH; auto. lia.
Qed.

Section Repr.
Variable R : repr.
Hypothesis HR : repr_ok R.
Notation r := (radix R).
Let Hr : 2 <= r := proj1 HR.

Lemma index_of_chars ds : digits_in r ds -> map (get_index R) (map (get_char R) ds) = ds.
Proof.
  intros H. induction H as [|d ds Hd H IH]; [reflexivity|]. cbn [map].
  rewrite IH. f_equal. apply HR. exact Hd.
Qed.

Lemma chars_valid ds : digits_in r ds -> all_digits R (map (get_char R) ds) = true.
Proof.
  intros H. induction H as [|d ds Hd H IH]; [reflexivity|]. cbn [map]. unfold all_digits in *. cbn [forallb].
  rewrite IH. destruct (proj1 (proj2 HR) d Hd) as [-> _]. reflexivity.
Qed.

Lemma indices_in s : all_digits R s = true -> digits_in r (map (get_index R) s).
Proof.
  unfold all_digits. induction s as [|c s IH]; intros H; [constructor|]. cbn [forallb] in H.
  apply andb_true_iff in H. destruct H as [Hc Hs]. cbn [map]. constructor; [|exact (IH Hs)].
  destruct (proj2 (proj2 HR) c Hc) as [Hi _]. exact Hi.
Qed.

Lemma text_val_chars ds : digits_in r ds -> text_val R (map (get_char R) ds) = pos_val r ds.
Proof. intros H. unfold text_val. rewrite index_of_chars by auto. reflexivity. Qed.

Lemma text_val_app a b : text_val R (a ++ b) = text_val R a * r ^ Z.of_nat (length b) + text_val R b.
Proof. unfold text_val. rewrite map_app, pos_val_app, map_length. reflexivity. Qed.

Lemma text_val_bound s : all_digits R s = true -> 0 <= text_val R s < r ^ Z.of_nat (length s).
Proof.
  intros H. unfold text_val. rewrite <- (map_length (get_index R) s).
  apply pos_val_bound; [exact Hr|]. apply indices_in. exact H.
Qed.

Lemma numeral_digits n s : numeral_of R n s -> all_digits R s = true /\ text_val R s = n /\ s <> [].
Proof.
  intros (ds & -> & Hd & Hv & Hn & _). split; [apply chars_valid; auto|].
  split; [rewrite text_val_chars; auto|]. destruct ds; [congruence|discriminate].
Qed.

(** The numeral is determined by the number. *)
Lemma numeral_unique n s t : numeral_of R n s -> numeral_of R n t -> s = t.
Proof.
  intros (ds & -> & Hd & Hv & Hn & Hz) (es & -> & He & Hw & Hm & Hy). f_equal.
  destruct ds as [|x ds]; [congruence|]. destruct es as [|y es]; [congruence|].
  cbn [hd] in Hz, Hy. clear Hn Hm.
  inversion_clear Hd as [|? ? Hx Hd']. inversion_clear He as [|? ? Hyy He'].
  destruct (Z.eq_dec x 0) as [->|Hx0]; [injection (Hz eq_refl) as ->|].
  - rewrite pos_val_one in Hv. subst n. destruct (Z.eq_dec y 0) as [->|Hy0]; [injection (Hy eq_refl) as ->; reflexivity|].
    pose proof (@pos_val_lower r y es Hr He' ltac:(lia)).
    pose proof (Z.pow_pos_nonneg r (Z.of_nat (length es)) ltac:(lia) ltac:(lia)). lia.
  - pose proof (@pos_val_lower r x ds Hr Hd' ltac:(lia)) as Lx.
    pose proof (Z.pow_pos_nonneg r (Z.of_nat (length ds)) ltac:(lia) ltac:(lia)).
    destruct (Z.eq_dec y 0) as [->|Hy0]; [injection (Hy eq_refl) as ->; rewrite pos_val_one in Hw; lia|].
    pose proof (@pos_val_lower r y es Hr He' ltac:(lia)) as Ly.
    assert (Hd2 : digits_in r (x :: ds)) by (constructor; auto).
    assert (He2 : digits_in r (y :: es)) by (constructor; auto).
    pose proof (pos_val_bound Hr Hd2) as Bx. pose proof (pos_val_bound Hr He2) as By.
    cbn [length] in Bx, By.
    assert (Hl : length ds = length es).
    { destruct (Nat.lt_trichotomy (length ds) (length es)) as [H1|[H1|H1]]; [|exact H1|].
      - pose proof (Z.pow_le_mono_r r (Z.of_nat (S (length ds))) (Z.of_nat (length es)) ltac:(lia) ltac:(lia)). lia.
      - pose proof (Z.pow_le_mono_r r (Z.of_nat (S (length es))) (Z.of_nat (length ds)) ltac:(lia) ltac:(lia)). lia. }
    apply (pos_val_inj Hr); auto; [cbn; lia|congruence].
Qed.

Lemma numeral_len n ds k : digits_in r ds -> (hd 0 ds = 0 -> ds = [0]) -> pos_val r ds = n ->
  n < r ^ Z.of_nat k -> (1 <= k)%nat -> (length ds <= k)%nat.
Proof.
  intros Hd Hz Hv Hn Hk. destruct ds as [|x ds]; [cbn; lia|]. cbn [hd] in Hz.
  inversion_clear Hd as [|? ? Hx Hd'].
  destruct (Z.eq_dec x 0) as [->|Hx0]; [injection (Hz eq_refl) as ->; cbn; lia|].
  pose proof (@pos_val_lower r x ds Hr Hd' ltac:(lia)) as Lx. cbn [length].
  destruct (le_lt_dec (S (length ds)) k) as [|H]; [auto|].
  pose proof (Z.pow_le_mono_r r (Z.of_nat k) (Z.of_nat (length ds)) ltac:(lia) ltac:(lia)). lia.
Qed.

(** ** Built-in integers *)

Lemma print_native_spec f : forall v acc, 0 <= v < 2 ^ Z.of_nat f -> f <> 0%nat ->
  exists s, print_native R f v acc = Some (s ++ acc) /\ numeral_of R v s.
Proof.
  induction f as [|f IH]; intros v acc Hv Hf; [congruence|]. cbn [print_native].
  pose proof (Z.mod_pos_bound v r ltac:(lia)) as Hm.
  pose proof (Z.div_mod v r ltac:(lia)) as Hdm.
  destruct (Z.eqb_spec (v / r) 0) as [E|E].
  - exists [get_char R (v mod r)]. split; [reflexivity|]. exists [v mod r].
    split; [reflexivity|]. split; [constructor; auto; lia|]. rewrite pos_val_one.
    split; [nia|]. split; [congruence|]. cbn [hd]. congruence.
  - assert (Hq : 0 <= v / r) by (apply Z.div_pos; lia).
    rewrite Nat2Z.inj_succ, Z.pow_succ_r in Hv by lia.
    assert (Hq2 : v / r < 2 ^ Z.of_nat f) by (apply Z.div_lt_upper_bound; nia).
    assert (Hf' : f <> 0%nat) by (intros ->; cbn in Hq2; lia).
    destruct (IH (v / r) (get_char R (v mod r) :: acc) (conj Hq Hq2) Hf') as (s & -> & ds & -> & Hd & Hpv & Hn & Hz).
    exists (map (get_char R) (ds ++ [v mod r])). split.
    { rewrite map_app, <- app_assoc. reflexivity. }
    exists (ds ++ [v mod r]). split; [reflexivity|].
    split; [apply digits_in_app; auto; constructor; [lia|constructor]|].
    rewrite pos_val_app, pos_val_one. cbn [length]. change (Z.of_nat 1) with 1. rewrite Z.pow_1_r.
    split; [rewrite Hpv; lia|]. split; [destruct ds; discriminate|].
    intros Hh. destruct ds as [|d ds]; [congruence|]. cbn [app hd] in *.
    specialize (Hz Hh). injection Hz as -> ->. rewrite pos_val_one in Hpv. congruence.
Qed.

Lemma parse_native_spec m s : 0 < m -> forall acc, 0 <= acc < m ->
  parse_native R m acc s =
  if all_digits R s then Some ((acc * r ^ Z.of_nat (length s) + text_val R s) mod m) else None.
Proof.
  intros Hm. unfold all_digits. induction s as [|c s IH]; intros acc Ha; cbn [parse_native forallb].
  - cbn [length]. change (text_val R []) with 0. rewrite Z.pow_0_r, Z.mod_small by lia. f_equal. lia.
  - destruct (is_valid_char R c); [|reflexivity]. cbn [andb].
    rewrite IH by (apply Z.mod_pos_bound; lia).
    destruct (forallb (is_valid_char R) s); [|reflexivity]. f_equal.
    unfold text_val. cbn [map length]. rewrite pos_val_cons, map_length.
    rewrite Nat2Z.inj_succ, Z.pow_succ_r by lia.
    set (P := r ^ Z.of_nat (length s)). set (T := pos_val r (map (get_index R) s)).
    set (g := get_index R c).
    replace ((((acc * r) mod m + g) mod m * P + T) mod m) with (((acc * r + g) * P + T) mod m);
      [f_equal; ring|].
    rewrite Z.add_mod_idemp_l by lia. rewrite <- (Z.add_mod_idemp_l _ T), <- Z.mul_mod_idemp_l by lia.
    rewrite Z.add_mod_idemp_l by lia. reflexivity.
Qed.
End Repr.
