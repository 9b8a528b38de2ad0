(** Proofs about the text of big integers of any size. *)
From Verif Require Import Base UBig_Model UBig_Spec UBig_Basics UBig_AddSub UBig_Mul UBig_Kara
  UBig_Div UBig_Shift UBig_Bits BigInt_Model NumRepr_Model NumRepr_Spec NumRepr_Proofs NumRepr_Big NumRepr_Frac
  UBigDiv_Model UBigDiv_Proofs UBigDiv_Ops NumLong_Model BigInt_Proofs.
Open Scope Z_scope.

(** ** Divisors that are one digit followed by zeros *)

Section Pow.
Variable w : Z.
Hypothesis Hw : 0 < w.
Variable ediv : nat -> nat.
Notation B := (base w).
Notation val := (val B).
Notation digits_ok := (digits_ok B).
Notation canon := (canon B).
Let HB : 2 <= B := base_ge2 Hw.
Ltac HB := let h := fresh "HB2_" in pose proof HB as h.
Local Hint Resolve canon_ok : core.

Lemma low_zeros_pow j d : d <> 0 -> low_zeros (repeat 0 j ++ [d]) = (j, [d]).
Proof.
  intros Hd. induction j as [|j IH]; cbn [repeat app low_zeros].
  - destruct (Z.eqb_spec d 0); [lia|reflexivity].
  - rewrite IH. reflexivity.
Qed.
Lemma pow_canon j d : 0 < d < B -> canon (repeat 0 j ++ [d]).
Proof.
  intros Hd. split.
  - apply digits_ok_app. split; [apply digits_ok_repeat0; lia|]. constructor; [lia|constructor].
  - rewrite last_last. lia.
Qed.
Lemma pow_val j d : val (repeat 0 j ++ [d]) = d * B ^ Z.of_nat j.
Proof. rewrite val_app, val_repeat0, repeat_length, val_digit. lia. Qed.

Lemma divmod_base_pow a j d : digits_ok a -> 0 < d < B -> (j < length a <= 32)%nat ->
  exists q r, divmod_base w a (repeat 0 j ++ [d]) = Some (q, r).
Proof.
  intros Ha Hd Hl. HB. set (b := repeat 0 j ++ [d]).
  assert (Hb : canon b) by (apply pow_canon; exact Hd).
  assert (Hnb : b <> []) by (unfold b; destruct j; discriminate).
  assert (Lb : length b = S j) by (unfold b; rewrite app_length, repeat_length; cbn; lia).
  unfold divmod_base.
  destruct (@no_mod_opt_exact_z w Hw a b) as (k & E & Hc1 & Hn1 & Hl1 & Hbd & Hz); auto; try lia.
  { unfold b. rewrite low_zeros_pow by lia. cbn [fst snd length]. lia. }
  rewrite E. cbn [obind]. destruct (Nat.eqb_spec k 0) as [Ek|Ek].
  - destruct (@long_div_spec w Hw a b) as (q' & r' & E1 & _); auto; try lia.
    rewrite E1. cbn [obind]. eauto.
  - destruct (long_div_spec Hw (digits_ok_skipn k Ha) Hc1 Hn1 Hl1) as (q & r & E1 & Hq & Hr & Hvq & Hvr).
    rewrite E1. cbn [obind].
    pose proof (canon_pos HB Hb Hnb) as Hbp.
    pose proof (val_bound HB Ha) as Ha0.
    rewrite Hbd in Hvq.
    pose proof (Z.mul_div_le (val a) (val b) Hbp) as Hle.
    destruct (@umul_small w Hw q b Hq Hb) as (p & Ep & Cp & Vp).
    { lia. }
    unfold umul in Ep. rewrite Ep. cbn [obind].
    destruct (@sub_base_spec w Hw a p) as (r2 & Er & Cr & Vr); auto.
    + apply (canon_length_le Hw); auto. nia.
    + nia.
    + rewrite Er. cbn [obind]. eauto.
Qed.

Hypothesis Hed : forall n, (21 <= n)%nat -> (1 <= ediv n < n)%nat.

Lemma impl_pow lf fuel j d : (j < 20)%nat -> 0 < d < B -> forall a, digits_ok a ->
  (length a < fuel)%nat -> exists q r, impl w ediv lf fuel a (repeat 0 j ++ [d]) = DOk (q, r).
Proof.
  intros Hj Hd. set (b := repeat 0 j ++ [d]).
  assert (Hb : canon b) by (apply pow_canon; exact Hd).
  assert (Hnb : b <> []) by (unfold b; destruct j; discriminate).
  assert (Lb : length b = S j) by (unfold b; rewrite app_length, repeat_length; cbn; lia).
  induction fuel as [|f IH]; intros a Ha Hl; [lia|]. HB.
  destruct (cmp_lt_dec (ucompare a b)) as [Ec|Ec].
  { rewrite impl_S_lt by exact Ec. eauto. }
  rewrite impl_S by exact Ec. unfold impl_ge. apply ucompare_ge in Ec.
  destruct (Nat.leb_spec (length a) 32) as [H32|H32].
  { destruct (@divmod_base_pow a j d) as (q & r & E); auto; try lia. fold b in E. rewrite E. cbn [lift]. eauto. }
  pose proof (half_two (length b)) as Hh. cbv zeta.
  pose proof (@split_len (length a) (length b) ltac:(lia) H32) as Hsp. cbv zeta in Hsp.
  set (half := ((length b + 1) / 2)%nat) in *.
  destruct (Nat.leb_spec (length a) (half * 3)) as [H3|H3]; [lia|]. specialize (Hsp H3).
  set (k := if Nat.ltb (half * 4) (length a) then (length a / 2)%nat else half) in *.
  destruct (IH (skipn k a)) as (q1 & r1 & E1); auto.
  { apply digits_ok_skipn; auto. }
  { rewrite skipn_length. lia. }
  rewrite E1. cbn [dbind].
  destruct (impl_sound Hw Hed (digits_ok_skipn k Ha) Hb Hnb E1) as (D1 & Dr1 & _ & _ & _ & L1 & _).
  assert (Dm : digits_ok (firstn k a ++ r1)) by (apply digits_ok_app; split; [apply digits_ok_firstn|]; auto).
  destruct (IH (firstn k a ++ r1)) as (q2 & r2 & E2); auto.
  { rewrite app_length, firstn_length_le by lia. lia. }
  rewrite E2. cbn [dbind].
  destruct (impl_sound Hw Hed Dm Hb Hnb E2) as (D2 & _).
  destruct (@add_to_base_any w Hw (repeat 0 k ++ q1) q2) as (s & Es & _); auto.
  { apply digits_ok_app. split; [apply digits_ok_repeat0; lia|auto]. }
  rewrite Es. cbn [lift dbind]. eauto.
Qed.

Lemma pow_top j d : (1 <= j)%nat -> 0 < d < B ->
  val (skipn (length (repeat 0 j ++ [d]) - 2) (repeat 0 j ++ [d])) <> B * B - 1.
Proof.
  intros Hj Hd. HB. rewrite app_length, repeat_length. cbn [length].
  replace (j + 1 - 2)%nat with (j - 1)%nat by lia.
  replace (repeat 0 j) with (repeat 0 (j - 1) ++ [0]).
  2:{ change [0] with (repeat 0 1). rewrite <- repeat_app. f_equal. lia. }
  rewrite <- app_assoc, skipn_app_exact by apply repeat_length.
  cbn [app UBig_Spec.val]. nia.
Qed.

Lemma fdivmod_pow lf fuel a j d : canon a -> 0 < d < B -> (1 <= j < 20)%nat ->
  (32 < length a)%nat -> (length a + 1 < fuel)%nat ->
  exists q r, fdivmod w ediv lf fuel a (repeat 0 j ++ [d]) = DOk (q, r).
Proof.
  intros Ha Hd Hj Hla Hf. HB. set (b := repeat 0 j ++ [d]).
  assert (Hb : canon b) by (apply pow_canon; exact Hd).
  assert (Lb : length b = S j) by (unfold b; rewrite app_length, repeat_length; cbn; lia).
  destruct (@regularise_ok w Hw a b) as (a' & b' & m & E & Hm & _ & Ca & Cb & Va & Vb & Lb' & La); auto.
  { lia. } { apply pow_top; auto; lia. }
  assert (Hdm : 0 < d * m < B).
  { pose proof (val_bound HB (canon_ok Cb)) as Hbd. rewrite Vb, Lb', Lb in Hbd. unfold b in Hbd.
    rewrite pow_val in Hbd. rewrite Nat2Z.inj_succ, Z.pow_succ_r in Hbd by lia.
    pose proof (powB_pos HB j) as Hp. split; [nia|].
    apply (Z.mul_lt_mono_pos_r (B ^ Z.of_nat j)); [exact Hp|]. lia. }
  assert (Eb : b' = repeat 0 j ++ [d * m]).
  { apply (canon_unique HB); [exact Cb|apply pow_canon; exact Hdm|].
    rewrite Vb. unfold b. rewrite !pow_val. lia. }
  destruct (@impl_pow lf fuel j (d * m)) with (a := a') as (q & r & E1); auto; try lia.
  rewrite <- Eb in E1.
  assert (Hn2 : b' <> []) by (rewrite Eb; destruct j; discriminate).
  destruct (impl_sound Hw Hed (canon_ok Ca) Cb Hn2 E1) as (_ & Dr & _ & _ & _ & Lr & _).
  destruct (@fdiv_digit w Hw ediv Hed lf fuel r m Dr Hm ltac:(lia)) as (r' & E2 & _).
  unfold fdivmod. fold b. destruct b as [|y b2] eqn:Eb3; [cbn in Lb; lia|].
  destruct (Nat.ltb_spec (length a) (length (y :: b2))); [lia|].
  destruct (Nat.leb_spec (length a) 32); [lia|].
  rewrite E. cbn [dbind]. rewrite E1. cbn [dbind]. rewrite E2. cbn [dbind]. eauto.
Qed.
End Pow.

(** ** Printing *)

Section Print.
Variable R : repr.
Hypothesis HR : repr_ok R.
Notation r := (radix R).
Variables (w : Z) (nd : nat).
Hypothesis Hw : 0 < w.
Hypothesis Hnd : nd <> 0%nat.
Hypothesis Hrad : r < size_t_values w nd.
Variable ediv : nat -> nat.
Hypothesis Hed : forall n, (21 <= n)%nat -> (1 <= ediv n < n)%nat.
Notation B := (base w).
Notation val := (val B).
Notation digits_ok := (digits_ok B).
Notation canon := (canon B).
Let HB : 2 <= B := base_ge2 Hw.
Let Hr : 2 <= r := proj1 HR.
Local Hint Resolve canon_ok : core.

(** The short printer and this one agree. *)
Lemma print_long_big lf df f : forall a s, print_big R w nd f a = Some s ->
  print_long R w nd ediv lf df f a = DOk s.
Proof.
  clear. induction f as [|f IH]; intros a s; cbn [print_big print_long];
    destruct (is_safe_size_t w nd a); intros E; try (rewrite E; reflexivity); try discriminate.
  apply obind_some in E. destruct E as (b0 & E0 & E). rewrite E0. cbn [lift dbind].
  apply obind_some in E. destruct E as ([bs len] & Es & E). rewrite Es. cbn [lift dbind].
  apply obind_some in E. destruct E as ([hi lo] & Ed & E). rewrite (fdivmod_udivmod ediv lf df Ed). cbn [dbind].
  apply obind_some in E. destruct E as (h & Eh & E). rewrite (IH _ _ Eh). cbn [dbind].
  apply obind_some in E. destruct E as (l & El & E). rewrite (IH _ _ El). cbn [dbind].
  injection E as <-. reflexivity.
Qed.

(** The split of one step. *)
Definition split_of (n : nat) : option (list Z * nat) :=
  match of_uint w nd r with Some b0 => split_base w 64 n b0 1 | None => None end.

(** What one step of the printer does to a number that does not fit. *)
Lemma print_long_step lf df f a s : canon a -> (nd < length a)%nat ->
  print_long R w nd ediv lf df (S f) a = DOk s ->
  exists bs len hi lo h l, split_of (length a) = Some (bs, len) /\
    canon bs /\ bs <> [] /\ val bs = r ^ Z.of_nat len /\ (1 <= len)%nat /\ (length bs < length a)%nat /\
    fdivmod w ediv lf df a bs = DOk (hi, lo) /\
    print_long R w nd ediv lf df f hi = DOk h /\ print_long R w nd ediv lf df f lo = DOk l /\
    s = h ++ pad_left (get_char R 0) len l.
Proof.
  intros Ha H. cbn [print_long]. rewrite (is_safe_spec Hw Hnd Ha).
  destruct (Nat.leb_spec (length a) nd) as [H'|_]; [lia|]. intros E.
  destruct (radix_digits HR Hw Hnd Hrad) as (b0 & E0 & C0 & V0 & L0). rewrite E0 in E. cbn [lift dbind] in E.
  apply dbind_ok in E. destruct E as ([bs len] & Es & E). apply lift_ok in Es.
  pose proof Es as Es2.
  apply (@split_base_spec R HR w nd Hw Hnd 64 (length a) b0 1) in Es; auto; [|rewrite V0; lia|lia].
  destruct Es as (Cb & Vb & Lb & Hlb).
  apply dbind_ok in E. destruct E as ([hi lo] & Ed & E).
  apply dbind_ok in E. destruct E as (h & Eh & E).
  apply dbind_ok in E. destruct E as (l & El & E). injection E as <-.
  assert (Hbp : 0 < val bs) by (rewrite Vb; apply Z.pow_pos_nonneg; lia).
  assert (Hbn : bs <> []) by (intros ->; cbn in Hbp; lia).
  exists bs, len, hi, lo, h, l. unfold split_of. rewrite E0. repeat split; auto; apply Cb.
Qed.

(** All numbers of at most [n] digits are split at a power of at most 20 digits. *)
Definition splits_short (n : nat) : bool :=
  forallb (fun m => match split_of m with
                    | Some (bs, _) => Nat.leb (length bs) 20
                    | None => true
                    end) (seq 0 (S n)).

Lemma print_long_sound n : splits_short n = true -> forall lf df f a s, canon a -> (length a <= n)%nat ->
  print_long R w nd ediv lf df f a = DOk s -> numeral_of R (val a) s.
Proof.
  intros Hsh lf df. unfold splits_short in Hsh. rewrite forallb_forall in Hsh.
  induction f as [|f IH]; intros a s Ha Hl E.
  - cbn [print_long] in E. rewrite (is_safe_spec Hw Hnd Ha) in E.
    destruct (Nat.leb_spec (length a) nd) as [H|H]; [|discriminate].
    destruct (print_size_t HR Hw Hnd Ha H) as (t & Et & Ht). rewrite Et in E. injection E as <-. exact Ht.
  - destruct (le_lt_dec (length a) nd) as [H|H].
    { cbn [print_long] in E. rewrite (is_safe_spec Hw Hnd Ha) in E.
      destruct (Nat.leb_spec (length a) nd) as [_|H']; [|lia].
      destruct (print_size_t HR Hw Hnd Ha H) as (t & Et & Ht). rewrite Et in E. injection E as <-. exact Ht. }
    apply print_long_step in E; auto.
    destruct E as (bs & len & hi & lo & h & l & Es & Cb & Hbn & Vb & Lb & Hlb & Ed & Eh & El & ->).
    specialize (Hsh (length a) ltac:(apply in_seq; lia)). rewrite Es in Hsh. apply Nat.leb_le in Hsh.
    destruct (fdivmod_sound Hw Hed Ha Cb Hbn Ed) as (Ch & Cl & Vl & _ & Vh). specialize (Vh Hsh).
    pose proof (canon_pos HB Cb Hbn) as Hbp.
    pose proof (canon_lt_length Hw Cb Ha Hlb) as Hlt.
    pose proof (Z.div_mod (val a) (val bs) ltac:(lia)) as Hdm.
    pose proof (Z.mod_pos_bound (val a) (val bs) Hbp) as Hmb.
    assert (Hhi : 1 <= val hi) by (rewrite Vh; apply Z.div_le_lower_bound; lia).
    assert (Lh : (length hi <= length a)%nat) by (apply (canon_le_length Hw); auto; nia).
    assert (Ll : (length lo <= length a)%nat) by (apply (canon_le_length Hw); auto; nia).
    apply IH in Eh; [|auto|lia]. apply IH in El; [|auto|lia].
    replace (val a) with (val hi * r ^ Z.of_nat len + val lo) by (rewrite <- Vb, Vh, Vl; lia).
    apply (numeral_concat HR Hnd); auto; [lia|]. rewrite <- Vb, Vl. exact Hmb.
Qed.

(** Every number of at most [n] digits is split so that the division works: at
    most 32 digits as in [split_fits], above that at a digit followed by zeros. *)
Definition splits_pow (n : nat) : bool :=
  splits_fit R w nd &&
  forallb (fun m => match split_of m with
                    | Some (bs, _) => forallb (fun d => d =? 0) (removelast bs) &&
                                      Nat.leb 2 (length bs) && Nat.leb (length bs) 20
                    | None => false
                    end) (seq 33 (n - 32)).

Lemma zeros_repeat l : forallb (fun d => d =? 0) l = true -> l = repeat 0 (length l).
Proof.
  clear. induction l as [|x l IH]; cbn [forallb repeat length]; intros H; [reflexivity|].
  apply andb_true_iff in H. destruct H as [H1 H2]. apply Z.eqb_eq in H1. subst x. f_equal. auto.
Qed.

Lemma print_long_total n : splits_pow n = true -> (nd <= 31)%nat -> forall lf df f a, canon a ->
  (length a <= n)%nat -> (n + 1 < df)%nat -> val a < 2 ^ Z.of_nat f ->
  exists s, print_long R w nd ediv lf df f a = DOk s.
Proof.
  intros Hp Hn31 lf df. unfold splits_pow in Hp. apply andb_true_iff in Hp. destruct Hp as [Hfit Hp].
  rewrite forallb_forall in Hp.
  induction f as [|f IH]; intros a Ha Hl Hdf Hv.
  - destruct (@print_big_total R HR w nd Hw Hnd Hrad 0 Hfit a) as (s & E); auto.
    { pose proof (val_bound HB (canon_ok Ha)). cbn in Hv. destruct a as [|x a]; [cbn; lia|].
      pose proof (canon_pos HB Ha ltac:(discriminate)). lia. }
    exists s. apply print_long_big. exact E.
  - destruct (le_lt_dec (length a) 32) as [H32|H32].
    { destruct (@print_big_total R HR w nd Hw Hnd Hrad (S f) Hfit a) as (s & E); auto.
      exists s. apply print_long_big. exact E. }
    specialize (Hp (length a) ltac:(apply in_seq; lia)). unfold split_of in Hp.
    cbn [print_long]. rewrite (is_safe_spec Hw Hnd Ha).
    destruct (Nat.leb_spec (length a) nd) as [H'|H]; [lia|].
    destruct (radix_digits HR Hw Hnd Hrad) as (b0 & E0 & C0 & V0 & L0). rewrite E0 in *. cbn [lift dbind].
    destruct (split_base w 64 (length a) b0 1) as [[bs len]|] eqn:Es; [|discriminate].
    cbn [lift dbind].
    apply (@split_base_spec R HR w nd Hw Hnd 64 (length a) b0 1) in Es; auto; [|rewrite V0; lia|lia].
    destruct Es as (Cb & Vb & Lb & Hlb).
    apply andb_true_iff in Hp. destruct Hp as [Hp H20]. apply andb_true_iff in Hp. destruct Hp as [Hz H2].
    apply Nat.leb_le in H20. apply Nat.leb_le in H2. apply zeros_repeat in Hz.
    assert (Hbn : bs <> []) by (intros ->; cbn in H2; lia).
    assert (Eb : bs = repeat 0 (length (removelast bs)) ++ [last bs 0]).
    { rewrite <- Hz. apply app_removelast_last. exact Hbn. }
    assert (Lj : length bs = S (length (removelast bs))).
    { rewrite Eb at 1. rewrite app_length, repeat_length. cbn. lia. }
    assert (Hd : 0 < last bs 0 < B).
    { apply canon_last_pos; auto. }
    destruct (@fdivmod_pow w Hw ediv Hed lf df a (length (removelast bs)) (last bs 0)) as (hi & lo & Ed);
      auto; try lia.
    rewrite <- Eb in Ed. rewrite Ed. cbn [dbind].
    destruct (fdivmod_sound Hw Hed Ha Cb Hbn Ed) as (Ch & Cl & Vl & _ & Vh). specialize (Vh H20).
    pose proof (canon_pos HB Cb Hbn) as Hbp.
    pose proof (canon_lt_length Hw Cb Ha Hlb) as Hlt.
    pose proof (Z.div_mod (val a) (val bs) ltac:(lia)) as Hdm.
    pose proof (Z.mod_pos_bound (val a) (val bs) Hbp) as Hmb.
    rewrite <- Vh, <- Vl in Hdm. rewrite <- Vl in Hmb.
    assert (Hhi : 1 <= val hi) by (rewrite Vh; apply Z.div_le_lower_bound; lia).
    assert (Hbr : r <= val bs).
    { rewrite Vb. rewrite <- (Z.pow_1_r r) at 1. apply Z.pow_le_mono_r; lia. }
    rewrite Nat2Z.inj_succ, Z.pow_succ_r in Hv by lia.
    assert (Lh : (length hi <= length a)%nat) by (apply (canon_le_length Hw); auto; nia).
    assert (Ll : (length lo <= length a)%nat) by (apply (canon_le_length Hw); auto; nia).
    destruct (IH hi Ch ltac:(lia) Hdf ltac:(nia)) as (h & ->). cbn [dbind].
    destruct (IH lo Cl ltac:(lia) Hdf ltac:(nia)) as (l & ->). cbn [dbind]. eauto.
Qed.

(** ** Numbers without a text *)

Lemma split_base_ends f : forall size bs len bs' len', split_base w f size bs len = Some (bs', len') ->
  (size <= 3 * length bs')%nat.
Proof.
  clear. induction f as [|f IH]; intros size bs len bs' len'; cbn [split_base];
    destruct (Nat.ltb_spec (3 * length bs) size) as [H|H]; intros E; try discriminate.
  - injection E as <- <-. exact H.
  - apply obind_some in E. destruct E as (b2 & _ & E). eauto.
  - injection E as <- <-. exact H.
Qed.

Lemma print_long_condition lf df f a s : canon a -> (96 < length a)%nat -> (nd <= 32)%nat ->
  print_long R w nd ediv lf df f a = DOk s ->
  exists len, (1 <= len)%nat /\ B ^ 32 <= r ^ Z.of_nat len <= val a /\
    val a mod r ^ Z.of_nat len < B ^ 32.
Proof.
  intros Ha Hl Hn E. destruct f as [|f].
  { cbn [print_long] in E. rewrite (is_safe_spec Hw Hnd Ha) in E.
    destruct (Nat.leb_spec (length a) nd); [lia|discriminate]. }
  apply print_long_step in E; auto; [|lia].
  destruct E as (bs & len & hi & lo & h & l & Es & Cb & Hbn & Vb & Lb & Hlb & Ed & Eh & El & ->).
  assert (H33 : (33 <= length bs)%nat).
  { unfold split_of in Es. destruct (of_uint w nd r) as [b0|]; [|discriminate].
    apply split_base_ends in Es. lia. }
  pose proof (canon_lower HB Cb Hbn) as Hlow.
  pose proof (Z.pow_le_mono_r B 32 (Z.of_nat (length bs) - 1) ltac:(lia) ltac:(lia)) as Hm.
  pose proof (canon_lt_length Hw Cb Ha Hlb) as Hlt.
  exists len. split; [exact Lb|]. rewrite <- Vb. split; [lia|].
  destruct (Z.lt_ge_cases (val a mod val bs) (B ^ 32)) as [|Hge]; [assumption|exfalso].
  assert (Ht : val (skipn (length bs - 2) bs) <> B * B - 1).
  { intros Ht. destruct (@top_max_undefined w Hw ediv lf df a bs) as [_ Hu]; auto; try lia.
    rewrite Hu in Ed. discriminate. }
  destruct (@long_remainder_undefined w Hw ediv Hed lf df a bs lo) as [_ Hu]; auto; try lia.
  - pose proof (val_bound HB (digits_ok_skipn (length bs - 2) (canon_ok Cb))) as Hs.
    rewrite skipn_length in Hs. replace (length bs - (length bs - 2))%nat with 2%nat in Hs by lia.
    change (Z.of_nat 2) with 2 in Hs. rewrite Z.pow_2_r in Hs.
    assert (1 <= (B * B - 1) / (val (skipn (length bs - 2) bs) + 1)).
    { apply Z.div_le_lower_bound; lia. }
    nia.
  - exact (Hu hi Ed).
Qed.

(** ** Round trips *)

Variable thr : nat.
Hypothesis Hthr : r ^ Z.of_nat thr <= size_t_values w nd.

Lemma long_round_trip n lf df f g a s x : splits_short n = true -> canon a -> (length a <= n)%nat ->
  print_long R w nd ediv lf df f a = DOk s -> parse_big R w nd g thr s = Some x -> x = Some a.
Proof.
  intros Hn Ha Hl Ep Eq. apply (print_long_sound Hn) in Ep; auto. apply (numeral_digits HR) in Ep.
  destruct Ep as (Hd & Hv & _). apply (parse_big_sound HR Hw Hnd Hrad Hthr) in Eq. destruct x as [y|]; [|congruence].
  destruct Eq as (_ & Cy & Vy). f_equal. apply (canon_unique HB); auto. congruence.
Qed.

Lemma numeral_size n a s : canon a -> (length a <= n)%nat -> numeral_of R (val a) s ->
  r ^ Z.of_nat (length s) <= B ^ Z.of_nat (nd + n).
Proof.
  intros Ha Hl (ds & -> & Hd & Hv & Hn & Hz). rewrite map_length.
  destruct ds as [|d ds]; [congruence|]. cbn [length hd] in *.
  rewrite Nat2Z.inj_succ, Z.pow_succ_r by lia.
  inversion_clear Hd as [|? ? Hd0 Hds].
  rewrite (size_t_B Hw Hnd) in Hrad. rewrite Nat2Z.inj_add, Z.pow_add_r by lia.
  pose proof (Z.pow_nonneg r (Z.of_nat (length ds)) ltac:(lia)).
  apply Z.mul_le_mono_nonneg; [lia|lia|lia|].
  destruct (Z.eq_dec d 0) as [->|Hd1].
  - injection (Hz eq_refl) as ->. cbn [length]. change (Z.of_nat 0) with 0. rewrite Z.pow_0_r.
    pose proof (Z.pow_pos_nonneg B (Z.of_nat n) ltac:(lia) ltac:(lia)). lia.
  - pose proof (@pos_val_lower r d ds Hr Hds ltac:(lia)) as Hlow.
    pose proof (val_bound HB (canon_ok Ha)) as Hvb.
    pose proof (Z.pow_le_mono_r B (Z.of_nat (length a)) (Z.of_nat n) ltac:(lia) ltac:(lia)). lia.
Qed.

Lemma long_round_trip_total n lf df f a : (1 <= thr)%nat -> (nd <= 31)%nat -> (nd + n <= 63)%nat ->
  splits_pow n = true -> splits_short n = true -> canon a -> (length a <= n)%nat -> (n + 1 < df)%nat ->
  val a < 2 ^ Z.of_nat f ->
  exists s, print_long R w nd ediv lf df f a = DOk s /\ numeral_of R (val a) s /\
            parse_big R w nd (length s) thr s = Some (Some a).
Proof.
  intros Ht Hn31 Hn63 Hpow Hsh Ha Hl Hdf Hv.
  destruct (@print_long_total n Hpow Hn31 lf df f a Ha Hl Hdf Hv) as (s & Es).
  exists s. split; [exact Es|]. pose proof (print_long_sound Hsh Ha Hl Es) as Hn. split; [exact Hn|].
  pose proof (numeral_size Ha Hl Hn) as Hsz.
  pose proof (Z.pow_le_mono_r B (Z.of_nat (nd + n)) 63 ltac:(lia) ltac:(lia)) as Hm.
  destruct (@parse_big_total R HR w nd Hw Hnd Hrad thr Hthr (length s) Ht s ltac:(lia) ltac:(lia)) as (x & Ex).
  rewrite Ex. f_equal.
  eapply long_round_trip; eauto.
Qed.
End Print.

(** Decimal, hexadecimal, binary and octal on 32-bit digits. *)
Lemma short_radices : splits_short decimal 32 2 42 = true /\ splits_short hexadecimal 32 2 51 = true /\
  splits_short binary 32 2 51 = true /\ splits_short octal 32 2 39 = true.
Proof. vm_compute. auto. Qed.
Lemma pow_radices : splits_pow hexadecimal 32 2 51 = true /\ splits_pow binary 32 2 51 = true /\
  splits_pow octal 32 2 39 = true.
Proof. vm_compute. auto. Qed.

Lemma long_usual ediv lf df f a s R n :
  (forall n, (21 <= n)%nat -> (1 <= ediv n < n)%nat) ->
  In (R, n) [(decimal, 42%nat); (hexadecimal, 51%nat); (binary, 51%nat); (octal, 39%nat)] ->
  canon (base 32) a -> (length a <= n)%nat ->
  print_long R 32 2 ediv lf df f a = DOk s -> numeral_of R (val (base 32) a) s.
Proof.
  intros Hed H Ha Hl E. destruct short_radices as (S1 & S2 & S3 & S4).
  assert (Hsm : radix decimal < size_t_values 32 2 /\ radix hexadecimal < size_t_values 32 2 /\
                radix binary < size_t_values 32 2 /\ radix octal < size_t_values 32 2).
  { vm_compute. auto. }
  destruct Hsm as (M1 & M2 & M3 & M4).
  destruct H as [H|[H|[H|[H|[]]]]]; injection H as <- <-.
  - exact (@print_long_sound decimal decimal_ok 32 2 eq_refl ltac:(discriminate) M1 ediv Hed 42 S1 lf df f a s Ha Hl E).
  - exact (@print_long_sound hexadecimal hexadecimal_ok 32 2 eq_refl ltac:(discriminate) M2 ediv Hed 51 S2 lf df f a s Ha Hl E).
  - exact (@print_long_sound binary binary_ok 32 2 eq_refl ltac:(discriminate) M3 ediv Hed 51 S3 lf df f a s Ha Hl E).
  - exact (@print_long_sound octal octal_ok 32 2 eq_refl ltac:(discriminate) M4 ediv Hed 39 S4 lf df f a s Ha Hl E).
Qed.

(** The sign stands in front of the numeral of the magnitude. *)
Lemma long_signed ediv lf df f minus x s R n :
  (forall n, (21 <= n)%nat -> (1 <= ediv n < n)%nat) ->
  In (R, n) [(decimal, 42%nat); (hexadecimal, 51%nat); (binary, 51%nat); (octal, 39%nat)] ->
  icanon (base 32) x -> inorm x -> (length (mag x) <= n)%nat ->
  print_long_signed R 32 2 ediv lf df f minus x = DOk s ->
  exists t, numeral_of R (Z.abs (ival (base 32) x)) t /\
    s = if ival (base 32) x <? 0 then minus :: t else t.
Proof.
  intros Hed H Hc Hn Hl E. unfold print_long_signed in E.
  destruct (print_long R 32 2 ediv lf df f (mag x)) as [t| |] eqn:P; try discriminate. cbn in E.
  injection E as <-. exists t.
  pose proof (@long_usual ediv lf df f (mag x) t R n Hed H Hc Hl P) as N.
  assert (V : 0 <= val (base 32) (mag x)) by (exact (@val_ge0 32 ltac:(reflexivity) _ Hc)).
  unfold ival. destruct (neg x) eqn:G.
  - assert (V0 : val (base 32) (mag x) <> 0).
    { intros V0. apply (proj2 (@canon_nil_iff 32 ltac:(reflexivity) _ Hc)) in V0. exact (Hn G V0). }
    rewrite Z.abs_opp, Z.abs_eq by exact V. split; [exact N|].
    destruct (Z.ltb_spec (- val (base 32) (mag x)) 0); [reflexivity|lia].
  - rewrite Z.abs_eq by exact V. split; [exact N|]. destruct (Z.ltb_spec (val (base 32) (mag x)) 0); [lia|reflexivity].
Qed.

Lemma long_power_radices ediv lf df f a R n thr :
  (forall n, (21 <= n)%nat -> (1 <= ediv n < n)%nat) ->
  In (R, n, thr) [(hexadecimal, 51%nat, 15%nat); (binary, 51%nat, 63%nat); (octal, 39%nat, 21%nat)] ->
  canon (base 32) a -> (length a <= n)%nat -> (n + 1 < df)%nat -> val (base 32) a < 2 ^ Z.of_nat f ->
  exists s, print_long R 32 2 ediv lf df f a = DOk s /\ numeral_of R (val (base 32) a) s /\
            parse_big R 32 2 (length s) thr s = Some (Some a).
Proof.
  intros Hed H Ha Hl Hdf Hv. destruct short_radices as (_ & S2 & S3 & S4). destruct pow_radices as (P2 & P3 & P4).
  assert (Hsm : radix hexadecimal < size_t_values 32 2 /\
                radix binary < size_t_values 32 2 /\ radix octal < size_t_values 32 2).
  { vm_compute. auto. }
  destruct Hsm as (M2 & M3 & M4).
  assert (Ht : radix hexadecimal ^ Z.of_nat 15 <= size_t_values 32 2 /\
               radix binary ^ Z.of_nat 63 <= size_t_values 32 2 /\
               radix octal ^ Z.of_nat 21 <= size_t_values 32 2).
  { vm_compute. repeat split; discriminate. }
  destruct Ht as (T2 & T3 & T4).
  destruct H as [H|[H|[H|[]]]]; injection H as <- <- <-.
  - exact (@long_round_trip_total hexadecimal hexadecimal_ok 32 2 eq_refl ltac:(discriminate) M2 ediv Hed 15 T2 51
             lf df f a ltac:(lia) ltac:(lia) ltac:(lia) P2 S2 Ha Hl Hdf Hv).
  - exact (@long_round_trip_total binary binary_ok 32 2 eq_refl ltac:(discriminate) M3 ediv Hed 63 T3 51
             lf df f a ltac:(lia) ltac:(lia) ltac:(lia) P3 S3 Ha Hl Hdf Hv).
  - exact (@long_round_trip_total octal octal_ok 32 2 eq_refl ltac:(discriminate) M4 ediv Hed 21 T4 39
             lf df f a ltac:(lia) ltac:(lia) ltac:(lia) P4 S4 Ha Hl Hdf Hv).
Qed.

(** A larger bound does not change an outcome. *)
Lemma print_long_mono R w nd ediv f : forall lf lf' df df' f' a, (lf <= lf')%nat -> (df <= df')%nat -> (f <= f')%nat ->
  print_long R w nd ediv lf df f a <> DOut ->
  print_long R w nd ediv lf' df' f' a = print_long R w nd ediv lf df f a.
Proof.
  induction f as [|f IH]; intros lf lf' df df' f' a H1 H2 H3.
  - cbn [print_long]. destruct f'; cbn [print_long]; destruct (is_safe_size_t w nd a); congruence.
  - destruct f' as [|f']; [lia|]. cbn [print_long]. destruct (is_safe_size_t w nd a); [congruence|].
    destruct (lift (of_uint w nd (radix R))) as [b0| |]; cbn [dbind]; try congruence.
    destruct (lift (split_base w 64 (length a) b0 1)) as [[bs len]| |]; cbn [dbind]; try congruence.
    apply dbind_mono.
    + intros H. apply fdivmod_mono; auto.
    + intros [hi lo] H. revert H. apply dbind_mono.
      * intros H. apply IH; auto. lia.
      * intros h H. revert H. apply dbind_mono; [|congruence].
        intros H. apply IH; auto. lia.
Qed.
Lemma print_long_stable R w nd ediv lf df f a t : print_long R w nd ediv lf df f a = t -> t <> DOut ->
  forall lf' df' f', (lf <= lf')%nat -> (df <= df')%nat -> (f <= f')%nat ->
  print_long R w nd ediv lf' df' f' a = t.
Proof. intros E Ht lf' df' f' H1 H2 H3. rewrite <- E in *. apply print_long_mono; auto. Qed.

(** A text whose digits denote another number is not the numeral. *)
Lemma not_numeral R n s : repr_ok R -> text_val R s <> n -> ~ numeral_of R n s.
Proof. intros HR Hn H. apply (numeral_digits HR) in H. tauto. Qed.
