(** Text of big integers: printing and parsing. *)
From Verif Require Import Base UBig_Model UBig_Spec UBig_Basics UBig_AddSub UBig_Mul UBig_Kara
  UBig_Div UBig_Shift UBig_Bits BigInt_Model NumRepr_Model NumRepr_Spec NumRepr_Proofs.
Open Scope Z_scope.
Open Scope omonad_scope.

Section Big.
Variable R : repr.
Hypothesis HR : repr_ok R.
Notation r := (radix R).
Variables (w : Z) (nd : nat).
Hypothesis Hw : 0 < w.
Hypothesis Hnd : nd <> 0%nat.
Hypothesis Hrad : r < size_t_values w nd.
Notation B := (base w).
Notation val := (val B).
Notation digits_ok := (digits_ok B).
Notation canon := (canon B).
Let HB : 2 <= B := base_ge2 Hw.
Let Hr : 2 <= r := proj1 HR.
Local Hint Resolve canon_ok : core.

Lemma size_t_B : size_t_values w nd = B ^ Z.of_nat nd.
Proof. unfold size_t_values, base. rewrite Z.pow_mul_r by lia. reflexivity. Qed.

Lemma cmp_loop_max a : digits_ok a -> cmp_native_loop w a (B ^ Z.of_nat (length a) - 1) = Eq.
Proof.
  induction a as [|d a IH]; intros H; cbn [cmp_native_loop length].
  - reflexivity.
  - apply digits_ok_cons in H. destruct H as [Hd Ha]. rewrite Nat2Z.inj_succ, Z.pow_succ_r by lia.
    pose proof (powB_pos HB (length a)) as Hp.
    destruct (Z.ltb_spec (B * B ^ Z.of_nat (length a) - 1) d) as [H|_]; [nia|].
    replace ((B * B ^ Z.of_nat (length a) - 1 - d) / B) with (B ^ Z.of_nat (length a) - 1); [auto|].
    apply (Z.div_unique _ _ _ (B - 1 - d)); lia.
Qed.

Lemma is_safe_spec a : canon a -> is_safe_size_t w nd a = Nat.leb (length a) nd.
Proof.
  intros Ha. unfold is_safe_size_t, cmp_native. rewrite size_t_B.
  destruct (Nat.ltb_spec nd (length a)) as [H|H]; destruct (Nat.leb_spec (length a) nd) as [H2|H2]; try lia; try reflexivity.
  destruct (Nat.compare_spec (length a) nd) as [E|E|E]; [|reflexivity|lia].
  rewrite <- E. rewrite cmp_loop_max by auto. reflexivity.
Qed.

Lemma length_lt_of_val a n : canon a -> val a < B ^ Z.of_nat n -> (length a <= n)%nat.
Proof.
  intros Ha Hv. destruct a as [|x a]; [cbn; lia|].
  pose proof (canon_lower HB Ha ltac:(discriminate)) as Hl.
  destruct (le_lt_dec (length (x :: a)) n) as [|H]; [auto|].
  pose proof (Z.pow_le_mono_r B (Z.of_nat n) (Z.of_nat (length (x :: a)) - 1) ltac:(lia) ltac:(lia)). lia.
Qed.

Lemma umul_length a b p : canon a -> canon b -> umul w a b = Some p -> (length p <= length a + length b)%nat.
Proof.
  intros Ha Hb E. destruct (umul_sound Hw Ha Hb E) as [Hp Hv].
  apply length_lt_of_val; auto. rewrite Hv.
  pose proof (val_bound HB (canon_ok Ha)). pose proof (val_bound HB (canon_ok Hb)).
  rewrite Nat2Z.inj_add, Z.pow_add_r by lia. nia.
Qed.

(** ** The split base of the printer *)

Lemma split_base_spec f : forall size bs len bs' len',
  canon bs -> val bs = r ^ Z.of_nat len -> (1 <= len)%nat -> (length bs < size)%nat ->
  split_base w f size bs len = Some (bs', len') ->
  canon bs' /\ val bs' = r ^ Z.of_nat len' /\ (1 <= len')%nat /\ (length bs' < size)%nat.
Proof.
  induction f as [|f IH]; intros size bs len bs' len' Hc Hv Hl Hs; cbn [split_base];
    destruct (Nat.ltb_spec (3 * length bs) size) as [H|H]; intros E.
  - discriminate.
  - injection E as <- <-. auto.
  - apply obind_some in E. destruct E as (b2 & E2 & E).
    destruct (umul_sound Hw Hc Hc E2) as [C2 V2]. pose proof (umul_length Hc Hc E2) as L2.
    apply (IH size b2 (2 * len)%nat); [exact C2| |lia|lia|exact E].
    rewrite V2, Hv, <- Z.pow_add_r by lia. f_equal. lia.
  - injection E as <- <-. auto.
Qed.

Lemma radix_digits : exists b0, of_uint w nd r = Some b0 /\ canon b0 /\ val b0 = r /\ (length b0 <= nd)%nat.
Proof.
  rewrite size_t_B in Hrad.
  destruct (@of_uint_spec w Hw nd r ltac:(lia)) as (b0 & E & Hc & Hv).
  exists b0. repeat split; auto; try apply Hc. apply length_lt_of_val; auto. lia.
Qed.

(** ** Printing *)

Lemma numeral_concat hi lo h l (len : nat) : 0 < hi -> 0 <= lo < r ^ Z.of_nat len -> (1 <= len)%nat ->
  numeral_of R hi h -> numeral_of R lo l ->
  numeral_of R (hi * r ^ Z.of_nat len + lo) (h ++ pad_left (get_char R 0) len l).
Proof.
  intros Hhi Hlo Hlen (ds & -> & Hd & Hdv & Hdn & Hdz) (es & -> & He & Hev & Hen & Hez).
  unfold pad_left. rewrite map_length.
  pose proof (numeral_len HR He Hez Hev (proj2 Hlo) Hlen) as Hle.
  exists (ds ++ repeat 0 (len - length es) ++ es). split; [|split; [|split; [|split]]].
  - rewrite !map_app. f_equal. f_equal. clear. induction (len - length es)%nat as [|n IH]; [reflexivity|].
    cbn [repeat map]. f_equal. exact IH.
  - apply digits_in_app; auto. apply digits_in_app; auto. apply Forall_forall. intros x Hx.
    apply repeat_spec in Hx. lia.
  - rewrite !pos_val_app, pos_val_zeros, app_length, repeat_length.
    replace (len - length es + length es)%nat with len by lia. lia.
  - destruct ds; [congruence|discriminate].
  - destruct ds as [|d ds]; [congruence|]. cbn [app hd] in *. intros Hd0. specialize (Hdz Hd0).
    injection Hdz as -> ->. rewrite pos_val_one in Hdv. lia.
Qed.

Lemma print_size_t a : canon a -> (length a <= nd)%nat ->
  exists s, print_native R (Z.to_nat (w * Z.of_nat nd)) (convert_to w (size_t_values w nd) a) [] = Some s /\
            numeral_of R (val a) s.
Proof.
  intros Ha Hl. pose proof (val_bound HB (canon_ok Ha)) as Hv.
  pose proof (Z.pow_le_mono_r B (Z.of_nat (length a)) (Z.of_nat nd) ltac:(lia) ltac:(lia)) as Hm.
  rewrite convert_to_spec by (rewrite size_t_B; apply Z.pow_pos_nonneg; lia).
  rewrite Z.mod_small by (rewrite size_t_B; lia).
  assert (H : 0 <= val a < 2 ^ Z.of_nat (Z.to_nat (w * Z.of_nat nd))).
  { rewrite Z2Nat.id by lia. change (2 ^ (w * Z.of_nat nd)) with (size_t_values w nd). rewrite size_t_B. lia. }
  destruct (@print_native_spec R HR _ (val a) [] H ltac:(nia)) as (s & E & Hs).
  rewrite app_nil_r in E. eauto.
Qed.

Lemma print_big_sound f : forall a s, canon a -> (length a <= 32)%nat ->
  print_big R w nd f a = Some s -> numeral_of R (val a) s.
Proof.
  induction f as [|f IH]; intros a s Ha Hl; cbn [print_big]; rewrite is_safe_spec by auto;
    destruct (Nat.leb_spec (length a) nd) as [H|H]; intros E.
  - destruct (print_size_t Ha H) as (t & Et & Ht). rewrite Et in E. injection E as <-. exact Ht.
  - discriminate.
  - destruct (print_size_t Ha H) as (t & Et & Ht). rewrite Et in E. injection E as <-. exact Ht.
  - destruct radix_digits as (b0 & E0 & C0 & V0 & L0). rewrite E0 in E. cbn [obind] in E.
    apply obind_some in E. destruct E as ([bs len] & Es & E).
    apply (@split_base_spec 64 (length a) b0 1) in Es; auto; [|rewrite V0; lia|lia].
    destruct Es as (Cb & Vb & Lb & Hlb).
    apply obind_some in E. destruct E as ([hi lo] & Ed & E).
    pose proof (canon_lt_length Hw Cb Ha Hlb) as Hlt.
    assert (Hbp : 0 < val bs) by (rewrite Vb; apply Z.pow_pos_nonneg; lia).
    assert (Hbn : bs <> []) by (intros ->; cbn in Hbp; lia).
    destruct (udivmod_sound Hw Ha Cb Hl Hbn Ed) as (Ch & Cl & Vh & Vl).
    pose proof (Z.div_mod (val a) (val bs) ltac:(lia)) as Hdm.
    pose proof (Z.mod_pos_bound (val a) (val bs) Hbp) as Hmb.
    assert (Hhi : 1 <= val hi) by (rewrite Vh; apply Z.div_le_lower_bound; lia).
    apply obind_some in E. destruct E as (h & Eh & E).
    apply obind_some in E. destruct E as (l & El & E). injection E as <-.
    assert (Lh : (length hi <= length a)%nat) by (apply (canon_le_length Hw); auto; nia).
    assert (Ll : (length lo <= length a)%nat) by (apply (canon_le_length Hw); auto; nia).
    apply IH in Eh; [|auto|lia]. apply IH in El; [|auto|lia].
    replace (val a) with (val hi * r ^ Z.of_nat len + val lo) by (rewrite <- Vb, Vh, Vl; lia).
    apply numeral_concat; auto; [lia|]. rewrite <- Vb, Vl. exact Hmb.
Qed.

(** A sufficient, computable condition for printing every number of at most 32
    digits: each split base is short enough for its dividends. *)
Definition split_fits (m : nat) : bool :=
  match of_uint w nd r with
  | None => false
  | Some b0 =>
      match split_base w 64 m b0 1 with
      | None => false
      | Some (bs, _) =>
          Nat.leb (2 * length (snd (low_zeros bs))) (m - fst (low_zeros bs) + 2)
      end
  end.
Definition splits_fit : bool := forallb split_fits (seq (S nd) (32 - nd)).

Lemma print_big_total f : splits_fit = true -> forall a, canon a -> (length a <= 32)%nat ->
  val a < 2 ^ Z.of_nat f -> exists s, print_big R w nd f a = Some s.
Proof.
  intros Hfit. assert (Hf : forall m, (nd < m <= 32)%nat -> split_fits m = true).
  { intros m Hm. unfold splits_fit in Hfit. rewrite forallb_forall in Hfit. apply Hfit. apply in_seq. lia. }
  clear Hfit. induction f as [|f IH]; intros a Ha Hl Hv; cbn [print_big]; rewrite is_safe_spec by auto;
    destruct (Nat.leb_spec (length a) nd) as [H|H].
  - destruct (print_size_t Ha H) as (t & Et & _). eauto.
  - exfalso. pose proof (val_bound HB (canon_ok Ha)). cbn in Hv.
    pose proof (canon_pos HB Ha ltac:(intros ->; cbn in H; lia)). lia.
  - destruct (print_size_t Ha H) as (t & Et & _). eauto.
  - specialize (Hf (length a) ltac:(lia)). unfold split_fits in Hf.
    destruct radix_digits as (b0 & E0 & C0 & V0 & L0). rewrite E0 in *. cbn [obind].
    destruct (split_base w 64 (length a) b0 1) as [[bs len]|] eqn:Es; [|discriminate].
    apply (@split_base_spec 64 (length a) b0 1) in Es; auto; [|rewrite V0; lia|lia].
    destruct Es as (Cb & Vb & Lb & Hlb). cbn [obind]. apply Nat.leb_le in Hf.
    pose proof (canon_lt_length Hw Cb Ha Hlb) as Hlt.
    assert (Hbr : r <= val bs).
    { rewrite Vb. rewrite <- (Z.pow_1_r r) at 1. apply Z.pow_le_mono_r; lia. }
    assert (Hbn : bs <> []) by (intros ->; cbn in Hbr; lia).
    destruct (udivmod_exact_z Hw Ha Cb Hl Hbn Hf) as (hi & lo & -> & Ch & Cl & Vh & Vl). cbn [obind].
    pose proof (Z.div_mod (val a) (val bs) ltac:(lia)) as Hdm.
    pose proof (Z.mod_pos_bound (val a) (val bs) ltac:(lia)) as Hmb.
    rewrite <- Vh, <- Vl in Hdm. rewrite <- Vl in Hmb.
    assert (Hhi : 1 <= val hi) by (rewrite Vh; apply Z.div_le_lower_bound; lia).
    rewrite Nat2Z.inj_succ, Z.pow_succ_r in Hv by lia.
    assert (Lh : (length hi <= length a)%nat) by (apply (canon_le_length Hw); auto; nia).
    assert (Ll : (length lo <= length a)%nat) by (apply (canon_le_length Hw); auto; nia).
    destruct (IH hi Ch ltac:(lia) ltac:(nia)) as (h & ->). cbn [obind].
    destruct (IH lo Cl ltac:(lia) ltac:(nia)) as (l & ->). cbn [obind]. eauto.
Qed.

(** ** Parsing *)

Variable thr : nat.
(** What the floating-point threshold [trunc(log(max(size_t),radix))] must
    satisfy: that many digits fit a [size_t]. *)
Hypothesis Hthr : r ^ Z.of_nat thr <= size_t_values w nd.

Lemma split_len_spec f : forall size bs len bs' len',
  canon bs -> val bs = r ^ Z.of_nat len -> (1 <= len <= size)%nat ->
  split_len w f size bs len = Some (bs', len') ->
  canon bs' /\ val bs' = r ^ Z.of_nat len' /\ (1 <= len' <= size)%nat /\ (len' < size \/ len' = len)%nat.
Proof.
  induction f as [|f IH]; intros size bs len bs' len' Hc Hv Hl; cbn [split_len];
    destruct (Nat.ltb_spec (3 * len) size) as [H|H]; intros E.
  - discriminate.
  - injection E as <- <-. auto.
  - apply obind_some in E. destruct E as (b2 & E2 & E).
    destruct (umul_sound Hw Hc Hc E2) as [C2 V2].
    apply IH in E; [|exact C2| |lia]; [|rewrite V2, Hv, <- Z.pow_add_r by lia; f_equal; lia].
    destruct E as (? & ? & ? & Hor). repeat split; auto; try tauto; try lia; try apply H0.
  - injection E as <- <-. auto.
Qed.

Lemma all_digits_app a b : all_digits R (a ++ b) = all_digits R a && all_digits R b.
Proof. apply forallb_app. Qed.

Lemma parse_size_t s : (length s <= thr)%nat -> all_digits R s = true ->
  parse_native R (size_t_values w nd) 0 s = Some (text_val R s) /\
  exists x, of_uint w nd (text_val R s) = Some x /\ canon x /\ val x = text_val R s.
Proof.
  intros Hl Hd. pose proof (text_val_bound HR Hd) as Hb.
  pose proof (Z.pow_le_mono_r r (Z.of_nat (length s)) (Z.of_nat thr) ltac:(lia) ltac:(lia)) as Hm.
  rewrite parse_native_spec by (auto; lia). rewrite Hd.
  rewrite Z.mod_small by lia. split; [f_equal; lia|].
  rewrite size_t_B in Hthr.
  destruct (@of_uint_spec w Hw nd (text_val R s) ltac:(lia)) as (x & E & Hc & Hv). eauto.
Qed.

Lemma parse_big_sound f : forall s x, parse_big R w nd f thr s = Some x ->
  match x with
  | None => all_digits R s = false
  | Some a => all_digits R s = true /\ canon a /\ val a = text_val R s
  end.
Proof.
  induction f as [|f IH]; intros s x; cbn [parse_big];
    destruct (Nat.ltb_spec thr (length s)) as [H|H]; intros E; try discriminate.
  1, 3: destruct (all_digits R s) eqn:Hd;
    [destruct (parse_size_t H Hd) as (E1 & y & E2 & Hc & Hv); rewrite E1, E2 in E; cbn [obind] in E;
     injection E as <-; auto
    |rewrite parse_native_spec, Hd in E by (auto; rewrite size_t_B; pose proof (powB_pos HB nd); lia);
     injection E as <-; reflexivity].
  destruct radix_digits as (b0 & E0 & C0 & V0 & L0). rewrite E0 in E. cbn [obind] in E.
  apply obind_some in E. destruct E as ([bs len] & Es & E).
  apply (@split_len_spec (length s) (length s) b0 1) in Es; auto; [|rewrite V0; lia|lia].
  destruct Es as (Cb & Vb & Lb & _).
  set (hs := firstn (length s - len) s) in *. set (ls := skipn (length s - len) s) in *.
  assert (Es : s = hs ++ ls) by (symmetry; apply firstn_skipn).
  assert (Lls : length ls = len) by (unfold ls; rewrite skipn_length; lia).
  rewrite Es. clearbody hs ls. rewrite all_digits_app, text_val_app, Lls.
  apply obind_some in E. destruct E as (ho & Eh & E). apply IH in Eh.
  destruct ho as [hi|]; [|injection E as <-; rewrite Eh; reflexivity].
  destruct Eh as (Dh & Ch & Vh). rewrite Dh.
  apply obind_some in E. destruct E as (lo & El & E). apply IH in El.
  destruct lo as [lo|]; [|injection E as <-; rewrite El; reflexivity].
  destruct El as (Dl & Cl & Vl). rewrite Dl.
  apply obind_some in E. destruct E as (p & Ep & E).
  destruct (umul_sound Hw Ch Cb Ep) as [Cp Vp].
  apply obind_some in E. destruct E as (x' & Ex & E). injection E as <-.
  destruct (add_base_spec Hw Cp Cl) as (x2 & Ex2 & Cx & Vx). rewrite Ex in Ex2. injection Ex2 as <-.
  split; [reflexivity|]. split; [auto|]. rewrite Vx, Vp, Vb, Vh, Vl. reflexivity.
Qed.

(** Every text whose value space fits 63 digits is parsed. *)
Lemma split_len_total f : forall size bs len, canon bs -> val bs = r ^ Z.of_nat len -> (1 <= len <= size)%nat ->
  (size <= f + len)%nat -> r ^ Z.of_nat size <= B ^ 63 ->
  exists bs' len', split_len w f size bs len = Some (bs', len').
Proof.
  induction f as [|f IH]; intros size bs len Hc Hv Hl Hf Hs; cbn [split_len];
    destruct (Nat.ltb_spec (3 * len) size) as [H|H]; eauto; try lia.
  assert (Lb : (length bs <= 63)%nat).
  { apply length_lt_of_val; auto. rewrite Hv. change (Z.of_nat 63) with 63.
    pose proof (Z.pow_lt_mono_r r (Z.of_nat len) (Z.of_nat size) ltac:(lia) ltac:(lia) ltac:(lia)). lia. }
  destruct (@umul_small w Hw bs bs Hc Hc ltac:(lia)) as (b2 & -> & C2 & V2). cbn [obind].
  apply IH; auto; try lia. rewrite V2, Hv, <- Z.pow_add_r by lia. f_equal. lia.
Qed.

Lemma parse_big_total f : (1 <= thr)%nat -> forall s, (length s <= f)%nat -> r ^ Z.of_nat (length s) <= B ^ 63 ->
  exists x, parse_big R w nd f thr s = Some x.
Proof.
  intros Ht. induction f as [|f IH]; intros s Hs Hb; cbn [parse_big];
    destruct (Nat.ltb_spec thr (length s)) as [H|H]; try lia.
  1, 3: destruct (all_digits R s) eqn:Hd;
    [destruct (parse_size_t H Hd) as (E1 & y & E2 & Hc & Hv); rewrite E1, E2; cbn [obind]; eauto
    |rewrite parse_native_spec, Hd by (auto; rewrite size_t_B; pose proof (powB_pos HB nd); lia); eauto].
  destruct radix_digits as (b0 & E0 & C0 & V0 & L0). rewrite E0. cbn [obind].
  destruct (@split_len_total (length s) (length s) b0 1 C0 ltac:(rewrite V0; lia) ltac:(lia) ltac:(lia) Hb)
    as (bs & len & Es). rewrite Es. cbn [obind].
  apply (@split_len_spec (length s) (length s) b0 1) in Es; auto; [|rewrite V0; lia|lia].
  destruct Es as (Cb & Vb & Lb & Hor).
  set (hs := firstn (length s - len) s) in *. set (ls := skipn (length s - len) s) in *.
  assert (Lls : length ls = len) by (unfold ls; rewrite skipn_length; lia).
  assert (Lhs : length hs = (length s - len)%nat) by (unfold hs; rewrite firstn_length; lia).
  clearbody hs ls.
  pose proof (Z.pow_le_mono_r r (Z.of_nat len) (Z.of_nat (length s)) ltac:(lia) ltac:(lia)) as M1.
  pose proof (Z.pow_le_mono_r r (Z.of_nat (length hs)) (Z.of_nat (length s)) ltac:(lia) ltac:(lia)) as M2.
  destruct (IH hs ltac:(lia) ltac:(lia)) as (ho & Eh). rewrite Eh. cbn [obind].
  destruct ho as [hi|]; [|eauto]. apply parse_big_sound in Eh. destruct Eh as (Dh & Ch & Vh).
  destruct (IH ls ltac:(lia) ltac:(rewrite Lls; lia)) as (lo & El). rewrite El. cbn [obind].
  destruct lo as [lo|]; [|eauto]. apply parse_big_sound in El. destruct El as (Dl & Cl & Vl).
  assert (Lhi : (length hi <= 63)%nat).
  { apply length_lt_of_val; auto. rewrite Vh. change (Z.of_nat 63) with 63.
    pose proof (text_val_bound HR Dh). lia. }
  destruct (@umul_small w Hw hi bs Ch Cb ltac:(lia)) as (p & -> & Cp & Vp). cbn [obind].
  destruct (add_base_spec Hw Cp Cl) as (x2 & -> & _). cbn [obind]. eauto.
Qed.

(** ** Round trips *)

Lemma round_trip_sound f g a s x : canon a -> (length a <= 32)%nat ->
  print_big R w nd f a = Some s -> parse_big R w nd g thr s = Some x -> x = Some a.
Proof.
  intros Ha Hl Ep Eq. apply print_big_sound in Ep; auto. apply (numeral_digits HR) in Ep.
  destruct Ep as (Hd & Hv & _). apply parse_big_sound in Eq. destruct x as [y|]; [|congruence].
  destruct Eq as (_ & Cy & Vy). f_equal. apply (canon_unique HB); auto. congruence.
Qed.

Lemma round_trip_total f a : (1 <= thr)%nat -> (nd <= 31)%nat -> splits_fit = true ->
  canon a -> (length a <= 32)%nat -> val a < 2 ^ Z.of_nat f ->
  exists s, print_big R w nd f a = Some s /\ numeral_of R (val a) s /\
            parse_big R w nd (length s) thr s = Some (Some a).
Proof.
  intros Ht Hnd2 Hfit Ha Hl Hf. destruct (print_big_total Hfit Ha Hl Hf) as (s & Es).
  exists s. split; [exact Es|]. pose proof (print_big_sound Ha Hl Es) as Hn. split; [exact Hn|].
  assert (Hsz : r ^ Z.of_nat (length s) <= B ^ 63).
  { destruct Hn as (ds & -> & Hd & Hv & Hn & Hz). rewrite map_length.
    destruct ds as [|d ds]; [congruence|]. cbn [length hd] in *.
    rewrite Nat2Z.inj_succ, Z.pow_succ_r by lia.
    inversion_clear Hd as [|? ? Hd0 Hds].
    rewrite size_t_B in Hrad.
    replace 63 with (31 + 32) by lia. rewrite Z.pow_add_r by lia.
    pose proof (Z.pow_le_mono_r B (Z.of_nat nd) 31 ltac:(lia) ltac:(lia)).
    pose proof (Z.pow_nonneg r (Z.of_nat (length ds)) ltac:(lia)).
    apply Z.mul_le_mono_nonneg; try lia.
    destruct (Z.eq_dec d 0) as [->|Hd1].
    - injection (Hz eq_refl) as ->. cbn [length]. change (Z.of_nat 0) with 0. rewrite Z.pow_0_r.
      pose proof (Z.pow_pos_nonneg B 32 ltac:(lia) ltac:(lia)). lia.
    - pose proof (@pos_val_lower r d ds Hr Hds ltac:(lia)) as Hlow.
      pose proof (val_bound HB (canon_ok Ha)) as Hvb.
      pose proof (Z.pow_le_mono_r B (Z.of_nat (length a)) 32 ltac:(lia) ltac:(lia)). lia. }
  destruct (parse_big_total Ht (le_n (length s)) Hsz) as (x & Ex). rewrite Ex. f_equal.
  eapply round_trip_sound; eauto.
Qed.

End Big.
