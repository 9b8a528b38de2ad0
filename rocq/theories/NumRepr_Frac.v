(** Expansions of fractions with a repeating group; signed texts; the
    representations that ship with the library. *)
From Verif Require Import Base UBig_Model UBig_Spec UBig_Basics UBig_AddSub UBig_Mul UBig_Kara
  UBig_Div UBig_Shift UBig_Bits BigInt_Model NumRepr_Model NumRepr_Spec NumRepr_Proofs NumRepr_Big.
Open Scope Z_scope.
Open Scope omonad_scope.

(** ** Remainders of the long division *)
Section Rem.
Variables (r N D : Z).
Hypothesis Hr : 2 <= r.
Hypothesis HD : 0 < D.
Definition rem (k : nat) : Z := (N * r ^ Z.of_nat k) mod D.
Definition flo (k : nat) : Z := (N * r ^ Z.of_nat k) / D.

Lemma rem_bound k : 0 <= rem k < D.
Proof. apply Z.mod_pos_bound. lia. Qed.
Lemma rem_flo k : N * r ^ Z.of_nat k = D * flo k + rem k.
Proof. apply Z.div_mod. lia. Qed.
Lemma pow_S k : r ^ Z.of_nat (S k) = r * r ^ Z.of_nat k.
Proof. rewrite Nat2Z.inj_succ, Z.pow_succ_r by lia. reflexivity. Qed.

Lemma rem_step k : rem (S k) = (rem k * r) mod D.
Proof.
  unfold rem. rewrite pow_S, Z.mul_mod_idemp_l by lia. f_equal. ring.
Qed.
Lemma flo_step k : flo (S k) = flo k * r + rem k * r / D.
Proof.
  unfold flo at 1. rewrite pow_S.
  replace (N * (r * r ^ Z.of_nat k)) with (flo k * r * D + rem k * r) by (pose proof (rem_flo k); nia).
  rewrite Z.div_add_l by lia. reflexivity.
Qed.
Lemma digit_bound k : 0 <= rem k * r / D < r.
Proof.
  pose proof (rem_bound k). split; [apply Z.div_pos; nia|]. apply Z.div_lt_upper_bound; nia.
Qed.

(** Equal remainders have equal successors. *)
Lemma rem_shift i j : rem i = rem j -> forall n, rem (n + i) = rem (n + j).
Proof. intros H n. induction n as [|n IH]; [exact H|]. cbn [Nat.add]. rewrite !rem_step, IH. reflexivity. Qed.

Lemma rem_cycle i p : rem (i + p) = rem i -> forall n, rem (i + n * p) = rem i.
Proof.
  intros H n. induction n as [|n IH]; [f_equal; lia|].
  replace (i + S n * p)%nat with (n * p + (i + p))%nat by lia.
  rewrite (@rem_shift (i + p)%nat i H). rewrite Nat.add_comm. exact IH.
Qed.

Lemma rem_zero_on k : rem k = 0 -> forall n, rem (n + k) = 0.
Proof.
  intros H n. induction n as [|n IH]; [exact H|]. cbn [Nat.add]. rewrite rem_step, IH. apply Z.mod_0_l. lia.
Qed.

Lemma terminating_iff : terminating r N D <-> exists k, rem k = 0.
Proof.
  split.
  - intros (k & Hk & Hd). exists (Z.to_nat k). unfold rem. rewrite Z2Nat.id by lia.
    apply Z.mod_divide; [lia|exact Hd].
  - intros (k & Hk). exists (Z.of_nat k). split; [lia|]. apply Z.mod_divide; [lia|exact Hk].
Qed.

Lemma rem_eq_iff i p : rem (i + p) = rem i <-> (D | N * r ^ Z.of_nat i * (r ^ Z.of_nat p - 1)).
Proof.
  unfold rem. rewrite Nat2Z.inj_add, Z.pow_add_r by lia.
  replace (N * (r ^ Z.of_nat i * r ^ Z.of_nat p))
    with (N * r ^ Z.of_nat i * (r ^ Z.of_nat p - 1) + N * r ^ Z.of_nat i) by ring.
  set (X := N * r ^ Z.of_nat i * (r ^ Z.of_nat p - 1)). set (Y := N * r ^ Z.of_nat i). split; intros H.
  - apply Z.mod_divide; [lia|]. replace X with (X + Y - Y) by ring.
    rewrite Zminus_mod, H, Z.sub_diag. apply Z.mod_0_l. lia.
  - destruct H as [q ->]. rewrite Z.add_comm, Z.mod_add by lia. reflexivity.
Qed.

Lemma purely_periodic_iff : purely_periodic r N D <-> exists p, (0 < p)%nat /\ rem p = rem 0%nat.
Proof.
  split.
  - intros (k & Hk & Hd). exists (Z.to_nat k). split; [lia|]. apply (rem_eq_iff 0 (Z.to_nat k)).
    rewrite Z2Nat.id by lia. change (Z.of_nat 0) with 0. rewrite Z.pow_0_r, Z.mul_1_r. exact Hd.
  - intros (p & Hp & H). exists (Z.of_nat p). split; [lia|]. apply (rem_eq_iff 0 p) in H.
    change (Z.of_nat 0) with 0 in H. rewrite Z.pow_0_r, Z.mul_1_r in H. exact H.
Qed.

(** The value of a text whose group opens after [i] of [k] digits. *)
Lemma group_exact I (ds : list Z) i : I * r ^ Z.of_nat (length ds) + pos_val r ds = flo (length ds) ->
  I * r ^ Z.of_nat i + pos_val r (firstn i ds) = flo i -> (i < length ds)%nat ->
  (expansion_is r I (firstn i ds) (Some (skipn i ds)) N D <-> rem (length ds) = rem i).
Proof.
  intros Hk Hi Hlt. unfold expansion_is. rewrite firstn_length, skipn_length, Nat.min_l by lia.
  set (k := length ds) in *. set (q := Z.of_nat (k - i)).
  assert (Hsplit : pos_val r ds = pos_val r (firstn i ds) * r ^ q + pos_val r (skipn i ds)).
  { rewrite <- (firstn_skipn i ds) at 1. rewrite pos_val_app, skipn_length. reflexivity. }
  assert (Hpow : r ^ Z.of_nat k = r ^ Z.of_nat i * r ^ q).
  { unfold q. rewrite <- Z.pow_add_r by lia. f_equal. lia. }
  assert (HE : (I * r ^ Z.of_nat i + pos_val r (firstn i ds)) * (r ^ q - 1) + pos_val r (skipn i ds)
               = flo k - flo i).
  { rewrite <- Hk, <- Hi, Hpow, Hsplit. ring. }
  rewrite HE. pose proof (rem_flo k) as Fk. pose proof (rem_flo i) as Fi. rewrite Hpow in Fk.
  assert (Hmain : N * r ^ Z.of_nat i * (r ^ q - 1) = D * (flo k - flo i) + (rem k - rem i)).
  { rewrite Z.mul_sub_distr_l, Z.mul_1_r. rewrite <- Z.mul_assoc. lia. }
  split.
  - intros [_ H]. lia.
  - intros H. split; [|lia]. intros Hn. apply (f_equal (@length Z)) in Hn. rewrite skipn_length in Hn. cbn in Hn. lia.
Qed.

(** Where the code opens the group: the first repetition among the remainders
    after the first digit.  The text is right exactly for purely periodic
    expansions. *)
Lemma group_right_iff k i : (i < k)%nat ->
  (forall a b, (1 <= a <= k)%nat -> (1 <= b <= k)%nat -> rem a = rem b -> a = b) ->
  rem (S k) = rem (S i) ->
  (rem k = rem i <-> purely_periodic r N D).
Proof.
  intros Hik Hinj Hrep. rewrite purely_periodic_iff. split.
  - intros H. destruct i as [|i]; [exists k; split; [lia|exact H]|].
    exfalso. specialize (Hinj k (S i) ltac:(lia) ltac:(lia) H). lia.
  - intros (p & Hp & H0). destruct p as [|p]; [lia|].
    assert (Hper : forall n, rem (n + S p) = rem n).
    { intros n. rewrite (@rem_shift (S p) 0 H0 n). f_equal. lia. }
    rewrite <- (Hper k), <- (Hper i).
    replace (k + S p)%nat with (p + S k)%nat by lia. replace (i + S p)%nat with (p + S i)%nat by lia.
    apply rem_shift. exact Hrep.
Qed.

Lemma group_not_terminating k i : (i < k)%nat -> rem (S k) = rem (S i) ->
  rem (S i) <> 0 -> ~ terminating r N D.
Proof.
  intros Hik Hrep Hnz. rewrite terminating_iff. intros (t & Ht). apply Hnz.
  assert (Hc : rem (S i + (k - i)) = rem (S i)) by (rewrite <- Hrep; f_equal; lia).
  rewrite <- (rem_cycle Hc t).
  replace (S i + t * (k - i))%nat with ((S i + t * (k - i) - t) + t)%nat by nia.
  apply rem_zero_on. exact Ht.
Qed.
End Rem.

Lemma NoDup_app_one (x : Z) l : NoDup l -> ~ In x l -> NoDup (l ++ [x]).
Proof.
  intros H Hx. apply NoDup_Add with (a := x) (l := l); [|auto].
  rewrite <- (app_nil_r l) at 1. apply Add_app.
Qed.

Section Frac.
Variable R : repr.
Hypothesis HR : repr_ok R.
Notation r := (radix R).
Variables (w : Z) (nd : nat).
Hypothesis Hw : 0 < w.
Hypothesis Hnd : nd <> 0%nat.
Hypothesis Hrad : r < size_t_values w nd.
Notation B := (base w).
Notation val := (val B).
Notation canon := (canon B).
Let HB : 2 <= B := base_ge2 Hw.
Let Hr : 2 <= r := proj1 HR.
Local Hint Resolve canon_ok : core.

Lemma find_rem_spec x l : canon x -> Forall canon l ->
  match find_rem x l with
  | Some i => (i < length l)%nat /\ nth i (map val l) 0 = val x
  | None => ~ In (val x) (map val l)
  end.
Proof.
  intros Hx H. induction H as [|y l Hy H IH]; cbn [find_rem map]; [auto|].
  destruct (eq_digits y x) eqn:E.
  - apply (eq_digits_spec) in E. subst y. cbn. split; [lia|reflexivity].
  - destruct (find_rem x l) as [i|]; cbn [option_map].
    + cbn [length nth]. destruct IH as [H1 H2]. split; [lia|exact H2].
    + intros [H1|H1]; [|auto].
      assert (eq_digits y x = true) by (apply (eq_digits_val HB); auto). congruence.
Qed.

Variables den : list Z.
Variable N : Z.
Hypothesis Hden : canon den.
Hypothesis Hden0 : den <> [].
Hypothesis Hlen : (length den + nd <= 32)%nat.
Hypothesis HN : 0 <= N.
Notation D := (val den).
Notation rem := (rem r N D).
Notation flo := (flo r N D).
Let HD : 0 < D := canon_pos HB Hden Hden0.

(** Invariant of the loop after [length ds] digits. *)
Definition finv (num : list Z) (rems : list (list Z)) (ds : list Z) : Prop :=
  canon num /\ val num = rem (length ds) /\ Forall canon rems /\
  map val rems = map rem (seq 1 (length ds)) /\ NoDup (map val rems) /\
  (forall j, (j < length ds)%nat -> rem j <> 0) /\ digits_in r ds /\
  (forall j, (j <= length ds)%nat -> N / D * r ^ Z.of_nat j + pos_val r (firstn j ds) = flo j).

Definition fresult (ds : list Z) (rep : option nat) : Prop :=
  digits_in r ds /\
  (forall j, (j <= length ds)%nat -> N / D * r ^ Z.of_nat j + pos_val r (firstn j ds) = flo j) /\
  match rep with
  | None => rem (length ds) = 0
  | Some i => (i < length ds)%nat /\ rem (S (length ds)) = rem (S i) /\ rem (S i) <> 0 /\
      forall a b, (1 <= a <= length ds)%nat -> (1 <= b <= length ds)%nat -> rem a = rem b -> a = b
  end.

Lemma nodup_inj n : NoDup (map rem (seq 1 n)) ->
  forall a b, (1 <= a <= n)%nat -> (1 <= b <= n)%nat -> rem a = rem b -> a = b.
Proof.
  intros H a b Ha Hb E. rewrite NoDup_nth with (d := rem 0%nat) in H. rewrite map_length, seq_length in H.
  specialize (H (a - 1)%nat (b - 1)%nat ltac:(lia) ltac:(lia)).
  rewrite !map_nth, !seq_nth in H by lia.
  replace (1 + (a - 1))%nat with a in H by lia. replace (1 + (b - 1))%nat with b in H by lia.
  specialize (H E). lia.
Qed.

Lemma frac_loop_sound rb f : canon rb -> val rb = r -> (length rb <= nd)%nat ->
  forall num rems ds out rep, finv num rems ds ->
  frac_loop R w nd f rb den num rems (map (get_char R) ds) = Some (out, rep) ->
  exists ds', out = map (get_char R) ds' /\ fresult ds' rep.
Proof.
  intros Crb Vrb Lrb. induction f as [|f IH]; intros num rems ds out rep (Cn & Vn & Cr & Er & Nd & Nz & Hd & Hp) E.
  - cbn [frac_loop] in E. destruct num as [|x num]; [|discriminate]. injection E as <- <-.
    exists ds. split; [reflexivity|]. split; [auto|]. split; [auto|]. rewrite <- Vn. reflexivity.
  - cbn [frac_loop] in E. destruct num as [|x num'] eqn:En.
    { injection E as <- <-. exists ds. split; [reflexivity|]. split; [auto|]. split; [auto|]. rewrite <- Vn. reflexivity. }
    rewrite <- En in *. assert (Hnn : num <> []) by (rewrite En; discriminate). clear x num' En.
    pose proof (canon_pos HB Cn Hnn) as Hnp.
    apply obind_some in E. destruct E as (n2 & E2 & E).
    destruct (umul_sound Hw Cn Crb E2) as [C2 V2]. pose proof (umul_length Hw Hnd Cn Crb E2) as L2.
    pose proof (rem_bound r N HD (length ds)) as Hrb. rewrite <- Vn in Hrb.
    assert (Ln : (length num <= length den)%nat) by (apply (canon_le_length Hw); auto; lia).
    apply obind_some in E. destruct E as ([q rr] & Eq & E).
    destruct (udivmod_sound Hw C2 Hden ltac:(lia) Hden0 Eq) as (Cq & Crr & Vq & Vrr).
    rewrite V2, Vrb, Vn in Vq, Vrr. rewrite <- (rem_step r N HD) in Vrr.
    pose proof (digit_bound N Hr HD (length ds)) as Hdb. rewrite <- Vq in Hdb.
    pose proof (find_rem_spec Crr Cr) as Hfind.
    destruct (find_rem rr rems) as [i|].
    + injection E as <- <-. exists ds. split; [reflexivity|]. destruct Hfind as [Hi Hnth].
      assert (Hlr : length rems = length ds).
      { rewrite <- (map_length val rems), Er, map_length, seq_length. reflexivity. }
      assert (Hrep : rem (S (length ds)) = rem (S i)).
      { rewrite <- Vrr, <- Hnth, Er. rewrite (nth_indep _ 0 (rem 0%nat)) by (rewrite map_length, seq_length; lia).
        rewrite map_nth, seq_nth by lia. reflexivity. }
      split; [auto|]. split; [auto|]. split; [lia|]. split; [exact Hrep|]. split.
      { destruct (Nat.eq_dec (S i) (length ds)) as [Hl|Hl]; [rewrite Hl, <- Vn; lia|apply Nz; lia]. }
      apply nodup_inj. rewrite <- Er. exact Nd.
    + replace (map (get_char R) ds ++ [get_char R (convert_to w (size_t_values w nd) q)])
        with (map (get_char R) (ds ++ [val q])) in E.
      2:{ rewrite map_app. cbn [map]. do 3 f_equal.
          rewrite convert_to_spec by lia. rewrite Z.mod_small by lia. reflexivity. }
      apply IH in E; [exact E|]. unfold finv. rewrite app_length. cbn [length]. rewrite Nat.add_1_r.
      split; [auto|]. split; [auto|]. split; [apply Forall_app; auto|].
      split. { rewrite map_app, Er, seq_S, map_app. cbn [map]. rewrite Vrr. reflexivity. }
      split. { rewrite map_app. cbn [map]. apply NoDup_app_one; auto. }
      split. { intros j Hj. destruct (Nat.eq_dec j (length ds)) as [->|]; [rewrite <- Vn; lia|apply Nz; lia]. }
      split; [apply digits_in_app; auto; constructor; [lia|constructor]|].
      intros j Hj. destruct (Nat.eq_dec j (S (length ds))) as [->|Hne].
      * rewrite firstn_all2 by (rewrite app_length; cbn; lia). rewrite pos_val_app, pos_val_one.
        cbn [length]. change (Z.of_nat 1) with 1. rewrite Z.pow_1_r.
        rewrite (flo_step N Hr HD), <- Vq, <- (Hp (length ds)) by lia. rewrite firstn_all, pow_S. ring.
      * rewrite firstn_app. replace (j - length ds)%nat with 0%nat by lia. cbn [firstn]. rewrite app_nil_r.
        apply Hp. lia.
Qed.

Lemma finv_start num : canon num -> val num = rem 0%nat -> finv num [] [].
Proof.
  intros Cn Vn. unfold finv. cbn [length seq map]. split; [auto|]. split; [auto|]. split; [constructor|].
  split; [reflexivity|]. split; [constructor|]. split; [lia|]. split; [constructor|].
  intros j Hj. assert (j = 0%nat) by lia. subst j. cbn [firstn]. unfold NumRepr_Frac.flo.
  change (Z.of_nat 0) with 0. rewrite Z.pow_0_r, !Z.mul_1_r. unfold pos_val. cbn [fold_left]. lia.
Qed.

Lemma fresult_meaning ds rep : fresult ds rep ->
  exists P Q, digits_in r P /\ (forall q, Q = Some q -> digits_in r q) /\
    (forall o c, layout o c (map (get_char R) ds) rep = expansion_text R o c P Q) /\
    (Q = None <-> terminating r N D) /\
    (expansion_is r (N / D) P Q N D <-> terminating r N D \/ purely_periodic r N D).
Proof.
  intros (Hd & Hp & H). destruct rep as [i|].
  - destruct H as (Hi & Hrep & Hnz & Hinj).
    exists (firstn i ds), (Some (skipn i ds)).
    pose proof (group_not_terminating Hr HD Hi Hrep Hnz) as Hnt.
    assert (Hd2 : digits_in r (firstn i ds) /\ digits_in r (skipn i ds)).
    { rewrite <- (firstn_skipn i ds) in Hd. apply Forall_app in Hd. exact Hd. }
    split; [tauto|]. split; [intros q [= <-]; tauto|].
    split; [intros o c; cbn [layout expansion_text]; rewrite firstn_map, skipn_map; reflexivity|].
    split; [split; [discriminate|tauto]|].
    pose proof (Hp (length ds) (le_n _)) as Hk. rewrite firstn_all in Hk.
    rewrite (group_exact Hr HD Hk (Hp i ltac:(lia)) Hi).
    rewrite (group_right_iff Hr HD Hi Hinj Hrep). tauto.
  - exists ds, None. split; [auto|]. split; [discriminate|]. split; [reflexivity|].
    assert (Ht : terminating r N D) by (apply (terminating_iff r N HD); eauto).
    split; [tauto|]. split; [auto|]. intros _. cbn [expansion_is].
    pose proof (Hp (length ds) (le_n _)) as Hk. rewrite firstn_all in Hk.
    rewrite Hk. rewrite (rem_flo r N HD), H. lia.
Qed.

Lemma nodup_bound (l : list Z) : NoDup l -> Forall (fun x => 0 <= x < D) l -> Z.of_nat (length l) <= D.
Proof.
  intros Hn Hf.
  assert (Hi : incl (map Z.to_nat l) (seq 0 (Z.to_nat D))).
  { intros n Hin. apply in_map_iff in Hin. destruct Hin as (x & <- & Hx).
    rewrite Forall_forall in Hf. specialize (Hf x Hx). apply in_seq. lia. }
  assert (Hnd2 : NoDup (map Z.to_nat l)).
  { clear Hi. induction Hn as [|x l Hx Hn IH]; cbn [map]; constructor.
    - intros Hin. apply in_map_iff in Hin. destruct Hin as (y & Hy & Hiny). rewrite Forall_forall in Hf.
      pose proof (Hf x (or_introl eq_refl)). pose proof (Hf y (or_intror Hiny)).
      assert (x = y) by lia. congruence.
    - apply IH. inversion Hf. auto. }
  pose proof (NoDup_incl_length Hnd2 Hi) as H. rewrite map_length, seq_length in H. lia.
Qed.

(** A denominator of at most two digits: every step of the loop is defined. *)
Lemma frac_loop_total rb f : (length den <= 2)%nat -> canon rb -> val rb = r -> (length rb <= nd)%nat ->
  forall num rems ds, finv num rems ds -> D < Z.of_nat (f + length ds) ->
  exists out rep, frac_loop R w nd f rb den num rems (map (get_char R) ds) = Some (out, rep).
Proof.
  intros L2 Crb Vrb Lrb. induction f as [|f IH]; intros num rems ds (Cn & Vn & Cr & Er & Nd & Nz & Hd & Hp) Hf.
  - exfalso. cbn [Nat.add] in Hf.
    assert (Hlr : length (map val rems) = length ds) by (rewrite Er, map_length, seq_length; reflexivity).
    pose proof (nodup_bound Nd) as Hb. rewrite Hlr in Hb. 
    enough (Z.of_nat (length ds) <= D) by lia. apply Hb. rewrite Er. apply Forall_forall. intros x Hx.
    apply in_map_iff in Hx. destruct Hx as (k & <- & _). apply (rem_bound r N HD).
  - cbn [frac_loop]. destruct num as [|x num'] eqn:En; [eauto|].
    rewrite <- En in *. assert (Hnn : num <> []) by (rewrite En; discriminate). clear x num' En.
    pose proof (canon_pos HB Cn Hnn) as Hnp.
    pose proof (rem_bound r N HD (length ds)) as Hrb. rewrite <- Vn in Hrb.
    assert (Ln : (length num <= length den)%nat) by (apply (canon_le_length Hw); auto; lia).
    destruct (@umul_small w Hw num rb Cn Crb ltac:(lia)) as (n2 & E2 & C2 & V2). rewrite E2. cbn [obind].
    pose proof (umul_length Hw Hnd Cn Crb E2) as Ln2.
    assert (Hdm : exists q rr, udivmod w n2 den = Some (q, rr) /\ canon q /\ canon rr /\
                    val q = val n2 / D /\ val rr = val n2 mod D).
    { destruct (le_lt_dec (length den) (length n2)) as [Hle|Hgt].
      - apply (udivmod_exact Hw); auto; lia.
      - exists [], n2. assert (E : udivmod w n2 den = Some ([], n2)).
        { unfold udivmod. destruct den as [|y b']; [congruence|].
          destruct (Nat.ltb_spec (length n2) (length (y :: b'))); [reflexivity|lia]. }
        split; [exact E|]. apply (udivmod_sound Hw C2 Hden ltac:(lia) Hden0 E). }
    destruct Hdm as (q & rr & -> & Cq & Crr & Vq & Vrr). cbn [obind].
    rewrite V2, Vrb, Vn in Vq, Vrr. rewrite <- (rem_step r N HD) in Vrr.
    pose proof (digit_bound N Hr HD (length ds)) as Hdb. rewrite <- Vq in Hdb.
    pose proof (find_rem_spec Crr Cr) as Hfind.
    destruct (find_rem rr rems) as [i|]; [eauto|].
    replace (map (get_char R) ds ++ [get_char R (convert_to w (size_t_values w nd) q)])
        with (map (get_char R) (ds ++ [val q])).
    2:{ rewrite map_app. cbn [map]. do 3 f_equal.
        rewrite convert_to_spec by lia. rewrite Z.mod_small by lia. reflexivity. }
    apply IH; [|rewrite app_length; cbn [length]; lia].
    unfold finv. rewrite app_length. cbn [length]. rewrite Nat.add_1_r.
    split; [auto|]. split; [auto|]. split; [apply Forall_app; auto|].
    split. { rewrite map_app, Er, seq_S, map_app. cbn [map]. rewrite Vrr. reflexivity. }
    split. { rewrite map_app. cbn [map]. apply NoDup_app_one; auto. }
    split. { intros j Hj. destruct (Nat.eq_dec j (length ds)) as [->|]; [rewrite <- Vn; lia|apply Nz; lia]. }
    split; [apply digits_in_app; auto; constructor; [lia|constructor]|].
    intros j Hj. destruct (Nat.eq_dec j (S (length ds))) as [->|Hne].
    * rewrite firstn_all2 by (rewrite app_length; cbn; lia). rewrite pos_val_app, pos_val_one.
      cbn [length]. change (Z.of_nat 1) with 1. rewrite Z.pow_1_r.
      rewrite (flo_step N Hr HD), <- Vq, <- (Hp (length ds)) by lia. rewrite firstn_all, pow_S. ring.
    * rewrite firstn_app. replace (j - length ds)%nat with 0%nat by lia. cbn [firstn]. rewrite app_nil_r.
      apply Hp. lia.
Qed.
End Frac.

Section Sign.
Variable R : repr.
Hypothesis HR : repr_ok R.
Variables (minus plus : Z).
Hypothesis Hminus : is_valid_char R minus = false.
Hypothesis Hplus : is_valid_char R plus = false.

Lemma numeral_first n s : numeral_of R n s -> exists c t, s = c :: t /\ (c =? minus) = false /\ (c =? plus) = false.
Proof.
  intros H. destruct (numeral_digits HR H) as (Hd & _ & Hn). destruct s as [|c t]; [congruence|].
  exists c, t. split; [reflexivity|]. unfold all_digits in Hd. cbn [forallb] in Hd.
  apply andb_true_iff in Hd. destruct Hd as [Hc _].
  split; apply Z.eqb_neq; congruence.
Qed.

Lemma wrap_signed_id h v : 0 < h -> - h <= v < h -> wrap_signed (2 * h) v = v.
Proof.
  intros Hh Hv. unfold wrap_signed. replace (2 * h / 2) with h by (symmetry; rewrite Z.mul_comm; apply Z.div_mul; lia).
  rewrite Z.mod_small by lia. lia.
Qed.

Lemma native_signed_round_trip f h v : 0 < h -> - h <= v < h -> h < 2 ^ Z.of_nat f -> f <> 0%nat ->
  exists s, print_native_signed R f minus v = Some s /\
            parse_native_signed R (2 * h) minus plus s = Some (Some v).
Proof.
  intros Hh Hv Hf Hf0. unfold print_native_signed.
  destruct (@print_native_spec R HR f (Z.abs v) [] ltac:(lia) Hf0) as (t & -> & Hn).
  rewrite app_nil_r. cbn [obind]. destruct (numeral_first Hn) as (c & t' & E & E1 & E2).
  destruct (numeral_digits HR Hn) as (Hd & Htv & _).
  assert (Hp : parse_native R (2 * h) 0 t = Some (Z.abs v)).
  { rewrite parse_native_spec by (auto; lia). rewrite Hd, Htv. rewrite Z.mod_small by lia. f_equal. }
  exists (if v <? 0 then minus :: t else t). split; [reflexivity|]. unfold parse_native_signed.
  destruct (Z.ltb_spec v 0) as [Hneg|Hpos].
  - rewrite Z.eqb_refl, Hp. cbn [option_map]. rewrite Z.abs_neq by lia. rewrite Z.opp_involutive.
    rewrite wrap_signed_id by lia. reflexivity.
  - rewrite E in *. rewrite E1, E2, Hp. cbn [option_map]. rewrite Z.abs_eq by lia.
    rewrite wrap_signed_id by lia. reflexivity.
Qed.
End Sign.

Section PrintFrac.
Variable R : repr.
Hypothesis HR : repr_ok R.
Notation r := (radix R).
Variables (w : Z) (nd : nat).
Hypothesis Hw : 0 < w.
Hypothesis Hnd : nd <> 0%nat.
Hypothesis Hrad : r < size_t_values w nd.
Notation B := (base w).
Notation val := (val B).
Notation canon := (canon B).
Let HB : 2 <= B := base_ge2 Hw.
Let Hr : 2 <= r := proj1 HR.
Local Hint Resolve canon_ok : core.

Lemma print_fractional_spec f point o c num den s : canon num -> canon den -> num <> [] -> den <> [] ->
  (length num <= 32)%nat -> (length den + nd <= 32)%nat ->
  print_fractional R w nd f point o c num den = Some s ->
  exists i P Q, s = i ++ point :: expansion_text R o c P Q /\
    numeral_of R (val num / val den) i /\ digits_in r P /\ (forall q, Q = Some q -> digits_in r q) /\
    (Q = None <-> terminating r (val num) (val den)) /\
    (expansion_is r (val num / val den) P Q (val num) (val den) <->
       terminating r (val num) (val den) \/ purely_periodic r (val num) (val den)).
Proof.
  intros Cn Cd Nn Nd Ln Ld E. unfold print_fractional in E. destruct num as [|x num'] eqn:En; [congruence|].
  rewrite <- En in *. clear x num' En.
  apply obind_some in E. destruct E as ([q rr] & Eq & E).
  destruct (udivmod_sound Hw Cn Cd Ln Nd Eq) as (Cq & Cr & Vq & Vr).
  apply obind_some in E. destruct E as (i & Ei & E).
  destruct (radix_digits HR Hw Hnd Hrad) as (rb & Erb & Crb & Vrb & Lrb). rewrite Erb in E. cbn [obind] in E.
  apply obind_some in E. destruct E as ([ds rep] & El & E). injection E as <-.
  assert (Lq : (length q <= length num)%nat).
  { apply (canon_le_length Hw); auto. rewrite Vq. pose proof (canon_pos HB Cd Nd).
    pose proof (val_bound HB (canon_ok Cn)). apply Z.div_le_upper_bound; nia. }
  apply (print_big_sound HR Hw Hnd Hrad) in Ei; auto; [|lia].
  assert (Hinv : finv R w den (val num) rr [] []).
  { apply (finv_start (nd := nd)); auto. rewrite Vr. unfold rem. change (Z.of_nat 0) with 0.
    rewrite Z.pow_0_r, Z.mul_1_r. reflexivity. }
  change [] with (map (get_char R) []) in El at 2.
  destruct (frac_loop_sound HR Hw Hnd Hrad Cd Nd Ld Crb Vrb Lrb Hinv El) as (ds' & -> & Hres).
  destruct (fresult_meaning HR Hw Hnd Cd Nd Ld Hres) as (P & Q & HP & HQ & Htxt & Hterm & Hmean).
  exists i, P, Q. rewrite Htxt. rewrite <- Vq at 1. auto 10.
Qed.

Lemma print_fractional_total f point o c num den : canon num -> canon den -> num <> [] -> den <> [] ->
  (length num <= nd)%nat -> (length den <= 2)%nat -> (length den + nd <= 32)%nat ->
  val den < Z.of_nat f ->
  exists s, print_fractional R w nd f point o c num den = Some s.
Proof.
  intros Cn Cd Nn Nd Ln Ld Lnd Hf. unfold print_fractional. destruct num as [|x num'] eqn:En; [congruence|].
  rewrite <- En in *. clear x num' En.
  assert (Hdm : exists q rr, udivmod w num den = Some (q, rr)).
  { destruct (le_lt_dec (length den) (length num)) as [Hle|Hgt].
    - destruct (@udivmod_exact w Hw num den) as (q & rr & E & _); auto; try lia. eauto.
    - exists [], num. unfold udivmod. destruct den as [|y b']; [congruence|].
      destruct (Nat.ltb_spec (length num) (length (y :: b'))); [reflexivity|lia]. }
  destruct Hdm as (q & rr & E). rewrite E. cbn [obind].
  destruct (udivmod_sound Hw Cn Cd ltac:(lia) Nd E) as (Cq & Cr & Vq & Vr).
  assert (Lq : (length q <= length num)%nat).
  { apply (canon_le_length Hw); auto. rewrite Vq. pose proof (canon_pos HB Cd Nd).
    pose proof (val_bound HB (canon_ok Cn)). apply Z.div_le_upper_bound; nia. }
  assert (Hpr : exists i, print_big R w nd f q = Some i).
  { destruct (print_size_t HR Hw Hnd Cq ltac:(lia)) as (t & Et & _).
    destruct f; cbn [print_big]; rewrite (is_safe_spec Hw Hnd Cq);
      (destruct (Nat.leb_spec (length q) nd); [eauto|lia]). }
  destruct Hpr as (i & ->). cbn [obind].
  destruct (radix_digits HR Hw Hnd Hrad) as (rb & -> & Crb & Vrb & Lrb). cbn [obind].
  assert (Hinv : finv R w den (val num) rr [] []).
  { apply (finv_start (nd := nd)); auto. rewrite Vr. unfold rem. change (Z.of_nat 0) with 0.
    rewrite Z.pow_0_r, Z.mul_1_r. reflexivity. }
  destruct (@frac_loop_total R HR w nd Hw Hnd Hrad den (val num) Cd Nd Lnd rb f Ld Crb Vrb Lrb rr [] [] Hinv)
    as (out & rep & El); [cbn [length]; lia|].
  cbn [map] in El. rewrite El. cbn [obind]. eauto.
Qed.

(** ** Signed texts *)
Variables (minus plus : Z).
Hypothesis Hminus : is_valid_char R minus = false.
Hypothesis Hplus : is_valid_char R plus = false.

Lemma bigint_round_trip thr f g x s y : r ^ Z.of_nat thr <= size_t_values w nd ->
  canon (mag x) -> (length (mag x) <= 32)%nat ->
  print_bigint R w nd f minus x = Some s ->
  parse_bigint R w nd g thr minus plus s = Some y -> y = Some x.
Proof.
  intros Ht Cx Lx Ep Eq. unfold print_bigint in Ep. apply obind_some in Ep. destruct Ep as (t & Et & Ep).
  injection Ep as <-. pose proof (print_big_sound HR Hw Hnd Hrad Cx Lx Et) as Hn.
  destruct (numeral_first HR Hminus Hplus Hn) as (c & t' & -> & E1 & E2). unfold parse_bigint in Eq.
  destruct x as [sg m]. cbn [neg mag] in *. destruct sg.
  - rewrite Z.eqb_refl in Eq. apply obind_some in Eq. destruct Eq as (u & Eu & Eq).
    rewrite (round_trip_sound HR Hw Hnd Hrad Ht Cx Lx Et Eu) in Eq. cbn [option_map] in Eq. congruence.
  - rewrite E1, E2 in Eq. apply obind_some in Eq. destruct Eq as (u & Eu & Eq).
    rewrite (round_trip_sound HR Hw Hnd Hrad Ht Cx Lx Et Eu) in Eq. cbn [option_map] in Eq. congruence.
Qed.

Lemma bigint_round_trip_total thr f x : r ^ Z.of_nat thr <= size_t_values w nd -> (1 <= thr)%nat ->
  (nd <= 31)%nat -> splits_fit R w nd = true ->
  canon (mag x) -> (length (mag x) <= 32)%nat -> val (mag x) < 2 ^ Z.of_nat f ->
  exists s g, print_bigint R w nd f minus x = Some s /\
              parse_bigint R w nd g thr minus plus s = Some (Some x).
Proof.
  intros Ht Ht1 Hn31 Hfit Cx Lx Hf.
  destruct (round_trip_total HR Hw Hnd Hrad Ht Ht1 Hn31 Hfit Cx Lx Hf) as (t & Et & Hn & Ep).
  destruct (numeral_first HR Hminus Hplus Hn) as (c & t' & E & E1 & E2).
  unfold print_bigint. rewrite Et. cbn [obind]. exists (if neg x then minus :: t else t), (length t).
  split; [reflexivity|]. unfold parse_bigint. destruct x as [sg m]. cbn [neg mag] in *. destruct sg.
  - rewrite Z.eqb_refl, Ep. reflexivity.
  - rewrite E in *. rewrite E1, E2, Ep. reflexivity.
Qed.

End PrintFrac.

(** ** The representations of the library *)
Lemma continuous_ok zero r : 0 <= zero -> 2 <= r -> zero + r <= 2 ^ 32 -> repr_ok (continuous zero r).
Proof.
  intros Hz H2 Hs. unfold repr_ok, continuous. cbn [radix get_char get_index is_valid_char].
  split; [auto|]. split.
  - intros i Hi. rewrite (Z.mod_small (zero + i)) by lia. split; [lia|].
    replace (zero + i - zero) with i by lia. apply Z.mod_small. lia.
  - intros c Hc. rewrite (Z.mod_small (c - zero)) by lia. split; [lia|].
    rewrite Z.mod_small by lia. lia.
Qed.

Lemma index_of_nth t : NoDup t -> forall i, (i < length t)%nat -> index_of (nth i t 0) t = Some i.
Proof.
  intros H. induction H as [|x t Hx H IH]; intros i Hi; [cbn in Hi; lia|].
  destruct i as [|i]; cbn [nth index_of length] in *; [rewrite Z.eqb_refl; reflexivity|].
  destruct (Z.eqb_spec x (nth i t 0)) as [E|E].
  - exfalso. apply Hx. rewrite E. apply nth_In. lia.
  - rewrite IH by lia. reflexivity.
Qed.
Lemma index_of_some c t i : index_of c t = Some i -> (i < length t)%nat /\ nth i t 0 = c.
Proof.
  revert i. induction t as [|x t IH]; intros i H; cbn [index_of] in H; [discriminate|].
  destruct (Z.eqb_spec x c) as [E|E].
  - injection H as <-. cbn. split; [lia|exact E].
  - destruct (index_of c t) as [j|]; [|discriminate]. injection H as <-. cbn [length nth].
    destruct (IH j eq_refl). split; [lia|auto].
Qed.

Lemma tabled_ok t : NoDup t -> (2 <= length t)%nat -> repr_ok (tabled t).
Proof.
  intros Hn Hl. unfold repr_ok, tabled. cbn [radix get_char get_index is_valid_char].
  split; [lia|]. split.
  - intros i Hi. rewrite index_of_nth by (auto; lia). split; [reflexivity|lia].
  - intros c Hc. destruct (index_of c t) as [i|] eqn:E; [|discriminate].
    apply index_of_some in E. destruct E as [H1 H2]. rewrite Nat2Z.id. split; [lia|exact H2].
Qed.

Lemma decimal_ok : repr_ok decimal. Proof. apply continuous_ok; lia. Qed.
Lemma binary_ok : repr_ok binary. Proof. apply continuous_ok; lia. Qed.
Lemma octal_ok : repr_ok octal. Proof. apply continuous_ok; lia. Qed.
Lemma trinary_ok : repr_ok trinary. Proof. apply continuous_ok; lia. Qed.
Lemma valanlottish_ok : repr_ok valanlottish. Proof. apply continuous_ok; lia. Qed.
Ltac nodup_c := repeat (constructor; [cbn [In]; lia|]); constructor.
Lemma hexadecimal_ok : repr_ok hexadecimal. Proof. apply tabled_ok; [nodup_c|cbn; lia]. Qed.
Lemma hexadecimal_upper_ok : repr_ok hexadecimal_upper. Proof. apply tabled_ok; [nodup_c|cbn; lia]. Qed.

(** ** Statements for the property file *)
Lemma native_round_trip R d v : repr_ok R -> (1 <= d)%nat -> 0 <= v < 2 ^ Z.of_nat d ->
  exists s, print_native R d v [] = Some s /\ numeral_of R v s /\
            parse_native R (2 ^ Z.of_nat d) 0 s = Some v.
Proof.
  intros HR Hd Hv. destruct (@print_native_spec R HR d v [] Hv ltac:(lia)) as (s & E & Hn).
  rewrite app_nil_r in E. exists s. split; [exact E|]. split; [exact Hn|].
  destruct (numeral_digits HR Hn) as (H1 & H2 & _).
  rewrite parse_native_spec by (auto; lia). rewrite H1, H2. f_equal. apply Z.mod_small. lia.
Qed.

Lemma four_radices a R thr : In (R, thr) [(decimal, 19%nat); (hexadecimal, 15%nat); (octal, 21%nat); (binary, 63%nat)] ->
  canon (base 32) a -> (length a <= 32)%nat ->
  exists s, print_big R 32 2 (Z.to_nat 1024) a = Some s /\ numeral_of R (val (base 32) a) s /\
            parse_big R 32 2 (length s) thr s = Some (Some a).
Proof.
  intros Hin Ha Hl.
  assert (Hv : val (base 32) a < 2 ^ Z.of_nat (Z.to_nat 1024)).
  { rewrite Z2Nat.id by lia. pose proof (val_bound (B := base 32) ltac:(unfold base; lia) (canon_ok Ha)) as Hb.
    replace (2 ^ 1024) with (base 32 ^ 32) by reflexivity.
    pose proof (Z.pow_le_mono_r (base 32) (Z.of_nat (length a)) 32 ltac:(unfold base; lia) ltac:(lia)). lia. }
  destruct Hin as [E|[E|[E|[E|[]]]]]; injection E as <- <-; eapply round_trip_total; auto;
    first [exact decimal_ok|exact hexadecimal_ok|exact octal_ok|exact binary_ok|lia|vm_compute; congruence].
Qed.

Lemma parse_native_exact R m s : repr_ok R -> 0 < m ->
  parse_native R m 0 s = if all_digits R s then Some (text_val R s mod m) else None.
Proof. intros HR Hm. rewrite parse_native_spec by (auto; lia). reflexivity. Qed.
