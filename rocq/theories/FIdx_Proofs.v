(** Proofs for fractional positions. *)
From Coq Require Import QArith Qround Lqa.
From Verif Require Import Base FIdx_Model FIdx_Spec.
Local Open Scope omonad_scope.
Local Open Scope Z_scope.

Lemma trunc_between w q i : (inject_Z i <= q < inject_Z (i + 1))%Q -> 0 <= i < 2 ^ w ->
  trunc w q = Some i.
Proof.
  intros [A B] H. unfold trunc.
  assert (P : (0 <= q)%Q).
  { apply Qle_trans with (inject_Z i); [|exact A]. change 0%Q with (inject_Z 0).
    rewrite <- Zle_Qle. lia. }
  apply Qle_bool_iff in P. rewrite P.
  assert (F : Qfloor q = i).
  { pose proof (Qfloor_le q) as L. pose proof (Qlt_floor q) as U.
    assert (Qfloor q < i + 1) by (rewrite Zlt_Qlt; eapply Qle_lt_trans; eauto).
    assert (i < Qfloor q + 1) by (rewrite Zlt_Qlt; eapply Qle_lt_trans; eauto). lia. }
  rewrite F. destruct (Z.leb_spec 0 i), (Z.ltb_spec i (2 ^ w)); try lia. reflexivity.
Qed.

Lemma char_inside b s i y : nth_error s (Z.to_nat i) = Some y -> 0 <= i -> char_at b s i = Some y.
Proof.
  intros E H. unfold char_at. assert (L : (Z.to_nat i < length s)%nat).
  { apply nth_error_Some. congruence. }
  destruct (Z.ltb_spec i (Z.of_nat (length s))); [|lia].
  destruct (Z.leb_spec 0 i); [|lia]. exact E.
Qed.

Lemma sub_small a b : 0 <= a < 2 ^ 31 -> 0 <= b < 2 ^ 31 -> sub_chars a b = Some (a - b).
Proof.
  intros Ha Hb. unfold sub_chars, to_int.
  destruct (Z.ltb_spec a (2 ^ 31)); [|lia]. destruct (Z.ltb_spec b (2 ^ 31)); [|lia].
  destruct (Z.leb_spec (- 2 ^ 31) (a - b)); [|lia]. destruct (Z.ltb_spec (a - b) (2 ^ 31)); [|lia].
  reflexivity.
Qed.

Lemma rounding_eq m f a b : rounding m f -> (a == b)%Q -> (f a == f b)%Q.
Proof.
  intros [M _] E. apply Qle_antisym; apply M; rewrite E; apply Qle_refl.
Qed.

Lemma rounding_low m f z x : rounding m f -> Z.abs z <= m -> (inject_Z z <= x)%Q ->
  (inject_Z z <= f x)%Q.
Proof.
  intros [M I] H L. apply Qle_trans with (f (inject_Z z)); [|now apply M].
  rewrite I by exact H. apply Qle_refl.
Qed.
Lemma rounding_up m f z x : rounding m f -> Z.abs z <= m -> (x <= inject_Z z)%Q ->
  (f x <= inject_Z z)%Q.
Proof.
  intros [M I] H L. apply Qle_trans with (f (inject_Z z)); [now apply M|].
  rewrite I by exact H. apply Qle_refl.
Qed.

Lemma read_inside rs rd b s q i y1 y2 :
  (inject_Z i <= q < inject_Z (i + 1))%Q -> 0 <= i < 2 ^ 64 - 1 ->
  nth_error s (Z.to_nat i) = Some y1 -> char_at b s (i + 1) = Some y2 ->
  0 <= y1 < 2 ^ 31 -> 0 <= y2 < 2 ^ 31 ->
  read_at rs rd b s q
  = Some (interpolated rd y1 (rd (inject_Z (y2 - y1))) (rs (q - inject_Z i))%Q).
Proof.
  intros Q1 H E1 E2 B1 B2. unfold read_at. rewrite (@trunc_between 64 q i Q1) by lia. cbn [obind].
  rewrite (@char_inside b s i y1) by (auto; lia). cbn [obind].
  rewrite (Z.mod_small (i + 1)) by lia. rewrite E2. cbn [obind].
  unfold slope. rewrite sub_small by lia. reflexivity.
Qed.

Lemma inject_Z_le a b : a <= b -> (inject_Z a <= inject_Z b)%Q.
Proof. intros. now rewrite <- Zle_Qle. Qed.

Lemma frac_bounds q i : (inject_Z i <= q < inject_Z (i + 1))%Q -> (0 <= q - inject_Z i <= 1)%Q.
Proof. intros [A B]. rewrite inject_Z_plus in B. change (inject_Z 1) with 1%Q in B. lra. Qed.

Theorem read_between rs rd b s q i y1 y2 :
  rounding 1 rs -> rounding (2 ^ 53) rd ->
  (inject_Z i <= q < inject_Z (i + 1))%Q -> 0 <= i < 2 ^ 64 - 1 ->
  nth_error s (Z.to_nat i) = Some y1 -> nth_error s (Z.to_nat (i + 1)) = Some y2 ->
  0 <= y1 < 2 ^ 31 -> 0 <= y2 < 2 ^ 31 ->
  exists r, read_at rs rd b s q = Some r /\
    (inject_Z (Z.min y1 y2) <= r <= inject_Z (Z.max y1 y2))%Q.
Proof.
  intros Rs Rd Q1 H E1 E2 B1 B2. eexists. split.
  { eapply read_inside; eauto. apply char_inside; [exact E2|lia]. }
  pose proof Rs as [Ms Is]. pose proof Rd as [Md Id].
  assert (D : (0 <= rs (q - inject_Z i) <= 1)%Q).
  { destruct (frac_bounds Q1) as [F G]. split.
    - now apply (@rounding_low 1 rs 0 _ Rs).
    - now apply (@rounding_up 1 rs 1 _ Rs). }
  set (d := rs (q - inject_Z i)%Q) in *. clearbody d.
  unfold interpolated. set (k := rd (inject_Z (y2 - y1))).
  assert (K : (k == inject_Z (y2 - y1))%Q) by (apply Id; lia).
  clearbody k. destruct (Z.le_ge_cases y1 y2) as [L|L].
  - rewrite Z.min_l, Z.max_r by lia.
    assert (P : (0 <= inject_Z (y2 - y1))%Q) by (apply (@inject_Z_le 0); lia).
    assert (S : (inject_Z 0 <= rd (k * d) <= inject_Z (y2 - y1))%Q).
    { split.
      - apply (@rounding_low (2 ^ 53) rd 0 _ Rd); [lia|]. rewrite K. change (inject_Z 0) with 0%Q. nra.
      - apply (@rounding_up (2 ^ 53) rd (y2 - y1) _ Rd); [lia|]. rewrite K. nra. }
    destruct S as [S1 S2]. split.
    + apply (@rounding_low (2 ^ 53) rd y1 _ Rd); [lia|]. change (inject_Z 0) with 0%Q in S1. lra.
    + apply (@rounding_up (2 ^ 53) rd y2 _ Rd); [lia|].
      unfold Z.sub in S2. rewrite inject_Z_plus, inject_Z_opp in S2. lra.
  - rewrite Z.min_r, Z.max_l by lia.
    assert (P : (inject_Z (y2 - y1) <= 0)%Q) by (apply (@inject_Z_le _ 0); lia).
    assert (S : (inject_Z (y2 - y1) <= rd (k * d) <= inject_Z 0)%Q).
    { split.
      - apply (@rounding_low (2 ^ 53) rd (y2 - y1) _ Rd); [lia|]. rewrite K. nra.
      - apply (@rounding_up (2 ^ 53) rd 0 _ Rd); [lia|]. rewrite K. change (inject_Z 0) with 0%Q. nra. }
    destruct S as [S1 S2]. split.
    + apply (@rounding_low (2 ^ 53) rd y2 _ Rd); [lia|].
      unfold Z.sub in S1. rewrite inject_Z_plus, inject_Z_opp in S1. lra.
    + apply (@rounding_up (2 ^ 53) rd y1 _ Rd); [lia|]. change (inject_Z 0) with 0%Q in S2. lra.
Qed.

Theorem read_whole rs rd b s i y1 y2 :
  rounding 1 rs -> rounding (2 ^ 53) rd -> 0 <= i < 2 ^ 64 - 1 ->
  nth_error s (Z.to_nat i) = Some y1 -> char_at b s (i + 1) = Some y2 ->
  0 <= y1 < 2 ^ 31 -> 0 <= y2 < 2 ^ 31 ->
  exists r, read_at rs rd b s (inject_Z i) = Some r /\ (r == inject_Z y1)%Q.
Proof.
  intros Rs Rd H E1 E2 B1 B2. eexists. split.
  { eapply read_inside; eauto. split; [apply Qle_refl|]. rewrite <- Zlt_Qlt. lia. }
  pose proof Rs as [Ms Is]. pose proof Rd as [Md Id].
  assert (D : (rs (inject_Z i - inject_Z i) == 0)%Q).
  { rewrite (@rounding_eq 1 rs _ (inject_Z 0) Rs); [now rewrite Is by lia|]. change (inject_Z 0) with 0%Q. ring. }
  unfold interpolated.
  rewrite (@rounding_eq (2 ^ 53) rd _ (inject_Z y1) Rd); [apply Id; lia|].
  rewrite (@rounding_eq (2 ^ 53) rd (_ * _)%Q (inject_Z 0) Rd).
  - rewrite Id by lia. change (inject_Z 0) with 0%Q. ring.
  - rewrite D. change (inject_Z 0) with 0%Q. ring.
Qed.

Lemma exact_rounding m : rounding m (fun x => x).
Proof. split; auto. intros. reflexivity. Qed.

Theorem read_line b s q i y1 y2 :
  (inject_Z i <= q < inject_Z (i + 1))%Q -> 0 <= i < 2 ^ 64 - 1 ->
  nth_error s (Z.to_nat i) = Some y1 -> nth_error s (Z.to_nat (i + 1)) = Some y2 ->
  0 <= y1 < 2 ^ 31 -> 0 <= y2 < 2 ^ 31 ->
  exists r, read_at (fun x => x) (fun x => x) b s q = Some r /\ (r == on_line y1 y2 i q)%Q.
Proof.
  intros Q1 H E1 E2 B1 B2. eexists. split.
  { eapply read_inside; eauto. apply char_inside; [exact E2|lia]. }
  unfold interpolated, on_line. unfold Z.sub. rewrite !inject_Z_plus, inject_Z_opp.
  change (inject_Z 1) with 1%Q. ring.
Qed.

Theorem read_last rs rd s q :
  (inject_Z (Z.of_nat (length s) - 1) <= q < inject_Z (Z.of_nat (length s)))%Q ->
  s <> [] -> Z.of_nat (length s) < 2 ^ 64 ->
  read_at rs rd None s q = None.
Proof.
  intros Q1 N L. unfold read_at.
  assert (0 < length s)%nat by (destruct s; [congruence|cbn; lia]).
  rewrite (@trunc_between 64 q (Z.of_nat (length s) - 1)); [|now rewrite Z.sub_add|lia]. cbn [obind].
  destruct (char_at None s (Z.of_nat (length s) - 1)); [|reflexivity]. cbn [obind].
  rewrite Z.sub_add. rewrite Z.mod_small by lia.
  unfold char_at. rewrite Z.ltb_irrefl, Z.eqb_refl. reflexivity.
Qed.

(** ** Writing *)
Lemma put_length s i c : 0 <= i < Z.of_nat (length s) -> length (put_char s i c) = length s.
Proof.
  intros H. unfold put_char. rewrite app_length, firstn_length. cbn [length].
  rewrite skipn_length. lia.
Qed.

Lemma put_nth s i c j : 0 <= i < Z.of_nat (length s) ->
  nth_error (put_char s i c) j = if Nat.eqb j (Z.to_nat i) then Some c else nth_error s j.
Proof.
  intros H. unfold put_char. destruct (Nat.eqb_spec j (Z.to_nat i)) as [->|N].
  - rewrite nth_error_app2; rewrite firstn_length, Nat.min_l by lia; [|lia].
    now rewrite Nat.sub_diag.
  - assert (J : (j < Z.to_nat i)%nat \/ (Z.to_nat i < j)%nat) by lia. destruct J as [J|J].
    + rewrite nth_error_app1 by (rewrite firstn_length; lia).
      rewrite <- (firstn_skipn (Z.to_nat i) s) at 2.
      rewrite nth_error_app1 by (rewrite firstn_length; lia). reflexivity.
    + rewrite nth_error_app2; rewrite firstn_length, Nat.min_l by lia; [|lia].
      destruct (j - Z.to_nat i)%nat as [|m] eqn:E; [lia|]. cbn [nth_error].
      rewrite <- (firstn_skipn (S (Z.to_nat i)) s) at 2.
      rewrite nth_error_app2; rewrite firstn_length, Nat.min_l by lia; [|lia].
      f_equal. lia.
Qed.

Lemma trunc_value w q z : trunc w q = Some z ->
  0 <= z < 2 ^ w /\ (inject_Z z - 1 < q < inject_Z z + 1)%Q.
Proof.
  unfold trunc. destruct (Qle_bool 0 q) eqn:E.
  - destruct (Z.leb_spec 0 (Qfloor q)), (Z.ltb_spec (Qfloor q) (2 ^ w)); try discriminate.
    cbn [andb]. intros [= <-]. split; [lia|]. pose proof (Qfloor_le q). pose proof (Qlt_floor q) as U.
    rewrite inject_Z_plus in U. change (inject_Z 1) with 1%Q in U. lra.
  - destruct (Z.leb_spec 0 (Qceiling q)), (Z.ltb_spec (Qceiling q) (2 ^ w)); try discriminate.
    cbn [andb]. intros [= <-]. split; [lia|]. pose proof (Qle_ceiling q).
    pose proof (Qceiling_lt q) as U. unfold Z.sub in U. rewrite inject_Z_plus, inject_Z_opp in U.
    change (inject_Z 1) with 1%Q in U. lra.
Qed.

Lemma trunc_negative w q : (q <= -1 # 1)%Q -> trunc w q = None.
Proof.
  intros H. unfold trunc. destruct (Qle_bool 0 q) eqn:E.
  - apply Qle_bool_iff in E. exfalso. lra.
  - assert (Qceiling q <= -1).
    { rewrite <- (Qceiling_Z (-1)). now apply Qceiling_resp_le. }
    destruct (Z.leb_spec 0 (Qceiling q)); [lia|]. reflexivity.
Qed.

Lemma write_inside rs rd s q a i y1 y2 :
  (inject_Z i <= q < inject_Z (i + 1))%Q -> 0 <= i < 2 ^ 64 - 1 ->
  nth_error s (Z.to_nat i) = Some y1 -> nth_error s (Z.to_nat (i + 1)) = Some y2 ->
  0 <= y1 < 2 ^ 31 -> 0 <= y2 < 2 ^ 31 ->
  write_at rs rd s q a =
  (z1 <- trunc 32 (extrapolated rd (rd (inject_Z (y2 - y1))) (rs (q - inject_Z i)) a)%Q ;;
   z2 <- trunc 32 (extrapolated rd (rd (inject_Z (y2 - y1))) (rs (q - inject_Z (i + 1))) a)%Q ;;
   Some (put_char (put_char s i z1) (i + 1) z2)).
Proof.
  intros Q1 H E1 E2 B1 B2. unfold write_at. rewrite (@trunc_between 64 q i Q1) by lia. cbn [obind].
  rewrite (@char_inside None s i y1) by (auto; lia). cbn [obind].
  rewrite (Z.mod_small (i + 1)) by lia. rewrite (@char_inside None s (i + 1) y2) by (auto; lia).
  cbn [obind]. unfold slope. rewrite sub_small by lia. reflexivity.
Qed.

Theorem write_read b s q a i y1 y2 s' :
  (inject_Z i <= q < inject_Z (i + 1))%Q -> 0 <= i < 2 ^ 64 - 1 ->
  nth_error s (Z.to_nat i) = Some y1 -> nth_error s (Z.to_nat (i + 1)) = Some y2 ->
  0 <= y1 < 2 ^ 31 -> 0 <= y2 < 2 ^ 31 ->
  write_at (fun x => x) (fun x => x) s q a = Some s' ->
  Forall (fun c => c < 2 ^ 31) s' ->
  length s' = length s /\
  (forall j, j <> Z.to_nat i -> j <> Z.to_nat (i + 1) -> nth_error s' j = nth_error s j) /\
  exists r, read_at (fun x => x) (fun x => x) b s' q = Some r /\ (a - 1 < r < a + 1)%Q.
Proof.
  intros Q1 H E1 E2 B1 B2 W F.
  rewrite (@write_inside _ _ s q a i y1 y2) in W by auto. unfold extrapolated in W.
  set (k := inject_Z (y2 - y1)) in *. clearbody k.
  destruct (trunc 32 (a - k * (q - inject_Z i))%Q) as [z1|] eqn:T1; [|discriminate].
  destruct (trunc 32 (a - k * (q - inject_Z (i + 1)))%Q) as [z2|] eqn:T2; [|discriminate].
  cbn [obind] in W. injection W as <-.
  assert (L1 : (Z.to_nat i < length s)%nat) by (apply nth_error_Some; congruence).
  assert (L2 : (Z.to_nat (i + 1) < length s)%nat) by (apply nth_error_Some; congruence).
  assert (P1 : length (put_char s i z1) = length s) by (apply put_length; lia).
  assert (N : forall j, nth_error (put_char (put_char s i z1) (i + 1) z2) j =
     if Nat.eqb j (Z.to_nat (i + 1)) then Some z2
     else if Nat.eqb j (Z.to_nat i) then Some z1 else nth_error s j).
  { intros j. rewrite put_nth by lia. rewrite put_nth by lia. reflexivity. }
  split; [rewrite put_length; lia|]. split.
  { intros j J1 J2. rewrite N. now rewrite (proj2 (Nat.eqb_neq _ _) J1), (proj2 (Nat.eqb_neq _ _) J2). }
  pose proof (trunc_value T1) as (C1 & V1). pose proof (trunc_value T2) as (C2 & V2).
  assert (N1 : nth_error (put_char (put_char s i z1) (i + 1) z2) (Z.to_nat i) = Some z1).
  { rewrite N. destruct (Nat.eqb_spec (Z.to_nat i) (Z.to_nat (i + 1))); [lia|]. now rewrite Nat.eqb_refl. }
  assert (N2 : nth_error (put_char (put_char s i z1) (i + 1) z2) (Z.to_nat (i + 1)) = Some z2).
  { rewrite N. now rewrite Nat.eqb_refl. }
  rewrite Forall_forall in F.
  pose proof (F _ (nth_error_In _ _ N1)) as F1. pose proof (F _ (nth_error_In _ _ N2)) as F2.
  destruct (@read_line b _ q i z1 z2 Q1 H N1 N2) as (r & E & R); [lia..|].
  exists r. split; [exact E|]. rewrite R. unfold on_line.
  rewrite inject_Z_plus in *. change (inject_Z 1) with 1%Q in *.
  destruct Q1 as [Qa Qb].
  assert (X : exists d, (q - inject_Z i == d)%Q) by (eexists; reflexivity).
  destruct X as (d & X0).
  assert (D : (0 <= d < 1)%Q) by (rewrite <- X0; lra).
  assert (X1 : (q - (inject_Z i + 1) == d - 1)%Q) by (rewrite <- X0; ring).
  assert (X2 : (inject_Z i + 1 - q == 1 - d)%Q) by (rewrite <- X0; ring).
  rewrite X2, X0. rewrite X1 in V2. rewrite X0 in V1.
  clear - V1 V2 D. split; nra.
Qed.

Theorem write_negative s q a i y1 y2 :
  (inject_Z i <= q < inject_Z (i + 1))%Q -> 0 <= i < 2 ^ 64 - 1 ->
  nth_error s (Z.to_nat i) = Some y1 -> nth_error s (Z.to_nat (i + 1)) = Some y2 ->
  0 <= y1 < 2 ^ 31 -> 0 <= y2 < 2 ^ 31 ->
  (a + 1 <= inject_Z (y2 - y1) * (q - inject_Z i))%Q ->
  write_at (fun x => x) (fun x => x) s q a = None.
Proof.
  intros Q1 H E1 E2 B1 B2 A. rewrite (@write_inside _ _ s q a i y1 y2) by auto.
  unfold extrapolated. rewrite trunc_negative; [reflexivity|]. lra.
Qed.
