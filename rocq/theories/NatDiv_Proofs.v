(** Proofs about native dividends. *)
From Verif Require Import Base UBig_Model UBig_Spec UBig_Basics UBig_AddSub UBig_Mul UBig_Kara UBig_Div UBig_Shift UBig_Bits Math_Model BigInt_Model BigInt_Proofs.
From Verif Require Import MinMax_Model MinMax_Spec MinMax_Proofs Cast_Model Cast_Proofs NatDiv_Model.
Local Open Scope Z_scope.

Lemma of_uint_length w f : forall v l, of_uint w f v = Some l -> (length l <= f)%nat.
Proof.
  induction f as [|f IH]; intros v l; cbn [of_uint]; destruct (v =? 0).
  - intros E. injection E as <-. cbn. lia.
  - discriminate.
  - intros E. injection E as <-. cbn. lia.
  - destruct (of_uint w f (v / base w)) as [r|] eqn:R; [|discriminate]. cbn [obind]. intros E. injection E as <-.
    apply IH in R. cbn [length]. lia.
Qed.

Lemma quot_abs a y (s : bool) : 0 <= y ->
  Z.quot a (if s then - y else y) = if xorb (a <? 0) s then - (Z.abs a / y) else Z.abs a / y.
Proof.
  intros Y. destruct (Z.ltb_spec a 0) as [N|N].
  - assert (exists x, 0 <= x /\ a = - x) as (x & X & ->) by (exists (- a); lia). clear N.
    rewrite Z.abs_opp, (Z.abs_eq x X). destruct (quot_signs X Y) as (Q1 & Q2 & _). destruct s; cbn [xorb]; assumption.
  - rewrite (Z.abs_eq a N). destruct (quot_signs N Y) as (_ & _ & Q3 & Q4). destruct s; cbn [xorb]; assumption.
Qed.
Lemma rem_abs a y (s : bool) : 0 < y ->
  Z.rem a (if s then - y else y) = if a <? 0 then - (Z.abs a mod y) else Z.abs a mod y.
Proof.
  intros Y. assert (R : Z.rem a (if s then - y else y) = Z.rem a y) by (destruct s; [apply Z.rem_opp_r; lia|reflexivity]).
  rewrite R. destruct (Z.ltb_spec a 0) as [N|N].
  - assert (exists x, 0 <= x /\ a = - x) as (x & X & ->) by (exists (- a); lia). clear N R.
    rewrite Z.abs_opp, (Z.abs_eq x X), Z.rem_opp_l, Z.rem_mod_nonneg by lia. reflexivity.
  - rewrite (Z.abs_eq a N). apply Z.rem_mod_nonneg; lia.
Qed.

Section P.
Variables (w : Z) (fuel : nat).
Hypothesis Hw : 0 < w.
Hypothesis F2 : (fuel <= 2)%nat.
Notation B := (base w).
Notation bval := (BigInt_Proofs.ival B).

Lemma small_div a b : canon B a -> canon B b -> (length a <= 2)%nat -> denotes B (udiv w a b) (val B a / val B b).
Proof.
  intros Ca Cb L. destruct (Nat.ltb_spec (length a) (length b)) as [H|H]; [|apply (udiv_exact Hw Ca Cb); lia].
  pose proof (canon_lt_length Hw Ca Cb H) as Hlt. pose proof (val_ge0 Hw Ca).
  unfold udiv. destruct b as [|y b]; [cbn in H; lia|]. apply Nat.ltb_lt in H. rewrite H.
  exists []. refine (conj eq_refl (conj _ _)); [split; [constructor|cbn; lia]|]. rewrite Z.div_small by lia. reflexivity.
Qed.
Lemma to_native_of (t : ity) (s : bool) m : 32 <= bits t -> canon B m -> sgn t = true -> val B m < 2 ^ (bits t - 1) ->
  num (to_type w t (Bi s m)) = if s then - val B m else val B m.
Proof.
  intros D C S L. unfold to_type. cbn [num]. rewrite S.
  destruct (@to_native_modulo w (bits t) (Bi s m) ltac:(lia)) as [M R].
  set (x := to_native w (bits t) (Bi s m)) in *. unfold BigInt_Proofs.ival in M. cbn [neg mag] in M.
  assert (P : 2 ^ bits t = 2 * 2 ^ (bits t - 1)) by (apply pow_half; lia).
  assert (Q : 0 < 2 ^ (bits t - 1)) by (apply Z.pow_pos_nonneg; lia).
  pose proof (val_ge0 Hw C). set (y := if s then - val B m else val B m) in *.
  assert (Y : - 2 ^ (bits t - 1) < y < 2 ^ (bits t - 1)) by (unfold y; destruct s; lia).
  apply Z.mod_divide in M; [|lia]. destruct M as [k K]. assert (k = 0) by nia. lia.
Qed.
Lemma of_abs_signed (a : MinMax_Model.ival) : fits a -> sgn (vty a) = true -> 32 <= bits (vty a) ->
  num a <> - 2 ^ (bits (vty a) - 1) -> 2 ^ bits (vty a) <= B ^ Z.of_nat fuel ->
  exists m, of_abs w fuel (vty a) (num a) = Some (Bi false m) /\ canon B m /\ val B m = Z.abs (num a) /\ (length m <= 2)%nat.
Proof.
  intros [_ I] S D N F. unfold in_type in I. rewrite S in I.
  assert (P : 2 ^ bits (vty a) = 2 * 2 ^ (bits (vty a) - 1)) by (apply pow_half; lia).
  unfold of_abs, abs_signed. rewrite S.
  assert (E : (if num a <? 0 then if num a =? - 2 ^ (bits (vty a) - 1) then None else Some (- num a) else Some (num a)) = Some (Z.abs (num a))).
  { destruct (Z.ltb_spec (num a) 0); [|f_equal; lia]. destruct (Z.eqb_spec (num a) (- 2 ^ (bits (vty a) - 1))); [lia|f_equal; lia]. }
  rewrite E. cbn [obind].
  destruct (@round_trip_native w Hw fuel (2 ^ bits (vty a)) (Z.abs (num a))) as (l & El & Cl & Vl & _); try lia.
  rewrite El. cbn [obind]. exists l. pose proof (of_uint_length El). repeat split; try apply Cl; auto; lia.
Qed.
Lemma of_abs_unsigned (a : MinMax_Model.ival) : fits a -> sgn (vty a) = false -> 2 ^ bits (vty a) <= B ^ Z.of_nat fuel ->
  exists m, of_abs w fuel (vty a) (num a) = Some (Bi false m) /\ canon B m /\ val B m = num a /\ (length m <= 2)%nat.
Proof.
  intros [_ I] S F. unfold in_type in I. rewrite S in I. unfold of_abs. rewrite S. cbn [obind].
  destruct (@round_trip_native w Hw fuel (2 ^ bits (vty a)) (num a)) as (l & El & Cl & Vl & _); try lia.
  rewrite El. cbn [obind]. exists l. pose proof (of_uint_length El). repeat split; try apply Cl; auto; lia.
Qed.
Lemma sign_of (a : MinMax_Model.ival) : fits a -> int_negative a = (num a <? 0).
Proof.
  intros [_ I]. unfold int_negative, in_type in *. destruct (sgn (vty a)); [reflexivity|]. cbn [andb]. symmetry. apply Z.ltb_ge. lia.
Qed.
Lemma copy_signed t (z : Z) (s : bool) : 32 <= bits t -> sgn t = true -> - 2 ^ (bits t - 1) < z < 2 ^ (bits t - 1) ->
  exists r, copy_as_negative {| vty := t; num := z |} s = Some r /\ num r = if s then - z else z.
Proof.
  intros D S R.
  assert (Ft : fits {| vty := t; num := z |}) by (split; [cbn; lia|unfold in_type; cbn [vty num]; rewrite S; lia]).
  destruct (negative_spec Ft (or_introl S)) as (E1 & E2 & _). cbn [vty num] in *. rewrite Z.max_r in E2 by lia.
  destruct s; [rewrite E2 by lia|rewrite E1]; eexists; split; reflexivity.
Qed.
Lemma div_le x y : 0 <= x -> 0 <= y -> 0 <= x / y <= x.
Proof.
  intros X Y. destruct (Z.eq_dec y 0) as [-> |N]; [rewrite Zdiv_0_r; lia|].
  split; [apply Z.div_pos; lia|]. apply Z.div_le_upper_bound; nia.
Qed.
Lemma div_signed (a : MinMax_Model.ival) b : fits a -> sgn (vty a) = true -> 32 <= bits (vty a) ->
  num a <> - 2 ^ (bits (vty a) - 1) -> 2 ^ bits (vty a) <= B ^ Z.of_nat fuel -> icanon B b ->
  exists r, native_div w fuel a b = Some r /\
    num r = if neg b then - Z.quot (num a) (bval b) else Z.quot (num a) (bval b).
Proof.
  intros Fa S D N F Cb. destruct (of_abs_signed Fa S D N F) as (m & Em & Cm & Vm & Lm).
  unfold native_div. rewrite Em. cbn [obind]. unfold idiv_assign. cbn [mag neg].
  destruct (small_div Cm Cb Lm) as (q & Eq & Cq & Vq). rewrite Eq. cbn [obind].
  pose proof (val_ge0 Hw Cb) as Gb. pose proof (div_le (Z.abs_nonneg (num a)) Gb) as Q. rewrite <- Vm, <- Vq in Q.
  assert (A : Z.abs (num a) < 2 ^ (bits (vty a) - 1)) by (destruct Fa as [_ I]; unfold in_type in I; rewrite S in I; lia).
  pose proof (@to_native_of (vty a) (negb (Bool.eqb false (neg b))) q D Cq S ltac:(lia)) as T.
  rewrite (sign_of Fa).
  destruct (@copy_signed (vty a) (num (to_type w (vty a) (Bi (negb (Bool.eqb false (neg b))) q))) (xorb (num a <? 0) (neg b)) D S) as (r & E & R).
  { rewrite T. destruct (negb (Bool.eqb false (neg b))); lia. }
  unfold to_type in *. cbn [num] in *. rewrite E. exists r. split; [reflexivity|]. rewrite R, T. unfold BigInt_Proofs.ival.
  rewrite Vq, Vm, (quot_abs (num a) (neg b) Gb). destruct (num a <? 0); destruct (neg b); cbn [xorb negb Bool.eqb]; ring.
Qed.
Lemma mod_signed (a : MinMax_Model.ival) b : fits a -> sgn (vty a) = true -> 32 <= bits (vty a) ->
  num a <> - 2 ^ (bits (vty a) - 1) -> 2 ^ bits (vty a) <= B ^ Z.of_nat fuel -> icanon B b -> mag b <> [] ->
  exists r, native_mod w fuel a b = Some r /\ num r = Z.rem (num a) (bval b).
Proof.
  intros Fa S D N F Cb Nb. destruct (of_abs_signed Fa S D N F) as (m & Em & Cm & Vm & Lm).
  unfold native_mod. rewrite Em. cbn [obind]. unfold imod_assign. cbn [mag neg].
  destruct (@umod_spec w Hw m (mag b) Cm Cb ltac:(lia)) as (q & Eq & Cq & Vq). rewrite Eq. cbn [obind].
  pose proof (canon_pos (base_ge2 Hw) Cb Nb) as Gb. replace (val B (mag b) =? 0) with false in Vq by (symmetry; apply Z.eqb_neq; lia).
  assert (A : Z.abs (num a) < 2 ^ (bits (vty a) - 1)) by (destruct Fa as [_ I]; unfold in_type in I; rewrite S in I; lia).
  pose proof (Z.mod_pos_bound (val B m) _ Gb) as Q. pose proof (Z.mod_le (val B m) (val B (mag b)) ltac:(lia) Gb) as Q'. rewrite <- Vq in Q, Q'.
  pose proof (@to_native_of (vty a) false q D Cq S ltac:(lia)) as T. rewrite (sign_of Fa).
  destruct (@copy_signed (vty a) (num (to_type w (vty a) (Bi false q))) (num a <? 0) D S) as (r & E & R); [rewrite T; lia|].
  unfold to_type in *. cbn [num] in *. rewrite E. exists r. split; [reflexivity|]. rewrite R, T. unfold BigInt_Proofs.ival.
  rewrite Vq, Vm, (rem_abs (num a) (neg b) Gb). reflexivity.
Qed.
Lemma smallest_undefined t b : sgn t = true -> 0 < bits t ->
  native_div w fuel {| vty := t; num := - 2 ^ (bits t - 1) |} b = None /\
  native_mod w fuel {| vty := t; num := - 2 ^ (bits t - 1) |} b = None.
Proof.
  clear F2 Hw. intros S D. assert (0 < 2 ^ (bits t - 1)) by (apply Z.pow_pos_nonneg; lia).
  unfold native_div, native_mod, of_abs, abs_signed. cbn [vty num]. rewrite S.
  replace (- 2 ^ (bits t - 1) <? 0) with true by lia. rewrite Z.eqb_refl. split; reflexivity.
Qed.
Lemma div_unsigned (a : MinMax_Model.ival) b : fits a -> sgn (vty a) = false -> 32 <= bits (vty a) ->
  2 ^ bits (vty a) <= B ^ Z.of_nat fuel -> icanon B b ->
  native_div w fuel a b = Some {| vty := vty a; num := Z.quot (num a) (bval b) mod 2 ^ bits (vty a) |}.
Proof.
  intros Fa S D F Cb. destruct (of_abs_unsigned Fa S F) as (m & Em & Cm & Vm & Lm).
  unfold native_div. rewrite Em. cbn [obind]. unfold idiv_assign. cbn [mag neg].
  destruct (small_div Cm Cb Lm) as (q & Eq & Cq & Vq). rewrite Eq. cbn [obind].
  pose proof (val_ge0 Hw Cb) as Gb. destruct Fa as [P I]. pose proof I as I0. unfold in_type in I. rewrite S in I.
  pose proof (div_le (proj1 I) Gb) as Q. rewrite <- Vm, <- Vq in Q.
  unfold to_type. cbn [mag]. rewrite S. rewrite (convert_to_spec w) by lia. rewrite Z.mod_small by lia.
  unfold int_negative. rewrite S. cbn [andb xorb]. unfold BigInt_Proofs.ival.
  assert (Fx : fits {| vty := vty a; num := val B q |}) by (split; [exact P|unfold in_type; cbn [vty num]; rewrite S; lia]).
  destruct (neg b).
  - rewrite (negative_unsigned Fx S D). cbn [vty num]. destruct (quot_signs (proj1 I) Gb) as (_ & _ & Q3 & _).
    rewrite Q3, Vq, Vm. reflexivity.
  - assert (M : val B q mod 2 ^ bits (vty a) = val B q) by (apply Z.mod_small; lia).
    destruct (quot_signs (proj1 I) Gb) as (_ & _ & _ & Q4). rewrite Q4, <- Vm, <- Vq, M. clear Q4 M.
    unfold copy_as_negative. cbn [vty num]. destruct (vty a) as [g n]. cbn [sgn bits] in *. subst g.
    unfold common, promote. cbn [sgn bits]. replace (n <? 32) with false by lia. cbn [sgn bits Bool.eqb]. rewrite Z.leb_refl.
    unfold cond_type. cbn [sgn bits Bool.eqb andb]. rewrite Z.eqb_refl. f_equal. f_equal.
    apply conv_id; [cbn; lia|]. exact (proj2 Fx).
Qed.
End P.

Lemma div_right w fuel (a : MinMax_Model.ival) b : 0 < w -> (fuel <= 2)%nat ->
  fits a -> sgn (vty a) = true -> 32 <= bits (vty a) -> num a <> - 2 ^ (bits (vty a) - 1) ->
  2 ^ bits (vty a) <= base w ^ Z.of_nat fuel -> icanon (base w) b -> neg b = false ->
  exists r, native_div w fuel a b = Some r /\ num r = Z.quot (num a) (BigInt_Proofs.ival (base w) b).
Proof.
  intros W F2 Fa S D N F Cb Nb. destruct (div_signed W F2 Fa S D N F Cb) as (r & E & R). rewrite Nb in R. exists r. split; assumption.
Qed.
Lemma div_opposite w fuel (a : MinMax_Model.ival) b : 0 < w -> (fuel <= 2)%nat ->
  fits a -> sgn (vty a) = true -> 32 <= bits (vty a) -> num a <> - 2 ^ (bits (vty a) - 1) ->
  2 ^ bits (vty a) <= base w ^ Z.of_nat fuel -> icanon (base w) b -> neg b = true ->
  exists r, native_div w fuel a b = Some r /\ num r = - Z.quot (num a) (BigInt_Proofs.ival (base w) b).
Proof.
  intros W F2 Fa S D N F Cb Nb. destruct (div_signed W F2 Fa S D N F Cb) as (r & E & R). rewrite Nb in R. exists r. split; assumption.
Qed.
Lemma mod_right w fuel (a : MinMax_Model.ival) b : 0 < w -> (fuel <= 2)%nat ->
  fits a -> sgn (vty a) = true -> 32 <= bits (vty a) -> num a <> - 2 ^ (bits (vty a) - 1) ->
  2 ^ bits (vty a) <= base w ^ Z.of_nat fuel -> icanon (base w) b -> mag b <> [] ->
  exists r, native_mod w fuel a b = Some r /\ num r = Z.rem (num a) (BigInt_Proofs.ival (base w) b).
Proof. intros W F2. exact (mod_signed W F2 (a := a) (b := b)). Qed.
Lemma div_unsigned_all w fuel (a : MinMax_Model.ival) b : 0 < w -> (fuel <= 2)%nat ->
  fits a -> sgn (vty a) = false -> 32 <= bits (vty a) ->
  2 ^ bits (vty a) <= base w ^ Z.of_nat fuel -> icanon (base w) b ->
  native_div w fuel a b = Some {| vty := vty a; num := Z.quot (num a) (BigInt_Proofs.ival (base w) b) mod 2 ^ bits (vty a) |}.
Proof. intros W F2. exact (div_unsigned W F2 (a := a) (b := b)). Qed.
