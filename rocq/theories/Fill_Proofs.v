From Verif Require Import Base Float_Spec Life_Model Life_Spec Life_Proofs.
From Coq Require Import QArith Qround Qpower.
Local Open Scope Z_scope.

Lemma pow_half k : 1 <= k -> 2 ^ k = 2 * 2 ^ (k - 1).
Proof. intros H. replace k with (1 + (k - 1)) at 1 by lia. rewrite Z.pow_add_r by lia. lia. Qed.

Lemma int_bits k v (sign : bool) : 1 <= k -> 0 <= v < 2 ^ k ->
  (if sign && (2 ^ (k - 1) <=? v) then v - 2 ^ k else v) mod 2 ^ k = v.
Proof.
  intros K V. destruct (sign && (2 ^ (k - 1) <=? v)).
  - symmetry. apply Z.mod_unique with (-1); lia.
  - apply Z.mod_small. exact V.
Qed.

Section Fill.
Variable T : traits.
Variable wsize dflt : Z.
Variable left_over : Z -> Z.
Variable throws : nat -> bool.

Theorem fill_right m to b n v : copyable T = true -> plain T wsize -> bits_of T v -> m b = Obj (Some v) ->
  exists m', fill T wsize m to b n = Done m' /\ objects m' to (repeat v n) /\ only m m' to n.
Proof.
  intros C [A P] [S V] B. unfold fill. rewrite C. cbn [negb]. unfold read. rewrite B, A.
  assert (G : exists m', set_all m to n v = Done m' /\ objects m' to (repeat v n) /\ only m m' to n).
  { destruct (set_all_ok m to n v) as (m' & E & R & On). exists m'. split; [exact E|]. split; [exact (objects_repeat R)|exact On]. }
  unfold convert. destruct (kind T) as [sign|f|].
  - destruct (Z.eqb_spec (size T) 1) as [E|E]; [|destruct (Z.eqb_spec (size T) wsize) as [F|F]].
    + rewrite E in V. rewrite (@int_bits 8 v sign) by (auto; lia). exact G.
    + rewrite <- F. rewrite (@int_bits (8 * size T) v sign) by (auto; lia). exact G.
    + destruct (Z.eqb_spec v 0) as [->|]; exact G.
  - destruct P as [P1 P2]. destruct (Z.eqb_spec (size T) 1); [contradiction|].
    destruct (Z.eqb_spec (size T) wsize); [contradiction|]. destruct (Z.eqb_spec v 0) as [->|]; exact G.
  - destruct P as [P1 P2]. destruct (Z.eqb_spec (size T) 1); [contradiction|].
    destruct (Z.eqb_spec (size T) wsize); [contradiction|]. destruct (Z.eqb_spec v 0) as [->|]; exact G.
Qed.

Local Open Scope nat_scope.

Theorem construct_fill_right m to n b v : lawful T -> cc_able T = true -> (copyable T = true -> plain T wsize) ->
  bits_of T v -> vacant T m to n -> quiet throws to n -> m b = Obj (Some v) -> b < to \/ to + n <= b ->
  exists m', construct_array T wsize dflt left_over throws m to n (AConst b) = Done m' /\
    objects m' to (repeat v n) /\ only m m' to n.
Proof.
  intros L C P Bv V Q B Nb. destruct (copyable T) eqn:Cp.
  - unfold construct_array. destruct (l_t L Cp) as (_ & CC & _). rewrite C, (CC C), Cp. cbn [negb andb].
    exact (fill_right to n Cp (P eq_refl) Bv B).
  - destruct (@var_right T wsize dflt left_over throws m to n b v C V Q B Nb) as (m' & E & O). exists m'. split; [|exact O].
    rewrite <- E. unfold construct_array. rewrite Cp, andb_false_r. reflexivity.
Qed.

Theorem copy_fill_right m to n b v : lawful T -> copies T -> (copyable T = true -> plain T wsize) ->
  bits_of T v -> vacant T m to n -> quiet throws to n -> m b = Obj (Some v) -> b < to \/ to + n <= b ->
  exists m', copy_construct_fill T wsize dflt left_over throws m to b n = Done m' /\
    objects m' to (repeat v n) /\ only m m' to n.
Proof.
  intros L C P Bv V Q B Nb. unfold copy_construct_fill. rewrite (copies_can L C). cbn [negb].
  destruct (copyable T) eqn:Cp; [exact (fill_right to n Cp (P eq_refl) Bv B)|].
  match goal with |- context [back _ ?f m] => destruct (@row_loop f to n m (fun _ => Obj (Some v))) as (m' & E & R & On) end.
  - intros k m1 K H. assert (Sb : m1 b = Obj (Some v)) by (rewrite H by lia; exact B).
    assert (V1 : k_triv T = true \/ m1 (to + k) = Raw) by (apply (vacant_at V K); apply H; lia).
    destruct (cc_real T) eqn:R.
    + unfold construct_one. rewrite Cp, andb_false_r.
      assert (CC : cc_able T = true) by (unfold cc_real in R; destruct (cc_able T); [reflexivity|discriminate]).
      rewrite CC. cbn [negb]. rewrite (new_copy_ok V1 (Q k K) Sb). apply put_step.
    + apply (@construct_assign_ok T dflt left_over throws m1 (to + k) b v); auto; [apply not_real_d; [apply copies_can|]; auto|lia].
  - exists m'. split; [exact E|]. split; [exact (objects_repeat R)|exact On].
Qed.

Theorem assign_fill_right m to n b v : lawful T -> assigns T ->
  (assign_triv T = true -> copyable T = true /\ plain T wsize) ->
  bits_of T v -> living m to n -> quiet throws to n -> m b = Obj (Some v) -> b < to \/ to + n <= b ->
  exists m', copy_assign_fill T wsize dflt left_over throws m to b n = Done m' /\
    objects m' to (repeat v n) /\ only m m' to n.
Proof.
  intros L A P Bv Li Q B Nb. unfold copy_assign_fill. rewrite (assigns_can L A). cbn [negb].
  destruct (assign_triv T) eqn:AT.
  - destruct (P eq_refl) as [Cp Pl]. exact (fill_right to n Cp Pl Bv B).
  - match goal with |- context [back _ ?f m] => destruct (@row_loop f to n m (fun _ => Obj (Some v))) as (m' & E & R & On) end.
    + intros k m1 K H. destruct (Li k K) as [w W].
      apply (@assign_one_ok T dflt left_over throws m1 (to + k) b w v); auto.
      * exact (assigns_can L A).
      * rewrite H by lia. exact W.
      * rewrite H by lia. exact B.
      * right. lia.
    + exists m'. split; [exact E|]. split; [exact (objects_repeat R)|exact On].
Qed.

Theorem small_class m to b n : copyable T = true -> kind T = KClass -> size T = 1%Z \/ size T = wsize ->
  fill T wsize m to b n = Ill.
Proof.
  intros C K S. unfold fill. rewrite C, K. cbn [negb]. destruct (Z.eqb_spec (size T) 1); [reflexivity|].
  destruct S as [S|S]; [contradiction|]. rewrite S, Z.eqb_refl. reflexivity.
Qed.
Theorem small_class_all m to n b : lawful T -> copyable T = true -> cc_able T = true -> ca_able T = true ->
  kind T = KClass -> size T = 1%Z \/ size T = wsize ->
  construct_array T wsize dflt left_over throws m to n (AConst b) = Ill /\
  copy_construct_fill T wsize dflt left_over throws m to b n = Ill /\
  copy_assign_fill T wsize dflt left_over throws m to b n = Ill.
Proof.
  intros L C CC CA K S. destruct (l_t L C) as (KT & C1 & _ & C2 & _).
  unfold construct_array, copy_construct_fill, copy_assign_fill.
  rewrite (copies_can L (or_introl CC)), (assigns_can L (or_introl CA)), CC, (C1 CC), C. cbn [negb andb].
  assert (AT : assign_triv T = true) by (unfold assign_triv, ca_real; rewrite CA, (C2 CA); reflexivity).
  rewrite AT. rewrite !(small_class m to b n C K S). auto.
Qed.
End Fill.

Local Open Scope Z_scope.
(** *** float *)
Lemma floor_pow u k : 0 <= k -> Qfloor (inject_Z u * (2 # 1) ^ (- k))%Q = u / 2 ^ k.
Proof.
  intros K. rewrite Zdiv_Qdiv. apply Qfloor_comp. unfold Qdiv. rewrite Qpower_opp.
  assert (E : ((2 # 1) ^ k == inject_Z (2 ^ k))%Q).
  { change (2 # 1)%Q with (inject_Z 2). symmetry. apply Zpower_Qpower. exact K. }
  rewrite E. reflexivity.
Qed.

Definition f32_floor (q x : Z) : Z := if q =? 0 then x / 2 ^ 149 else (2 ^ 23 + x) * 2 ^ (q - 1) / 2 ^ 149.
Lemma floor32 d : Qfloor (fabs binary32 d) = f32_floor (exp_field binary32 d) (frac_field binary32 d).
Proof.
  unfold fabs, f32_floor. change (tiny binary32) with (Z.opp 149). rewrite floor_pow by lia. unfold units.
  change (fm binary32) with 23. destruct (_ =? 0); reflexivity.
Qed.

Lemma floor_small q x : 0 <= q < 127 -> 0 <= x < 2 ^ 23 -> f32_floor q x = 0.
Proof.
  intros Q X. unfold f32_floor. destruct (Z.eqb_spec q 0).
  - apply Z.div_small. lia.
  - apply Z.div_small. split; [apply Z.mul_nonneg_nonneg; lia|].
    apply Z.lt_le_trans with (2 ^ 24 * 2 ^ (q - 1)).
    + apply Z.mul_lt_mono_pos_r; [apply Z.pow_pos_nonneg; lia|lia].
    + rewrite <- Z.pow_add_r by lia. apply Z.pow_le_mono_r; lia.
Qed.
Lemma floor_bounds q x : 127 <= q -> 0 <= x < 2 ^ 23 -> 2 ^ (q - 127) <= f32_floor q x < 2 ^ (q - 126).
Proof.
  intros Q X. unfold f32_floor. destruct (Z.eqb_spec q 0); [lia|].
  assert (P : 0 < 2 ^ (q - 1)) by (apply Z.pow_pos_nonneg; lia). split.
  - apply Z.div_le_lower_bound; [lia|]. rewrite <- Z.pow_add_r by lia. replace (149 + (q - 127)) with (23 + (q - 1)) by lia.
    rewrite Z.pow_add_r by lia. apply Z.mul_le_mono_nonneg_r; lia.
  - apply Z.div_lt_upper_bound; [lia|]. rewrite <- Z.pow_add_r by lia. replace (149 + (q - 126)) with (24 + (q - 1)) by lia.
    rewrite Z.pow_add_r by lia. apply Z.mul_lt_mono_pos_r; lia.
Qed.
Lemma floor_exact q x : 150 <= q -> f32_floor q x = (2 ^ 23 + x) * 2 ^ (q - 150).
Proof.
  intros Q. unfold f32_floor. destruct (Z.eqb_spec q 0); [lia|].
  replace (q - 1) with (149 + (q - 150)) by lia. rewrite Z.pow_add_r by lia.
  rewrite (Z.mul_comm (2 ^ 149)), Z.mul_assoc. apply Z.div_mul. lia.
Qed.

(** No number but +0 has the bits of its own integer part. *)
Lemma no_fixpoint q x : 0 <= q < 255 -> 0 <= x < 2 ^ 23 ->
  let z := f32_floor q x in let bits := q * 2 ^ 23 + x in
  z < 2 ^ 31 -> bits <> 0 -> z <> bits /\ (z + bits) <> 2 ^ 31.
Proof.
  intros Q X z bits Z0 B. unfold z, bits in *. clear z bits.
  destruct (Z.lt_ge_cases q 127) as [C|C]; [rewrite (floor_small (conj (proj1 Q) C) X) in *; lia|].
  destruct (Z.lt_ge_cases q 156) as [C1|C1].
  - pose proof (floor_bounds C X) as [_ F]. assert (G : 2 ^ (q - 126) <= 2 ^ 29) by (apply Z.pow_le_mono_r; lia). lia.
  - destruct (Z.lt_ge_cases q 158) as [C2|C2].
    + rewrite floor_exact in * by lia. assert (q = 156 \/ q = 157) as [->| ->] by lia; cbn [Z.sub Z.pos_sub] in *; lia.
    + pose proof (floor_bounds C X) as [F _]. assert (G : 2 ^ 31 <= 2 ^ (q - 127)) by (apply Z.pow_le_mono_r; lia). lia.
Qed.

Lemma float_bits_differ v x : 0 < v < 2 ^ 32 -> convert (builtin 4 (KFloat binary32)) 32 v = inr x -> x <> v.
Proof.
  intros V. unfold convert. cbn [kind builtin].
  destruct (Z.eqb_spec (exp_field binary32 v) (2 ^ fe binary32 - 1)) as [|NS]; [discriminate|].
  rewrite floor32. change (all_bits binary32 - 1) with 31. change (fe binary32) with 8 in NS.
  set (q := exp_field binary32 v) in *. set (f := frac_field binary32 v).
  assert (Q : 0 <= q < 256) by (apply Z.mod_pos_bound; reflexivity).
  assert (F : 0 <= f < 2 ^ 23) by (apply Z.mod_pos_bound; reflexivity).
  assert (E : v mod 2 ^ 31 = q * 2 ^ 23 + f).
  { unfold q, f, exp_field, frac_field. change (fm binary32) with 23. change (fe binary32) with 8.
    change (2 ^ 31) with (2 ^ 23 * 2 ^ 8). rewrite Z.rem_mul_r by lia. lia. }
  pose proof (@no_fixpoint q f ltac:(lia) F) as NF. cbv zeta in NF.
  set (z := f32_floor q f) in *.
  assert (Z0 : 0 <= z).
  { unfold z. destruct (Z.lt_ge_cases q 127) as [C|C]; [rewrite floor_small; lia|].
    pose proof (floor_bounds C F) as [G _]. assert (0 < 2 ^ (q - 127)) by (apply Z.pow_pos_nonneg; lia). lia. }
  destruct (Z.leb_spec (2 ^ 31) v) as [C|C].
  - assert (Ev : v mod 2 ^ 31 = v - 2 ^ 31) by (symmetry; apply Z.mod_unique with 1; lia).
    destruct (_ && _) eqn:R; [|discriminate]. intros Hx. assert (Ex : x = (-1 * z) mod 2 ^ 32) by congruence. rewrite Ex. clear Hx Ex. apply andb_true_iff in R. destruct R as [R1 R2].
    apply Z.leb_le in R1. change (32 - 1) with 31 in *.
    destruct (Z.eq_dec z 0) as [z0|z0].
    + rewrite z0. change ((-1 * 0) mod 2 ^ 32) with 0. lia.
    + assert (M : (-1 * z) mod 2 ^ 32 = 2 ^ 32 - z) by (symmetry; apply Z.mod_unique with (-1); lia).
      rewrite M. destruct (Z.eq_dec z (2 ^ 31)) as [Ez|Ez].
      * intros H. assert (H0 : v = 2 ^ 31) by lia. assert (q = 0) by lia. assert (f = 0) by lia.
        revert Ez. unfold z. rewrite floor_small by lia. lia.
      * destruct (Z.eq_dec (q * 2 ^ 23 + f) 0) as [b0|b0].
        -- revert z0. unfold z. rewrite floor_small by lia. lia.
        -- specialize (NF ltac:(lia) b0). lia.
  - assert (Ev : v mod 2 ^ 31 = v) by (apply Z.mod_small; lia).
    destruct (_ && _) eqn:R; [|discriminate]. intros Hx. assert (Ex : x = (1 * z) mod 2 ^ 32) by congruence. rewrite Ex. clear Hx Ex. apply andb_true_iff in R. destruct R as [R1 R2].
    apply Z.ltb_lt in R2. change (32 - 1) with 31 in *. rewrite Z.mul_1_l in *.
    rewrite Z.mod_small by lia. specialize (NF R2 ltac:(lia)). lia.
Qed.

Theorem float_fill m to b n v dflt left_over throws : 0 < v < 2 ^ 32 -> m b = Obj (Some v) -> (0 < n)%nat ->
  let T := builtin 4 (KFloat binary32) in
  wrong_fill (construct_array T 4 dflt left_over throws m to n (AConst b)) to v /\
  wrong_fill (copy_construct_fill T 4 dflt left_over throws m to b n) to v /\
  wrong_fill (copy_assign_fill T 4 dflt left_over throws m to b n) to v.
Proof.
  intros V B N T.
  assert (G : wrong_fill (fill T 4 m to b n) to v).
  { unfold fill, T. cbn [builtin copyable size kind negb Z.eqb Pos.eqb]. unfold read. rewrite B. change (8 * 4) with 32.
    destruct (convert (builtin 4 (KFloat binary32)) 32 v) as [o|x] eqn:E.
    - left. revert E. unfold convert. cbn [kind builtin]. destruct (_ =? _); [intros [= <-]; reflexivity|].
      destruct (_ && _); [discriminate|intros [= <-]; reflexivity].
    - right. destruct (set_all_ok m to n x) as (m' & Em & R & _). exists m', x. split; [exact Em|].
      specialize (R 0%nat N). rewrite Nat.add_0_r in R. split; [exact R|]. exact (float_bits_differ V E). }
  refine (conj _ (conj _ _)).
  - exact G.
  - exact G.
  - exact G.
Qed.
