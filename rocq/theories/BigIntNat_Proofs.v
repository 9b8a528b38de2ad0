(** Proofs about subtracting native integers from big integers in place. *)
From Verif Require Import Base UBig_Model UBig_Spec UBig_Basics UBig_AddSub UBig_Shift UBig_Native Math_Model Bits_Model BigInt_Model BigInt_Proofs BigIntNat_Model.
Local Open Scope Z_scope.

Section P.
Variable w : Z.
Hypothesis Hw : 0 < w.
Notation B := (base w).

(** The result of the two steps after the sum. *)
Lemma native_steps nd a m t : canon B m -> 0 <= t < B ^ Z.of_nat nd ->
  exists x, obind (of_uint w nd t) (fun u => match cmp_native w nd m t with
    | Lt => obind (usub w u m) (fun r => obind (of_uint w nd (convert_to w (B ^ Z.of_nat nd) r)) (fun n => Some (Bi (negb (neg a)) n)))
    | _ => obind (usub w m u) (fun r => Some (Bi (neg a) r)) end) = Some x /\
  ((cmp_native w nd m t = Lt /\ neg x = negb (neg a) /\ val B (mag x) = Z.max 0 (t - val B m)) \/
   (cmp_native w nd m t <> Lt /\ neg x = neg a /\ val B (mag x) = Z.max 0 (val B m - t))).
Proof.
  intros Cm T. destruct (of_uint_spec Hw T) as (u & Eu & Cu & Vu). rewrite Eu. cbn [obind].
  destruct (cmp_native w nd m t) eqn:E.
  - destruct (usub_spec Hw Cm Cu) as (r & Er & Cr & Vr). rewrite Er. cbn [obind]. eexists. split; [reflexivity|]. right. cbn [neg mag].
    split; [discriminate|]. split; [reflexivity|]. now rewrite Vr, Vu.
  - destruct (usub_spec Hw Cu Cm) as (r & Er & Cr & Vr). rewrite Er. cbn [obind].
    pose proof (val_ge0 Hw Cm) as Pm.
    rewrite convert_to_spec by lia. rewrite Z.mod_small by (rewrite Vr, Vu; lia).
    assert (T' : 0 <= val B r < B ^ Z.of_nat nd) by (rewrite Vr, Vu; lia).
    destruct (of_uint_spec Hw T') as (n & En & Cn & Vn). rewrite En. cbn [obind]. eexists. split; [reflexivity|]. left. cbn [neg mag].
    split; [reflexivity|]. split; [reflexivity|]. now rewrite Vn, Vr, Vu.
  - destruct (usub_spec Hw Cm Cu) as (r & Er & Cr & Vr). rewrite Er. cbn [obind]. eexists. split; [reflexivity|]. right. cbn [neg mag].
    split; [discriminate|]. split; [reflexivity|]. now rewrite Vr, Vu.
Qed.

Lemma native_sub_wrong nd a s t : icanon B a -> inorm a -> 0 < t < B ^ Z.of_nat nd -> t + B <= B ^ Z.of_nat (Nat.max nd 2) ->
  exists x, isub_assign_native w nd a s t = Some x /\
    (ival B x = ival B a - (if s then - t else t) -> ival B a = (if s then - t else t)).
Proof.
  intros Ca Na T T2. unfold isub_assign_native. assert (T0 : 0 <= t < B ^ Z.of_nat nd) by lia.
  pose proof (val_ge0 Hw Ca) as Pa.
  destruct (Bool.eqb_spec (neg a) s) as [<-|N].
  - assert (D : denotes B (addT w (Nat.max nd 2) (mag a) t) (val B (mag a) + t)) by (apply addT_spec; auto; lia).
    destruct D as (m & Em & Cm & Vm). rewrite Em. cbn [obind].
    destruct (@native_steps nd a m t Cm T0) as (x & Ex & [(C & Nx & Vx)|(C & Nx & Vx)]); exists x; (split; [exact Ex|]);
      unfold ival; rewrite Nx, Vx, Vm; destruct (neg a); cbn [negb]; lia.
  - cbn [obind]. destruct (@native_steps nd a (mag a) t Ca T0) as (x & Ex & [(C & Nx & Vx)|(C & Nx & Vx)]); exists x; (split; [exact Ex|]);
      unfold ival; rewrite Nx, Vx; destruct (neg a), s; try congruence; cbn [negb]; lia.
Qed.
Lemma native_sub_zero nd a : icanon B a -> neg a = false -> (length (mag a) < nd)%nat ->
  exists x, isub_assign_native w nd a false 0 = Some x /\ ival B x = 0.
Proof.
  intros Ca Na L. unfold isub_assign_native. rewrite Na. cbn [Bool.eqb].
  pose proof (val_ge0 Hw Ca) as Pa. assert (PB : 0 < B) by (apply Z.pow_pos_nonneg; lia).
  assert (P : 0 < B ^ Z.of_nat nd) by (apply Z.pow_pos_nonneg; lia).
  assert (A : addT w (Nat.max nd 2) (mag a) 0 = Some (mag a)).
  { unfold addT. destruct (mag a) as [|y l]; reflexivity. }
  rewrite A. cbn [obind]. assert (T0 : 0 <= 0 < B ^ Z.of_nat nd) by lia.
  destruct (@native_steps nd a (mag a) 0 Ca T0) as (x & Ex & [(C & Nx & Vx)|(C & Nx & Vx)]).
  - exists x. rewrite Na in Ex. split; [exact Ex|]. unfold ival. rewrite Nx, Na, Vx. cbn [negb]. lia.
  - exfalso. apply C. unfold cmp_native. now rewrite (proj2 (Nat.compare_lt_iff _ _) L).
Qed.
End P.
