From Verif Require Import Base Float_Spec Life_Model Life_Spec.
Local Open Scope nat_scope.

Lemma put_same m a s : put m a s a = s.
Proof. unfold put. rewrite Nat.eqb_refl. reflexivity. Qed.
Lemma put_other m a s i : i <> a -> put m a s i = m i.
Proof. intros H. unfold put. destruct (Nat.eqb_spec i a); [contradiction|reflexivity]. Qed.

Lemma in_row to n i : (to <=? i) && (i <? to + n) = true <-> to <= i < to + n.
Proof. rewrite andb_true_iff, Nat.leb_le, Nat.ltb_lt. tauto. Qed.
Lemma out_row to n i : (to <=? i) && (i <? to + n) = false <-> (i < to \/ to + n <= i).
Proof. destruct (Nat.leb_spec to i), (Nat.ltb_spec i (to + n)); cbn; split; intros; try lia; auto; discriminate. Qed.

(** *** The loop *)
Lemma back_inv (P : nat -> mem -> Prop) f : forall n m, P n m ->
  (forall k m1, k < n -> P (S k) m1 -> exists m2, f k m1 = Done m2 /\ P k m2) ->
  exists m', back n f m = Done m' /\ P 0 m'.
Proof.
  induction n as [|n IH]; intros m H St; [exists m; auto|].
  destruct (St n m ltac:(lia) H) as (m2 & E & P2). cbn [back]. rewrite E. cbn [next].
  apply IH; [exact P2|]. intros k m1 K. apply St. lia.
Qed.

(** A loop whose step fills one slot of a row. *)
Lemma row_loop f to n m (vals : nat -> slot) :
  (forall k m1, k < n -> (forall i, i < to + S k \/ to + n <= i -> m1 i = m i) ->
     exists m2, f k m1 = Done m2 /\ m2 (to + k) = vals k /\ forall i, i <> to + k -> m2 i = m1 i) ->
  exists m', back n f m = Done m' /\ (forall k, k < n -> m' (to + k) = vals k) /\ only m m' to n.
Proof.
  intros St.
  destruct (@back_inv (fun j m1 => (forall k, j <= k < n -> m1 (to + k) = vals k) /\
                                   (forall i, i < to + j \/ to + n <= i -> m1 i = m i)) f n m) as (m' & E & V & O).
  - split; [lia|reflexivity].
  - intros k m1 K (V & O). destruct (St k m1 K O) as (m2 & E & W & R). exists m2. split; [exact E|]. split.
    + intros j J. destruct (Nat.eq_dec j k) as [->|N]; [exact W|]. rewrite R by lia. apply V. lia.
    + intros i I. rewrite R by lia. apply O. lia.
  - exists m'. split; [exact E|]. split.
    + intros k K. apply V. lia.
    + intros i I. apply O. lia.
Qed.

(** A loop whose step fills one slot of a row and changes the slot of the same
    number in another. *)
Lemma row_loop2 f to from n m (vals valf : nat -> slot) : apart to n from n ->
  (forall k m1, k < n ->
     (forall i, (i < to + S k \/ to + n <= i) -> (i < from + S k \/ from + n <= i) -> m1 i = m i) ->
     exists m2, f k m1 = Done m2 /\ m2 (to + k) = vals k /\ m2 (from + k) = valf k /\
                forall i, i <> to + k -> i <> from + k -> m2 i = m1 i) ->
  exists m', back n f m = Done m' /\ (forall k, k < n -> m' (to + k) = vals k /\ m' (from + k) = valf k) /\
    forall i, (i < to \/ to + n <= i) -> (i < from \/ from + n <= i) -> m' i = m i.
Proof.
  intros Ap St.
  destruct (@back_inv (fun j m1 => (forall k, j <= k < n -> m1 (to + k) = vals k /\ m1 (from + k) = valf k) /\
      (forall i, (i < to + j \/ to + n <= i) -> (i < from + j \/ from + n <= i) -> m1 i = m i)) f n m) as (m' & E & V & O).
  - split; [lia|reflexivity].
  - intros k m1 K (V & O). destruct (St k m1 K O) as (m2 & E & W & W2 & R). exists m2. split; [exact E|]. split.
    + intros j J. destruct (Nat.eq_dec j k) as [->|N]; [auto|].
      assert (A1 : to + j <> to + k) by lia. assert (A2 : to + j <> from + k) by (unfold apart in Ap; lia).
      assert (A3 : from + j <> to + k) by (unfold apart in Ap; lia). assert (A4 : from + j <> from + k) by lia.
      rewrite (R _ A1 A2), (R _ A3 A4). apply V. lia.
    + intros i I1 I2. assert (A1 : i <> to + k) by lia. assert (A2 : i <> from + k) by lia.
      rewrite (R _ A1 A2). apply O; lia.
  - exists m'. split; [exact E|]. split.
    + intros k K. apply V. lia.
    + intros i I1 I2. apply O; lia.
Qed.

Lemma nth_has {A} (l : list A) k : k < length l -> exists v, nth_error l k = Some v.
Proof. intros H. destruct (nth_error l k) eqn:E; [eauto|]. apply nth_error_None in E. lia. Qed.

Lemma row_values (m : mem) to (l : list Z) :
  (forall k, k < length l -> m (to + k) = match nth_error l k with Some v => Obj (Some v) | None => Raw end) ->
  objects m to l.
Proof.
  intros H k v E. assert (K : k < length l) by (apply nth_error_Some; rewrite E; discriminate).
  rewrite (H k K), E. reflexivity.
Qed.

Lemma objects_living m a l : objects m a l -> living m a (length l).
Proof. intros O k K. destruct (nth_has K) as [v E]. exists (Some v). exact (O k v E). Qed.

Lemma memmove_ok m to from n : exists m', memmove m to from n = Done m' /\
  (forall k, k < n -> m' (to + k) = m (from + k)) /\ only m m' to n.
Proof.
  eexists. split; [reflexivity|]. split.
  - intros k K. rewrite (proj2 (in_row to n (to + k))) by lia. f_equal. lia.
  - intros i I. cbv beta. rewrite (proj2 (out_row to n i) I). reflexivity.
Qed.
Lemma memcpy_ok m to from n : apart to n from n -> exists m', memcpy m to from n = Done m' /\
  (forall k, k < n -> m' (to + k) = m (from + k)) /\ only m m' to n.
Proof.
  intros Ap. unfold memcpy. destruct (Nat.eqb_spec n 0) as [->|N].
  - exists m. split; [reflexivity|]. split; [lia|]. intros i I. reflexivity.
  - assert (E : (to <? from + n) && (from <? to + n) = false).
    { unfold apart in Ap. destruct (Nat.ltb_spec to (from + n)), (Nat.ltb_spec from (to + n)); cbn; lia. }
    rewrite E. apply memmove_ok.
Qed.
Lemma memcpy_overlap m to from n : 0 < n -> ~ apart to n from n -> memcpy m to from n = Ub.
Proof.
  intros N A. unfold memcpy. destruct (Nat.eqb_spec n 0); [lia|].
  assert (E : (to <? from + n) && (from <? to + n) = true).
  { unfold apart in A. apply andb_true_iff. rewrite !Nat.ltb_lt. lia. }
  rewrite E. reflexivity.
Qed.
Lemma moved_row (m m' : mem) to from (l : list Z) : objects m from l ->
  (forall k, k < length l -> m' (to + k) = m (from + k)) -> objects m' to l.
Proof.
  intros O H k v E. assert (K : k < length l) by (apply nth_error_Some; rewrite E; discriminate).
  rewrite (H k K). exact (O k v E).
Qed.

Lemma exist_all_ok m to n : exists m', exist_all m to n = Done m' /\ living m' to n /\ only m m' to n.
Proof.
  eexists. split; [reflexivity|]. split.
  - intros k K. rewrite (proj2 (in_row to n (to + k))) by lia. destruct (m (to + k)); eauto.
  - intros i I. cbv beta. rewrite (proj2 (out_row to n i) I). reflexivity.
Qed.
Lemma set_all_ok m to n v : exists m', set_all m to n v = Done m' /\
  (forall k, k < n -> m' (to + k) = Obj (Some v)) /\ only m m' to n.
Proof.
  eexists. split; [reflexivity|]. split.
  - intros k K. rewrite (proj2 (in_row to n (to + k))) by lia. reflexivity.
  - intros i I. cbv beta. rewrite (proj2 (out_row to n i) I). reflexivity.
Qed.

Lemma objects_repeat m a n v : (forall k, k < n -> m (a + k) = Obj (Some v)) -> objects m a (repeat v n).
Proof.
  intros H k w E. assert (K : k < length (repeat v n)) by (apply nth_error_Some; rewrite E; discriminate).
  rewrite repeat_length in K. rewrite (nth_error_repeat v K) in E. injection E as <-. exact (H k K).
Qed.

Lemma put_step m a s : exists m2, Done (put m a s) = Done m2 /\ m2 a = s /\ forall i, i <> a -> m2 i = m i.
Proof. eexists. split; [reflexivity|]. split; [apply put_same|]. intros i I. apply put_other. exact I. Qed.

Theorem destruct_right T m p n : living m p n ->
  exists m', destruct_array T m p n = Done m' /\ vacant T m' p n /\ only m m' p n.
Proof.
  intros Li. unfold destruct_array. destruct (k_triv T) eqn:KT.
  - exists m. split; [reflexivity|]. split; [left; exact KT|]. intros i I. reflexivity.
  - match goal with |- context [back _ ?f m] => destruct (@row_loop f p n m (fun _ => Raw)) as (m' & E & R & On) end.
    + intros k m1 K H. unfold kill. rewrite H by lia. destruct (Li k K) as [v ->]. apply put_step.
    + exists m'. split; [exact E|]. split; [right; exact R|exact On].
Qed.

Section T.
Variable T : traits.
Variable wsize dflt : Z.
Variable left_over : Z -> Z.
Variable throws : nat -> bool.

Lemma born_ok m a v : k_triv T = true \/ m a = Raw -> born T m a v = Done (put m a (Obj (Some v))).
Proof. unfold born. intros [H|H]; [destruct (m a); [reflexivity|]; rewrite H; reflexivity|rewrite H; reflexivity]. Qed.

Lemma new_copy_ok m a b v : k_triv T = true \/ m a = Raw -> throws a = false -> m b = Obj (Some v) ->
  new_copy T throws m a b = Done (put m a (Obj (Some v))).
Proof. intros V Q R. unfold new_copy, read. rewrite R, Q. exact (born_ok v V). Qed.

Lemma assign_ok m a b w v : m a = Obj w -> throws a = false -> m b = Obj (Some v) ->
  assign throws m a b = Done (put m a (Obj (Some v))).
Proof. intros A Q R. unfold assign, read. rewrite A, R, Q. reflexivity. Qed.

Lemma default_ok m a : lawful T -> d_able T = true -> k_triv T = true \/ m a = Raw -> throws a = false ->
  exists m2 w, construct_one T dflt left_over throws m a ANone = Done m2 /\ m2 a = Obj w /\
               (d_triv T = false -> w = Some dflt) /\ forall i, i <> a -> m2 i = m i.
Proof.
  intros L D V Q. unfold construct_one. rewrite D. cbn [negb]. destruct (d_triv T) eqn:DT.
  - destruct (exist_all_ok m a 1) as (m2 & E & Li & O). destruct (Li 0 ltac:(lia)) as [w W].
    rewrite Nat.add_0_r in W. exists m2, w. split; [exact E|]. split; [exact W|]. split; [discriminate|].
    intros i I. apply O. lia.
  - unfold new_default. rewrite Q, (born_ok dflt V). exists (put m a (Obj (Some dflt))), (Some dflt).
    split; [reflexivity|]. split; [apply put_same|]. split; [reflexivity|]. intros i I. apply put_other. exact I.
Qed.

Lemma construct_assign_ok m a b v : lawful T -> d_able T = true -> k_triv T = true \/ m a = Raw ->
  throws a = false -> m b = Obj (Some v) -> a <> b ->
  exists m2, construct_assign T dflt left_over throws m a b = Done m2 /\ m2 a = Obj (Some v) /\
             forall i, i <> a -> m2 i = m i.
Proof.
  intros L D V Q R N. unfold construct_assign.
  destruct (default_ok L D V Q) as (m1 & w & E & W & _ & O). rewrite E. cbn [next].
  rewrite (@assign_ok m1 a b w v W Q) by (rewrite O by auto; exact R).
  exists (put m1 a (Obj (Some v))). split; [reflexivity|]. split; [apply put_same|].
  intros i I. rewrite put_other by exact I. apply O. exact I.
Qed.

Lemma vacant_at m m1 a n k : vacant T m a n -> k < n -> m1 (a + k) = m (a + k) ->
  k_triv T = true \/ m1 (a + k) = Raw.
Proof. intros [H|H] K E; [auto|right]. rewrite E. exact (H k K). Qed.

Lemma copies_can : lawful T -> copies T -> can_copy T = true.
Proof.
  intros L C. unfold can_copy, cc_real. destruct (cc_able T) eqn:E.
  - destruct (cc_triv T) eqn:F; [reflexivity|]. cbn [orb].
    destruct (d_triv T) eqn:D, (ca_triv T) eqn:A; cbn; try reflexivity.
    rewrite (proj1 (l_d L D)), (l_ca L A). reflexivity.
  - destruct C as [C|[C1 C2]]; [congruence|]. rewrite C1, C2. reflexivity.
Qed.
Lemma not_real_d : can_copy T = true -> cc_real T = false -> d_able T = true.
Proof. unfold can_copy. intros H E. rewrite E in H. apply andb_true_iff in H. exact (proj1 H). Qed.

(** *** Copying *)
Theorem copy_right m to from l : lawful T -> copies T -> objects m from l -> vacant T m to (length l) ->
  apart to (length l) from (length l) -> quiet throws to (length l) ->
  exists m', copy_construct T dflt left_over throws m to from (length l) = Done m' /\
    objects m' to l /\ only m m' to (length l).
Proof.
  intros L C O V Ap Q. unfold copy_construct. rewrite (copies_can L C). cbn [negb].
  destruct (copy_triv T) eqn:CT.
  - destruct (memcpy_ok m Ap) as (m' & E & R & On). exists m'. split; [exact E|]. split; [exact (moved_row O R)|exact On].
  - match goal with |- context [back _ ?f m] => destruct (@row_loop f to (length l) m
      (fun k => match nth_error l k with Some v => Obj (Some v) | None => Raw end)) as (m' & E & R & On) end.
    + intros k m1 K H. destruct (nth_has K) as [v Ev]. rewrite Ev.
      assert (S1 : m1 (from + k) = Obj (Some v)).
      { rewrite H by (unfold apart in Ap; lia). exact (O k v Ev). }
      assert (V1 : k_triv T = true \/ m1 (to + k) = Raw) by (apply (vacant_at V K); apply H; lia).
      destruct (cc_real T) eqn:R.
      * rewrite (new_copy_ok V1 (Q k K) S1). apply put_step.
      * apply construct_assign_ok; auto; [apply not_real_d; [apply copies_can|]; auto|unfold apart in Ap; lia].
    + exists m'. split; [exact E|]. split; [exact (row_values R)|exact On].
Qed.

Lemma moves_can : lawful T -> moves T -> can_move T = true.
Proof.
  intros L M. unfold can_move, mc_real. destruct (mc_able T) eqn:E.
  - destruct (mc_triv T); [reflexivity|]. cbn [orb]. destruct (copy_triv T) eqn:C; cbn [negb]; [|reflexivity].
    unfold copy_triv in C. unfold can_copy. destruct (cc_real T); [reflexivity|].
    apply andb_true_iff in C. destruct C as [C1 C2]. rewrite (proj1 (l_d L C1)), (l_ca L C2). reflexivity.
  - destruct M as [M|M]; [congruence|]. exact (copies_can L M).
Qed.

Lemma copy_can m to from l : lawful T -> can_copy T = true -> objects m from l -> vacant T m to (length l) ->
  apart to (length l) from (length l) -> quiet throws to (length l) ->
  exists m', copy_construct T dflt left_over throws m to from (length l) = Done m' /\
    objects m' to l /\ only m m' to (length l).
Proof.
  intros L C. apply copy_right; [exact L|]. unfold can_copy in C. destruct (cc_real T) eqn:R.
  - left. unfold cc_real in R. destruct (cc_able T); [reflexivity|discriminate].
  - right. apply andb_true_iff in C. exact C.
Qed.

Lemma only_objects m m' to n a l : objects m a l -> only m m' to n -> apart to n a (length l) -> objects m' a l.
Proof.
  intros O On Ap k v E. assert (K : k < length l) by (apply nth_error_Some; rewrite E; discriminate).
  rewrite On by (unfold apart in Ap; lia). exact (O k v E).
Qed.

(** *** Moving *)
Theorem move_construct_right m to from l : lawful T -> moves T -> objects m from l -> vacant T m to (length l) ->
  apart to (length l) from (length l) -> quiet throws to (length l) ->
  exists m', move_construct T dflt left_over throws m to from (length l) = Done m' /\
    objects m' to l /\ living m' from (length l) /\
    forall i, (i < to \/ to + length l <= i) -> (i < from \/ from + length l <= i) -> m' i = m i.
Proof.
  intros L M O V Ap Q. unfold move_construct. rewrite (moves_can L M). cbn [negb].
  destruct (move_triv T) eqn:MT.
  - destruct (memcpy_ok m Ap) as (m' & E & R & On). exists m'. split; [exact E|]. split; [exact (moved_row O R)|].
    split; [|intros i I _; exact (On i I)].
    apply objects_living. exact (only_objects O On Ap).
  - destruct (mc_real T) eqn:R.
    + match goal with |- context [back _ ?f m] => destruct (@row_loop2 f to from (length l) m
        (fun k => match nth_error l k with Some v => Obj (Some v) | None => Raw end)
        (fun k => match nth_error l k with Some v => Obj (Some (if mc_triv T then v else left_over v)) | None => Raw end))
        as (m' & E & W & On) end.
      * exact Ap.
      * intros k m1 K H. destruct (nth_has K) as [v Ev]. rewrite Ev.
        assert (MA : mc_able T = true) by (unfold mc_real in R; destruct (mc_able T); [reflexivity|discriminate]).
        unfold construct_one. rewrite MA. cbn [negb].
        assert (S1 : m1 (from + k) = Obj (Some v)).
        { rewrite H by (unfold apart in Ap; lia). exact (O k v Ev). }
        assert (V1 : k_triv T = true \/ m1 (to + k) = Raw) by (apply (vacant_at V K); apply H; unfold apart in Ap; lia).
        unfold new_move, read. rewrite S1, (Q k K), (born_ok v V1). cbn [next].
        assert (N : to + k <> from + k) by (unfold apart in Ap; lia).
        destruct (mc_triv T).
        -- eexists. split; [reflexivity|]. rewrite put_same, put_other by auto. split; [reflexivity|]. split; [exact S1|].
           intros i I1 I2. apply put_other. exact I1.
        -- eexists. split; [reflexivity|]. rewrite (put_other _ _ N), !put_same. split; [reflexivity|].
           split; [reflexivity|]. intros i I1 I2. rewrite !put_other by auto. reflexivity.
      * exists m'. split; [exact E|]. split; [apply row_values; intros k K; exact (proj1 (W k K))|]. split; [|exact On].
        intros k K. destruct (nth_has K) as [v Ev]. rewrite (proj2 (W k K)), Ev. eauto.
    + assert (C : can_copy T = true).
      { pose proof (moves_can L M) as X. unfold can_move in X. rewrite R in X. exact X. }
      destruct (copy_can L C O V Ap Q) as (m' & E & W & On). exists m'. split; [exact E|]. split; [exact W|].
      split; [|intros i I _; exact (On i I)]. apply objects_living. exact (only_objects O On Ap).
Qed.

Theorem move_right m to from l : lawful T -> moves T -> objects m from l -> vacant T m to (length l) ->
  apart to (length l) from (length l) -> quiet throws to (length l) ->
  exists m', move T dflt left_over throws m to from (length l) = Done m' /\
    objects m' to l /\ vacant T m' from (length l) /\
    forall i, (i < to \/ to + length l <= i) -> (i < from \/ from + length l <= i) -> m' i = m i.
Proof.
  intros L M O V Ap Q. unfold move.
  destruct (move_construct_right L M O V Ap Q) as (m1 & E & O1 & Li & On). rewrite E. cbn [next].
  destruct (destruct_right T Li) as (m2 & E2 & V2 & On2). exists m2. split; [exact E2|]. split; [|split; [exact V2|]].
  - apply (only_objects O1 On2). unfold apart in *. lia.
  - intros i I1 I2. rewrite (On2 i I2). exact (On i I1 I2).
Qed.

(** *** Construction without argument *)
Theorem default_right m to n : lawful T -> d_able T = true -> vacant T m to n -> quiet throws to n ->
  exists m', construct_array T wsize dflt left_over throws m to n ANone = Done m' /\ living m' to n /\ only m m' to n /\
    (d_triv T = false -> objects m' to (repeat dflt n)).
Proof.
  intros L D V Q. unfold construct_array. rewrite D. cbn [negb]. destruct (d_triv T) eqn:DT.
  - destruct (exist_all_ok m to n) as (m' & E & Li & On). exists m'. split; [exact E|]. split; [exact Li|].
    split; [exact On|discriminate].
  - match goal with |- context [back _ ?f m] => destruct (@row_loop f to n m (fun _ => Obj (Some dflt))) as (m' & E & R & On) end.
    + intros k m1 K H. unfold new_default. rewrite (Q k K), born_ok; [apply put_step|].
      apply (vacant_at V K). apply H. lia.
    + exists m'. split; [exact E|]. split; [intros k K; rewrite (R k K); eauto|]. split; [exact On|].
      intros _. exact (objects_repeat R).
Qed.

(** *** Construction from one object *)
Theorem var_right m to n b v : cc_able T = true -> vacant T m to n -> quiet throws to n ->
  m b = Obj (Some v) -> b < to \/ to + n <= b ->
  exists m', construct_array T wsize dflt left_over throws m to n (AVar b) = Done m' /\
    objects m' to (repeat v n) /\ only m m' to n.
Proof.
  intros C V Q B Nb. unfold construct_array. rewrite C. cbn [negb].
  match goal with |- context [back _ ?f m] => destruct (@row_loop f to n m (fun _ => Obj (Some v))) as (m' & E & R & On) end.
  - intros k m1 K H. rewrite (@new_copy_ok m1 (to + k) b v); [apply put_step| |exact (Q k K)|rewrite H by lia; exact B].
    apply (vacant_at V K). apply H. lia.
  - exists m'. split; [exact E|]. split; [exact (objects_repeat R)|exact On].
Qed.

(** A temporary is moved away by the first construction. *)
Theorem moved_argument m to n b v : mc_able T = true -> mc_triv T = false -> vacant T m to n -> quiet throws to n ->
  m b = Obj (Some v) -> b < to \/ to + n <= b ->
  exists m', construct_array T wsize dflt left_over throws m to n (AMove b) = Done m' /\
    forall k, k < n -> m' (to + k) = Obj (Some (Nat.iter (n - 1 - k) left_over v)).
Proof.
  intros C Ct V Q B Nb. unfold construct_array. rewrite C. cbn [negb].
  match goal with |- context [back _ ?f m] => destruct (@back_inv (fun j m1 => m1 b = Obj (Some (Nat.iter (n - j) left_over v)) /\
    (forall k, k < j -> m1 (to + k) = m (to + k)) /\
    (j <= n /\ forall k, j <= k < n -> m1 (to + k) = Obj (Some (Nat.iter (n - 1 - k) left_over v)))) f n m) as (m' & E & _ & _ & _ & R) end.
  - rewrite Nat.sub_diag. split; [exact B|]. split; [reflexivity|]. split; [lia|]. intros; lia.
  - intros k m1 K (B1 & F1 & _ & R1). unfold new_move, read. rewrite B1, (Q k K), born_ok.
    + cbn [next]. rewrite Ct. eexists. split; [reflexivity|]. rewrite put_same. split; [|split; [|split; [lia|]]].
      * replace (n - k) with (S (n - S k)) by lia. reflexivity.
      * intros j J. rewrite !put_other by lia. apply F1. lia.
      * intros j J. rewrite put_other by lia. destruct (Nat.eq_dec j k) as [->|N].
        -- rewrite put_same. replace (n - 1 - k) with (n - S k) by lia. reflexivity.
        -- rewrite put_other by lia. apply R1. lia.
    + apply (vacant_at V K). apply F1. lia.
  - exists m'. split; [exact E|]. intros k K. apply R. lia.
Qed.

(** *** Exceptions *)
Lemma back_threw f n m j m1 :
  (exists m0, f j m0 = Threw m1 /\ back (n - S j) (fun k => f (S j + k)) m = Done m0) -> j < n -> back n f m = Threw m1.
Proof.
  revert m. induction n as [|n IH]; intros m (m0 & E & B) J; [lia|]. cbn [back].
  destruct (Nat.eq_dec j n) as [->|N].
  - rewrite Nat.sub_diag in B. cbn in B. injection B as <-. rewrite E. reflexivity.
  - replace (S n - S j) with (S (n - S j)) in B by lia. cbn [back] in B. replace (S j + (n - S j)) with n in B by lia.
    destruct (f n m) as [m2| | | |] eqn:F; try discriminate. cbn [next] in *. apply IH; [|lia]. exists m0. auto.
Qed.

Theorem throw_leaves m to n b v j : cc_able T = true -> vacant T m to n ->
  m b = Obj (Some v) -> b < to \/ to + n <= b -> j < n -> throws (to + j) = true ->
  (forall k, j < k < n -> throws (to + k) = false) ->
  exists m', construct_array T wsize dflt left_over throws m to n (AVar b) = Threw m' /\
    forall k, k < n -> m' (to + k) = if j <? k then Obj (Some v) else m (to + k).
Proof.
  intros C V B Nb J Th Q. unfold construct_array. rewrite C. cbn [negb].
  destruct (@row_loop (fun k m1 => new_copy T throws m1 (to + (S j + k)) b) (to + S j) (n - S j) m (fun _ => Obj (Some v)))
    as (m0 & E & R & On).
  - intros k m1 K H. replace (to + S j + k) with (to + (S j + k)) in * by lia.
    rewrite (@new_copy_ok m1 (to + (S j + k)) b v); [apply put_step| |apply Q; lia|rewrite H by lia; exact B].
    apply (@vacant_at m m1 to n (S j + k) V); [lia|]. apply H. lia.
  - exists m0. split.
    + apply (@back_threw _ n m j m0); [|exact J]. exists m0. split; [|exact E]. cbv beta.
      unfold new_copy, read. rewrite (On b) by lia. rewrite B, Th. reflexivity.
    + intros k K. destruct (Nat.ltb_spec j k) as [G|G].
      * specialize (R (k - S j) ltac:(lia)). replace (to + S j + (k - S j)) with (to + k) in R by lia. exact R.
      * apply On. lia.
Qed.

(** *** Assignment *)
Lemma assigns_can : lawful T -> assigns T -> can_assign T = true.
Proof.
  intros L A. unfold can_assign, ca_real. destruct (ca_able T) eqn:E.
  - destruct (ca_triv T); [reflexivity|]. cbn [orb]. destruct (cc_triv T) eqn:C, (k_triv T); cbn; try reflexivity.
    exact (proj1 (l_cc L C)).
  - destruct A as [A|A]; [congruence|exact A].
Qed.

Lemma assign_one_ok m a b w v : lawful T -> can_assign T = true -> assign_triv T = false ->
  m a = Obj w -> throws a = false -> m b = Obj (Some v) -> (ca_real T = true \/ a <> b) ->
  exists m2, copy_assign_one T dflt left_over throws m a b = Done m2 /\ m2 a = Obj (Some v) /\ forall i, i <> a -> m2 i = m i.
Proof.
  intros L C AT A Q B N. unfold copy_assign_one. destruct (ca_real T) eqn:R.
  - rewrite (assign_ok A Q B). apply put_step.
  - destruct N as [N|N]; [discriminate|]. unfold can_assign in C. rewrite R in C. unfold assign_triv in AT. rewrite R in AT.
    assert (NT : cc_triv T && copyable T = false).
    { destruct (cc_triv T) eqn:CT; [|reflexivity]. cbn in AT. rewrite (proj2 (l_cc L CT)) in AT. discriminate. }
    unfold destruct_one, construct_one. rewrite C, NT. cbn [negb]. destruct (k_triv T) eqn:K.
    + cbn [next]. rewrite (@new_copy_ok m a b v (or_introl K) Q B). apply put_step.
    + unfold kill. rewrite A. cbn [next].
      assert (Bv : put m a Raw b = Obj (Some v)) by (rewrite put_other by auto; exact B).
      rewrite (@new_copy_ok _ a b v (or_intror (put_same m a Raw)) Q Bv).
      eexists. split; [reflexivity|]. rewrite put_same. split; [reflexivity|]. intros i I. rewrite !put_other by exact I. reflexivity.
Qed.

Theorem assign_right m to from l : lawful T -> assigns T -> objects m from l -> living m to (length l) ->
  quiet throws to (length l) ->
  (apart to (length l) from (length l) \/ assign_triv T = false /\ from < to) ->
  exists m', copy_assign T dflt left_over throws m to from (length l) = Done m' /\
    objects m' to l /\ only m m' to (length l).
Proof.
  intros L A O Li Q Ap. unfold copy_assign. rewrite (assigns_can L A). cbn [negb].
  destruct (assign_triv T) eqn:AT.
  - destruct Ap as [Ap|[Ap _]]; [|discriminate].
    destruct (memcpy_ok m Ap) as (m' & E & R & On). exists m'. split; [exact E|]. split; [exact (moved_row O R)|exact On].
  - match goal with |- context [back _ ?f m] => destruct (@row_loop f to (length l) m
      (fun k => match nth_error l k with Some v => Obj (Some v) | None => Raw end)) as (m' & E & R & On) end.
    + intros k m1 K H. destruct (nth_has K) as [v Ev]. rewrite Ev. destruct (Li k K) as [w W].
      apply (@assign_one_ok m1 (to + k) (from + k) w v); auto.
      * exact (assigns_can L A).
      * rewrite H by lia. exact W.
      * rewrite H by (unfold apart in Ap; lia). exact (O k v Ev).
      * right. unfold apart in Ap. lia.
    + exists m'. split; [exact E|]. split; [exact (row_values R)|exact On].
Qed.

Theorem assign_overlap m to from n : can_assign T = true -> assign_triv T = true -> 0 < n -> ~ apart to n from n ->
  copy_assign T dflt left_over throws m to from n = Ub.
Proof. intros C AT N A. unfold copy_assign. rewrite C, AT. cbn [negb]. exact (memcpy_overlap m N A). Qed.

(** Downwards, elements are overwritten before they are read. *)
Theorem assign_down m to s l : lawful T -> assigns T -> assign_triv T = false -> 0 < s ->
  objects m (to + s) l -> living m to (length l) -> quiet throws to (length l) ->
  exists m', copy_assign T dflt left_over throws m to (to + s) (length l) = Done m' /\
    forall k, k < length l ->
      exists v, nth_error l (k + s * ((length l - 1 - k) / s)) = Some v /\ m' (to + k) = Obj (Some v).
Proof.
  intros L A AT S0 O Li Q. unfold copy_assign. rewrite (assigns_can L A), AT. cbn [negb].
  set (n := length l) in *.
  match goal with |- context [back _ ?f m] => destruct (@back_inv (fun j m1 => j <= n /\
    (forall i, i < to + j \/ to + n <= i -> m1 i = m i) /\
    (forall k, j <= k < n -> exists v, nth_error l (k + s * ((n - 1 - k) / s)) = Some v /\ m1 (to + k) = Obj (Some v)))
    f n m) as (m' & E & _ & _ & R) end.
  - split; [lia|]. split; [reflexivity|lia].
  - intros k m1 K (_ & H & R).
    assert (Sv : exists v, nth_error l (k + s * ((n - 1 - k) / s)) = Some v /\ m1 (to + s + k) = Obj (Some v)).
    { destruct (Nat.lt_ge_cases (k + s) n) as [G|G].
      - destruct (R (k + s) ltac:(lia)) as (v & Ev & M). exists v. replace (to + s + k) with (to + (k + s)) by lia.
        split; [|exact M]. rewrite <- Ev. f_equal.
        replace (n - 1 - k) with ((n - 1 - (k + s)) + 1 * s) by lia. rewrite Nat.div_add by lia. lia.
      - rewrite (Nat.div_small (n - 1 - k) s) by lia. rewrite Nat.mul_0_r, Nat.add_0_r.
        destruct (@nth_has _ l k K) as [v Ev]. exists v. split; [exact Ev|]. rewrite H by lia. exact (O k v Ev). }
    destruct Sv as (v & Ev & Sv). destruct (Li k K) as [w W].
    destruct (@assign_one_ok m1 (to + k) (to + s + k) w v) as (m2 & E & M & F); auto.
    + exact (assigns_can L A).
    + rewrite H by lia. exact W.
    + right. lia.
    + exists m2. split; [exact E|]. split; [lia|]. split.
      * intros i I. rewrite F by lia. apply H. lia.
      * intros j J. destruct (Nat.eq_dec j k) as [->|N]; [exists v; auto|].
        rewrite F by lia. apply R. lia.
  - exists m'. split; [exact E|]. intros k K. apply R. lia.
Qed.

Theorem self_assign m a v : ca_able T = false -> cc_able T = true -> cc_triv T && copyable T = false ->
  k_triv T = false -> m a = Obj (Some v) ->
  copy_assign_one T dflt left_over throws m a a = Ub.
Proof.
  intros C D N K A. unfold copy_assign_one, ca_real. rewrite C. unfold destruct_one. rewrite K. unfold kill. rewrite A. cbn [next].
  unfold construct_one. rewrite D, N. cbn [negb]. unfold new_copy, read. rewrite put_same. reflexivity.
Qed.

Theorem assign_one_right m a b w v : lawful T -> assigns T -> m a = Obj w -> m b = Obj (Some v) -> throws a = false ->
  a <> b -> (ca_able T = true \/ copyable T = false) ->
  exists m', copy_assign_one T dflt left_over throws m a b = Done m' /\ m' a = Obj (Some v) /\ forall i, i <> a -> m' i = m i.
Proof.
  intros L As A B Q N X. destruct (assign_triv T) eqn:AT.
  - unfold copy_assign_one. destruct (ca_real T) eqn:R.
    + rewrite (assign_ok A Q B). apply put_step.
    + unfold assign_triv in AT. rewrite R in AT. apply andb_true_iff in AT. destruct AT as [CT KT].
      unfold destruct_one. rewrite KT. cbn [next]. unfold construct_one. rewrite (proj1 (l_cc L CT)), CT. cbn [negb andb].
      destruct (copyable T) eqn:Cp.
      * destruct X as [X|X]; [|discriminate]. unfold fill_one. rewrite Cp, X. cbn [negb orb]. unfold read. rewrite B.
        destruct (set_all_ok m a 1 v) as (m' & E & V & On). exists m'. split; [exact E|]. split.
        -- specialize (V 0 ltac:(lia)). rewrite Nat.add_0_r in V. exact V.
        -- intros i I. apply On. lia.
      * rewrite (@new_copy_ok m a b v (or_introl KT) Q B). apply put_step.
  - exact (assign_one_ok L (assigns_can L As) AT A Q B (or_intror N)).
Qed.

Theorem move_assign_one_right m a b w v : lawful T -> ma_able T = true -> m a = Obj w -> m b = Obj (Some v) -> throws a = false ->
  a <> b ->
  exists m', move_assign_one T dflt left_over throws m a b = Done m' /\ m' a = Obj (Some v) /\
    (exists u, m' b = Obj (Some u)) /\ forall i, i <> a -> i <> b -> m' i = m i.
Proof.
  intros L M A B Q N. unfold move_assign_one, can_move_assign. rewrite M. cbn [negb].
  unfold assign_move, read. rewrite A, B, Q. destruct (ma_triv T).
  - eexists. split; [reflexivity|]. rewrite put_same, put_other by auto. split; [reflexivity|]. split; [eauto|].
    intros i I _. apply put_other. exact I.
  - eexists. split; [reflexivity|]. rewrite (put_other _ _ N), !put_same. split; [reflexivity|]. split; [eauto|].
    intros i I1 I2. rewrite !put_other by auto. reflexivity.
Qed.

Theorem overlap_right m to from l : can_move_assign T = true -> move_assign_triv T = true -> objects m from l ->
  exists m', move_assign_overlap T m to from (length l) = Done m' /\ objects m' to l /\ only m m' to (length l).
Proof.
  intros C M O. unfold move_assign_overlap. rewrite C, M. cbn [negb].
  destruct (memmove_ok m to from (length l)) as (m' & E & R & On). exists m'. split; [exact E|].
  split; [exact (moved_row O R)|exact On].
Qed.
Theorem move_assign_refused m to from n : move_assign_triv T = false ->
  move_assign T m to from n = Ill /\ move_assign_overlap T m to from n = Ill.
Proof. intros M. unfold move_assign, move_assign_overlap. rewrite M. destruct (can_move_assign T); split; reflexivity. Qed.

(** *** Building anew *)
Theorem rebuild_right m to n b v : lawful T -> cc_able T = true -> living m to n -> quiet throws to n ->
  m b = Obj (Some v) -> b < to \/ to + n <= b ->
  exists m', re_construct T wsize dflt left_over throws m to n (AVar b) = Done m' /\
    objects m' to (repeat v n) /\ only m m' to n.
Proof.
  intros L C Li Q B Nb. unfold re_construct. destruct (destruct_right T Li) as (m1 & E & V & On). rewrite E. cbn [next].
  destruct (@var_right m1 to n b v C V Q) as (m2 & E2 & O2 & On2); [rewrite On by exact Nb; exact B|exact Nb|].
  exists m2. split; [exact E2|]. split; [exact O2|]. intros i I. rewrite On2, On by exact I. reflexivity.
Qed.

Theorem rebuild_alias m to n k : k_triv T = false -> cc_able T = true -> cc_triv T = false -> living m to n -> k < n ->
  re_construct T wsize dflt left_over throws m to n (AVar (to + k)) = Ub /\
  re_construct T wsize dflt left_over throws m to n (AConst (to + k)) = Ub.
Proof.
  intros KT C CT Li K. unfold re_construct. destruct (destruct_right T Li) as (m1 & E & [V|V] & On); [congruence|].
  rewrite E. cbn [next]. unfold construct_array. rewrite C, CT. cbn [negb andb].
  destruct n as [|n]; [lia|]. cbn [back]. unfold new_copy, read. rewrite (V k K). split; reflexivity.
Qed.

(** One object from another one. *)
Theorem construct_one_right m to b v x : lawful T -> cc_able T = true -> (x = AConst b \/ x = AVar b) ->
  (copyable T = true -> ca_able T = true \/ x = AVar b) -> vacant T m to 1 -> throws to = false -> m b = Obj (Some v) ->
  exists m', construct_one T dflt left_over throws m to x = Done m' /\ m' to = Obj (Some v) /\ forall i, i <> to -> m' i = m i.
Proof.
  intros Lw C X A V Q R.
  assert (V' : k_triv T = true \/ m to = Raw).
  { destruct V as [V|V]; [auto|right]. specialize (V 0 ltac:(lia)). rewrite Nat.add_0_r in V. exact V. }
  assert (N : exists m', new_copy T throws m to b = Done m' /\ m' to = Obj (Some v) /\ forall i, i <> to -> m' i = m i).
  { rewrite (new_copy_ok V' Q R). eexists. split; [reflexivity|]. unfold put. split; [now rewrite Nat.eqb_refl|].
    intros i Hi. destruct (Nat.eqb_spec i to); [contradiction|reflexivity]. }
  destruct X as [->| ->]; cbn [construct_one]; rewrite C; cbn [negb]; [|exact N].
  destruct (cc_triv T && copyable T) eqn:E; [|exact N]. apply andb_true_iff in E. destruct E as [_ E].
  destruct (A E) as [A'|A']; [|discriminate]. unfold fill_one, read. rewrite E, A', R. cbn [negb orb].
  destruct (set_all_ok m to 1 v) as (m' & E1 & E2 & E3). exists m'. split; [exact E1|]. split.
  - specialize (E2 0 ltac:(lia)). rewrite Nat.add_0_r in E2. exact E2.
  - intros i Hi. apply E3. lia.
Qed.
Theorem construct_one_ill m to b : lawful T -> cc_able T = true -> copyable T = true -> ca_able T = false ->
  construct_one T dflt left_over throws m to (AConst b) = Ill.
Proof.
  intros Lw C K A. destruct (l_t Lw K) as (_ & CT & _). cbn [construct_one]. rewrite C, (CT C), K. cbn [negb andb].
  unfold fill_one. rewrite K, A. reflexivity.
Qed.
End T.
