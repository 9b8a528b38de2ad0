(** The greatest common divisor of big integers of any size. *)
From Verif Require Import Base UBig_Model UBig_Spec UBig_Basics UBig_AddSub UBig_Mul UBig_Kara UBig_Bits
  UBig_Div UBigDiv_Model UBigDiv_Proofs UBigDiv_Ops Math_Model Math_Gcd Lehmer_Model.
Local Open Scope Z_scope.

Lemma ugcd_loop_mono w f : forall f' x y s g, (f <= f')%nat -> ugcd_loop w f x y s = Some g -> ugcd_loop w f' x y s = Some g.
Proof.
  induction f as [|f IH]; intros f' x y s g L H; [discriminate|]. destruct f' as [|f']; [lia|].
  cbn [ugcd_loop] in *. destruct (unot y); [exact H|]. cbv zeta in *.
  destruct (match ucompare _ _ with Lt => _ | _ => _ end) as [x2 y2]. destruct (usub w x2 y2) as [x3|]; [|discriminate].
  cbn [obind] in *. apply IH; [lia|exact H].
Qed.
Lemma dbind_out {A C} (m : dres A) (k : A -> dres C) : m <> DOut -> (forall x, m = DOk x -> k x <> DOut) -> dbind m k <> DOut.
Proof. intros H K. destruct m; cbn [dbind]; auto; congruence. Qed.
Lemma lift_out {A} (o : option A) : lift o <> DOut.
Proof. destruct o; discriminate. Qed.

Section Lehmer.
Variable w : Z.
Hypothesis Hw : 0 < w.
Variable ediv : nat -> nat.
Hypothesis Hed : forall n, (21 <= n)%nat -> (1 <= ediv n < n)%nat.
Notation B := (base w).
Notation val := (val B).
Notation canon := (canon B).
Let HB : 2 <= B := base_ge2 Hw.

Lemma canon_one : canon [1].
Proof. split; [repeat constructor; lia|cbn; lia]. Qed.
Lemma val_one : val [1] = 1.
Proof. change (1 + B * 0 = 1). lia. Qed.
Lemma umul_nil q : canon q -> umul w q [] = Some [].
Proof.
  intros Q. destruct (umul_small Hw Q (canon_nil B)) as (r & E & C & V); [cbn [length]; lia|].
  rewrite E. f_equal. apply (canon_zero HB C). rewrite V. change (val []) with 0. lia.
Qed.
Lemma nil_umul q : canon q -> umul w [] q = Some [].
Proof.
  intros Q. destruct (umul_small Hw (canon_nil B) Q) as (r & E & C & V); [cbn [length]; lia|].
  rewrite E. f_equal. apply (canon_zero HB C). rewrite V. change (val []) with 0. lia.
Qed.
Lemma one_umul q : canon q -> umul w [1] q = Some q.
Proof.
  intros Q. destruct (umul_small Hw canon_one Q) as (r & E & C & V); [cbn [length]; lia|].
  rewrite E. f_equal. apply (canon_unique HB C Q). rewrite V, val_one. lia.
Qed.
Lemma umul_one q : canon q -> umul w q [1] = Some q.
Proof.
  intros Q. destruct (umul_small Hw Q canon_one) as (r & E & C & V); [cbn [length]; lia|].
  rewrite E. f_equal. apply (canon_unique HB C Q). rewrite V, val_one. lia.
Qed.
Lemma usub_nil q : canon q -> usub w q [] = Some q.
Proof.
  intros Q. destruct (usub_spec Hw Q (canon_nil B)) as (r & E & C & V). rewrite E. f_equal.
  apply (canon_unique HB C Q). rewrite V. pose proof (val_nonneg HB (canon_ok Q)). change (val []) with 0. lia.
Qed.
Lemma nil_usub q : canon q -> usub w [] q = Some [].
Proof.
  intros Q. destruct (usub_spec Hw (canon_nil B) Q) as (r & E & C & V). rewrite E. f_equal.
  apply (canon_zero HB C). rewrite V. pose proof (val_nonneg HB (canon_ok Q)). change (val []) with 0. lia.
Qed.
Lemma add_to_nil q : add_to_base w q [] = Some q.
Proof. destruct q; reflexivity. Qed.
Lemma nil_add_to q : add_to_base w [] q = Some q.
Proof. destruct q; reflexivity. Qed.
Lemma fdiv_canon lf fuel a b q : canon a -> canon b -> fdiv w ediv lf fuel a b = DOk q -> canon q.
Proof.
  intros A C H. destruct b as [|y b]; [cbn in H; injection H as <-; apply canon_nil|].
  apply (fdiv_sound Hw Hed A C) in H; [apply H|congruence].
Qed.
Lemma top_canon x m : canon x -> canon (top_digits x m).
Proof. intros C. unfold top_digits. destruct (_ <=? _); [apply canon_nil|apply canon_skipn; exact C]. Qed.
Lemma unot_nil x : canon x -> unot x = true -> x = [].
Proof. intros C H. unfold unot in H. rewrite (shrink_id HB C) in H. now destruct x. Qed.
Lemma unot_false x : canon x -> unot x = false -> x <> [].
Proof. intros C H ->. discriminate. Qed.

Notation I4 := (([1], @nil Z), (@nil Z, [1])).
Notation J4 := ((@nil Z, [1]), ([1], @nil Z)).
(** The inner loop leaves the identity or the exchange. *)
Lemma inner_J lf fuel n a b M : canon a -> canon b -> inner w ediv lf fuel n [] [1] [1] [] a b = DOk M -> M = I4 \/ M = J4.
Proof.
  intros A C H. destruct n as [|n]; [discriminate|]. cbn [inner] in H.
  destruct (add_base_spec Hw A (canon_nil B)) as (aA & E1 & C1 & _). rewrite E1 in H. cbn [lift dbind] in H.
  destruct (add_base_spec Hw C canon_one) as (bC & E2 & C2 & _). rewrite E2 in H. cbn [lift dbind] in H.
  destruct (fdiv w ediv lf fuel aA bC) as [q| |] eqn:Q; [|discriminate H..]. cbn [dbind] in H.
  pose proof (fdiv_canon C1 C2 Q) as CQ.
  destruct (add_base_spec Hw A canon_one) as (aB & E3 & C3 & _). rewrite E3 in H. cbn [lift dbind] in H.
  destruct (add_base_spec Hw C (canon_nil B)) as (bD & E4 & C4 & _). rewrite E4 in H. cbn [lift dbind] in H.
  destruct (fdiv w ediv lf fuel aB bD) as [q2| |]; [|discriminate H..]. cbn [dbind] in H.
  destruct (negb (eq_digits q q2)); [injection H as <-; now right|].
  rewrite (umul_one CQ) in H. cbn [lift dbind] in H. rewrite (nil_usub CQ) in H. cbn [lift dbind] in H.
  rewrite (umul_nil CQ) in H. cbn [lift dbind] in H. rewrite (usub_nil canon_one) in H. cbn [lift dbind] in H.
  destruct (umul w q b) as [qb|]; [|discriminate H]. cbn [lift dbind] in H.
  destruct (usub w a qb) as [a'|]; [|discriminate H]. cbn [lift dbind] in H.
  change (unot []) with true in H. cbn iota in H. injection H as <-. now left.
Qed.
Lemma inner_I lf fuel n a b M : canon a -> canon b -> inner w ediv lf fuel n [1] [] [] [1] a b = DOk M -> M = I4 \/ M = J4.
Proof.
  intros A C H. destruct n as [|n]; [discriminate|]. cbn [inner] in H.
  destruct (add_base_spec Hw A canon_one) as (aA & E1 & C1 & _). rewrite E1 in H. cbn [lift dbind] in H.
  destruct (add_base_spec Hw C (canon_nil B)) as (bC & E2 & C2 & _). rewrite E2 in H. cbn [lift dbind] in H.
  destruct (fdiv w ediv lf fuel aA bC) as [q| |] eqn:Q; [|discriminate H..]. cbn [dbind] in H.
  pose proof (fdiv_canon C1 C2 Q) as CQ.
  destruct (add_base_spec Hw A (canon_nil B)) as (aB & E3 & C3 & _). rewrite E3 in H. cbn [lift dbind] in H.
  destruct (add_base_spec Hw C canon_one) as (bD & E4 & C4 & _). rewrite E4 in H. cbn [lift dbind] in H.
  destruct (fdiv w ediv lf fuel aB bD) as [q2| |]; [|discriminate H..]. cbn [dbind] in H.
  destruct (negb (eq_digits q q2)); [injection H as <-; now left|].
  rewrite (umul_nil CQ) in H. cbn [lift dbind] in H. rewrite (usub_nil canon_one) in H. cbn [lift dbind] in H.
  rewrite (umul_one CQ) in H. cbn [lift dbind] in H. rewrite (nil_usub CQ) in H. cbn [lift dbind] in H.
  destruct (umul w q b) as [qb|] eqn:U; [|discriminate H]. cbn [lift dbind] in H.
  apply (umul_sound Hw CQ C) in U. destruct U as [CU _].
  destruct (usub_spec Hw A CU) as (a' & S & CA & _). rewrite S in H. cbn [lift dbind] in H.
  change (unot [1]) with false in H. cbn iota in H. apply (inner_J C CA H).
Qed.

(** One round of the outer loop. *)
Definition round_ends (lf fuel n : nat) (m : Z) (x y : list Z) : dres (list Z * list Z) :=
  let m' := (m - 1) mod 2 ^ 64 in
  dbind (inner w ediv lf fuel n [1] [] [] [1] (top_digits x m') (top_digits y m')) (fun M =>
  if unot (snd (fst M)) then dbind (fmod w ediv lf fuel x y) (fun r => DOk (y, r)) else DOk (y, x)).
Lemma outer_S lf fuel n m x y : canon x -> canon y ->
  outer w ediv lf fuel (S n) m x y =
  if unot x || unot y then DOk x
  else dbind (round_ends lf fuel (S n) m x y) (fun p => outer w ediv lf fuel n ((m - 1) mod 2 ^ 64) (fst p) (snd p)).
Proof.
  intros X Y. cbn [outer]. destruct (unot x || unot y); [reflexivity|]. unfold round_ends. cbv zeta.
  destruct (inner w ediv lf fuel (S n) [1] [] [] [1] (top_digits x ((m - 1) mod 2 ^ 64))
    (top_digits y ((m - 1) mod 2 ^ 64))) as [M| |] eqn:E; [|reflexivity..]. cbn [dbind].
  destruct (inner_I (top_canon _ X) (top_canon _ Y) E) as [-> | ->]; cbn [fst snd].
  - change (unot []) with true. cbn iota. destruct (fmod w ediv lf fuel x y); reflexivity.
  - change (unot [1]) with false. cbn iota.
    rewrite (nil_umul X), (one_umul Y), (one_umul X), (nil_umul Y). cbn [lift dbind].
    rewrite nil_add_to, add_to_nil. reflexivity.
Qed.
Lemma round_sound lf fuel n m x y x' y' : canon x -> canon y -> x <> [] -> y <> [] ->
  round_ends lf fuel n m x y = DOk (x', y') ->
  x' = y /\ canon y' /\ (y' = x \/ (val y' = val x mod val y /\ fmod w ediv lf fuel x y = DOk y')).
Proof.
  intros X Y NX NY H. unfold round_ends in H. cbv zeta in H.
  apply dbind_ok in H. destruct H as (M & _ & H). destruct (unot (snd (fst M))).
  - apply dbind_ok in H. destruct H as (r & E & H). injection H as <- <-.
    destruct (fmod_sound Hw Hed X Y NY E) as [C V]. auto.
  - injection H as <- <-. auto.
Qed.

(** ** Every result is right. *)
Lemma outer_sound lf fuel n : forall m x y g, canon x -> canon y -> x <> [] ->
  outer w ediv lf fuel n m x y = DOk g -> canon g /\ val g = Z.gcd (val x) (val y).
Proof.
  induction n as [|n IH]; intros m x y g X Y NX H; [discriminate|]. rewrite (outer_S lf fuel n m X Y) in H.
  destruct (unot x) eqn:UX; [now destruct NX; apply unot_nil|]. cbn [orb] in H.
  destruct (unot y) eqn:UY.
  - injection H as <-. rewrite (unot_nil Y UY). split; [exact X|]. change (val []) with 0.
    rewrite Z.gcd_0_r, Z.abs_eq; [reflexivity|]. apply (val_nonneg HB (canon_ok X)).
  - pose proof (unot_false Y UY) as NY. pose proof (canon_pos HB Y NY) as PY.
    apply dbind_ok in H. destruct H as ([x' y'] & R & H). cbn [fst snd] in H.
    destruct (round_sound X Y NX NY R) as (-> & CY & D).
    destruct (IH _ _ _ _ Y CY NY H) as [G V]. split; [exact G|]. rewrite V.
    destruct D as [-> |[-> _]]; [apply Z.gcd_comm|].
    rewrite (Z.gcd_comm (val y)), Z.gcd_mod by lia. apply Z.gcd_comm.
Qed.
Lemma base_gcd_sound n x y g : canon x -> canon y -> (x = [] -> y <> [] -> Z.odd (val y) = true) ->
  base_gcd w n x y = DOk g -> canon g /\ val g = Z.gcd (val x) (val y).
Proof.
  intros X Y O H. unfold base_gcd in H. destruct (ugcd_loop w n x y 0) as [g'|] eqn:E; [|discriminate].
  injection H as ->. set (f := (n + S (Z.to_nat (val x + val y + 1)))%nat).
  pose proof (val_nonneg HB (canon_ok X)). pose proof (val_nonneg HB (canon_ok Y)).
  apply (@ugcd_loop_mono w n f) in E; [|unfold f; lia].
  destruct (@ugcd_loop_spec w Hw f x y 0) as (r & E' & C & V); auto; try (unfold f; lia).
  - intros NY ->. rewrite Zmod_odd, O; auto.
  - rewrite E in E'. injection E' as <-. split; [exact C|]. rewrite V. lia.
Qed.
Lemma sorted x y : canon x -> canon y -> exists a b,
  (match ucompare x y with Lt => (y, x) | _ => (x, y) end) = (a, b) /\ canon a /\ canon b /\ val b <= val a /\
  Z.gcd (val a) (val b) = Z.gcd (val x) (val y) /\ Nat.max (length a) (length b) = Nat.max (length x) (length y) /\
  (a = x /\ b = y \/ a = y /\ b = x).
Proof.
  intros X Y. rewrite (ucompare_spec HB X Y). destruct (Z.compare_spec (val x) (val y)).
  - exists x, y. repeat split; auto; try apply X; try apply Y; lia.
  - exists y, x. repeat split; auto; try apply X; try apply Y; try lia. apply Z.gcd_comm.
  - exists x, y. repeat split; auto; try apply X; try apply Y; lia.
Qed.
Lemma lehmer_sound lf fuel n x y g : canon x -> canon y ->
  lehmer_gcd w ediv lf fuel n x y = DOk g -> canon g /\ val g = Z.gcd (val x) (val y).
Proof.
  intros X Y H. unfold lehmer_gcd in H. destruct (sorted X Y) as (a & b & E & A & Bb & L & G & _).
  rewrite E in H. rewrite <- G. destruct (Nat.leb_spec (length b) 1).
  - eapply base_gcd_sound; [exact A|exact Bb| |exact H]. intros -> NB. pose proof (canon_pos HB Bb NB). change (val []) with 0 in L. lia.
  - apply (outer_sound A Bb) in H; [exact H|]. intros ->.
    assert (NB : b <> []) by (intros ->; cbn in *; lia). pose proof (canon_pos HB Bb NB). change (val []) with 0 in L. lia.
Qed.
Lemma big_gcd_sound lf fuel n x y g : canon x -> canon y -> (x = [] -> y <> [] -> Z.odd (val y) = true \/ (256 <= length y)%nat) ->
  big_gcd w ediv lf fuel n x y = DOk g -> canon g /\ val g = Z.gcd (val x) (val y).
Proof.
  intros X Y O H. unfold big_gcd in H. destruct (Nat.leb_spec 256 (Nat.max (length x) (length y))).
  - apply (lehmer_sound X Y H).
  - apply (base_gcd_sound X Y) in H; [exact H|]. intros E N. destruct (O E N); [assumption|lia].
Qed.

(** ** It always ends. *)
Lemma fmod_mono lf lf' fuel fuel' a b : (lf <= lf')%nat -> (fuel <= fuel')%nat ->
  fmod w ediv lf fuel a b <> DOut -> fmod w ediv lf' fuel' a b = fmod w ediv lf fuel a b.
Proof.
  clear Hed Hw HB.
  intros Hl Hf. unfold fmod. destruct b as [|y b]; [reflexivity|].
  destruct (Nat.ltb _ _); [reflexivity|]. destruct (Nat.leb _ _); [reflexivity|].
  apply dbind_mono; [auto|]. intros [[a2 b2] mu].
  apply dbind_mono; [apply impl_mono; auto|]. intros [q r].
  apply fdiv_mono; auto.
Qed.
Lemma inner_mono lf lf' fuel fuel' n : (lf <= lf')%nat -> (fuel <= fuel')%nat -> forall n' A B C D a b, (n <= n')%nat ->
  inner w ediv lf fuel n A B C D a b <> DOut -> inner w ediv lf' fuel' n' A B C D a b = inner w ediv lf fuel n A B C D a b.
Proof.
  clear Hed Hw HB. intros Hl Hf. induction n as [|n IH]; intros n' A B C D a b Hn; [cbn; congruence|].
  destruct n' as [|n']; [lia|]. cbn [inner].
  apply dbind_mono; [auto|]. intros aA. apply dbind_mono; [auto|]. intros bC.
  apply dbind_mono; [apply fdiv_mono; auto|]. intros q.
  apply dbind_mono; [auto|]. intros aB. apply dbind_mono; [auto|]. intros bD.
  apply dbind_mono; [apply fdiv_mono; auto|]. intros q2. destruct (negb _); [auto|].
  do 6 (apply dbind_mono; [auto|]; intros ?). destruct (unot D); [auto|]. apply IH. lia.
Qed.
Lemma outer_mono lf lf' fuel fuel' n : (lf <= lf')%nat -> (fuel <= fuel')%nat -> forall n' m x y, (n <= n')%nat ->
  outer w ediv lf fuel n m x y <> DOut -> outer w ediv lf' fuel' n' m x y = outer w ediv lf fuel n m x y.
Proof.
  clear Hed Hw HB. intros Hl Hf. induction n as [|n IH]; intros n' m x y Hn; [cbn [outer]; congruence|].
  destruct n' as [|n']; [lia|]. cbn [outer]. destruct (unot x || unot y); [auto|]. cbv zeta.
  apply dbind_mono; [apply inner_mono; auto|]. intros [[A B0] [C D]]. destruct (unot B0).
  - apply dbind_mono; [apply fmod_mono; auto|]. intros r. apply IH. lia.
  - do 6 (apply dbind_mono; [auto|]; intros ?). apply IH. lia.
Qed.

Definition large (n lf fuel k : nat) : Prop := (n <= lf)%nat /\ (n <= fuel)%nat /\ (n <= k)%nat.
Lemma inner_J_ends a b : canon a -> canon b -> exists N, forall lf fuel k, large N lf fuel k ->
  inner w ediv lf fuel k [] [1] [1] [] a b <> DOut.
Proof.
  intros A C.
  destruct (add_base_spec Hw A (canon_nil B)) as (aA & E1 & C1 & _).
  destruct (add_base_spec Hw C canon_one) as (bC & E2 & C2 & _).
  destruct (add_base_spec Hw A canon_one) as (aB & E3 & C3 & _).
  destruct (add_base_spec Hw C (canon_nil B)) as (bD & E4 & C4 & _).
  destruct (fdiv_ends Hw Hed C1 C2) as (n1 & t1 & F1). destruct (fdiv_ends Hw Hed C3 C4) as (n2 & t2 & F2).
  exists (S (n1 + n2)). intros lf fuel k (L1 & L2 & L3). destruct k as [|k]; [lia|]. cbn [inner].
  rewrite E1, E2. cbn [lift dbind]. destruct (F1 lf fuel ltac:(lia) ltac:(lia)) as [-> T1].
  apply dbind_out; [exact T1|]. intros q _. rewrite E3, E4. cbn [lift dbind].
  destruct (F2 lf fuel ltac:(lia) ltac:(lia)) as [-> T2]. apply dbind_out; [exact T2|]. intros q2 _.
  destruct (negb _); [discriminate|]. change (unot []) with true. cbn iota.
  do 6 (apply dbind_out; [apply lift_out|]; intros ? _). discriminate.
Qed.
Lemma inner_I_ends a b : canon a -> canon b -> exists N, forall lf fuel k, large N lf fuel k ->
  inner w ediv lf fuel k [1] [] [] [1] a b <> DOut.
Proof.
  intros A C.
  destruct (add_base_spec Hw A canon_one) as (aA & E1 & C1 & _).
  destruct (add_base_spec Hw C (canon_nil B)) as (bC & E2 & C2 & _).
  destruct (add_base_spec Hw A (canon_nil B)) as (aB & E3 & C3 & _).
  destruct (add_base_spec Hw C canon_one) as (bD & E4 & C4 & _).
  destruct (fdiv_ends Hw Hed C1 C2) as (n1 & t1 & F1). destruct (fdiv_ends Hw Hed C3 C4) as (n2 & t2 & F2).
  assert (exists N, forall q qb a', t1 = DOk q -> umul w q b = Some qb -> usub w a qb = Some a' ->
    forall lf fuel k, large N lf fuel k -> inner w ediv lf fuel k [] [1] [1] [] b a' <> DOut) as (n3 & F3).
  { destruct t1 as [q| |]; [|exists O; discriminate..].
    pose proof (F1 (n1 + n1)%nat (n1 + n1)%nat ltac:(lia) ltac:(lia)) as [Q _]. pose proof (fdiv_canon C1 C2 Q) as CQ.
    destruct (umul w q b) as [qb|] eqn:U; [|exists O; intros ? ? ? [= <-]; congruence].
    destruct (umul_sound Hw CQ C U) as [CU _]. destruct (usub_spec Hw A CU) as (a' & S & CA & _).
    destruct (inner_J_ends C CA) as (n3 & F3). exists n3. intros ? ? ? [= <-]. rewrite U. intros [= <-]. rewrite S. intros [= <-].
    exact F3. }
  exists (S (n1 + n2 + n3)). intros lf fuel k (L1 & L2 & L3). destruct k as [|k]; [lia|]. cbn [inner].
  rewrite E1, E2. cbn [lift dbind]. destruct (F1 lf fuel ltac:(lia) ltac:(lia)) as [Q T1]. rewrite Q.
  apply dbind_out; [exact T1|]. intros q ->. rewrite E3, E4. cbn [lift dbind].
  pose proof (fdiv_canon C1 C2 Q) as CQ.
  destruct (F2 lf fuel ltac:(lia) ltac:(lia)) as [-> T2]. apply dbind_out; [exact T2|]. intros q2 _.
  destruct (negb _); [discriminate|]. change (unot [1]) with false. cbn iota.
  rewrite (umul_nil CQ). cbn [lift dbind]. rewrite (usub_nil canon_one). cbn [lift dbind].
  rewrite (umul_one CQ). cbn [lift dbind]. rewrite (nil_usub CQ). cbn [lift dbind].
  destruct (umul w q b) as [qb|] eqn:U; [|discriminate]. cbn [lift dbind].
  destruct (usub w a qb) as [a'|] eqn:S; [|discriminate]. cbn [lift dbind].
  apply (F3 _ _ _ eq_refl U S). unfold large. lia.
Qed.
(** Beyond the lengths of both numbers the inner loop gives the identity. *)
Lemma inner_beyond lf fuel k M : inner w ediv lf fuel k [1] [] [] [1] [] [] = DOk M -> M = I4.
Proof.
  clear Hed. destruct k as [|[|k]]; [discriminate|intros H; vm_compute in H; discriminate|].
  intros H. cbn in H. injection H as <-. reflexivity.
Qed.
Definition fits (x : list Z) : Prop := Z.of_nat (length x) < 2 ^ 64 - 1.
Lemma top_beyond x m : Z.of_nat (length x) <= m -> top_digits x m = [].
Proof. clear. intros H. unfold top_digits. now apply Z.leb_le in H as ->. Qed.

Lemma round_ends_ends m x y : canon x -> canon y -> exists N, forall lf fuel k, large N lf fuel k ->
  round_ends lf fuel k m x y <> DOut.
Proof.
  intros X Y. destruct (inner_I_ends (top_canon ((m - 1) mod 2 ^ 64) X) (top_canon ((m - 1) mod 2 ^ 64) Y)) as (n1 & F1).
  destruct (fdivmod_ends Hw Hed X Y) as (n2 & t & F2).
  exists (n1 + n2)%nat. intros lf fuel k (L1 & L2 & L3). unfold round_ends. cbv zeta.
  apply dbind_out; [apply F1; unfold large; lia|]. intros M _. destruct (unot _); [|discriminate].
  apply dbind_out; [|discriminate]. apply (F2 lf fuel); lia.
Qed.
Lemma round_mono lf lf' fuel fuel' k k' m x y : (lf <= lf')%nat -> (fuel <= fuel')%nat -> (k <= k')%nat ->
  round_ends lf fuel k m x y <> DOut -> round_ends lf' fuel' k' m x y = round_ends lf fuel k m x y.
Proof.
  clear Hed HB. intros H1 H2 H3. unfold round_ends. cbv zeta. apply dbind_mono; [apply inner_mono; auto|].
  intros M. destruct (unot _); [|auto]. apply dbind_mono; [apply fmod_mono; auto|auto].
Qed.
(** A round exchanges the two or is a step of Euclid's, from some bounds on. *)
Lemma round_cases m x y : canon x -> canon y -> x <> [] -> y <> [] -> exists N t, t <> DOut /\
  (forall lf fuel k, large N lf fuel k -> round_ends lf fuel k m x y = t) /\
  forall p, t = DOk p -> fst p = y /\ canon (snd p) /\ (snd p = x \/ val (snd p) = val x mod val y) /\
    (fits x -> fits y -> m = 0 \/ m = 2 ^ 64 - 1 -> val (snd p) = val x mod val y).
Proof.
  intros X Y NX NY. destruct (@round_ends_ends m x y X Y) as (N & F).
  exists N, (round_ends N N N m x y). split; [apply F; unfold large; lia|]. split.
  - intros lf fuel k (L1 & L2 & L3). apply round_mono; auto. apply F; unfold large; lia.
  - intros [x' y'] H. cbn [fst snd]. destruct (round_sound X Y NX NY H) as (-> & CY & D). split; [reflexivity|].
    split; [exact CY|]. split; [destruct D as [-> |[V _]]; auto|]. intros FX FY HM.
    unfold round_ends in H. cbv zeta in H. unfold fits in *.
    assert (2 ^ 64 - 2 <= (m - 1) mod 2 ^ 64) as L by (destruct HM as [-> | ->]; vm_compute; discriminate).
    rewrite !top_beyond in H by lia. apply dbind_ok in H. destruct H as (M & E & H). apply inner_beyond in E. subst M.
    cbn [fst snd] in H. change (unot []) with true in H. cbn iota in H. apply dbind_ok in H. destruct H as (r & E & H).
    injection H as ->. apply (fmod_sound Hw Hed X Y NY E).
Qed.
Definition done (m : Z) (x y : list Z) : Prop :=
  exists N, forall lf fuel k, large N lf fuel k -> outer w ediv lf fuel k m x y <> DOut.
Lemma outer_nil m x y : canon x -> canon y -> x = [] \/ y = [] -> done m x y.
Proof.
  intros X Y H. exists 1%nat. intros lf fuel k (_ & _ & L). destruct k as [|k]; [lia|]. rewrite outer_S by assumption.
  destruct H as [-> | ->]; change (unot []) with true; [|rewrite orb_true_r]; discriminate.
Qed.
Lemma outer_step m x y : canon x -> canon y -> x <> [] -> y <> [] ->
  (forall y', canon y' -> y' = x \/ val y' = val x mod val y ->
    (fits x -> fits y -> m = 0 \/ m = 2 ^ 64 - 1 -> val y' = val x mod val y) -> done ((m - 1) mod 2 ^ 64) y y') ->
  done m x y.
Proof.
  intros X Y NX NY H. destruct (@round_cases m x y X Y NX NY) as (N & t & T & F & G).
  destruct t as [[x' y']| |]; [|exists (S N)|congruence].
  - destruct (G _ eq_refl) as (E & CY & D & V). cbn [fst snd] in *. subst x'. destruct (H y' CY D V) as (N2 & F2).
    exists (S (N + N2)). intros lf fuel k (L1 & L2 & L3). destruct k as [|k]; [lia|]. rewrite outer_S by assumption.
    destruct (unot x || unot y); [discriminate|]. rewrite F by (unfold large; lia). cbn [dbind fst snd].
    apply F2. unfold large. lia.
  - intros lf fuel k (L1 & L2 & L3). destruct k as [|k]; [lia|]. rewrite outer_S by assumption.
    destruct (unot x || unot y); [discriminate|]. rewrite F by (unfold large; lia). discriminate.
Qed.
Lemma fits_le x y : canon x -> canon y -> val y <= val x -> fits x -> fits y.
Proof. intros X Y H. unfold fits. pose proof (canon_le_length Hw Y X H). lia. Qed.
Lemma mod_facts x y y' : canon x -> canon y -> y <> [] -> val y' = val x mod val y ->
  0 <= val y' <= val x /\ val y' < val y.
Proof.
  intros X Y NY ->. pose proof (canon_pos HB Y NY). pose proof (Z.mod_pos_bound (val x) (val y) ltac:(lia)).
  pose proof (val_nonneg HB (canon_ok X)). pose proof (Z.mod_le (val x) (val y) ltac:(lia) ltac:(lia)). lia.
Qed.
Lemma outer_ends s : forall m x y, canon x -> canon y -> fits x -> fits y -> 0 <= m < 2 ^ 64 ->
  val x + val y <= Z.of_nat s -> done m x y.
Proof.
  induction s as [|s IHs]; intros m x y X Y FX FY HM HS.
  { apply outer_nil; auto. pose proof (val_nonneg HB (canon_ok X)). pose proof (val_nonneg HB (canon_ok Y)).
    left. apply (canon_zero HB X). lia. }
  assert (Hforce : forall m x y, canon x -> canon y -> fits x -> fits y -> m = 0 \/ m = 2 ^ 64 - 1 -> val y <= val x ->
    val x + val y <= Z.of_nat (S s) -> done m x y).
  { clear m x y X Y FX FY HM HS. intros m x y X Y FX FY HM L HS.
    destruct (list_eq_dec Z.eq_dec x []) as [NX|NX]; [apply outer_nil; auto|].
    destruct (list_eq_dec Z.eq_dec y []) as [NY|NY]; [apply outer_nil; auto|].
    apply outer_step; auto. intros y' CY _ V. specialize (V FX FY HM). destruct (mod_facts X Y NY V).
    apply IHs; auto; [|apply Z.mod_pos_bound; lia|lia]. apply (fits_le X CY); [lia|assumption]. }
  assert (Hzero : forall x y, canon x -> canon y -> fits x -> fits y -> val x + val y <= Z.of_nat (S s) -> done 0 x y).
  { clear m x y X Y FX FY HM HS. intros x y X Y FX FY HS.
    destruct (Z_le_gt_dec (val y) (val x)) as [L|L]; [apply Hforce; auto|].
    destruct (list_eq_dec Z.eq_dec x []) as [NX|NX]; [apply outer_nil; auto|].
    destruct (list_eq_dec Z.eq_dec y []) as [NY|NY]; [apply outer_nil; auto|].
    pose proof (val_nonneg HB (canon_ok X)).
    apply outer_step; auto. intros y' CY _ V. specialize (V FX FY (or_introl eq_refl)).
    rewrite Z.mod_small in V by lia. rewrite (canon_unique HB CY X V).
    apply Hforce; auto; lia. }
  clear IHs Hforce. destruct HM as [HM1 HM2]. revert HM2 x y X Y FX FY HS. pattern m. apply natlike_ind; [|clear m HM1|exact HM1].
  - intros. apply Hzero; auto.
  - intros m Hm IHm Hlt x y X Y FX FY HS.
    destruct (list_eq_dec Z.eq_dec x []) as [NX|NX]; [apply outer_nil; auto|].
    destruct (list_eq_dec Z.eq_dec y []) as [NY|NY]; [apply outer_nil; auto|].
    apply outer_step; auto. intros y' CY D _. rewrite Z.mod_small by lia. replace (Z.succ m - 1) with m by lia.
    destruct D as [-> |V]; [apply IHm; auto; lia|]. destruct (mod_facts X Y NY V).
    apply IHm; auto; try lia. apply (fits_le X CY); [lia|assumption].
Qed.
Lemma base_gcd_ends x y : canon x -> canon y -> (x = [] -> y <> [] -> Z.odd (val y) = true) ->
  exists N g, canon g /\ val g = Z.gcd (val x) (val y) /\ forall k, (N <= k)%nat -> base_gcd w k x y = DOk g.
Proof.
  intros X Y O. set (f := S (Z.to_nat (val x + val y + 1))).
  pose proof (val_nonneg HB (canon_ok X)). pose proof (val_nonneg HB (canon_ok Y)).
  destruct (@ugcd_loop_spec w Hw f x y 0) as (r & E & C & V); auto; try (unfold f; lia).
  - intros NY ->. rewrite Zmod_odd, O; auto.
  - exists f, r. split; [exact C|]. split; [rewrite V; lia|]. intros k L. unfold base_gcd.
    now rewrite (ugcd_loop_mono L E).
Qed.
Lemma lehmer_ends x y : canon x -> canon y -> fits x -> fits y ->
  exists N, forall lf fuel k, large N lf fuel k -> lehmer_gcd w ediv lf fuel k x y <> DOut.
Proof.
  intros X Y FX FY. unfold lehmer_gcd. destruct (sorted X Y) as (a & b & E & A & Bb & L & _ & _ & D). rewrite E.
  destruct (Nat.leb_spec (length b) 1).
  - destruct (@base_gcd_ends a b A Bb) as (N & g & _ & _ & F).
    + intros -> NB. pose proof (canon_pos HB Bb NB). change (val []) with 0 in L. lia.
    + exists N. intros lf fuel k (_ & _ & Lk). rewrite F by exact Lk. discriminate.
  - apply (@outer_ends (Z.to_nat (val a + val b)) (Z.of_nat (length b)) a b A Bb).
    + destruct D as [[-> ->]|[-> ->]]; assumption.
    + destruct D as [[-> ->]|[-> ->]]; assumption.
    + unfold fits in *. destruct D as [[-> ->]|[-> ->]]; lia.
    + lia.
Qed.
Lemma base_gcd_mono k k' x y : (k <= k')%nat -> base_gcd w k x y <> DOut -> base_gcd w k' x y = base_gcd w k x y.
Proof.
  clear. intros L H. unfold base_gcd in *. destruct (ugcd_loop w k x y 0) eqn:E; [|congruence]. now rewrite (ugcd_loop_mono L E).
Qed.
Lemma big_gcd_mono lf lf' fuel fuel' k k' x y : (lf <= lf')%nat -> (fuel <= fuel')%nat -> (k <= k')%nat ->
  big_gcd w ediv lf fuel k x y <> DOut -> big_gcd w ediv lf' fuel' k' x y = big_gcd w ediv lf fuel k x y.
Proof.
  clear. intros L1 L2 L3. unfold big_gcd, lehmer_gcd. destruct (Nat.leb _ _); [|apply base_gcd_mono; exact L3].
  destruct (match ucompare x y with Lt => _ | _ => _ end) as [a b].
  destruct (Nat.leb _ _); [apply base_gcd_mono; exact L3|apply outer_mono; auto].
Qed.
Lemma big_gcd_ends x y : canon x -> canon y -> fits x -> fits y ->
  (x = [] -> y <> [] -> Z.odd (val y) = true \/ (256 <= length y)%nat) ->
  exists N t, (forall lf fuel k, (N <= lf)%nat -> (N <= fuel)%nat -> (N <= k)%nat -> big_gcd w ediv lf fuel k x y = t) /\
  ((exists g, t = DOk g /\ canon g /\ val g = Z.gcd (val x) (val y)) \/
   (t = DUb /\ (256 <= Nat.max (length x) (length y))%nat /\ (2 <= Nat.min (length x) (length y))%nat)).
Proof.
  intros X Y FX FY O.
  assert (exists N, forall lf fuel k, large N lf fuel k -> big_gcd w ediv lf fuel k x y <> DOut) as (N & F).
  { unfold big_gcd. destruct (Nat.leb_spec 256 (Nat.max (length x) (length y))); [apply lehmer_ends; assumption|].
    destruct (@base_gcd_ends x y X Y) as (N & g & _ & _ & F); [intros E N; destruct (O E N); [assumption|lia]|].
    exists N. intros lf fuel k (_ & _ & L). rewrite F by exact L. discriminate. }
  exists N, (big_gcd w ediv N N N x y). specialize (F N N N ltac:(unfold large; lia)). split.
  - intros. apply big_gcd_mono; assumption.
  - destruct (big_gcd w ediv N N N x y) as [g| |] eqn:E; [left|right|congruence].
    + exists g. split; [reflexivity|]. apply (big_gcd_sound X Y O E).
    + split; [reflexivity|]. unfold big_gcd in E. destruct (Nat.leb_spec 256 (Nat.max (length x) (length y))) as [L|L];
        [|unfold base_gcd in E; destruct (ugcd_loop w N x y 0); discriminate].
      split; [exact L|]. unfold lehmer_gcd in E. destruct (sorted X Y) as (a & b & E2 & A & Bb & L2 & _ & _ & D). rewrite E2 in E.
      destruct (Nat.leb_spec (length b) 1); [unfold base_gcd in E; destruct (ugcd_loop w N a b 0); discriminate|].
      pose proof (canon_le_length Hw Bb A L2). destruct D as [[-> ->]|[-> ->]]; lia.
Qed.

(** ** When it is undefined. *)
Lemma uneven_undefined lf fuel k x y : canon x -> canon y -> (256 <= length x)%nat -> fits x ->
  (2 <= length y)%nat -> (length y + 32 <= length x)%nat ->
  big_gcd w ediv lf fuel (S k) x y = DUb /\ big_gcd w ediv lf fuel (S k) y x = DUb.
Proof.
  clear Hed. intros X Y LX FX LY LD. unfold fits in FX.
  assert (Hc : ucompare x y = Gt /\ ucompare y x = Lt).
  { rewrite (ucompare_spec HB X Y), (ucompare_spec HB Y X).
    pose proof (canon_length_lt HB Y X ltac:(lia)). split; [now apply Z.compare_gt_iff|now apply Z.compare_lt_iff]. }
  assert (Ho : outer w ediv lf fuel (S k) (Z.of_nat (length y)) x y = DUb).
  { cbn [outer]. assert (NX : x <> []) by (intros ->; cbn in *; lia). assert (NY : y <> []) by (intros ->; cbn in *; lia).
    destruct (unot x) eqn:UX; [now destruct NX; apply unot_nil|]. destruct (unot y) eqn:UY; [now destruct NY; apply unot_nil|].
    cbn [orb]. cbv zeta. rewrite (Z.mod_small (Z.of_nat (length y) - 1)) by lia.
    set (m' := Z.of_nat (length y) - 1).
    assert (Ha : canon (top_digits x m')) by (apply top_canon; exact X).
    assert (Hb : canon (top_digits y m')) by (apply top_canon; exact Y).
    assert (La : (33 <= length (top_digits x m'))%nat).
    { unfold top_digits. destruct (Z.leb_spec (Z.of_nat (length x)) m'); [lia|]. rewrite skipn_length. lia. }
    assert (Lb : length (top_digits y m') = 1%nat).
    { unfold top_digits. destruct (Z.leb_spec (Z.of_nat (length y)) m'); [lia|]. rewrite skipn_length. lia. }
    cbn [inner]. destruct (add_base_spec Hw Ha canon_one) as (aA & E1 & C1 & V1). rewrite E1. cbn [lift dbind].
    destruct (add_base_spec Hw Hb (canon_nil B)) as (bC & E2 & C2 & V2). rewrite E2. cbn [lift dbind].
    change (val []) with 0 in V2. rewrite Z.add_0_r in V2. rewrite (canon_unique HB C2 Hb V2).
    rewrite val_one in V1. pose proof (canon_le_length Hw Ha C1 ltac:(lia)) as LA.
    destruct (top_digits y m') as [|d [|e l]]; try discriminate Lb.
    assert (Hd : 0 < d < B).
    { destruct Hb as [Hd Hn]. inversion Hd; subst. cbn in Hn. lia. }
    destruct (@one_digit_undefined w ediv lf fuel aA d C1 Hd ltac:(lia)) as (-> & _). reflexivity. }
  unfold big_gcd, lehmer_gcd. rewrite (Nat.max_comm (length y)).
  destruct (Nat.leb_spec 256 (Nat.max (length x) (length y))); [|lia]. destruct Hc as [-> ->].
  destruct (Nat.leb_spec (length y) 1); [lia|]. split; exact Ho.
Qed.
Lemma outer_fmod lf fuel n : forall m x y a b g, canon x -> canon y -> y <> [] -> val y < val x ->
  (a = x /\ b = y \/ a = y /\ b = x) -> outer w ediv lf fuel n m a b = DOk g ->
  exists r, fmod w ediv lf fuel x y = DOk r.
Proof.
  induction n as [|n IH]; intros m x y a b g X Y NY L D H; [discriminate|].
  pose proof (canon_pos HB Y NY) as PY.
  assert (NX : x <> []) by (intros ->; change (val []) with 0 in L; lia).
  assert (A : canon a) by (destruct D as [[-> ->]|[-> ->]]; assumption).
  assert (Cb : canon b) by (destruct D as [[-> ->]|[-> ->]]; assumption).
  assert (NA : a <> []) by (destruct D as [[-> ->]|[-> ->]]; assumption).
  assert (NB : b <> []) by (destruct D as [[-> ->]|[-> ->]]; assumption).
  rewrite (outer_S lf fuel n m A Cb) in H.
  destruct (unot a) eqn:UA; [now destruct NA; apply unot_nil|]. destruct (unot b) eqn:UB; [now destruct NB; apply unot_nil|].
  cbn [orb] in H. apply dbind_ok in H. destruct H as ([x' y'] & R & H). cbn [fst snd] in H.
  destruct (round_sound A Cb NA NB R) as (-> & CY & E). destruct E as [-> |[V F]].
  - apply (IH ((m - 1) mod 2 ^ 64) x y b a g X Y NY L); [|exact H]. destruct D as [[-> ->]|[-> ->]]; auto.
  - destruct D as [[-> ->]|[-> ->]]; [eauto|]. rewrite Z.mod_small in V by lia.
    rewrite (canon_unique HB CY Y V) in H. apply (IH ((m - 1) mod 2 ^ 64) x y x y g X Y NY L); auto.
Qed.
Lemma long_undefined lf fuel n x y g : canon x -> canon y -> (256 <= length x)%nat -> (2 <= length y <= length x)%nat ->
  val y <= val x ->
  B ^ 32 <= (val x mod val y) * ((B * B - 1) / (val (skipn (length y - 2) y) + 1)) ->
  big_gcd w ediv lf fuel n x y <> DOk g /\ big_gcd w ediv lf fuel n y x <> DOk g.
Proof.
  intros X Y L1 L2 LV HR.
  assert (NY : y <> []) by (intros ->; cbn in *; lia). pose proof (canon_pos HB Y NY) as PY.
  assert (NE : val y < val x).
  { destruct (Z.eq_dec (val y) (val x)) as [E|E]; [|lia]. rewrite E, Z_mod_same_full, Z.mul_0_l in HR.
    pose proof (Z.pow_pos_nonneg B 32 ltac:(lia) ltac:(lia)). lia. }
  assert (Ho : forall m, outer w ediv lf fuel n m x y <> DOk g).
  { intros m H. destruct (@outer_fmod lf fuel n m x y x y g X Y NY NE (or_introl (conj eq_refl eq_refl)) H) as (r & R).
    destruct (@long_remainder_undefined w Hw ediv Hed lf fuel x y r X Y ltac:(lia) ltac:(lia) ltac:(lia) HR) as [K _]. contradiction. }
  unfold big_gcd, lehmer_gcd. rewrite (Nat.max_comm (length y)).
  destruct (Nat.leb_spec 256 (Nat.max (length x) (length y))); [|lia].
  rewrite (ucompare_spec HB X Y), (ucompare_spec HB Y X).
  rewrite (proj2 (Z.compare_gt_iff (val x) (val y)) NE), (proj2 (Z.compare_lt_iff (val y) (val x)) NE).
  destruct (Nat.leb_spec (length y) 1); [lia|]. split; apply Ho.
Qed.
End Lehmer.
