(** Proofs about the primality functions. *)
From Coq Require Import Zwf.
From Verif Require Import Base Math_Model Math_Spec.
Local Open Scope Z_scope.
Local Open Scope omonad_scope.

(** *** Number theory *)
Lemma sqrt_ge a b : 0 <= b -> b * b <= a -> b <= Z.sqrt a.
Proof. intros Hb H. apply (Z.sqrt_le_square a b); auto. nia. Qed.
Lemma prime_divisor_exists : forall n, 1 < n -> exists p, prime p /\ (p | n).
Proof.
  intros n. pattern n; apply (well_founded_induction (Zwf_well_founded 0)); clear n.
  intros x IH Hx. destruct (prime_dec x) as [Hp|Hp]; [exists x; split; auto; apply Z.divide_refl|].
  destruct (not_prime_divide x Hx Hp) as (d & Hd & Hdx).
  destruct (IH d) as (p & Pp & Dp); [unfold Zwf; lia|lia|].
  exists p. split; auto. eapply Z.divide_trans; eauto.
Qed.
Lemma composite_small_prime a : 1 < a -> ~ prime a -> exists q, prime q /\ (q | a) /\ q <= Z.sqrt a.
Proof.
  intros Ha Hn. destruct (not_prime_divide a Ha Hn) as (d & Hd & [e He]).
  assert (He1 : 1 < e) by nia.
  destruct (Z.le_gt_cases d e).
  - destruct (@prime_divisor_exists d) as (p & Pp & Dp); [lia|]. exists p. split; auto. split.
    + eapply Z.divide_trans; [exact Dp|]. exists e. auto.
    + apply Z.divide_pos_le in Dp; [|lia]. pose proof (prime_ge_2 p Pp).
      apply sqrt_ge; nia.
  - destruct (@prime_divisor_exists e) as (p & Pp & Dp); [lia|]. exists p. split; auto. split.
    + eapply Z.divide_trans; [exact Dp|]. exists d. lia.
    + apply Z.divide_pos_le in Dp; [|lia]. pose proof (prime_ge_2 p Pp).
      apply sqrt_ge; nia.
Qed.
Lemma prime_mod6 q : prime q -> 3 < q -> q mod 6 = 1 \/ q mod 6 = 5.
Proof.
  intros Pq H. pose proof (Z.mod_pos_bound q 6 ltac:(lia)). pose proof (Z.div_mod q 6 ltac:(lia)).
  assert (H2 : ~ (2 | q)). { intros D. apply prime_div_prime in D; auto using prime_2. lia. }
  assert (H3 : ~ (3 | q)). { intros D. apply prime_div_prime in D; auto using prime_3. lia. }
  set (k := q / 6) in *.
  assert (q mod 6 = 0 \/ q mod 6 = 1 \/ q mod 6 = 2 \/ q mod 6 = 3 \/ q mod 6 = 4 \/ q mod 6 = 5) by lia.
  destruct H4 as [E|[E|[E|[E|[E|E]]]]]; auto; exfalso.
  - apply H2. exists (3 * k). lia.
  - apply H2. exists (3 * k + 1). lia.
  - apply H3. exists (2 * k + 1). lia.
  - apply H2. exists (3 * k + 2). lia.
Qed.
(** There are infinitely many primes. *)
Fixpoint zfact (n : nat) : Z := match n with O => 1 | S n' => Z.of_nat n * zfact n' end.
Lemma zfact_pos n : 0 < zfact n.
Proof. induction n; cbn [zfact]; nia. Qed.
Lemma zfact_div n k : 1 <= k <= Z.of_nat n -> (k | zfact n).
Proof.
  induction n as [|n IH]; intros Hk; [lia|]. cbn [zfact].
  destruct (Z.eq_dec k (Z.of_nat (S n))) as [->|]; [apply Z.divide_factor_l|].
  apply Z.divide_mul_r. apply IH. lia.
Qed.
Lemma primes_unbounded a : exists p, prime p /\ a <= p.
Proof.
  set (n := Z.to_nat (Z.max a 2)). pose proof (zfact_pos n).
  destruct (@prime_divisor_exists (zfact n + 1)) as (p & Pp & Dp); [lia|].
  exists p. split; auto. destruct (Z.le_gt_cases a p); auto. exfalso.
  pose proof (prime_ge_2 p Pp).
  assert (D : (p | zfact n)) by (apply zfact_div; subst n; lia).
  assert (D1 : (p | 1)).
  { replace 1 with (zfact n + 1 - zfact n) by lia. now apply Z.divide_sub_r. }
  apply Z.divide_1_r_nonneg in D1; lia.
Qed.
Lemma least_prime_exists a : 0 <= a -> exists p, least_prime_from a p.
Proof.
  intros Ha. destruct (primes_unbounded a) as (p & Pp & Hp).
  assert (G : forall n, forall p, prime p -> a <= p -> p - a < Z.of_nat n -> exists p, least_prime_from a p).
  { clear p Pp Hp. induction n as [|n IH]; intros p Pp Hp Hn; [lia|].
    assert (D : (exists q, prime q /\ a <= q < p) \/ ~ exists q, prime q /\ a <= q < p).
    { clear - Pp Hp. assert (G : forall m, (exists q, prime q /\ a <= q < a + Z.of_nat m) \/
        ~ exists q, prime q /\ a <= q < a + Z.of_nat m).
      { induction m as [|m [(q & Pq & Hq)|Hn]]; [right; intros (q & _ & H); lia|left; exists q; split; auto; lia|].
        destruct (prime_dec (a + Z.of_nat m)) as [P|P]; [left; eexists; split; [exact P|lia]|].
        right. intros (q & Pq & Hq). destruct (Z.eq_dec q (a + Z.of_nat m)) as [->|]; [auto|].
        apply Hn. exists q. split; auto. lia. }
      specialize (G (Z.to_nat (p - a))). replace (a + Z.of_nat (Z.to_nat (p - a))) with p in G by lia. auto. }
    destruct D as [(q & Pq & Hq)|D].
    - apply (IH q); auto; lia.
    - exists p. split; auto. split; auto. intros q Pq Hq. destruct (Z.le_gt_cases p q); auto.
      exfalso. apply D. exists q. split; auto. }
  apply (G (Z.to_nat (p - a + 1)) p); auto. lia.
Qed.

Lemma sqrt_small a : 16 <= a -> 4 * Z.sqrt a <= a.
Proof.
  intros H. assert (H4 : 4 <= Z.sqrt a) by (apply sqrt_ge; lia).
  pose proof (Z.sqrt_spec a ltac:(lia)) as S. cbv zeta in S. nia.
Qed.
Lemma sqrt_lt_5 a : 0 <= a < 16 -> Z.sqrt a <= 3.
Proof.
  intros H. pose proof (Z.sqrt_spec a ltac:(lia)) as S. cbv zeta in S. pose proof (Z.sqrt_nonneg a).
  destruct (Z.le_gt_cases (Z.sqrt a) 3); auto. nia.
Qed.
Lemma mod_eq0_divide a c : c <> 0 -> (a mod c =? 0) = true <-> (c | a).
Proof. intros Hc. rewrite Z.eqb_eq. apply Z.mod_divide; auto. Qed.

Lemma prime_7 : prime 7.
Proof.
  destruct (prime_dec 7) as [|N]; auto. exfalso.
  destruct (@composite_small_prime 7) as (q & Pq & [e He] & Hq); [lia|auto|].
  assert (Z.sqrt 7 = 2) by reflexivity. pose proof (prime_ge_2 q Pq). assert (q = 2) by lia. lia.
Qed.

Section Prime.
  Variable M : Z.
  Variable sq : Z -> Z.
  Hypothesis HM : type_ok M.
  Hypothesis Hsq : sqrt_ok sq.
  Notation npc := (npc M sq).

  Lemma norm_small x : fits M x -> norm M x = x.
  Proof. intros [H0 [->|H]]; unfold norm; [reflexivity|]. destruct (Z.eqb_spec M 0); [auto|apply Z.mod_small; lia]. Qed.
  Lemma fits_norm x : (0 <= x \/ M <> 0) -> fits M (norm M x).
  Proof.
    unfold norm, fits. intros H. destruct (Z.eqb_spec M 0); [split; [lia|auto]|].
    destruct HM; [contradiction|]. pose proof (Z.mod_pos_bound x M ltac:(lia)). lia.
  Qed.
  Lemma sq_room a x : fits M a -> x <= sq a -> fits M (Z.max 0 x + 6).
  Proof.
    intros [H0 H] Hx. split; [lia|]. destruct H as [->|H]; [auto|]. right.
    pose proof (Hsq H0). destruct HM as [->|HM']; [lia|].
    destruct (Z.le_gt_cases 16 a) as [Ha|Ha]; [pose proof (sqrt_small Ha); lia|].
    pose proof (@sqrt_lt_5 a). lia.
  Qed.

  Definition clear_from a c : Prop :=
    forall j, 0 <= j -> c + 6 * j <= sq a -> ~ (c + 6 * j | a) /\ ~ (c + 6 * j + 2 | a).
  Lemma npc_loop_spec f : forall a c, fits M a -> 5 <= c -> fits M c -> sq a - c < 6 * Z.of_nat f - 6 ->
    (0 < f)%nat ->
    exists r, npc_loop M f a (sq a) c = Some r /\ (r = true <-> clear_from a c).
  Proof.
    induction f as [|f IH]; intros a c Ha Hc Fc Hf Hf0; [lia|]. cbn [npc_loop].
    destruct (Z.leb_spec c (sq a)) as [Hle|Hgt].
    2: { exists true. split; auto. split; auto. intros _ j Hj H. lia. }
    destruct (Z.eqb_spec c 0); [lia|].
    pose proof (sq_room Ha Hle) as R. replace (Z.max 0 c) with c in R by lia.
    assert (F2 : fits M (c + 2)) by (destruct R; split; lia).
    rewrite (norm_small F2), (norm_small R).
    destruct (a mod c =? 0) eqn:E1.
    { exists false. split; auto. split; [discriminate|]. intros H.
      destruct (H 0 ltac:(lia) ltac:(lia)) as [H1 _]. exfalso. apply H1.
      replace (c + 6 * 0) with c by lia. apply mod_eq0_divide; auto. }
    destruct (Z.eqb_spec (c + 2) 0); [lia|].
    destruct (a mod (c + 2) =? 0) eqn:E2.
    { exists false. split; auto. split; [discriminate|]. intros H.
      destruct (H 0 ltac:(lia) ltac:(lia)) as [_ H1]. exfalso. apply H1.
      replace (c + 6 * 0 + 2) with (c + 2) by lia. apply mod_eq0_divide; auto. }
    destruct (IH a (c + 6)) as (r & Er & Hr); [auto|lia|auto|lia|lia|].
    exists r. split; auto. rewrite Hr. split.
    - intros H j Hj Hle'. destruct (Z.eq_dec j 0) as [->|Hj0].
      + replace (c + 6 * 0) with c by lia. split; intros D; apply mod_eq0_divide in D; try lia; congruence.
      + specialize (H (j - 1) ltac:(lia) ltac:(lia)).
        replace (c + 6 * (j - 1 + 1)) with (c + 6 * j) in H by lia.
        replace (c + 6 + 6 * (j - 1)) with (c + 6 * j) in H by lia. exact H.
    - intros H j Hj Hle'. specialize (H (j + 1) ltac:(lia) ltac:(lia)).
      replace (c + 6 + 6 * j) with (c + 6 * (j + 1)) by lia. exact H.
  Qed.
  Lemma fits_5 : fits M 5.
  Proof. split; [lia|]. destruct HM; auto. right. lia. Qed.
  Lemma npc_spec a : fits M a -> exists r, npc a = Some r /\ (r = true <-> clear_from a 5).
  Proof.
    intros Ha. pose proof (Hsq (proj1 Ha)). pose proof (Z.sqrt_nonneg a).
    apply npc_loop_spec; auto using fits_5; lia.
  Qed.
  Lemma clear_prime a : 5 <= a -> a mod 6 = 1 \/ a mod 6 = 5 -> clear_from a 5 <-> prime a.
  Proof.
    intros Ha H6. pose proof (@Hsq a ltac:(lia)) as Hs. split.
    - intros HC. destruct (prime_dec a) as [|Hn]; auto. exfalso.
      destruct (@composite_small_prime a) as (q & Pq & Dq & Hq); [lia|auto|].
      pose proof (prime_ge_2 q Pq).
      assert (q <> 2 /\ q <> 3) as [].
      { pose proof (Z.div_mod a 6 ltac:(lia)).
        split; intros ->; destruct Dq as [e He]; lia. }
      destruct (@prime_mod6 q) as [E|E]; auto; [lia|pose proof (Z.div_mod q 6 ltac:(lia)); set (m := q / 6) in *..].
      + assert (1 <= m) by lia. destruct (HC (m - 1)) as [_ N]; [lia|lia|]. apply N.
        replace (5 + 6 * (m - 1) + 2) with q by lia. auto.
      + assert (0 <= m) by lia. destruct (HC m) as [N _]; [lia|lia|]. apply N.
        replace (5 + 6 * m) with q by lia. auto.
    - intros Pa j Hj Hle.
      assert (Hlt : 5 + 6 * j + 2 < a).
      { destruct (Z.le_gt_cases 16 a) as [H16|H16]; [pose proof (sqrt_small H16); lia|].
        pose proof (@sqrt_lt_5 a). lia. }
      split; intros D; apply prime_divisors in D; auto; lia.
  Qed.
  Lemma npc_prime a : fits M a -> 5 <= a -> a mod 6 = 1 \/ a mod 6 = 5 ->
    exists r, npc a = Some r /\ (r = true <-> prime a).
  Proof.
    intros Fa Ha H6. destruct (npc_spec Fa) as (r & E & H). exists r. split; auto.
    rewrite H. now apply clear_prime.
  Qed.

  Lemma is_prime_num_spec p a : 2 <= p -> fits M a ->
    exists r, is_prime_num M sq p a = Some r /\ (r = true <-> a <= 1 \/ prime a).
  Proof.
    intros Hp Fa. unfold is_prime_num. destruct (Z.ltb_spec a 4).
    { exists true. split; auto. split; auto. intros _. destruct Fa as [H0 _].
      assert (a = 0 \/ a = 1 \/ a = 2 \/ a = 3) as [->|[->|[->| ->]]] by lia;
        auto using prime_2, prime_3; left; lia. }
    pose proof (Z.mod_pos_bound a 6 ltac:(lia)).
    assert (E : ((a mod 6 - 1) mod 2 ^ p) mod 4 = (a mod 6 - 1) mod 4).
    { symmetry. apply Zmod_div_mod; [lia|apply Z.pow_pos_nonneg; lia|].
      exists (2 ^ (p - 2)). change 4 with (2 ^ 2). rewrite <- Z.pow_add_r by lia. f_equal. lia. }
    rewrite E. destruct (Z.eqb_spec ((a mod 6 - 1) mod 4) 0) as [E0|E0].
    - assert (a mod 6 = 1 \/ a mod 6 = 5).
      { assert (a mod 6 = 0 \/ a mod 6 = 1 \/ a mod 6 = 2 \/ a mod 6 = 3 \/ a mod 6 = 4 \/ a mod 6 = 5)
          as [R|[R|[R|[R|[R|R]]]]] by lia; rewrite R in E0; try (discriminate E0); auto. }
      assert (5 <= a) by (destruct (Z.eq_dec a 4) as [->|]; [cbn in H1; lia|lia]).
      destruct (@npc_prime a) as (r & Er & Hr); auto. exists r. split; auto. rewrite Hr.
      split; [auto|intros [|]; auto; lia].
    - exists false. split; auto. split; [discriminate|]. intros [|P]; [lia|].
      destruct (@prime_mod6 a P ltac:(lia)) as [R|R]; rewrite R in E0; exfalso; apply E0; reflexivity.
  Qed.

  (** *** Next prime *)
  Lemma next_loop_spec f : forall a p, 5 <= a -> a mod 6 = 5 -> least_prime_from a p -> fits M p ->
    p - a < 6 * Z.of_nat f -> next_loop M sq f a = Some p.
  Proof.
    induction f as [|f IH]; intros a p Ha H6 (Pp & Hp & Hmin) Fp Hf; [lia|]. cbn [next_loop].
    assert (Fa : fits M a) by (destruct Fp; split; lia).
    destruct (@npc_prime a) as (r & E & Hr); auto. rewrite E. cbn [obind].
    destruct r.
    { f_equal. assert (prime a) by (apply Hr; auto). specialize (Hmin a ltac:(auto) ltac:(lia)). lia. }
    assert (Na : ~ prime a) by (intros H; apply Hr in H; discriminate).
    assert (p <> a) by congruence.
    destruct (@prime_mod6 p Pp ltac:(lia)) as [Ep|Ep].
    all: pose proof (Z.div_mod p 6 ltac:(lia)); pose proof (Z.div_mod a 6 ltac:(lia));
      set (kp := p / 6) in *; set (ka := a / 6) in *.
    all: assert (F2 : fits M (a + 2)) by (destruct Fp; split; lia).
    all: rewrite (norm_small F2).
    all: assert (M2 : (a + 2) mod 6 = 1) by (symmetry; apply Z.mod_unique with (ka + 1); lia).
    all: destruct (@npc_prime (a + 2)) as (r & E2 & Hr2); auto; try lia; rewrite E2; cbn [obind].
    all: destruct r.
    1,3: f_equal; assert (P2 : prime (a + 2)) by (apply Hr2; auto); specialize (Hmin _ P2 ltac:(lia)); lia.
    all: assert (p <> a + 2) by (intros ->; assert (false = true) by (apply Hr2; auto); discriminate).
    all: assert (F6 : fits M (a + 6)) by (destruct Fp; split; lia); rewrite (norm_small F6).
    all: apply IH; auto; try lia.
    all: try (symmetry; apply Z.mod_unique with (ka + 1); lia).
    all: split; [auto|]; split; [lia|]; intros q Pq Hq; apply Hmin; auto; lia.
  Qed.
  Lemma next_prime_spec f a p : fits M a -> 4 <= a -> a mod 6 <> 0 -> least_prime_from a p -> fits M p ->
    p - a < 6 * Z.of_nat f -> next_prime M sq f a = Some p.
  Proof.
    intros Fa Ha H6 (Pp & Hp & Hmin) Fp Hf. unfold next_prime.
    destruct (Z.ltb_spec a 4); [lia|].
    pose proof (Z.mod_pos_bound a 6 ltac:(lia)). pose proof (Z.div_mod a 6 ltac:(lia)).
    set (b := a mod 6) in *. destruct (Z.eqb_spec b 0); [lia|].
    assert (E : exists r, (if b =? 1 then npc a else Some false) = Some r /\
      (r = true -> a = p) /\ (r = false -> b = 1 -> p <> a)).
    { destruct (Z.eqb_spec b 1) as [E|E].
      - destruct (@npc_prime a) as (r & Er & Hr); auto; [destruct (Z.eq_dec a 4) as [->|]; [cbn in b; lia|lia]|].
        exists r. split; auto. split.
        + intros ->. assert (Pa : prime a) by (apply Hr; auto). specialize (Hmin a Pa ltac:(lia)). lia.
        + intros -> _ ->. assert (false = true) by (apply Hr; auto). discriminate.
      - exists false. repeat split; auto; try discriminate; lia. }
    destruct E as (r & E & E1 & E2). rewrite E. cbn [obind]. destruct r; [f_equal; auto|].
    assert (Hge : a + (5 - b) <= p).
    { destruct (Z.eq_dec p a) as [->|Hne].
      - destruct (@prime_mod6 a Pp ltac:(lia)) as [R|R]; fold b in R; [exfalso; now apply E2|lia].
      - destruct (@prime_mod6 p Pp ltac:(lia)) as [R|R]; pose proof (Z.div_mod p 6 ltac:(lia)); lia. }
    assert (F : fits M (a + (5 - b))) by (destruct Fp; split; lia).
    rewrite (norm_small F).
    apply next_loop_spec; auto; try lia.
    1: try (symmetry; apply Z.mod_unique with (a / 6); lia).
    all: split; [auto|]; split; [lia|]; intros q Pq Hq; apply Hmin; auto; lia.
  Qed.
  (** Whatever argument, a result is 0 or 1, or prime, or divisible by 2 or 3. *)
  Definition harmless i : Prop := i = 0 \/ i = 1 \/ (2 | i) \/ (3 | i) \/ prime i.
  Lemma npc_true_harmless a : fits M a -> npc a = Some true -> harmless a.
  Proof.
    intros Fa E. destruct (Z.le_gt_cases a 4) as [H|H].
    { destruct Fa as [H0 _]. unfold harmless.
      assert (a = 0 \/ a = 1 \/ a = 2 \/ a = 3 \/ a = 4) as [->|[->|[->|[->| ->]]]] by lia; auto 6 using prime_2, prime_3.
      do 2 right; left. exists 2. reflexivity. }
    pose proof (Z.mod_pos_bound a 6 ltac:(lia)). pose proof (Z.div_mod a 6 ltac:(lia)).
    set (k := a / 6) in *.
    assert (a mod 6 = 0 \/ a mod 6 = 1 \/ a mod 6 = 2 \/ a mod 6 = 3 \/ a mod 6 = 4 \/ a mod 6 = 5) as R by lia.
    assert (P : a mod 6 = 1 \/ a mod 6 = 5 -> prime a).
    { intros R'. destruct (@npc_prime a) as (r & Er & Hr); auto; [lia|]. apply Hr. congruence. }
    unfold harmless. destruct R as [R|[R|[R|[R|[R|R]]]]]; auto 7.
    - do 2 right; left. exists (3 * k). lia.
    - do 2 right; left. exists (3 * k + 1). lia.
    - do 3 right; left. exists (2 * k + 1). lia.
    - do 2 right; left. exists (3 * k + 2). lia.
  Qed.
  Lemma next_loop_harmless f : forall a i, fits M a -> next_loop M sq f a = Some i -> fits M i /\ harmless i.
  Proof.
    induction f as [|f IH]; intros a i Fa; [discriminate|]. cbn [next_loop].
    destruct (npc a) as [[|]|] eqn:E; cbn [obind]; [|  |discriminate].
    { intros [= <-]. split; auto. now apply npc_true_harmless. }
    assert (F2 : fits M (norm M (a + 2))) by (apply fits_norm; destruct Fa; lia).
    destruct (npc (norm M (a + 2))) as [[|]|] eqn:E2; cbn [obind]; [| |discriminate].
    { intros [= <-]. split; auto. now apply npc_true_harmless. }
    apply IH. apply fits_norm. destruct Fa; lia.
  Qed.
  Lemma small_harmless a : fits M a -> a < 4 -> harmless a.
  Proof.
    intros [H0 _] H. unfold harmless.
    assert (a = 0 \/ a = 1 \/ a = 2 \/ a = 3) as [->|[->|[->| ->]]] by lia; auto 6 using prime_2, prime_3.
  Qed.
  Lemma next_prime_harmless f a i : fits M a -> next_prime M sq f a = Some i -> fits M i /\ harmless i.
  Proof.
    intros Fa. unfold next_prime. destruct (Z.ltb_spec a 4).
    { intros [= <-]. split; auto. now apply small_harmless. }
    destruct (a mod 6 =? 1).
    - destruct (npc a) as [[|]|] eqn:E; cbn [obind]; [| |discriminate].
      + intros [= <-]. split; auto. now apply npc_true_harmless.
      + apply next_loop_harmless. apply fits_norm. destruct Fa.
        pose proof (Z.mod_pos_bound a 6 ltac:(lia)). destruct (a mod 6 =? 0); lia.
    - cbn [obind]. apply next_loop_harmless. apply fits_norm. destruct Fa.
      pose proof (Z.mod_pos_bound a 6 ltac:(lia)). destruct (a mod 6 =? 0); lia.
  Qed.
  (** In the ideal type the search never goes down. *)
  Lemma next_loop_ge f : M = 0 -> forall a i, next_loop M sq f a = Some i -> a <= i.
  Proof.
    intros HM0. induction f as [|f IH]; intros a i; [discriminate|]. cbn [next_loop].
    assert (N : forall x, norm M x = x) by (intros; unfold norm; rewrite HM0; reflexivity).
    rewrite !N.
    destruct (npc a) as [[|]|]; cbn [obind]; [intros [= <-]; lia| |discriminate].
    destruct (npc (a + 2)) as [[|]|]; cbn [obind]; [intros [= <-]; lia| |discriminate].
    intros H. apply IH in H. lia.
  Qed.
  Lemma prime_after_gt f a i : M = 0 -> prime_after M sq f a = Some i -> a < i.
  Proof.
    intros HM0. unfold prime_after, next_prime.
    assert (N : forall x, norm M x = x) by (intros; unfold norm; rewrite HM0; reflexivity).
    rewrite !N. destruct (Z.ltb_spec (a + 1) 4); [intros [= <-]; lia|].
    pose proof (Z.mod_pos_bound (a + 1) 6 ltac:(lia)).
    destruct ((a + 1) mod 6 =? 1).
    - destruct (npc (a + 1)) as [[|]|]; cbn [obind]; [intros [= <-]; lia| |discriminate].
      intros H'. apply next_loop_ge in H'; auto. destruct ((a + 1) mod 6 =? 0); lia.
    - cbn [obind]. intros H'. apply next_loop_ge in H'; auto. destruct ((a + 1) mod 6 =? 0); lia.
  Qed.

  (** *** Previous prime *)
  Lemma prev_loop_spec f : forall a p, 7 <= a -> a mod 6 = 1 -> fits M a -> greatest_prime_upto a p ->
    a - 7 < 6 * Z.of_nat f -> prev_loop M sq f a = Some p.
  Proof.
    induction f as [|f IH]; intros a p Ha H6 Fa (Pp & Hp & Hmax) Hf; [lia|]. cbn [prev_loop].
    destruct (@npc_prime a) as (r & E & Hr); auto; [lia|]. rewrite E. cbn [obind].
    destruct r.
    { f_equal. assert (prime a) by (apply Hr; auto). specialize (Hmax a ltac:(auto) ltac:(lia)). lia. }
    assert (Na : ~ prime a) by (intros H; apply Hr in H; discriminate).
    assert (p <> a) by congruence.
    pose proof prime_7 as P7.
    pose proof (Hmax 7 P7 ltac:(lia)).
    assert (a <> 7) by congruence.
    destruct (@prime_mod6 p Pp ltac:(lia)) as [Ep|Ep].
    all: pose proof (Z.div_mod p 6 ltac:(lia)); pose proof (Z.div_mod a 6 ltac:(lia));
      set (kp := p / 6) in *; set (ka := a / 6) in *.
    all: assert (F2 : fits M (a - 2)) by (destruct Fa; split; lia).
    all: rewrite (norm_small F2).
    all: assert (M2 : (a - 2) mod 6 = 5) by (symmetry; apply Z.mod_unique with (ka - 1); lia).
    all: destruct (@npc_prime (a - 2)) as (r & E2 & Hr2); auto; try lia; rewrite E2; cbn [obind].
    all: destruct r.
    1,3: f_equal; assert (P2 : prime (a - 2)) by (apply Hr2; auto); specialize (Hmax _ P2 ltac:(lia)); lia.
    all: assert (p <> a - 2) by (intros ->; assert (false = true) by (apply Hr2; auto); discriminate).
    all: assert (F6 : fits M (a - 6)) by (destruct Fa; split; lia); rewrite (norm_small F6).
    all: apply IH; auto; try lia.
    all: try (symmetry; apply Z.mod_unique with (ka - 1); lia).
    all: split; [auto|]; split; [lia|]; intros q Pq Hq; apply Hmax; auto; lia.
  Qed.
  Lemma prev_prime_spec f a p : fits M a -> 7 <= a -> a mod 6 <> 0 -> a mod 6 <> 5 -> greatest_prime_upto a p ->
    a - 7 < 6 * Z.of_nat f -> prev_prime M sq f a = Some p.
  Proof.
    intros Fa Ha H0 H5 (Pp & Hp & Hmax) Hf. unfold prev_prime.
    destruct (Z.ltb_spec a 4); [lia|].
    pose proof (Z.mod_pos_bound a 6 ltac:(lia)). pose proof (Z.div_mod a 6 ltac:(lia)).
    set (b := a mod 6) in *. destruct (Z.eqb_spec b 0); [lia|].
    pose proof prime_7 as P7.
    pose proof (Hmax 7 P7 ltac:(lia)).
    assert (E : exists r, (if b =? 1 then npc a else Some false) = Some r /\
      (r = true -> a = p)).
    { destruct (Z.eqb_spec b 1) as [E|E].
      - destruct (@npc_prime a) as (r & Er & Hr); auto; [lia|].
        exists r. split; auto.
        intros ->. assert (Pa : prime a) by (apply Hr; auto). specialize (Hmax a Pa ltac:(lia)). lia.
      - exists false. split; auto. discriminate. }
    destruct E as (r & E & E1). rewrite E. cbn [obind]. destruct r; [f_equal; auto|].
    assert (F : fits M (a - (b - 1))) by (destruct Fa; split; lia).
    rewrite (norm_small F).
    apply prev_loop_spec; auto; try lia.
    1: try (symmetry; apply Z.mod_unique with (a / 6); lia).
    all: split; [auto|]; split.
      + destruct (Z.le_gt_cases p (a - (b - 1))); auto.
        destruct (@prime_mod6 p Pp ltac:(lia)) as [R|R]; pose proof (Z.div_mod p 6 ltac:(lia)); lia.
      + intros q Pq Hq. apply Hmax; auto. lia.
  Qed.
End Prime.
