(** Proofs about prime factorisation. *)
From Verif Require Import Base Math_Model Math_Spec Math_Prime.
Local Open Scope Z_scope.
Local Open Scope omonad_scope.

Lemma strip_spec f : forall m i l m', 0 < m -> 0 <= i -> strip f m i = Some (l, m') ->
  2 <= i /\ (exists k, l = repeat i k /\ m = i ^ Z.of_nat k * m') /\ ~ (i | m') /\ 0 < m'.
Proof.
  induction f as [|f IH]; intros m i l m' Hm Hi; [discriminate|]. cbn [strip].
  destruct (Z.eqb_spec i 0); [discriminate|].
  destruct (m mod i =? 0) eqn:E.
  - apply (@mod_eq0_divide m i ltac:(auto)) in E. destruct E as [q ->].
    rewrite Z.div_mul by auto. assert (0 < q) by nia.
    destruct (strip f q i) as [[l1 m1]|] eqn:E1; cbn [obind]; [|discriminate].
    intros [= <- <-]. destruct (IH q i l1 m1) as (H2 & (k & -> & Ek) & Hn & Hp); auto.
    split; auto. split; [|auto]. exists (S k). split; [reflexivity|].
    rewrite Nat2Z.inj_succ, Z.pow_succ_r by lia. rewrite Ek at 1. ring.
  - intros [= <- <-]. assert (Hn : ~ (i | m)).
    { intros D. apply mod_eq0_divide in D; auto. congruence. }
    assert (i <> 1) by (intros ->; apply Hn; apply Z.divide_1_l).
    split; [lia|]. split; [|auto]. exists O. split; [reflexivity|]. cbn [Z.of_nat]. rewrite Z.pow_0_r. lia.
Qed.
Lemma strip_total f : forall m i, 2 <= i -> 0 < m -> m < 2 ^ Z.of_nat f ->
  exists l m', strip f m i = Some (l, m') /\ m' <= m.
Proof.
  induction f as [|f IH]; intros m i Hi Hm Hf; [cbn in Hf; lia|]. cbn [strip].
  destruct (Z.eqb_spec i 0); [lia|]. destruct (m mod i =? 0) eqn:E; [|exists [], m; split; auto; lia].
  apply (@mod_eq0_divide m i ltac:(auto)) in E. destruct E as [q ->]. rewrite Z.div_mul by auto.
  rewrite Nat2Z.inj_succ, Z.pow_succ_r in Hf by lia.
  destruct (IH q i) as (l & m' & E1 & H1); [auto|nia|nia|]. rewrite E1. cbn [obind].
  exists (i :: l), m'. split; auto. nia.
Qed.
Lemma prod_app l r : prod (l ++ r) = prod l * prod r.
Proof. unfold prod. induction l as [|x l IH]; cbn [fold_right app]; [lia|]. rewrite IH. ring. Qed.
Lemma prod_repeat i k : prod (repeat i k) = i ^ Z.of_nat k.
Proof.
  induction k as [|k IH]; [reflexivity|]. change (prod (repeat i (S k))) with (i * prod (repeat i k)).
  rewrite IH, Nat2Z.inj_succ, Z.pow_succ_r by lia. reflexivity.
Qed.
Lemma prime_pow_div p i k : prime p -> prime i -> (p | i ^ Z.of_nat k) -> p = i.
Proof.
  intros Pp Pi. induction k as [|k IH].
  - cbn [Z.of_nat]. rewrite Z.pow_0_r. intros D.
    apply Z.divide_1_r_nonneg in D; [|pose proof (prime_ge_2 p Pp); lia].
    pose proof (prime_ge_2 p Pp). lia.
  - rewrite Nat2Z.inj_succ, Z.pow_succ_r by lia. intros D. apply prime_mult in D; auto.
    destruct D as [D|D]; auto. apply prime_div_prime in D; auto.
Qed.

Section Fact.
  Variable M : Z.
  Variable sq : Z -> Z.
  Hypothesis HM : type_ok M.
  Hypothesis Hsq : sqrt_ok sq.

  (** Which small primes are already divided out. *)
  Definition stage (m i : Z) : Prop :=
    i = 2 \/ (i = 3 /\ ~ (2 | m)) \/ (~ (2 | m) /\ ~ (3 | m)).
  Lemma fits_small x : 0 <= x < 256 -> fits M x.
  Proof. intros H. split; [lia|]. destruct HM; auto. right. lia. Qed.
  Lemma prime_after_2 f : prime_after M sq f 2 = Some 3.
  Proof.
    unfold prime_after. rewrite norm_small by (auto; apply fits_small; lia).
    unfold next_prime. reflexivity.
  Qed.
  Lemma prime_after_harmless f i i' : fits M i -> prime_after M sq f i = Some i' -> fits M i' /\ harmless i'.
  Proof.
    intros Fi. unfold prime_after. apply next_prime_harmless; auto. apply fits_norm; auto. destruct Fi; lia.
  Qed.
  Lemma stage_next f m i i' k m' : fits M i -> stage m i -> m = i ^ Z.of_nat k * m' -> ~ (i | m') ->
    prime_after M sq f i = Some i' -> stage m' i'.
  Proof.
    intros Fi HS Em Hn Hi. assert (D : forall x, (x | m') -> (x | m)) by (intros x Hx; rewrite Em; now apply Z.divide_mul_r).
    destruct HS as [->|[[-> H2]|[H2 H3]]].
    - rewrite prime_after_2 in Hi. injection Hi as <-. right; left. auto.
    - right; right. auto.
    - right; right. auto.
  Qed.
  (** A divisor met in the loop is prime. *)
  Lemma stage_prime m i : stage m i -> harmless i -> 2 <= i -> (i | m) -> prime i.
  Proof.
    intros HS HH Hi D. destruct HS as [->|[[-> H2]|[H2 H3]]]; auto using prime_2, prime_3.
    destruct HH as [->|[->|[E|[E|P]]]]; try lia; auto; exfalso; [apply H2|apply H3]; eapply Z.divide_trans; eauto.
  Qed.

  Lemma fact_loop_sound f : forall m i l, 0 < m -> fits M i -> harmless i -> stage m i ->
    fact_loop M sq f m i = Some l -> prod l = m /\ Forall prime l.
  Proof.
    induction f as [|f IH]; intros m i l Hm Fi HH HS; [discriminate|]. cbn [fact_loop].
    destruct (Z.eqb_spec m 1) as [->|H1]; [intros [= <-]; split; [reflexivity|constructor]|].
    destruct (strip (S f) m i) as [[l1 m1]|] eqn:E1; cbn [obind]; [|discriminate].
    destruct (prime_after M sq (S f) i) as [i'|] eqn:E2; cbn [obind]; [|discriminate].
    destruct (fact_loop M sq f m1 i') as [r|] eqn:E3; cbn [obind]; [|discriminate].
    intros [= <-]. destruct (strip_spec Hm (proj1 Fi) E1) as (H2 & (k & -> & Ek) & Hn & Hp).
    destruct (prime_after_harmless Fi E2) as [Fi' HH'].
    destruct (IH m1 i' r Hp Fi' HH' (stage_next Fi HS Ek Hn E2) E3) as [P1 P2].
    split; [rewrite prod_app, prod_repeat, P1; auto|].
    apply Forall_app. split; auto. apply Forall_forall. intros x Hx.
    destruct k as [|k]; [contradiction|].
    assert (x = i) as -> by exact (repeat_spec _ _ _ Hx).
    apply stage_prime with m; auto.
    rewrite Ek, Nat2Z.inj_succ, Z.pow_succ_r by lia. exists (i ^ Z.of_nat k * m1). ring.
  Qed.
  Lemma factorise_sound f n l : 0 < n -> factorise M sq f n = Some l -> prod l = n /\ Forall prime l.
  Proof.
    intros Hn. apply fact_loop_sound; auto; [apply fits_small; lia| |left; reflexivity].
    unfold harmless. auto using prime_2.
  Qed.

  Lemma ufact_loop_sound f : forall m i l, 0 < m -> fits M i -> harmless i -> stage m i ->
    ufact_loop M sq f m i = Some l ->
    NoDup l /\ Forall prime l /\ forall p, prime p -> (p | m) <-> In p l.
  Proof.
    induction f as [|f IH]; intros m i l Hm Fi HH HS; [discriminate|]. cbn [ufact_loop].
    destruct (Z.eqb_spec m 1) as [->|H1].
    { intros [= <-]. split; [constructor|]. split; [constructor|]. intros p Pp. split; [|contradiction].
      intros D. apply Z.divide_1_r_nonneg in D; pose proof (prime_ge_2 p Pp); lia. }
    destruct (strip (S f) m i) as [[l1 m1]|] eqn:E1; cbn [obind]; [|discriminate].
    destruct (prime_after M sq (S f) i) as [i'|] eqn:E2; cbn [obind]; [|discriminate].
    destruct (ufact_loop M sq f m1 i') as [r|] eqn:E3; cbn [obind]; [|discriminate].
    intros [= <-]. destruct (strip_spec Hm (proj1 Fi) E1) as (H2 & (k & -> & Ek) & Hn & Hp).
    destruct (prime_after_harmless Fi E2) as [Fi' HH'].
    destruct (IH m1 i' r Hp Fi' HH' (stage_next Fi HS Ek Hn E2) E3) as (N1 & P1 & D1).
    destruct k as [|k].
    - cbn [repeat app]. cbn [Z.of_nat] in Ek. rewrite Z.pow_0_r, Z.mul_1_l in Ek. subst m1. auto.
    - assert (Pi : prime i).
      { apply stage_prime with m; auto.
        rewrite Ek, Nat2Z.inj_succ, Z.pow_succ_r by lia. exists (i ^ Z.of_nat k * m1). ring. }
      cbn [repeat app]. split; [|split].
      + constructor; auto. intros Hin. apply Hn. apply D1; auto.
      + constructor; auto.
      + intros p Pp. rewrite Ek. cbn [In]. rewrite <- (D1 p Pp). split.
        * intros D. apply prime_mult in D; auto. destruct D as [D|D]; auto.
          left. symmetry. eapply prime_pow_div; eauto.
        * intros [<-|D]; [|now apply Z.divide_mul_r].
          apply Z.divide_mul_l. rewrite Nat2Z.inj_succ, Z.pow_succ_r by lia. apply Z.divide_factor_l.
  Qed.
  Lemma ufactorise_sound f n l : 0 < n -> ufactorise M sq f n = Some l ->
    NoDup l /\ Forall prime l /\ forall p, prime p -> (p | n) <-> In p l.
  Proof.
    intros Hn. apply ufact_loop_sound; auto; [apply fits_small; lia| |left; reflexivity].
    unfold harmless. auto using prime_2.
  Qed.
End Fact.

(** *** More fuel never changes a result. *)
Section Mono.
  Variable M : Z.
  Variable sq : Z -> Z.
  Lemma next_loop_mono f : forall f' a r, (f <= f')%nat -> next_loop M sq f a = Some r -> next_loop M sq f' a = Some r.
  Proof.
    induction f as [|f IH]; intros [|f'] a r Hf; try lia; try discriminate. cbn [next_loop].
    destruct (npc M sq a) as [[|]|]; cbn [obind]; auto.
    destruct (npc M sq (norm M (a + 2))) as [[|]|]; cbn [obind]; auto. apply IH. lia.
  Qed.
  Lemma prime_after_mono f f' a r : (f <= f')%nat -> prime_after M sq f a = Some r -> prime_after M sq f' a = Some r.
  Proof.
    intros Hf. unfold prime_after, next_prime. destruct (_ <? 4); auto.
    destruct (_ =? 1); [destruct (npc M sq _) as [[|]|]; cbn [obind]; auto|cbn [obind]]; now apply next_loop_mono.
  Qed.
  Lemma prime_after_det f f' a r r' : prime_after M sq f a = Some r -> prime_after M sq f' a = Some r' -> r = r'.
  Proof.
    intros H H'. destruct (Nat.le_ge_cases f f') as [L|L].
    - rewrite (prime_after_mono L H) in H'. congruence.
    - rewrite (prime_after_mono L H') in H. congruence.
  Qed.
End Mono.

(** *** The exact square root, unbounded type *)
Notation sqrtZ := Z.sqrt.
Lemma sqrtZ_ok : sqrt_ok Z.sqrt.
Proof. intros a Ha. lia. Qed.

(** Primes below 137 and the other values the search visits on the way. *)
Definition chain : list Z :=
  [2;3;5;7;11;13;17;19;23;27;29;31;37;41;43;47;51;53;57;59;61;67;71;73;79;83;87;89;93;97;101;103;107;109;113;117;127;131].
Fixpoint linked (l : list Z) : bool :=
  match l with
  | x :: ((y :: _) as r) =>
      match prime_after 0 sqrtZ 10 x with Some z => (z =? y) && linked r | None => false end
  | _ => true
  end.
Lemma type_ok_0 : type_ok 0.
Proof. left. reflexivity. Qed.
Lemma chain_primes p : prime p -> p < 137 -> In p chain.
Proof.
  intros Pp H. pose proof (prime_ge_2 p Pp).
  assert (C : forallb (fun n => implb (match is_prime_num 0 sqrtZ 32 (Z.of_nat n + 2) with Some r => r | None => true end)
                          (existsb (Z.eqb (Z.of_nat n + 2)) chain)) (seq 0 135) = true) by (vm_compute; reflexivity).
  rewrite forallb_forall in C. specialize (C (Z.to_nat (p - 2))).
  replace (Z.of_nat (Z.to_nat (p - 2)) + 2) with p in C by lia.
  destruct (@is_prime_num_spec 0 sqrtZ type_ok_0 sqrtZ_ok 32 p) as (r & E & Hr); [lia|split; [lia|auto]|].
  rewrite E in C. assert (r = true) as -> by (apply Hr; auto). cbn [implb] in C.
  assert (X : existsb (Z.eqb p) chain = true) by (apply C; apply in_seq; lia).
  apply existsb_exists in X. destruct X as (x & Hx & Ex). apply Z.eqb_eq in Ex. subst x. exact Hx.
Qed.

Lemma last_cons (l : list Z) : forall x d, last (x :: l) d = last l x.
Proof.
  induction l as [|y l IH]; intros x d; [reflexivity|]. rewrite (IH y x).
  change (last (x :: y :: l) d) with (last (y :: l) d). apply IH.
Qed.

(** Walking down a linked chain that contains all prime factors terminates. *)
Lemma walk l : forall m i f, 0 < m -> linked (i :: l) = true ->
  (exists j, prime_after 0 sqrtZ 10 (last l i) = Some j) -> Forall (fun x => 2 <= x) (i :: l) ->
  (forall p, prime p -> (p | m) -> In p (i :: l)) -> m < 2 ^ (Z.of_nat f - Z.of_nat (length l) - 1) ->
  (length l + 11 <= f)%nat ->
  exists r, fact_loop 0 sqrtZ f m i = Some r.
Proof.
  induction l as [|j l IH]; intros m i f Hm HL Hlast HF HP Hf1 Hf2.
  all: destruct f as [|f]; [lia|]; cbn [fact_loop].
  all: destruct (Z.eqb_spec m 1) as [->|Hm1]; [eexists; reflexivity|].
  all: pose proof (Forall_inv HF) as Hi; cbv beta in Hi.
  all: destruct (@strip_total (S f) m i) as (ls & m' & Es & Hle); [auto|auto| |].
  1,3: eapply Z.lt_le_trans; [exact Hf1|]; apply Z.pow_le_mono_r; lia.
  all: assert (Hi0 : 0 <= i) by lia.
  all: rewrite Es; cbn [obind]; destruct (strip_spec Hm Hi0 Es) as (_ & (k & _ & Ek) & Hn & Hp).
  - cbn [last] in Hlast. destruct Hlast as (j & Ej).
    rewrite (@prime_after_mono _ _ 10 (S f) _ _ ltac:(cbn in Hf2; lia) Ej). cbn [obind].
    assert (m' = 1).
    { destruct (Z.eq_dec m' 1); auto. destruct (@prime_divisor_exists m') as (p & Pp & Dp); [lia|].
      destruct (HP p Pp) as [->|[]]; [|contradiction]. rewrite Ek. now apply Z.divide_mul_r. }
    subst m'. destruct f as [|f]; [cbn in Hf2; lia|]. cbn [fact_loop]. cbn. eexists; reflexivity.
  - cbn [linked] in HL. destruct (prime_after 0 sqrtZ 10 i) as [z|] eqn:Ez; [|discriminate].
    apply andb_true_iff in HL. destruct HL as [Hz HL]. apply Z.eqb_eq in Hz. subst z.
    rewrite (@prime_after_mono _ _ 10 (S f) _ _ ltac:(cbn in Hf2; lia) Ez). cbn [obind].
    destruct (IH m' j f) as (r & Er); auto.
    + rewrite last_cons in Hlast. exact Hlast.
    + exact (Forall_inv_tail HF).
    + intros p Pp Dp. destruct (HP p Pp) as [->|Hin]; auto.
      * rewrite Ek. now apply Z.divide_mul_r.
      * contradiction.
    + eapply Z.le_lt_trans; [exact Hle|]. eapply Z.lt_le_trans; [exact Hf1|]. apply Z.pow_le_mono_r; cbn [length] in *; lia.
    + cbn [length] in *. lia.
    + rewrite Er. cbn [obind]. eexists; reflexivity.
Qed.
Lemma factorise_smooth n f : 0 < n -> (forall p, prime p -> (p | n) -> p < 137) ->
  n < 2 ^ (Z.of_nat f - 40) -> (60 <= f)%nat -> exists l, factorise 0 sqrtZ f n = Some l.
Proof.
  intros Hn HP Hf Hf2. unfold factorise.
  apply (@walk (tl chain)); [exact Hn|..].
  - vm_compute. reflexivity.
  - exists 139. vm_compute. reflexivity.
  - change (2 :: tl chain) with chain. repeat (constructor; [lia|]). constructor.
  - intros p Pp Dp. change (2 :: tl chain) with chain. apply chain_primes; auto.
  - eapply Z.lt_le_trans; [exact Hf|]. apply Z.pow_le_mono_r; [lia|]. cbn [tl chain length]. lia.
  - cbn [tl chain length]. lia.
Qed.

(** 137 is never reached. *)
Lemma fact_none_above f : forall m i, 1 < m -> m < i -> fact_loop 0 sqrtZ f m i = None.
Proof.
  induction f as [|f IH]; intros m i Hm Hi; [reflexivity|]. cbn [fact_loop].
  destruct (Z.eqb_spec m 1); [lia|]. cbn [strip]. destruct (Z.eqb_spec i 0); [lia|].
  rewrite Z.mod_small by lia. destruct (Z.eqb_spec m 0); [lia|]. cbn [obind].
  destruct (prime_after 0 sqrtZ (S f) i) as [i'|] eqn:E; cbn [obind]; [|reflexivity].
  apply prime_after_gt in E; auto. rewrite IH by lia. reflexivity.
Qed.
Lemma fact_none_step m i i' : m <> 1 -> i <> 0 -> (m mod i =? 0) = false -> prime_after 0 sqrtZ 10 i = Some i' ->
  (forall f, fact_loop 0 sqrtZ f m i' = None) -> forall f, fact_loop 0 sqrtZ f m i = None.
Proof.
  intros Hm Hi Hd Hn H [|f]; [reflexivity|]. cbn [fact_loop]. destruct (Z.eqb_spec m 1); [lia|].
  cbn [strip]. destruct (Z.eqb_spec i 0); [lia|]. rewrite Hd. cbn [obind].
  destruct (prime_after 0 sqrtZ (S f) i) as [x|] eqn:E; cbn [obind]; [|reflexivity].
  rewrite (prime_after_det E Hn), H. reflexivity.
Qed.
Lemma factorise_137 f : factorise 0 sqrtZ f 137 = None.
Proof.
  unfold factorise. revert f.
  do 38 (eapply fact_none_step; [discriminate|discriminate|vm_compute; reflexivity|vm_compute; reflexivity|]).
  intros f. apply fact_none_above; lia.
Qed.
Lemma prime_137 : prime 137.
Proof.
  destruct (@is_prime_num_spec 0 sqrtZ type_ok_0 sqrtZ_ok 32 137) as (r & E & Hr); [lia|split; [lia|auto]|].
  vm_compute in E. injection E as <-. destruct (proj1 Hr eq_refl); [lia|auto].
Qed.
Lemma prime_div_pow2 p n : 0 <= n -> prime p -> (p | 2 ^ n) -> p = 2.
Proof.
  intros Hn Pp. revert n Hn. apply (natlike_ind (fun n => (p | 2 ^ n) -> p = 2)).
  - intros H. pose proof (prime_ge_2 p Pp). apply Z.divide_1_r_nonneg in H; lia.
  - intros n Hn IH H. rewrite Z.pow_succ_r in H by lia. apply prime_mult in H; auto.
    destruct H; auto. apply prime_div_prime; auto. exact prime_2.
Qed.
