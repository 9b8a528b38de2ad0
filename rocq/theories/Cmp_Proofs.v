(** Proofs about the comparison of arrays. *)
From Verif Require Import Base Cmp_Model Cmp_Spec.

Section Order.
Variable A : Type.
Variable lt : A -> A -> Prop.
Hypothesis HT : strict_total lt.

Lemma dict_nil_l y b : dict lt [] (y :: b).
Proof. left. exists y, b. reflexivity. Qed.
Lemma dict_nil_r a : ~ dict lt a [].
Proof.
  intros [(y & t & E)|(p & x & y & s & t & _ & E & _)].
  - destruct a; discriminate.
  - destruct p; discriminate.
Qed.
Lemma dict_cons x y a b : dict lt (x :: a) (y :: b) <-> lt x y \/ (x = y /\ dict lt a b).
Proof.
  split.
  - intros [(z & t & E)|(p & u & v & s & t & E1 & E2 & H)].
    + cbn [app] in E. injection E as <- ->. right. split; [reflexivity|]. left. eauto.
    + destruct p as [|q p]; cbn [app] in *.
      * injection E1 as -> ->. injection E2 as -> ->. auto.
      * injection E1 as -> ->. injection E2 as -> ->. right. split; [reflexivity|]. right.
        exists p, u, v, s, t. auto.
  - intros [H|[-> [(z & t & ->)|(p & u & v & s & t & -> & -> & H)]]].
    + right. exists [], x, y, a, b. auto.
    + left. exists z, t. reflexivity.
    + right. exists (y :: p), u, v, s, t. auto.
Qed.

Lemma dict_irrefl a : ~ dict lt a a.
Proof.
  induction a as [|x a IH]; [apply dict_nil_r|]. rewrite dict_cons. intros [H|[_ H]]; [|tauto].
  exact (st_irrefl HT H).
Qed.
Lemma dict_trans a : forall b c, dict lt a b -> dict lt b c -> dict lt a c.
Proof.
  induction a as [|x a IH]; intros [|y b] [|z c] H1 H2; try (exfalso; eapply dict_nil_r; eassumption).
  - apply dict_nil_l.
  - apply dict_cons in H1. apply dict_cons in H2. apply dict_cons.
    destruct H1 as [H1|[-> H1]], H2 as [H2|[<- H2]]; eauto using (st_trans HT).
Qed.
Lemma dict_total a : forall b, dict lt a b \/ a = b \/ dict lt b a.
Proof.
  induction a as [|x a IH]; intros [|y b]; auto using dict_nil_l.
  rewrite !dict_cons. destruct (st_total HT x y) as [H|[->|H]]; auto.
  destruct (IH b) as [H|[->|H]]; auto.
Qed.
Lemma dict_strict_total : strict_total (dict lt).
Proof. split; [exact dict_irrefl|exact dict_trans|exact dict_total]. Qed.
Lemma shorter_first_strict_total : strict_total (shorter_first lt).
Proof.
  split.
  - intros a [H|[_ H]]; [lia|]. exact (dict_irrefl H).
  - intros a b c [H1|[L1 H1]] [H2|[L2 H2]]; unfold shorter_first; [left; lia|left; lia|left; lia|].
    right. split; [lia|]. eapply dict_trans; eauto.
  - intros a b. unfold shorter_first. destruct (lt_eq_lt_dec (length a) (length b)) as [[H|H]|H]; auto.
    destruct (dict_total a b) as [D|[->|D]]; auto.
Qed.

(** Results of a comparison that reports an order are antisymmetric, transitive. *)
Lemma reports_unique {X} (R : X -> X -> Prop) : strict_total R -> forall c d x y,
  reports R c x y -> reports R d x y -> c = d.
Proof.
  intros [I T _] c d x y Hc Hd. unfold reports in *.
  destruct c, d; try reflexivity; subst; exfalso; try (eapply I; eassumption).
  - eapply I; eapply T; eassumption.
  - eapply I; eapply T; eassumption.
Qed.
Lemma reports_reverse {X} (R : X -> X -> Prop) c x y : reports R c x y -> reports R (reverse c) y x.
Proof. destruct c; cbn; auto. Qed.
End Order.

Section Cmp.
Variable A : Type.
Variable eqb : A -> A -> bool.
Variable zero : A.
Hypothesis Heq : forall x y, eqb x y = true <-> x = y.

Lemma eqb_refl x : eqb x x = true.
Proof. apply Heq. reflexivity. Qed.
Lemma eqb_neq x y : x <> y -> eqb x y = false.
Proof. intros H. destruct (eqb x y) eqn:E; [|reflexivity]. apply Heq in E. contradiction. Qed.
Lemma eqb_spec x y : reflect (x = y) (eqb x y).
Proof. destruct (eqb x y) eqn:E; constructor; [apply Heq; exact E|]. intros H. apply Heq in H. congruence. Qed.
(** ** Equality *)

Lemma equal_n_spec s t a b n : block_at a n s -> block_at b n t ->
  exists r, equal_n eqb a b n = Some r /\ (r = true <-> s = t).
Proof.
  revert s t a b. induction n as [|n IH]; intros s t a b [Ls [ra Ea]] [Lt' [rb Eb]]; cbn [equal_n].
  - destruct s, t; try discriminate. exists true. repeat split; reflexivity.
  - destruct s as [|x s]; [discriminate|]. destruct t as [|y t]; [discriminate|]. subst a b.
    cbn [app]. destruct (eqb_spec x y) as [->|Hne].
    + destruct (IH s t (s ++ ra) (t ++ rb)) as (r & E & Hr).
      * split; [cbn in Ls; lia|eauto].
      * split; [cbn in Lt'; lia|eauto].
      * exists r. split; [exact E|]. rewrite Hr. split; [intros ->; reflexivity|congruence].
    + exists false. split; [reflexivity|]. split; [discriminate|congruence].
Qed.
Lemma equal_sizes_spec s t a b n m : block_at a n s -> block_at b m t ->
  exists r, equal_sizes eqb a n b m = Some r /\ (r = true <-> s = t).
Proof.
  intros Ha Hb. unfold equal_sizes. destruct (Nat.eqb_spec n m) as [<-|H].
  - apply equal_n_spec; auto.
  - exists false. split; [reflexivity|]. split; [discriminate|]. intros ->.
    destruct Ha as [Ha _], Hb as [Hb _]. congruence.
Qed.
Lemma equal_size_zero_spec s t a b n : block_at a n s -> string_at zero b t ->
  exists r, equal_size_zero eqb zero a n b = Some r /\ (r = true <-> s = t).
Proof.
  revert s t a b. induction n as [|n IH]; intros s t a b [Ls [ra Ea]] [Ht [rb Eb]]; cbn [equal_size_zero].
  - destruct s; [|discriminate]. subst b. destruct t as [|y t]; cbn [app].
    + exists true. rewrite eqb_refl. repeat split; reflexivity.
    + exists false. rewrite eqb_neq by (intros ->; apply Ht; left; reflexivity).
      split; [reflexivity|]. split; discriminate.
  - destruct s as [|x s]; [discriminate|]. subst a b. cbn [app].
    destruct t as [|y t]; cbn [app].
    + exists false. rewrite eqb_refl, orb_true_r. split; [reflexivity|]. split; discriminate.
    + rewrite (@eqb_neq y zero) by (intros ->; apply Ht; left; reflexivity). rewrite orb_false_r.
      destruct (eqb_spec x y) as [->|Hne]; cbn [negb].
      * destruct (IH s t (s ++ ra) (t ++ zero :: rb)) as (r & E & Hr).
        -- split; [cbn in Ls; lia|eauto].
        -- split; [intros H; apply Ht; right; exact H|eauto].
        -- exists r. split; [exact E|]. rewrite Hr. split; [intros ->; reflexivity|congruence].
      * exists false. split; [reflexivity|]. split; [discriminate|congruence].
Qed.
Lemma equal_zero_zero_spec s t a b : string_at zero a s -> string_at zero b t ->
  exists r, equal_zero_zero eqb zero a b = Some r /\ (r = true <-> s = t).
Proof.
  revert t a b. induction s as [|x s IH]; intros t a b [Hs [ra ->]] [Ht [rb ->]]; cbn [app].
  - destruct t as [|y t]; cbn [app equal_zero_zero].
    + rewrite eqb_refl. cbn [negb]. exists true. repeat split; reflexivity.
    + rewrite eqb_neq by (intros <-; apply Ht; left; reflexivity). exists false.
      split; [reflexivity|]. split; discriminate.
  - assert (Hx : x <> zero) by (intros ->; apply Hs; left; reflexivity).
    destruct t as [|y t]; cbn [app equal_zero_zero].
    + rewrite (@eqb_neq x zero) by exact Hx. exists false. split; [reflexivity|]. split; discriminate.
    + destruct (eqb_spec x y) as [->|Hne]; cbn [negb].
      * rewrite eqb_neq by exact Hx. destruct (IH t (s ++ zero :: ra) (t ++ zero :: rb)) as (r & E & Hr).
        -- split; [intros H; apply Hs; right; exact H|eauto].
        -- split; [intros H; apply Ht; right; exact H|eauto].
        -- exists r. split; [exact E|]. rewrite Hr. split; [intros ->; reflexivity|congruence].
      * exists false. split; [reflexivity|]. split; [discriminate|congruence].
Qed.
Lemma equal_part_zero_spec s t a b n : block_at a n s -> string_at zero b t ->
  exists r, equal_part_zero eqb zero a n b = Some r /\ (r = true <-> exists u, t = s ++ u).
Proof.
  revert s t a b. induction n as [|n IH]; intros s t a b [Ls [ra Ea]] [Ht [rb Eb]]; cbn [equal_part_zero].
  - destruct s; [|discriminate]. exists true. cbn [app]. split; [reflexivity|]. split; eauto.
  - destruct s as [|x s]; [discriminate|]. subst a b. cbn [app].
    destruct t as [|y t]; cbn [app].
    + exists false. rewrite eqb_refl, orb_true_r. split; [reflexivity|].
      split; [discriminate|intros [u Hu]; discriminate].
    + rewrite (@eqb_neq y zero) by (intros ->; apply Ht; left; reflexivity). rewrite orb_false_r.
      destruct (eqb_spec x y) as [->|Hne]; cbn [negb].
      * destruct (IH s t (s ++ ra) (t ++ zero :: rb)) as (r & E & Hr).
        -- split; [cbn in Ls; lia|eauto].
        -- split; [intros H; apply Ht; right; exact H|eauto].
        -- exists r. split; [exact E|]. rewrite Hr. split; intros [u Hu]; exists u; congruence.
      * exists false. split; [reflexivity|]. split; [discriminate|]. intros [u Hu]. congruence.
Qed.

(** ** Three-way comparison *)

Variable cmp : A -> A -> comparison.
Variable lt : A -> A -> Prop.
Hypothesis HT : strict_total lt.
Hypothesis Hcmp : forall x y, reports lt (cmp x y) x y.

Lemma cmp_refl x : cmp x x = Eq.
Proof.
  pose proof (Hcmp x x) as H. destruct (cmp x x); [reflexivity| |]; exfalso; exact (st_irrefl HT H).
Qed.

Lemma reports_cons x s t c : reports (dict lt) c s t -> reports (dict lt) c (x :: s) (x :: t).
Proof.
  destruct c; cbn [reports]; [congruence| |]; intros H; apply dict_cons; auto.
Qed.
Lemma cmp_dict x y s t c : cmp x y = c -> c <> Eq -> reports (dict lt) c (x :: s) (y :: t).
Proof.
  intros E Hc. pose proof (Hcmp x y) as H. rewrite E in H.
  destruct c; [congruence| |]; cbn [reports] in *; apply dict_cons; auto.
Qed.
Lemma cmp_eq x y : cmp x y = Eq -> x = y.
Proof. intros E. pose proof (Hcmp x y) as H. rewrite E in H. exact H. Qed.

Lemma compare_n_spec s t a b n : block_at a n s -> block_at b n t ->
  exists c, compare_n cmp a b n = Some c /\ reports (dict lt) c s t.
Proof.
  revert s t a b. induction n as [|n IH]; intros s t a b [Ls [ra Ea]] [Lt' [rb Eb]]; cbn [compare_n].
  - destruct s, t; try discriminate. exists Eq. split; reflexivity.
  - destruct s as [|x s]; [discriminate|]. destruct t as [|y t]; [discriminate|]. subst a b.
    cbn [app]. destruct (cmp x y) eqn:Ec.
    + apply cmp_eq in Ec. subst y.
      destruct (IH s t (s ++ ra) (t ++ rb)) as (c & E & Hc).
      * split; [cbn in Ls; lia|eauto].
      * split; [cbn in Lt'; lia|eauto].
      * exists c. split; [exact E|]. apply reports_cons. exact Hc.
    + exists Lt. split; [reflexivity|]. apply cmp_dict; congruence.
    + exists Gt. split; [reflexivity|]. apply cmp_dict; congruence.
Qed.
Lemma reports_same_length s t c : length s = length t -> reports (dict lt) c s t ->
  reports (shorter_first lt) c s t.
Proof. intros L. destruct c; cbn [reports]; unfold shorter_first; auto. Qed.
Lemma compare_sizes_spec s t a b n m : block_at a n s -> block_at b m t ->
  exists c, compare_sizes cmp a n b m = Some c /\ reports (shorter_first lt) c s t.
Proof.
  intros Ha Hb. unfold compare_sizes. destruct (Nat.compare_spec n m) as [E|E|E].
  - subst m. destruct (compare_n_spec Ha Hb) as (c & Ec & Hc). exists c. split; [exact Ec|].
    apply reports_same_length; auto. destruct Ha as [<- _], Hb as [-> _]. reflexivity.
  - exists Lt. split; [reflexivity|]. left. destruct Ha as [<- _], Hb as [<- _]. exact E.
  - exists Gt. split; [reflexivity|]. left. destruct Ha as [<- _], Hb as [<- _]. exact E.
Qed.

(** [tmp] is the outcome of equally long parts already read. *)
Lemma keep_dict tmp u v x y : length u = length v -> reports (dict lt) tmp u v ->
  reports (dict lt) (keep cmp tmp x y) (u ++ [x]) (v ++ [y]).
Proof.
  revert v. induction u as [|p u IH]; intros [|q v] L H; try discriminate.
  - destruct tmp; cbn [reports] in H; try (exfalso; eapply dict_nil_r; eassumption).
    cbn [keep app]. destruct (cmp x y) eqn:E.
    + apply cmp_eq in E. subst. reflexivity.
    + apply cmp_dict; congruence.
    + apply cmp_dict; congruence.
  - cbn [length] in L. cbn [app]. destruct tmp; cbn [keep reports] in *.
    + injection H as -> ->. apply reports_cons. apply (IH v); [lia|reflexivity].
    + apply dict_cons in H. apply dict_cons. destruct H as [H|[-> H]]; [auto|]. right. split; [reflexivity|].
      apply (IH v); [lia|exact H].
    + apply dict_cons in H. apply dict_cons. destruct H as [H|[-> H]]; [auto|]. right. split; [reflexivity|].
      apply (IH v); [lia|exact H].
Qed.

Lemma compare_size_zero_gen n : forall u v s t a b tmp, length u = length v -> reports (dict lt) tmp u v ->
  block_at a n s -> string_at zero b t ->
  exists c, compare_size_zero eqb cmp zero tmp a n b = Some c /\
            reports (shorter_first lt) c (u ++ s) (v ++ t).
Proof.
  induction n as [|n IH]; intros u v s t a b tmp L Htmp [Ls [ra Ea]] [Ht [rb Eb]]; cbn [compare_size_zero].
  - destruct s; [|discriminate]. subst b. destruct t as [|y t]; cbn [app]; rewrite ?app_nil_r.
    + rewrite eqb_refl. exists tmp. split; [reflexivity|]. apply reports_same_length; auto.
    + rewrite eqb_neq by (intros ->; apply Ht; left; reflexivity). exists Lt. split; [reflexivity|].
      left. rewrite app_length. cbn [length]. lia.
  - destruct s as [|x s]; [discriminate|]. subst a b. cbn [app].
    destruct t as [|y t]; cbn [app].
    + rewrite eqb_refl. exists Gt. split; [reflexivity|]. left. rewrite !app_length. cbn [length]. lia.
    + rewrite (@eqb_neq y zero) by (intros ->; apply Ht; left; reflexivity).
      destruct (IH (u ++ [x]) (v ++ [y]) s t (s ++ ra) (t ++ zero :: rb) (keep cmp tmp x y)) as (c & E & Hc).
      * rewrite !app_length. cbn. lia.
      * apply keep_dict; auto.
      * split; [cbn in Ls; lia|eauto].
      * split; [intros H; apply Ht; right; exact H|eauto].
      * exists c. split; [exact E|]. rewrite <- !app_assoc in Hc. exact Hc.
Qed.
Lemma compare_size_zero_spec s t a b n : block_at a n s -> string_at zero b t ->
  exists c, compare_size_zero eqb cmp zero Eq a n b = Some c /\ reports (shorter_first lt) c s t.
Proof. intros Ha Hb. exact (@compare_size_zero_gen n [] [] s t a b Eq eq_refl eq_refl Ha Hb). Qed.

Lemma compare_part_zero_gen n : forall u v s t a b tmp, length u = length v -> reports (dict lt) tmp u v ->
  block_at a n s -> string_at zero b t ->
  exists c, compare_part_zero eqb cmp zero tmp a n b = Some c /\
    if Nat.ltb (length t) n then c = Gt
    else reports (dict lt) c (u ++ s) (v ++ firstn n t).
Proof.
  induction n as [|n IH]; intros u v s t a b tmp L Htmp [Ls [ra Ea]] [Ht [rb Eb]]; cbn [compare_part_zero].
  - destruct s; [|discriminate]. exists tmp. split; [reflexivity|].
    cbn [firstn]. rewrite !app_nil_r. exact Htmp.
  - destruct s as [|x s]; [discriminate|]. subst a b. cbn [app].
    destruct t as [|y t]; cbn [app].
    + rewrite eqb_refl. exists Gt. split; reflexivity.
    + rewrite (@eqb_neq y zero) by (intros ->; apply Ht; left; reflexivity).
      destruct (IH (u ++ [x]) (v ++ [y]) s t (s ++ ra) (t ++ zero :: rb) (keep cmp tmp x y)) as (c & E & Hc).
      * rewrite !app_length. cbn. lia.
      * apply keep_dict; auto.
      * split; [cbn in Ls; lia|eauto].
      * split; [intros H; apply Ht; right; exact H|eauto].
      * exists c. split; [exact E|]. cbn [length firstn].
        destruct (Nat.ltb_spec (length t) n) as [H|H]; destruct (Nat.ltb_spec (S (length t)) (S n)) as [H'|H'];
          try lia; [exact Hc|]. rewrite <- !app_assoc in Hc. exact Hc.
Qed.
Lemma compare_part_zero_spec s t a b n : block_at a n s -> string_at zero b t ->
  exists c, compare_part_zero eqb cmp zero Eq a n b = Some c /\
    ((length t < n)%nat -> c = Gt) /\
    ((n <= length t)%nat -> reports (dict lt) c s (firstn n t)).
Proof.
  intros Ha Hb. destruct (@compare_part_zero_gen n [] [] s t a b Eq eq_refl eq_refl Ha Hb) as (c & E & H).
  exists c. split; [exact E|]. destruct (Nat.ltb_spec (length t) n) as [Hl|Hl]; split; intros; auto; lia.
Qed.

(** Zero-terminated left operand: what the loop of [compare_zero_size] computes. *)
Lemma compare_zero_size_gen n : forall u v s t a b tmp, length u = length v -> reports (dict lt) tmp u v ->
  string_at zero a s -> block_at b n t ->
  ((length s < n)%nat -> exists c, compare_zero_size eqb cmp zero tmp a b n = Some c /\
     reports (shorter_first lt) c (u ++ s) (v ++ t)) /\
  ((n <= length s)%nat -> compare_zero_size eqb cmp zero tmp a b n =
     match skipn n b with
     | [] => None
     | y :: _ => Some (if eqb y zero then
                         match tmp with
                         | Eq => match compare_n cmp a b n with Some c => c | None => Eq end
                         | _ => tmp end
                       else Lt)
     end).
Proof.
  induction n as [|n IH]; intros u v s t a b tmp L Htmp [Hs [ra Ea]] [Lt' [rb Eb]]; cbn [compare_zero_size].
  - split; [lia|]. intros _. cbn [skipn compare_n]. destruct b as [|y b]; [reflexivity|].
    destruct tmp; reflexivity.
  - destruct t as [|y t]; [discriminate|]. subst a b. cbn [app].
    destruct s as [|x s]; cbn [app].
    + rewrite eqb_refl. split; [|cbn [length]; lia]. intros _. exists Lt. split; [reflexivity|]. left.
      rewrite !app_length. cbn [length]. lia.
    + rewrite (@eqb_neq x zero) by (intros ->; apply Hs; left; reflexivity).
      destruct (IH (u ++ [x]) (v ++ [y]) s t (s ++ zero :: ra) (t ++ rb) (keep cmp tmp x y)) as [IH1 IH2].
      * rewrite !app_length. cbn. lia.
      * apply keep_dict; auto.
      * split; [intros H; apply Hs; right; exact H|eauto].
      * split; [cbn in Lt'; lia|eauto].
      * rewrite <- !app_assoc in IH1. cbn [app] in IH1. split.
        -- intros H. apply IH1. cbn [length] in H. lia.
        -- intros H. rewrite IH2 by (cbn [length] in H; lia). cbn [skipn].
           destruct (skipn n (t ++ rb)) as [|z l]; [reflexivity|].
           destruct tmp; cbn [keep compare_n]; [|reflexivity|reflexivity].
           destruct (cmp x y); reflexivity.
Qed.
Lemma compare_zero_size_short s t a b n : string_at zero a s -> block_at b n t -> (length s < n)%nat ->
  compare_zero_size eqb cmp zero Eq a b n = Some Lt.
Proof.
  intros Ha Hb Hl. destruct (@compare_zero_size_gen n [] [] s t a b Eq eq_refl eq_refl Ha Hb) as [H _].
  destruct (H Hl) as (c & E & Hc). rewrite E. f_equal. cbn [app] in Hc.
  apply (reports_unique (shorter_first_strict_total HT) Hc). left. destruct Hb as [-> _]. exact Hl.
Qed.
(** The array ends where the size says: undefined unless the string is shorter. *)
Lemma compare_zero_size_ub s t a n : string_at zero a s -> length t = n -> (n <= length s)%nat ->
  compare_zero_size eqb cmp zero Eq a t n = None.
Proof.
  intros Ha Ht Hl.
  destruct (@compare_zero_size_gen n [] [] s t a t Eq eq_refl eq_refl Ha) as [_ H].
  { split; [exact Ht|]. exists []. rewrite app_nil_r. reflexivity. }
  rewrite H by exact Hl. rewrite skipn_all2 by lia. reflexivity.
Qed.
(** Otherwise the result depends on the element after the array. *)
Lemma compare_zero_size_after s t a y rest n : string_at zero a s -> length t = n -> (n <= length s)%nat ->
  (y <> zero -> compare_zero_size eqb cmp zero Eq a (t ++ y :: rest) n = Some Lt) /\
  (y = zero -> exists c, compare_zero_size eqb cmp zero Eq a (t ++ y :: rest) n = Some c /\
     reports (dict lt) c (firstn n s) t).
Proof.
  intros Ha Ht Hl.
  destruct (@compare_zero_size_gen n [] [] s t a (t ++ y :: rest) Eq eq_refl eq_refl Ha) as [_ H].
  { split; [exact Ht|]. eauto. }
  assert (Hsk : skipn n (t ++ y :: rest) = y :: rest).
  { rewrite skipn_app, skipn_all2 by lia. replace (n - length t)%nat with 0%nat by lia. reflexivity. }
  rewrite H by exact Hl. rewrite Hsk. split.
  - intros Hy. rewrite eqb_neq by exact Hy. reflexivity.
  - intros ->. rewrite eqb_refl.
    destruct (@compare_n_spec (firstn n s) t a (t ++ zero :: rest) n) as (c & E & Hc).
    + split; [apply firstn_length_le; exact Hl|]. destruct Ha as [_ [ra ->]].
      exists (skipn n s ++ zero :: ra). rewrite app_assoc, firstn_skipn. reflexivity.
    + split; [exact Ht|eauto].
    + rewrite E. eauto.
Qed.

Lemma compare_zero_zero_gen s : forall u v t a b tmp, length u = length v -> reports (dict lt) tmp u v ->
  string_at zero a s -> string_at zero b t -> (length s <= length t)%nat ->
  exists c, compare_zero_zero eqb cmp zero tmp a b = Some c /\
            reports (shorter_first lt) c (u ++ s) (v ++ t).
Proof.
  induction s as [|x s IH]; intros u v t a b tmp L Htmp [Hs [ra ->]] [Ht [rb ->]] Hl; cbn [app].
  - destruct t as [|y t]; cbn [app compare_zero_zero]; rewrite eqb_refl, ?app_nil_r.
    + exists tmp. split; [reflexivity|]. apply reports_same_length; auto.
    + rewrite eqb_neq by (intros ->; apply Ht; left; reflexivity). exists Lt. split; [reflexivity|].
      left. rewrite app_length. cbn [length]. lia.
  - cbn [compare_zero_zero]. rewrite (@eqb_neq x zero) by (intros ->; apply Hs; left; reflexivity).
    destruct t as [|y t]; [cbn [length] in Hl; lia|]. cbn [app].
    destruct (IH (u ++ [x]) (v ++ [y]) t (s ++ zero :: ra) (t ++ zero :: rb) (keep cmp tmp x y)) as (c & E & Hc).
    + rewrite !app_length. cbn. lia.
    + apply keep_dict; auto.
    + split; [intros H; apply Hs; right; exact H|eauto].
    + split; [intros H; apply Ht; right; exact H|eauto].
    + cbn [length] in Hl. lia.
    + exists c. split; [exact E|]. rewrite <- !app_assoc in Hc. exact Hc.
Qed.
Lemma compare_zero_zero_spec s t a b : string_at zero a s -> string_at zero b t -> (length s <= length t)%nat ->
  exists c, compare_zero_zero eqb cmp zero Eq a b = Some c /\ reports (shorter_first lt) c s t.
Proof. intros Ha Hb. exact (@compare_zero_zero_gen s [] [] t a b Eq eq_refl eq_refl Ha Hb). Qed.
(** The right string is shorter and nothing follows its terminator. *)
Lemma compare_zero_zero_ub s : forall t a tmp, string_at zero a s -> (length t < length s)%nat ->
  compare_zero_zero eqb cmp zero tmp a (t ++ [zero]) = None.
Proof.
  induction s as [|x s IH]; intros t a tmp [Hs [ra ->]] Hl; [cbn [length] in Hl; lia|].
  cbn [app compare_zero_zero]. rewrite (@eqb_neq x zero) by (intros ->; apply Hs; left; reflexivity).
  assert (Hs' : string_at zero (s ++ zero :: ra) s).
  { split; [intros H; apply Hs; right; exact H|eauto]. }
  destruct t as [|y t]; cbn [app].
  - destruct Hs' as [_ _]. destruct s as [|x2 s]; cbn [app compare_zero_zero].
    + rewrite eqb_refl. reflexivity.
    + destruct (eqb x2 zero); reflexivity.
  - apply IH; auto. cbn [length] in Hl. lia.
Qed.

(** ** Dictionary comparison *)

Lemma lex_sizes_spec s t a b n m : block_at a n s -> block_at b m t ->
  exists c, lex_sizes cmp a n b m = Some c /\ reports (dict lt) c s t.
Proof.
  unfold lex_sizes. revert s t a b m. induction n as [|n IH]; intros s t a b m [Ls [ra Ea]] [Lt' [rb Eb]].
  - destruct s; [|discriminate]. cbn [Nat.min compare_n Nat.compare]. destruct m as [|m].
    + destruct t; [|discriminate]. exists Eq. split; reflexivity.
    + destruct t as [|y t]; [discriminate|]. exists Lt. split; [reflexivity|]. apply dict_nil_l.
  - destruct s as [|x s]; [discriminate|]. destruct m as [|m].
    + destruct t; [|discriminate]. exists Gt. split; [reflexivity|]. apply dict_nil_l.
    + destruct t as [|y t]; [discriminate|]. subst a b. cbn [Nat.min compare_n app Nat.compare].
      destruct (cmp x y) eqn:Ec.
      * apply cmp_eq in Ec. subst y. destruct (IH s t (s ++ ra) (t ++ rb) m) as (c & E & Hc).
        -- split; [cbn in Ls; lia|eauto].
        -- split; [cbn in Lt'; lia|eauto].
        -- exists c. split; [exact E|]. apply reports_cons. exact Hc.
      * exists Lt. split; [reflexivity|]. apply cmp_dict; congruence.
      * exists Gt. split; [reflexivity|]. apply cmp_dict; congruence.
Qed.
Lemma lex_size_zero_spec s t a b n : block_at a n s -> string_at zero b t ->
  exists c, lex_size_zero eqb cmp zero a n b = Some c /\ reports (dict lt) c s t.
Proof.
  revert s t a b. induction n as [|n IH]; intros s t a b [Ls [ra Ea]] [Ht [rb Eb]]; cbn [lex_size_zero].
  - destruct s; [|discriminate]. subst b. destruct t as [|y t]; cbn [app].
    + rewrite eqb_refl. exists Eq. split; reflexivity.
    + rewrite eqb_neq by (intros ->; apply Ht; left; reflexivity). exists Lt. split; [reflexivity|]. apply dict_nil_l.
  - destruct s as [|x s]; [discriminate|]. subst a b. cbn [app].
    destruct t as [|y t]; cbn [app].
    + rewrite eqb_refl. exists Gt. split; [reflexivity|]. apply dict_nil_l.
    + rewrite (@eqb_neq y zero) by (intros ->; apply Ht; left; reflexivity).
      destruct (cmp x y) eqn:Ec.
      * apply cmp_eq in Ec. subst y. destruct (IH s t (s ++ ra) (t ++ zero :: rb)) as (c & E & Hc).
        -- split; [cbn in Ls; lia|eauto].
        -- split; [intros H; apply Ht; right; exact H|eauto].
        -- exists c. split; [exact E|]. apply reports_cons. exact Hc.
      * exists Lt. split; [reflexivity|]. apply cmp_dict; congruence.
      * exists Gt. split; [reflexivity|]. apply cmp_dict; congruence.
Qed.
Lemma lex_part_zero_spec s t a b n : block_at a n s -> string_at zero b t ->
  exists c, lex_part_zero eqb cmp zero a n b = Some c /\
    reports (dict lt) c s (firstn n t).
Proof.
  revert s t a b. induction n as [|n IH]; intros s t a b [Ls [ra Ea]] [Ht [rb Eb]]; cbn [lex_part_zero].
  - destruct s; [|discriminate]. exists Eq. split; reflexivity.
  - destruct s as [|x s]; [discriminate|]. subst a b. cbn [app].
    destruct t as [|y t]; cbn [app firstn].
    + rewrite eqb_refl. exists Gt. split; [reflexivity|]. apply dict_nil_l.
    + rewrite (@eqb_neq y zero) by (intros ->; apply Ht; left; reflexivity).
      destruct (cmp x y) eqn:Ec.
      * apply cmp_eq in Ec. subst y. destruct (IH s t (s ++ ra) (t ++ zero :: rb)) as (c & E & Hc).
        -- split; [cbn in Ls; lia|eauto].
        -- split; [intros H; apply Ht; right; exact H|eauto].
        -- exists c. split; [exact E|]. apply reports_cons. exact Hc.
      * exists Lt. split; [reflexivity|]. apply cmp_dict; congruence.
      * exists Gt. split; [reflexivity|]. apply cmp_dict; congruence.
Qed.
(** Two strings: right when no element lies below the terminator. *)
Lemma lex_zero_zero_spec s : forall t a b, string_at zero a s -> string_at zero b t ->
  (forall x, In x s -> lt zero x) ->
  exists c, lex_zero_zero eqb cmp zero a b = Some c /\ reports (dict lt) c s t.
Proof.
  induction s as [|x s IH]; intros t a b [Hs [ra ->]] [Ht [rb ->]] Hpos; cbn [app].
  - destruct t as [|y t]; cbn [app lex_zero_zero]; rewrite eqb_refl.
    + exists Eq. split; reflexivity.
    + rewrite eqb_neq by (intros ->; apply Ht; left; reflexivity). exists Lt. split; [reflexivity|]. apply dict_nil_l.
  - assert (Hx : x <> zero) by (intros ->; apply Hs; left; reflexivity).
    destruct t as [|y t]; cbn [app lex_zero_zero]; rewrite (@eqb_neq x zero) by exact Hx.
    + assert (Hgt : cmp x zero = Gt).
      { pose proof (Hcmp x zero) as H. destruct (cmp x zero); [contradiction| |reflexivity].
        exfalso. apply (st_irrefl HT (x := x)). eapply (st_trans HT); [exact H|]. apply Hpos. left. reflexivity. }
      rewrite Hgt. exists Gt. split; [reflexivity|]. apply dict_nil_l.
    + destruct (cmp x y) eqn:Ec.
      * apply cmp_eq in Ec. subst y. destruct (IH t (s ++ zero :: ra) (t ++ zero :: rb)) as (c & E & Hc).
        -- split; [intros H; apply Hs; right; exact H|eauto].
        -- split; [intros H; apply Ht; right; exact H|eauto].
        -- intros z Hz. apply Hpos. right. exact Hz.
        -- exists c. split; [exact E|]. apply reports_cons. exact Hc.
      * exists Lt. split; [reflexivity|]. apply cmp_dict; congruence.
      * exists Gt. split; [reflexivity|]. apply cmp_dict; congruence.
Qed.
(** A string that goes on with an element below the terminator is put before the
    string it extends. *)
Lemma lex_zero_zero_below p : forall x s a b, string_at zero a (p ++ x :: s) -> string_at zero b p ->
  lt x zero -> lex_zero_zero eqb cmp zero a b = Some Lt.
Proof.
  induction p as [|y p IH]; intros x s a b [Hs [ra ->]] [Ht [rb ->]] Hx; cbn [app lex_zero_zero].
  - rewrite eqb_neq by (intros ->; apply Hs; left; reflexivity).
    pose proof (Hcmp x zero) as H. destruct (cmp x zero) eqn:Ec; [|reflexivity|].
    + cbn in H. subst x. exfalso. exact (st_irrefl HT Hx).
    + exfalso. apply (st_irrefl HT (x := x)). eapply (st_trans HT); eassumption.
  - rewrite (@eqb_neq y zero) by (intros ->; apply Hs; left; reflexivity). rewrite cmp_refl.
    apply (IH x s); auto.
    + split; [intros H; apply Hs; right; exact H|]. exists ra. rewrite <- app_assoc. reflexivity.
    + split; [intros H; apply Ht; right; exact H|eauto].
Qed.
(** Zero-terminated left operand. *)
Lemma lex_zero_size_gen n : forall s t a b, string_at zero a s -> block_at b n t ->
  (t <> firstn n s -> exists c, lex_zero_size eqb cmp zero a b n = Some c /\ reports (dict lt) c s t) /\
  (t = firstn n s -> lex_zero_size eqb cmp zero a b n =
     match skipn n b with [] => None | y :: _ => Some (if eqb y zero then Eq else Lt) end).
Proof.
  induction n as [|n IH]; intros s t a b [Hs [ra Ea]] [Lt' [rb Eb]]; cbn [lex_zero_size firstn].
  - destruct t; [|discriminate]. split; [congruence|]. intros _. cbn [skipn]. reflexivity.
  - destruct t as [|y t]; [discriminate|]. subst a b. cbn [app].
    destruct s as [|x s]; cbn [app].
    + rewrite eqb_refl. split; [|discriminate]. intros _. exists Lt. split; [reflexivity|]. apply dict_nil_l.
    + rewrite (@eqb_neq x zero) by (intros ->; apply Hs; left; reflexivity).
      destruct (cmp x y) eqn:Ec.
      * apply cmp_eq in Ec. subst y.
        destruct (IH s t (s ++ zero :: ra) (t ++ rb)) as [IH1 IH2].
        -- split; [intros H; apply Hs; right; exact H|eauto].
        -- split; [cbn in Lt'; lia|eauto].
        -- split.
           ++ intros H. destruct IH1 as (c & E & Hc); [congruence|]. exists c. split; [exact E|].
              apply reports_cons. exact Hc.
           ++ intros H. injection H as H. cbn [skipn]. auto.
      * split; [|intros H; injection H as -> ->; rewrite cmp_refl in Ec; discriminate].
        intros _. exists Lt. split; [reflexivity|]. apply cmp_dict; congruence.
      * split; [|intros H; injection H as -> ->; rewrite cmp_refl in Ec; discriminate].
        intros _. exists Gt. split; [reflexivity|]. apply cmp_dict; congruence.
Qed.
Lemma lex_zero_size_ub s t a n : string_at zero a s -> length t = n -> t = firstn n s ->
  lex_zero_size eqb cmp zero a t n = None.
Proof.
  intros Ha Ht Hp. destruct (@lex_zero_size_gen n s t a t Ha) as [_ H].
  { split; [exact Ht|]. exists []. rewrite app_nil_r. reflexivity. }
  rewrite H by exact Hp. rewrite skipn_all2 by lia. reflexivity.
Qed.
End Cmp.

Lemma reverse_involutive c : reverse (reverse c) = c.
Proof. destruct c; reflexivity. Qed.
Lemma reverse_partial_involutive o : reverse_partial (reverse_partial o) = o.
Proof. destruct o as [[]|]; reflexivity. Qed.

(** Elements that are integers. *)
Lemma Z_strict_total : strict_total Z.lt.
Proof. split; intros; lia. Qed.
Lemma Z_eqb_ok x y : Z.eqb x y = true <-> x = y.
Proof. apply Z.eqb_eq. Qed.
Lemma Z_cmp_ok x y : reports Z.lt (Z.compare x y) x y.
Proof. unfold reports. destruct (Z.compare_spec x y); auto. Qed.
