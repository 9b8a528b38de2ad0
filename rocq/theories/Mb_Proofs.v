(** Proofs about multibyte conversion. *)
From Verif Require Import Base.
From Verif Require Import Mb_Model.
From Verif Require Import Mb_Spec.
Local Open Scope Z_scope.

Section Loc.
Variable L : locale.
Hypothesis SL : stateless L.

Lemma spells_nil : spells L [] [].
Proof. exists []. split; [constructor|reflexivity]. Qed.
Lemma spells_cons c p cs bs : l_enc L c = Some p -> spells L cs bs -> spells L (c :: cs) (p ++ bs).
Proof. intros E (ps & F & ->). exists (p :: ps). split; [constructor; assumption|reflexivity]. Qed.
Lemma spells_inv c cs bs : spells L (c :: cs) bs ->
  exists p bs', l_enc L c = Some p /\ spells L cs bs' /\ bs = p ++ bs'.
Proof. intros (ps & F & ->). inversion F; subst. exists y, (concat l'). repeat split; eauto. exists l'. auto. Qed.
Lemma spells_nil_inv bs : spells L [] bs -> bs = [].
Proof. intros (ps & F & ->). inversion F. reflexivity. Qed.
Lemma spells_app cs ds bs es : spells L cs bs -> spells L ds es -> spells L (cs ++ ds) (bs ++ es).
Proof.
  intros H K. revert bs H. induction cs as [|c cs IH]; intros bs H.
  - rewrite (spells_nil_inv H). exact K.
  - destruct (spells_inv H) as (p & b' & E & S & ->). rewrite <- app_assoc. cbn [app].
    apply spells_cons; auto.
Qed.
Lemma spells_app_inv cs ds bs : spells L (cs ++ ds) bs ->
  exists b1 b2, spells L cs b1 /\ spells L ds b2 /\ bs = b1 ++ b2.
Proof.
  revert bs. induction cs as [|c cs IH]; intros bs H.
  - exists [], bs. repeat split; auto. apply spells_nil.
  - cbn [app] in H. destruct (spells_inv H) as (p & b' & E & S & ->).
    destruct (IH _ S) as (b1 & b2 & S1 & S2 & ->). exists (p ++ b1), b2.
    repeat split; auto using spells_cons. apply app_assoc.
Qed.

(** ** Writing *)
Lemma to_char_loop_text a aret bs : to_char_loop L a aret = Text bs <->
  exists w, bs = aret ++ w /\ spells L a w.
Proof.
  revert aret. induction a as [|c a IH]; intros aret; cbn [to_char_loop].
  - split.
    + intros [= <-]. exists []. rewrite app_nil_r. auto using spells_nil.
    + intros (w & -> & S). rewrite (spells_nil_inv S), app_nil_r. reflexivity.
  - destruct (l_enc L c) as [r|] eqn:E.
    + rewrite IH. split.
      * intros (w & -> & S). exists (r ++ w). rewrite app_assoc. auto using spells_cons.
      * intros (w & -> & S). destruct (spells_inv S) as (p & b' & E' & S' & ->).
        rewrite E in E'. injection E' as <-. exists b'. rewrite app_assoc. auto.
    + split; [discriminate|]. intros (w & -> & S). destruct (spells_inv S) as (p & b' & E' & _).
      rewrite E in E'. discriminate.
Qed.
Lemma to_char_str_text a bs : to_char_str L a = Text bs <-> spells L a bs.
Proof.
  unfold to_char_str. rewrite to_char_loop_text. split.
  - intros (w & -> & S). exact S.
  - intros S. exists bs. auto.
Qed.
Lemma to_char_loop_cases a aret :
  (exists bs, to_char_loop L a aret = Text bs) \/
  (to_char_loop L a aret = Dies /\ exists c, In c a /\ l_enc L c = None).
Proof.
  revert aret. induction a as [|c a IH]; intros aret; cbn [to_char_loop].
  - left; eauto.
  - destruct (l_enc L c) as [r|] eqn:E.
    + destruct (IH (aret ++ r)) as [T|(D & x & I & N)]; [left; exact T|right].
      split; auto. exists x. cbn. auto.
    + right. split; auto. exists c. cbn. auto.
Qed.
Lemma to_char_str_dies a : to_char_str L a = Dies <-> exists c, In c a /\ l_enc L c = None.
Proof.
  unfold to_char_str. split.
  - intros D. destruct (to_char_loop_cases a []) as [(bs & T)|(_ & H)]; [congruence|exact H].
  - intros (c & I & N). destruct (to_char_loop_cases a []) as [(bs & T)|(D & _)]; [|exact D].
    exfalso. apply (proj1 (to_char_str_text a bs)) in T. destruct T as (ps & F & _).
    clear bs. induction F; [destruct I|]. destruct I as [->|I]; [congruence|auto].
Qed.

(** ** Reading one character *)
Lemma scan_char c p r : l_enc L c = Some (p ++ r) -> r <> [] -> forall k mem i tail,
  (length r <= k)%nat -> skipn i mem = r ++ tail ->
  mb_scan L k mem i p = RGot c (if c =? 0 then O else length (p ++ r)).
Proof.
  revert p. induction r as [|b r IH]; intros p E N k mem i tail K M; [congruence|].
  destruct k as [|k]; [cbn in K; lia|]. cbn [mb_scan].
  assert (B : nth_error mem i = Some b /\ skipn (S i) mem = r ++ tail).
  { clear -M. revert mem M. induction i as [|i IH]; intros mem M.
    - cbn in M. subst. split; reflexivity.
    - destruct mem as [|x mem]; [discriminate|]. exact (IH mem M). }
  destruct B as (B & M'). rewrite B.
  destruct r as [|b' r].
  - rewrite (proj1 (sl_same SL c (p ++ [b])) E). reflexivity.
  - rewrite (@sl_begin L SL c (p ++ [b]) (b' :: r)).
    + replace (p ++ b :: b' :: r) with ((p ++ [b]) ++ b' :: r) in E |- * by (rewrite <- app_assoc; reflexivity).
      apply IH with (tail := tail); auto; try discriminate. cbn in K |- *. lia.
    + now destruct p.
    + discriminate.
    + rewrite <- app_assoc. exact E.
Qed.
Lemma scan_got k mem i p c n : mb_scan L k mem i p = RGot c n ->
  exists q tail, q <> [] /\ l_enc L c = Some (p ++ q) /\ skipn i mem = q ++ tail /\
  n = if c =? 0 then O else length (p ++ q).
Proof.
  revert i p. induction k as [|k IH]; intros i p; cbn [mb_scan]; [discriminate|].
  destruct (nth_error mem i) as [b|] eqn:B; [|discriminate].
  assert (M : skipn i mem = b :: skipn (S i) mem).
  { clear -B. revert mem B. induction i as [|i IH]; intros [|x mem] B; try discriminate; cbn in B.
    - injection B as ->. reflexivity.
    - exact (IH mem B). }
  destruct (l_read L (p ++ [b])) as [c'| |] eqn:R; [|..].
  - intros [= <- <-]. exists [b], (skipn (S i) mem). repeat split; auto; [discriminate|].
    apply (sl_same SL). exact R.
  - intros H. destruct (IH _ _ H) as (q & tl & N & E & T & ->).
    exists (b :: q), tl. replace (p ++ b :: q) with ((p ++ [b]) ++ q) by (rewrite <- app_assoc; reflexivity).
    repeat split; auto; [discriminate|]. rewrite M, T. reflexivity.
  - discriminate.
Qed.
Lemma spells_fits c p : l_enc L c = Some p -> p <> [] /\ (length p <= l_max L)%nat.
Proof. apply (sl_size SL). Qed.

Lemma skipn_app_at (A : Type) (a b : list A) : skipn (length a) (a ++ b) = b.
Proof. induction a; cbn; auto. Qed.

(** ** Reading a text *)
Lemma loop_text cs : ~ In 0 cs -> forall bs, spells L cs bs ->
  forall fuel mem i e tail aret, skipn i mem = bs ++ tail -> e = (i + length bs)%nat ->
  (length bs < fuel)%nat ->
  to_char_t_loop fuel L mem i e aret = Text (aret ++ cs).
Proof.
  induction cs as [|c cs IH]; intros Z0 bs S fuel mem i e tail aret M E F.
  - rewrite (spells_nil_inv S) in *. cbn in E. destruct fuel as [|fuel]; [lia|]. cbn [to_char_t_loop].
    replace e with i by lia. rewrite Nat.eqb_refl, app_nil_r. reflexivity.
  - destruct (spells_inv S) as (p & b' & Ec & S' & ->).
    destruct (spells_fits Ec) as (N & K). destruct fuel as [|fuel]; [lia|]. cbn [to_char_t_loop].
    rewrite app_length in E, F.
    assert (0 < length p)%nat by (destruct p; cbn; [congruence|lia]).
    destruct (Nat.eqb_spec i e) as [|_]; [lia|].
    rewrite <- app_assoc in M.
    rewrite (@scan_char c [] p Ec N (l_max L) mem i (b' ++ tail) K M).
    assert (c <> 0) by (intros ->; apply Z0; left; reflexivity).
    destruct (Z.eqb_spec c 0) as [|_]; [contradiction|]. cbn [app].
    rewrite (IH (fun H => Z0 (or_intror H)) b' S' fuel mem (i + length p)%nat e tail (aret ++ [c])).
    + rewrite <- app_assoc. reflexivity.
    + rewrite Nat.add_comm. rewrite <- (skipn_app_at p (b' ++ tail)), <- M.
      clear. revert mem. induction i as [|i IH]; intros mem; [rewrite Nat.add_0_r; reflexivity|].
      rewrite Nat.add_succ_r. destruct mem as [|x mem]; [now rewrite !skipn_nil|exact (IH mem)].
    + lia.
    + lia.
Qed.

Lemma skipn_plus (A : Type) i n (l : list A) : skipn (i + n) l = skipn n (skipn i l).
Proof.
  revert l. induction i as [|i IH]; intros l; [reflexivity|].
  destruct l; [now rewrite !skipn_nil|exact (IH l)].
Qed.

(** A text that is returned is the one the bytes spell. *)
Lemma loop_sound fuel : forall mem i e aret r, to_char_t_loop fuel L mem i e aret = Text r ->
  exists cs bs tail, r = aret ++ cs /\ spells L cs bs /\ ~ In 0 cs /\
    (i + length bs = e)%nat /\ skipn i mem = bs ++ tail.
Proof.
  induction fuel as [|fuel IH]; intros mem i e aret r; cbn [to_char_t_loop]; [discriminate|].
  destruct (Nat.eqb_spec i e) as [->|NE].
  - intros [= <-]. exists [], [], (skipn e mem). rewrite app_nil_r. repeat split; auto using spells_nil.
  - destruct (mb_scan L (l_max L) mem i []) as [| | |c n] eqn:Sc; try discriminate.
    destruct (scan_got Sc) as (q & tl & N & E & M & Hn). cbn [app] in E, Hn.
    intros H. destruct (IH _ _ _ _ _ H) as (cs & bs & tl' & -> & S & Z0 & Le & M').
    destruct (Z.eqb_spec c 0) as [->|Hc].
    + (* the null character keeps the position, and a text would follow it *)
      exfalso. subst n. rewrite Nat.add_0_r in *.
      (* the same position again: the recursion can only repeat *)
      destruct cs as [|c' cs].
      * rewrite (spells_nil_inv S) in Le. cbn in Le. lia.
      * destruct (spells_inv S) as (p' & b' & E' & S' & ->).
        rewrite M in M'. rewrite <- app_assoc in M'.
        rewrite (sl_null SL) in E. injection E as <-. cbn in M'.
        destruct (spells_fits E') as (N' & _). destruct p' as [|y p']; [congruence|].
        cbn in M'. injection M' as <- _. apply Z0. left.
        exact (@sl_zero L SL c' _ E' (or_introl eq_refl)).
    + subst n. exists (c :: cs), (q ++ bs), tl'. rewrite <- app_assoc. repeat split; auto using spells_cons.
      * intros [->|I]; auto.
      * rewrite app_length. lia.
      * rewrite skipn_plus, M in M'. rewrite skipn_app_at in M'. rewrite M, M', app_assoc. reflexivity.
Qed.

(** Behind the end the loop never finds the end. *)
Lemma loop_behind fuel : forall mem i e aret r, (e < i)%nat ->
  to_char_t_loop fuel L mem i e aret <> Text r.
Proof.
  intros mem i e aret r H T. destruct (loop_sound T) as (cs & bs & tl & _ & _ & _ & Le & _). lia.
Qed.

(** A null character is read again and again. *)
Lemma loop_null fuel : forall mem i e aret tail, skipn i mem = 0 :: tail -> i <> e ->
  to_char_t_loop fuel L mem i e aret = Busy.
Proof.
  induction fuel as [|fuel IH]; intros mem i e aret tail M NE; cbn [to_char_t_loop]; [reflexivity|].
  destruct (Nat.eqb_spec i e) as [|_]; [contradiction|].
  destruct (spells_fits (sl_null SL)) as (N & K).
  rewrite (@scan_char 0 [] [0] (sl_null SL) N (l_max L) mem i tail K M).
  cbn [Z.eqb]. rewrite Nat.add_0_r. apply IH with (tail := tail); assumption.
Qed.

(** The loop gets behind every character other than null. *)
Lemma loop_walk cs : ~ In 0 cs -> forall bs, spells L cs bs ->
  forall mem i e tail, skipn i mem = bs ++ tail -> (i + length bs <= e)%nat -> (i + length bs <> e)%nat ->
  exists k, (k <= length bs)%nat /\ forall fuel aret, to_char_t_loop (k + fuel) L mem i e aret =
    to_char_t_loop fuel L mem (i + length bs) e (aret ++ cs).
Proof.
  induction cs as [|c cs IH]; intros Z0 bs S mem i e tail M E NE.
  - rewrite (spells_nil_inv S). exists O. cbn. split; [lia|]. intros fuel aret.
    rewrite Nat.add_0_r, app_nil_r. reflexivity.
  - destruct (spells_inv S) as (p & b' & Ec & S' & ->).
    destruct (spells_fits Ec) as (N & K). rewrite app_length in *.
    assert (0 < length p)%nat by (destruct p; cbn; [congruence|lia]).
    assert (c <> 0) by (intros ->; apply Z0; left; reflexivity).
    rewrite <- app_assoc in M.
    destruct (IH (fun H => Z0 (or_intror H)) b' S' mem (i + length p)%nat e tail) as (k & Hk & Hw).
    + rewrite skipn_plus, M. apply skipn_app_at.
    + lia.
    + lia.
    + exists (Datatypes.S k). split; [lia|]. intros fuel aret. cbn [Nat.add to_char_t_loop].
      destruct (Nat.eqb_spec i e) as [|_]; [lia|].
      rewrite (@scan_char c [] p Ec N (l_max L) mem i (b' ++ tail) K M).
      destruct (Z.eqb_spec c 0) as [|_]; [contradiction|]. cbn [app].
      rewrite Hw, Nat.add_assoc, <- app_assoc. reflexivity.
Qed.

(** More fuel does not change an answer. *)
Lemma loop_more fuel : forall mem i e aret r, to_char_t_loop fuel L mem i e aret = r -> r <> Busy ->
  forall g, to_char_t_loop (fuel + g) L mem i e aret = r.
Proof.
  induction fuel as [|fuel IH]; intros mem i e aret r H N g; cbn [to_char_t_loop Nat.add] in *; [congruence|].
  destruct (Nat.eqb i e); [exact H|].
  destruct (mb_scan L (l_max L) mem i []); try exact H. apply IH; assumption.
Qed.

Lemma decode_text cs bs after fuel : spells L cs bs -> ~ In 0 cs -> (length bs < fuel)%nat ->
  to_char_t_str fuel L bs after = Text cs.
Proof.
  intros S Z0 F. unfold to_char_t_str.
  exact (@loop_text cs Z0 bs S fuel (bs ++ after) 0 (length bs) after [] eq_refl eq_refl F).
Qed.
Lemma decode_sound cs bs after fuel : to_char_t_str fuel L bs after = Text cs ->
  spells L cs bs /\ ~ In 0 cs.
Proof.
  unfold to_char_t_str. intros T. destruct (loop_sound T) as (cs' & b & tl & -> & S & Z0 & Le & M).
  cbn in Le, M. assert (bs = b).
  { clear -Le M. revert b Le M. induction bs as [|x bs IH]; intros [|y b] Le M; cbn in *; try lia; [reflexivity|].
    injection M as -> M. f_equal. apply IH; [lia|exact M]. }
  subst b. auto.
Qed.
Lemma round_trip cs bs after fuel : to_char_str L cs = Text bs -> ~ In 0 cs -> (length bs < fuel)%nat ->
  to_char_t_str fuel L bs after = Text cs.
Proof. intros T. apply decode_text. apply to_char_str_text. exact T. Qed.

Lemma null_diverges cs ds bs after : spells L (cs ++ 0 :: ds) bs ->
  forall fuel, to_char_t_str fuel L bs after = Busy.
Proof.
  intros S fuel.
  destruct (to_char_t_str fuel L bs after) eqn:T; [| | |reflexivity]; exfalso.
  all: destruct (in_dec Z.eq_dec 0 cs) as [I|Z0].
  all: try (apply in_split in I; revert I; intros _).
  all: assert (X : exists c1 c2, cs ++ 0 :: ds = c1 ++ 0 :: c2 /\ ~ In 0 c1)
    by (clear; induction cs as [|c cs IH]; [exists [], ds; auto|];
        destruct (Z.eq_dec c 0) as [->|N]; [exists [], (cs ++ 0 :: ds); auto|];
        destruct IH as (c1 & c2 & E & Z1); exists (c :: c1), c2; cbn; rewrite E; split; auto; intros [?|?]; auto).
  all: destruct X as (c1 & c2 & E & Z1); rewrite E in S;
    destruct (spells_app_inv S) as (b1 & b2 & S1 & S2 & ->);
    destruct (spells_inv S2) as (p & b3 & Ep & S3 & ->);
    rewrite (sl_null SL) in Ep; injection Ep as <-.
  all: unfold to_char_t_str in T;
    destruct (@loop_walk c1 Z1 b1 S1 ((b1 ++ [0] ++ b3) ++ after) 0 (length (b1 ++ [0] ++ b3)) ((0 :: b3) ++ after))
      as (k & Hk & Hw); [cbn; rewrite <- app_assoc; reflexivity|rewrite !app_length; cbn; lia|rewrite !app_length; cbn; lia|].
  all: cbn [Nat.add] in Hw.
  all: pose proof (loop_more T ltac:(discriminate) k) as T'.
  all: rewrite Nat.add_comm in T'; rewrite Hw in T'.
  all: erewrite loop_null in T'; [discriminate|rewrite <- app_assoc, skipn_app_at; reflexivity|rewrite !app_length; cbn; lia].
Qed.

(** Bytes that break off inside of a character. *)
Lemma cut_read p : cut_char L p -> l_read L p = MMore.
Proof. intros (N & c & q & Q & E). exact (@sl_begin L SL c p q N Q E). Qed.
Lemma not_char_scan q : forall p tail k mem i, (q = [] \/ cut_char L (p ++ q)) ->
  skipn i mem = q ++ tail -> tail = [] -> (length q < k)%nat ->
  (forall c q1 q2, q = q1 ++ q2 -> q1 <> [] -> l_enc L c <> Some (p ++ q1)) ->
  (forall q1 q2, q = q1 ++ q2 -> q1 <> [] -> l_read L (p ++ q1) = MMore) ->
  mb_scan L k mem i p = RUb.
Proof.
  induction q as [|b q IH]; intros p tail k mem i C M T K H1 H2; subst tail; (destruct k as [|k]; [cbn in K; lia|]); cbn [mb_scan].
  - assert (nth_error mem i = None) as ->; [|reflexivity].
    { clear -M. revert mem M. induction i as [|i IH]; intros [|x mem] M; try discriminate; try reflexivity. exact (IH mem M). }
  - assert (B : nth_error mem i = Some b /\ skipn (S i) mem = q ++ []).
    { clear -M. revert mem M. induction i as [|i IH]; intros [|x mem] M; try discriminate.
      - cbn in M. injection M as -> ->. split; reflexivity.
      - exact (IH mem M). }
    destruct B as (B & M'). rewrite B.
    rewrite (H2 [b] q eq_refl) by discriminate.
    apply IH with (tail := []).
    + destruct q; [left; reflexivity|right]. destruct C as [C|C]; [discriminate|].
      rewrite <- app_assoc. exact C.
    + exact M'.
    + reflexivity.
    + cbn in K. lia.
    + intros c q1 q2 -> N E. rewrite <- app_assoc in E. apply (H1 c ([b] ++ q1) q2 eq_refl); [discriminate|exact E].
    + intros q1 q2 -> N. rewrite <- app_assoc. apply (H2 ([b] ++ q1) q2 eq_refl). discriminate.
Qed.
Lemma cut_prefix p q1 q2 : cut_char L p -> p = q1 ++ q2 -> q1 <> [] -> cut_char L q1.
Proof.
  intros (N & c & q & Q & E) -> N1. split; [exact N1|]. exists c, (q2 ++ q). rewrite app_assoc. split; [|exact E].
  destruct q2; [exact Q|discriminate].
Qed.
Lemma cut_no_char p : cut_char L p -> forall c, l_enc L c <> Some p.
Proof. intros C c E. apply (sl_same SL) in E. rewrite (cut_read C) in E. discriminate. Qed.

(** A text that breaks off inside of a character is never converted. *)
Lemma cut_not_spelled cs : forall bs ds p, spells L cs bs -> cut_char L p -> ~ spells L ds (bs ++ p).
Proof.
  induction cs as [|c cs IH]; intros bs ds p S C H.
  - rewrite (spells_nil_inv S) in H. cbn in H. destruct ds as [|d ds].
    + apply spells_nil_inv in H. destruct C as (N & _). congruence.
    + destruct (spells_inv H) as (w & b & E & _ & ->). destruct (spells_fits E) as (N & _).
      apply (cut_no_char (cut_prefix C eq_refl N) E).
  - destruct (spells_inv S) as (w & b & E & S' & ->). rewrite <- app_assoc in H.
    destruct ds as [|d ds].
    + apply spells_nil_inv in H. destruct (spells_fits E) as (N & _). destruct w; [congruence|discriminate].
    + destruct (spells_inv H) as (w' & b2 & E' & H' & EQ).
      assert (w = w').
      { destruct (spells_fits E) as (N & _). destruct (spells_fits E') as (N' & _).
        clear -SL E E' EQ N N'.
        destruct (Nat.lt_trichotomy (length w) (length w')) as [l|[l|l]].
        - exfalso. assert (W : w' = w ++ skipn (length w) w').
          { rewrite <- (firstn_skipn (length w) w') at 1. f_equal.
            apply (f_equal (firstn (length w))) in EQ. rewrite firstn_app, firstn_all, Nat.sub_diag, firstn_O, app_nil_r in EQ.
            rewrite firstn_app in EQ. replace (length w - length w')%nat with O in EQ by lia. rewrite firstn_O, app_nil_r in EQ. auto. }
          rewrite W in E'. assert (Q : skipn (length w) w' <> []).
          { intros Q. apply (f_equal (@length _)) in Q. rewrite skipn_length in Q. cbn in Q. lia. }
          pose proof (@sl_begin L SL d w _ N Q E') as R. apply (sl_same SL) in E. congruence.
        - clear -EQ l. revert w' l EQ. induction w as [|x w IH]; intros [|y w'] l EQ; cbn in *; try lia; [reflexivity|].
          injection EQ as -> EQ. f_equal. apply IH; [lia|exact EQ].
        - exfalso. assert (W : w = w' ++ skipn (length w') w).
          { rewrite <- (firstn_skipn (length w') w) at 1. f_equal.
            apply (f_equal (firstn (length w'))) in EQ. rewrite !firstn_app, firstn_all, Nat.sub_diag, firstn_O, app_nil_r in EQ.
            replace (length w' - length w)%nat with O in EQ by lia. rewrite firstn_O, app_nil_r in EQ. auto. }
          rewrite W in E. assert (Q : skipn (length w') w <> []).
          { intros Q. apply (f_equal (@length _)) in Q. rewrite skipn_length in Q. cbn in Q. lia. }
          pose proof (@sl_begin L SL c w' _ N' Q E) as R. apply (sl_same SL) in E'. congruence. }
      subst w'. apply app_inv_head in EQ. subst b2. apply (IH b ds p S' C H').
Qed.
Lemma cut_wrong cs bs p after fuel r : spells L cs bs -> cut_char L p ->
  to_char_t_str fuel L (bs ++ p) after <> Text r.
Proof.
  intros S C T. destruct (decode_sound T) as (H & _). exact (cut_not_spelled S C H).
Qed.
Lemma cut_undefined cs bs p fuel : spells L cs bs -> ~ In 0 cs -> cut_char L p -> (length bs < fuel)%nat ->
  to_char_t_str fuel L (bs ++ p) [] = Wild.
Proof.
  intros S Z0 C F. unfold to_char_t_str. rewrite app_nil_r.
  assert (0 < length p)%nat by (destruct C as (N & _); destruct p; cbn; [congruence|lia]).
  destruct (@loop_walk cs Z0 bs S (bs ++ p) 0 (length (bs ++ p)) p) as (k & Hk & Hw);
    [reflexivity|rewrite app_length; lia|rewrite app_length; lia|].
  replace fuel with (k + Datatypes.S (fuel - Datatypes.S k))%nat by lia. rewrite Hw. cbn [Nat.add to_char_t_loop].
  destruct (Nat.eqb_spec (length bs) (length (bs ++ p))) as [e|_]; [rewrite app_length in e; lia|].
  erewrite (@not_char_scan p []); [reflexivity| | | | | |].
  - right. exact C.
  - rewrite skipn_app_at. symmetry. apply app_nil_r.
  - reflexivity.
  - destruct C as (N & c & q & Q & E). destruct (spells_fits E) as (_ & K). rewrite app_length in K.
    destruct q; [congruence|]. cbn in K. lia.
  - intros c q1 q2 -> N E. exact (cut_no_char (cut_prefix C eq_refl N) E).
  - intros q1 q2 -> N. exact (cut_read (cut_prefix C eq_refl N)).
Qed.

(** Bytes that are no character. *)
Lemma scan_broken p' : forall p b k mem i tail, skipn i mem = p' ++ b :: tail -> (length p' < k)%nat ->
  (forall q1 q2, p' = q1 ++ q2 -> q1 <> [] -> l_read L (p ++ q1) = MMore) ->
  l_read L (p ++ p' ++ [b]) = MBad -> mb_scan L k mem i p = RErr.
Proof.
  induction p' as [|x p' IH]; intros p b k mem i tail M K H B; (destruct k as [|k]; [cbn in K; lia|]); cbn [mb_scan].
  - assert (nth_error mem i = Some b) as ->.
    { clear -M. revert mem M. induction i as [|i IH]; intros [|y mem] M; try discriminate; cbn in M.
      - injection M as -> _. reflexivity.
      - exact (IH mem M). }
    cbn in B. rewrite B. reflexivity.
  - assert (C : nth_error mem i = Some x /\ skipn (S i) mem = p' ++ b :: tail).
    { clear -M. revert mem M. induction i as [|i IH]; intros [|y mem] M; try discriminate.
      - cbn in M. injection M as -> ->. split; reflexivity.
      - exact (IH mem M). }
    destruct C as (C & M'). rewrite C, (H [x] p' eq_refl) by discriminate.
    apply (IH (p ++ [x]) b k mem (S i) tail M').
    + cbn in K. lia.
    + intros q1 q2 -> N. rewrite <- app_assoc. apply (H ([x] ++ q1) q2 eq_refl). discriminate.
    + rewrite <- app_assoc. exact B.
Qed.
Lemma broken_dies cs bs p rest after fuel : spells L cs bs -> ~ In 0 cs -> broken_char L p ->
  (length bs < fuel)%nat -> to_char_t_str fuel L (bs ++ p ++ rest) after = Dies.
Proof.
  intros S Z0 (p' & b & -> & C & Bad) F. unfold to_char_t_str.
  set (mem := (bs ++ (p' ++ [b]) ++ rest) ++ after).
  assert (M : mem = bs ++ (p' ++ b :: (rest ++ after))).
  { unfold mem. rewrite <- !app_assoc. reflexivity. }
  destruct (@loop_walk cs Z0 bs S mem 0 (length (bs ++ (p' ++ [b]) ++ rest)) (p' ++ b :: (rest ++ after)))
    as (k & Hk & Hw); [exact M|rewrite !app_length; cbn; lia|rewrite !app_length; cbn; lia|].
  replace fuel with (k + Datatypes.S (fuel - Datatypes.S k))%nat by lia. rewrite Hw. cbn [Nat.add to_char_t_loop].
  destruct (Nat.eqb_spec (length bs) (length (bs ++ (p' ++ [b]) ++ rest))) as [e|_]; [rewrite !app_length in e; cbn in e; lia|].
  erewrite (@scan_broken p' [] b); [reflexivity| | | |].
  - rewrite M. apply skipn_app_at.
  - destruct C as [->|(N & c & q & Q & E)].
    + destruct (spells_fits (sl_null SL)) as (_ & K). cbn in K |- *. lia.
    + destruct (spells_fits E) as (_ & K). rewrite app_length in K. destruct q; [congruence|]. cbn in K. lia.
  - intros q1 q2 -> N. destruct C as [C|C]; [destruct q1; [congruence|discriminate]|].
    exact (cut_read (cut_prefix C eq_refl N)).
  - cbn. destruct (l_read L (p' ++ [b])) as [c| |] eqn:R; [| |reflexivity]; exfalso.
    + apply (sl_same SL) in R. apply (Bad c []). rewrite app_nil_r. exact R.
    + destruct (sl_more SL R) as (c & q & _ & E). exact (Bad c q E).
Qed.
End Loc.

(** ** UTF-8 is such an encoding *)
Ltac zcases :=
  repeat match goal with
  | |- context[if ?b then _ else _] => let E := fresh "E" in destruct b eqn:E
  | H : context[if ?b then _ else _] |- _ => let E := fresh "E" in destruct b eqn:E
  end.
Ltac zprop :=
  repeat match goal with
  | H : (_ && _)%bool = true |- _ => apply andb_prop in H; destruct H
  | H : (_ <? _) = true |- _ => apply Z.ltb_lt in H
  | H : (_ <? _) = false |- _ => apply Z.ltb_ge in H
  | H : (_ <=? _) = true |- _ => apply Z.leb_le in H
  | H : (_ <=? _) = false |- _ => apply Z.leb_gt in H
  | H : (_ =? _) = true |- _ => apply Z.eqb_eq in H
  | H : (_ =? _) = false |- _ => apply Z.eqb_neq in H
  | H : (_ && _)%bool = false |- _ => apply andb_false_iff in H; destruct H
  end.

Lemma tail_iff b : utf8_tail b = true <-> 0x80 <= b < 0xC0.
Proof. unfold utf8_tail. split; [intros H; zprop; lia|intros H; apply andb_true_intro; split; [apply Z.leb_le|apply Z.ltb_lt]; lia]. Qed.
Lemma second_iff a b : utf8_second a b = true <-> 0x80 <= b < 0xC0 /\
  (a = 0xE0 -> 0xA0 <= b) /\ (a = 0xED -> b < 0xA0) /\ (a = 0xF0 -> 0x90 <= b) /\ (a = 0xF4 -> b < 0x90).
Proof.
  unfold utf8_second. rewrite andb_true_iff, tail_iff.
  destruct (Z.eqb_spec a 0xE0); [subst; rewrite Z.leb_le; lia|].
  destruct (Z.eqb_spec a 0xED); [subst; rewrite Z.ltb_lt; lia|].
  destruct (Z.eqb_spec a 0xF0); [subst; rewrite Z.leb_le; lia|].
  destruct (Z.eqb_spec a 0xF4); [subst; rewrite Z.ltb_lt; lia|]. lia.
Qed.
(** The characters and their bytes, as a table. *)
Definition utf8_row (c : Z) (p : list Z) : Prop :=
  match p with
  | [a] => 0 <= a < 0x80 /\ c = a
  | [a; b] => 0xC2 <= a < 0xE0 /\ 0x80 <= b < 0xC0 /\ c = (a - 0xC0) * 64 + (b - 0x80)
  | [a; b; d] => 0xE0 <= a < 0xF0 /\ utf8_second a b = true /\ 0x80 <= d < 0xC0 /\
      c = ((a - 0xE0) * 64 + (b - 0x80)) * 64 + (d - 0x80)
  | [a; b; d; e] => 0xF0 <= a < 0xF5 /\ utf8_second a b = true /\ 0x80 <= d < 0xC0 /\ 0x80 <= e < 0xC0 /\
      c = (((a - 0xF0) * 64 + (b - 0x80)) * 64 + (d - 0x80)) * 64 + (e - 0x80)
  | _ => False
  end.
Lemma read_row c p : utf8_read p = MChar c <-> utf8_row c p.
Proof.
  destruct p as [|a [|b [|d [|e [|f p]]]]]; cbn [utf8_read utf8_row]; try (split; [discriminate|tauto]).
  - split.
    + intros H. zcases; try discriminate. injection H as <-. zprop. lia.
    + intros (H & ->). replace ((0 <=? a) && (a <? 128)) with true; [reflexivity|]. symmetry.
      apply andb_true_intro; split; [apply Z.leb_le|apply Z.ltb_lt]; lia.
  - split.
    + intros H. zcases; try discriminate. injection H as <-. rewrite tail_iff in *. zprop. lia.
    + intros (H & K & ->). replace ((194 <=? a) && (a <? 224)) with true.
      * rewrite (proj2 (tail_iff b) K). reflexivity.
      * symmetry. apply andb_true_intro; split; [apply Z.leb_le|apply Z.ltb_lt]; lia.
  - split.
    + intros H. zcases; try discriminate. injection H as <-. zprop. rewrite tail_iff in *. repeat split; auto; lia.
    + intros (H & K & D & ->). rewrite K, (proj2 (tail_iff d) D).
      replace ((224 <=? a) && (a <? 240)) with true; [reflexivity|].
      symmetry. apply andb_true_intro; split; [apply Z.leb_le|apply Z.ltb_lt]; lia.
  - split.
    + intros H. zcases; try discriminate. injection H as <-. zprop. rewrite tail_iff in *. repeat split; auto; lia.
    + intros (H & K & D & F & ->). rewrite K, (proj2 (tail_iff d) D), (proj2 (tail_iff e) F).
      replace ((240 <=? a) && (a <? 245)) with true; [reflexivity|].
      symmetry. apply andb_true_intro; split; [apply Z.leb_le|apply Z.ltb_lt]; lia.
Qed.
Lemma put_row c p : utf8_put c = Some p <-> utf8_row c p.
Proof.
  split.
  - unfold utf8_put. intros H. zcases; try discriminate;
      (match type of H with Some ?x = Some p => assert (X : p = x) by congruence end); clear H; subst p;
      zprop; cbv beta iota delta [utf8_row]; try lia; rewrite ?second_iff; Z.to_euclidean_division_equations; lia.
  - intros H. destruct p as [|a [|b [|d [|e [|f p]]]]]; cbn [utf8_row] in H; try contradiction; unfold utf8_put.
    + destruct H as (H & ->). zcases; zprop; try lia. reflexivity.
    + destruct H as (H & K & ->). zcases; zprop; try lia.
      do 2 f_equal; [|f_equal]; Z.to_euclidean_division_equations; lia.
    + destruct H as (H & K & D & ->). rewrite second_iff in K. zcases; zprop; try lia;
      do 2 f_equal; [|f_equal; [|f_equal]| |f_equal; [|f_equal]]; Z.to_euclidean_division_equations; lia.
    + destruct H as (H & K & D & F & ->). rewrite second_iff in K. zcases; zprop; try lia;
      do 2 f_equal; [|f_equal; [|f_equal; [|f_equal]]]; Z.to_euclidean_division_equations; lia.
Qed.
Lemma more_of_row c p q : p <> [] -> q <> [] -> utf8_row c (p ++ q) -> utf8_read p = MMore.
Proof.
  intros P Q H. destruct p as [|a [|b [|d [|e p]]]]; [congruence|..].
  - cbv beta iota delta [utf8_read].
    assert (A : 0xC2 <= a < 0xF5).
    { destruct q as [|b [|d [|e [|f q]]]]; [congruence|..]; cbv beta iota delta [app utf8_row] in H; lia. }
    zcases; zprop; try lia. reflexivity.
  - destruct q as [|d [|e [|f q]]]; [congruence|..]; cbv beta iota delta [app utf8_row] in H; [| |contradiction];
      cbv beta iota delta [utf8_read]; destruct H as (A & B & _); rewrite B; zcases; zprop; try lia; reflexivity.
  - destruct q as [|e [|f q]]; [congruence|..]; cbv beta iota delta [app utf8_row] in H; [|contradiction].
    cbv beta iota delta [utf8_read]. destruct H as (A & B & D & _). apply tail_iff in D. rewrite B, D.
    rewrite !andb_true_r. zcases; zprop; try lia; reflexivity.
  - exfalso. destruct q; [congruence|]. cbv beta iota delta [app utf8_row] in H. destruct p; exact H.
Qed.
Lemma row_of_more p : utf8_read p = MMore -> exists c q, q <> [] /\ utf8_row c (p ++ q).
Proof.
  destruct p as [|a [|b [|d [|e [|f p]]]]]; cbv beta iota delta [utf8_read]; intros H; try discriminate.
  - destruct ((0 <=? a) && (a <? 128)) eqn:E1; [discriminate|].
    destruct ((194 <=? a) && (a <? 245)) eqn:E2; [|discriminate]. clear H E1. zprop.
    destruct (Z_lt_ge_dec a 0xE0).
    { eexists. exists [0x80]. split; [discriminate|]. cbv beta iota delta [app utf8_row].
      split; [lia|split; [lia|reflexivity]]. }
    destruct (Z_lt_ge_dec a 0xF0).
    { eexists. exists [(if a =? 0xE0 then 0xA0 else 0x80); 0x80]. split; [discriminate|]. cbv beta iota delta [app utf8_row].
      rewrite second_iff. split; [lia|split; [|split; [lia|reflexivity]]]. destruct (Z.eqb_spec a 0xE0); lia. }
    { eexists. exists [(if a =? 0xF0 then 0x90 else 0x80); 0x80; 0x80]. split; [discriminate|]. cbv beta iota delta [app utf8_row].
      rewrite second_iff. split; [lia|split; [|split; [lia|split; [lia|reflexivity]]]]. destruct (Z.eqb_spec a 0xF0); lia. }
  - zcases; try discriminate. zprop.
    all: destruct (Z_lt_ge_dec a 0xF0).
    all: try (eexists; exists [0x80]; split; [discriminate|]; cbv beta iota delta [app utf8_row];
      split; [lia|split; [assumption|split; [lia|reflexivity]]]).
    all: eexists; exists [0x80; 0x80]; split; [discriminate|]; cbv beta iota delta [app utf8_row];
      split; [lia|split; [assumption|split; [lia|split; [lia|reflexivity]]]].
  - destruct ((224 <=? a) && (a <? 240) && utf8_second a b && utf8_tail d); [discriminate|].
    destruct ((240 <=? a) && (a <? 245) && utf8_second a b && utf8_tail d) eqn:E; [|discriminate].
    zprop. rewrite tail_iff in *. eexists; exists [0x80]; split; [discriminate|]; cbv beta iota delta [app utf8_row].
    split; [lia|split; [assumption|split; [lia|split; [lia|reflexivity]]]].
  - zcases; discriminate.
Qed.
Lemma utf8_stateless : stateless utf8_locale.
Proof.
  split; cbn [utf8_locale l_enc l_read l_max].
  - intros c p. rewrite put_row, read_row. reflexivity.
  - intros c p q P Q E. apply put_row in E. exact (more_of_row P Q E).
  - intros p H. destruct (row_of_more H) as (c & q & Q & R). exists c, q. split; [exact Q|]. apply put_row. exact R.
  - intros c p E. apply put_row in E. destruct p as [|a [|b [|d [|e [|f p]]]]]; cbv beta iota delta [utf8_row] in E; try contradiction;
      split; try discriminate; cbn [length]; lia.
  - reflexivity.
  - intros c p E I. apply put_row in E. destruct p as [|a [|b [|d [|e [|f p]]]]]; cbv beta iota delta [utf8_row] in E; try contradiction;
      rewrite ?second_iff in E; cbn [In] in I; lia.
Qed.
