(** Lemmas on the echo of the input, on values stored as bytes and on rows. *)
From Verif Require Import Base Stream_Model Stream_Spec Stream_Proofs Stream2_Spec.
Local Open Scope nat_scope.

(** ** The text that is shown. *)
Lemma find_cr_none l : find_cr l = None -> lf l = l.
Proof.
  induction l as [|c l IH]; [reflexivity|]. cbn [find_cr lf]. destruct (c =? 13)%Z; [discriminate|].
  destruct (find_cr l); [discriminate|]. intros _. now rewrite IH.
Qed.
Lemma find_cr_some l : forall p, find_cr l = Some p ->
  p < length l /\ lf l = firstn p l ++ 10%Z ::
    lf (if (p + 1 <? length l) && (nth (p + 1) l 0%Z =? 10)%Z then skipn (p + 2) l else skipn (p + 1) l).
Proof.
  induction l as [|c l IH]; intros p; [discriminate|]. cbn [find_cr lf].
  destruct (Z.eqb_spec c 13) as [->|Hc].
  - intros [= <-]. split; [cbn; lia|]. cbn [firstn app Nat.add skipn nth length].
    destruct l as [|d l]; [reflexivity|]. cbn [nth length].
    destruct (Nat.ltb_spec 1 (S (S (length l)))); [|lia]. cbn [andb].
    destruct (d =? 10)%Z; reflexivity.
  - destruct (find_cr l) as [q|]; cbn [option_map]; [|discriminate]. intros [= <-].
    destruct (IH q eq_refl) as [Hq E]. split; [cbn; lia|].
    cbn [firstn app Nat.add skipn nth length]. rewrite E. reflexivity.
Qed.
Lemma show_loop_lf : forall fuel l, length l <= fuel -> show_loop fuel l = lf l.
Proof.
  induction fuel as [|fuel IH]; intros l L; cbn [show_loop].
  - destruct l; [reflexivity|cbn in L; lia].
  - destruct l as [|c l]; [reflexivity|]. remember (c :: l) as t eqn:Et.
    destruct (find_cr t) as [p|] eqn:E.
    + destruct (find_cr_some E) as [Hp ->]. cbn [app]. f_equal. f_equal. apply IH.
      destruct ((p + 1 <? length t) && (nth (p + 1) t 0%Z =? 10)%Z); rewrite skipn_length; lia.
    + symmetry. exact (find_cr_none E).
Qed.
Lemma show_lf l : show l = lf l.
Proof. apply show_loop_lf. lia. Qed.
Lemma lf_no_cr l : ~ In 13%Z l -> lf l = l.
Proof.
  induction l as [|c l IH]; intros H; [reflexivity|]. cbn [lf].
  destruct (Z.eqb_spec c 13) as [->|]; [exfalso; apply H; now left|].
  rewrite IH; [reflexivity|]. intros F. apply H. now right.
Qed.

(** ** The input. *)
Definition unhurried (s : src) : Prop := sched s = [].
Definition estat (cap : nat) (s : ist (wst src)) (p r : list Z) : Prop :=
  holds unhurried rest cap (i_in s) p r /\ i_unread s = length p.

Lemma eread_full cap s p r n old : estat cap s p r -> n <= length p + length r ->
  exists s', eread (wrap src_base) n old s = Fine (firstn n (p ++ r), s') /\
    estat cap s' (skipn n p) (skipn (n - length p) r) /\
    i_shown s' = i_shown s ++ lf (firstn (n - length p) r).
Proof.
  intros [Hh Hu] Hn.
  destruct (holds_read src_delivers_prompt n Hh) as (more & r' & w' & Hr & Er & _ & _ & Hh').
  pose proof (wrap_prompt Hh Hr) as Eg. unfold eread. cbn [wrap s_read]. rewrite Hr, Eg. cbn [sbind].
  assert (Em : more = firstn (n - length p) r).
  { destruct (Nat.le_ge_cases n (length p)) as [M|M].
    - rewrite firstn_app_ge in Eg by exact M. rewrite <- (app_nil_r (firstn n p)) in Eg at 2.
      apply app_inv_head in Eg. subst more. replace (n - length p) with 0 by lia. reflexivity.
    - rewrite firstn_app_le in Eg by exact M. rewrite firstn_all2 in Eg by exact M.
      now apply app_inv_head in Eg. }
  assert (Er' : r' = skipn (n - length p) r).
  { rewrite Em in Er. rewrite <- (firstn_skipn (n - length p) r) in Er at 1.
    apply app_inv_head in Er. now symmetry. }
  assert (Lg : length (firstn n (p ++ r)) = n) by (rewrite firstn_length, app_length; lia).
  rewrite Lg, Hu. eexists. split; [reflexivity|]. split.
  - split; cbn [i_in i_unread].
    + rewrite <- Er'. exact Hh'.
    + rewrite skipn_length. destruct (Nat.leb_spec n (length p)); lia.
  - cbn [i_shown]. destruct (Nat.ltb_spec (length p) n) as [M|M].
    + f_equal. rewrite show_lf. f_equal. replace (n - (n - length p)) with (length p) by lia.
      rewrite firstn_app_le by lia. rewrite <- app_assoc, skipn_app_ge by lia.
      rewrite Nat.sub_diag. cbn [skipn]. rewrite firstn_app_ge by (rewrite firstn_length; lia).
      rewrite firstn_firstn. f_equal. lia.
    + replace (n - length p) with 0 by lia. cbn. now rewrite app_nil_r.
Qed.
Lemma eunread_ok cap s p r l : estat cap s p r -> length p + length l <= cap ->
  exists s', eunread (wrap src_base) l s = Fine s' /\ estat cap s' (l ++ p) r /\ i_shown s' = i_shown s.
Proof.
  intros [Hh Hu] F. destruct (holds_unread Hh F) as (w' & Hw & Hh').
  unfold eunread. cbn [wrap s_unread]. rewrite Hw. cbn [sbind]. eexists. split; [reflexivity|].
  split; [|reflexivity]. split; [exact Hh'|]. cbn [i_unread]. rewrite app_length, Hu. lia.
Qed.
Lemma euse_shown cap : forall ops s p r, estat cap s p r -> efull cap ops p r ->
  exists tr s' p', euse (wrap src_base) ops s = Fine (tr, s') /\
    estat cap s' p' (eleft ops p r) /\ i_shown s' = i_shown s ++ eshown ops p r.
Proof.
  induction ops as [|[n old|l] ops IH]; intros s p r E F; cbn [euse efull eshown eleft] in *.
  - exists [], s, p. rewrite app_nil_r. auto.
  - destruct F as [F1 F2]. destruct (eread_full old E F1) as (s1 & Hr & E1 & S1).
    rewrite Hr. cbn [sbind fst snd]. destruct (IH _ _ _ E1 F2) as (tr & s' & p' & Hu & E' & S').
    rewrite Hu. cbn [sbind fst snd]. do 3 eexists. split; [reflexivity|]. split; [exact E'|].
    now rewrite S', S1, app_assoc.
  - destruct F as [F1 F2]. destruct (eunread_ok E F1) as (s1 & Hr & E1 & S1).
    rewrite Hr. cbn [sbind fst snd]. destruct (IH _ _ _ E1 F2) as (tr & s' & p' & Hu & E' & S').
    rewrite Hu. cbn [sbind fst snd]. do 3 eexists. split; [reflexivity|]. split; [exact E'|].
    now rewrite S', S1.
Qed.
Definition keyboard (t : list Z) : ist (wst src) := mki (wnew (mksrc t 0 [] false)) 0 [].
Lemma keyboard_stat t : estat (Z.to_nat 1024) (keyboard t) [] t.
Proof.
  split; [|reflexivity]. exact (@holds_new _ unhurried rest (mksrc t 0 [] false) eq_refl).
Qed.
Lemma echo_all t ops : efull (Z.to_nat 1024) ops [] t ->
  exists tr s, euse (wrap src_base) ops (mki (wnew (mksrc t 0 [] false)) 0 []) = Fine (tr, s) /\
    i_shown s = eshown ops [] t.
Proof.
  intros F. destruct (euse_shown (keyboard_stat t) F) as (tr & s & p & Hu & _ & S).
  exists tr, s. split; [exact Hu|]. exact S.
Qed.
Lemma eshown_left : forall ops p r, ~ In 13%Z r -> eshown ops p r ++ eleft ops p r = r.
Proof.
  induction ops as [|[n old|l] ops IH]; intros p r H; cbn [eshown eleft]; [reflexivity| |now apply IH].
  assert (H1 : ~ In 13%Z (firstn (n - length p) r) /\ ~ In 13%Z (skipn (n - length p) r)).
  { rewrite <- (firstn_skipn (n - length p) r) in H. rewrite in_app_iff in H. tauto. }
  rewrite lf_no_cr by apply H1. rewrite <- app_assoc, IH by apply H1. apply firstn_skipn.
Qed.
Lemma echo_once t ops : efull (Z.to_nat 1024) ops [] t -> ~ In 13%Z t ->
  exists tr s, euse (wrap src_base) ops (mki (wnew (mksrc t 0 [] false)) 0 []) = Fine (tr, s) /\
    i_shown s ++ rest (wbase (i_in s)) = t.
Proof.
  intros F N. destruct (euse_shown (keyboard_stat t) F) as (tr & s & p & Hu & [Hh _] & S).
  exists tr, s. split; [exact Hu|]. destruct Hh as (_ & _ & _ & _ & _ & <-).
  cbn [keyboard i_shown app] in S. rewrite S. now apply eshown_left.
Qed.
(** A read that finds less than it asks for. *)
Lemma echo_short t n old : t <> [] -> 2 * length t <= n -> length old = n ->
  exists s, eread (wrap src_base) n old (mki (wnew (mksrc t 0 [] false)) 0 []) = Fine (t, s) /\
    i_shown s = lf (skipn (n - length t) old).
Proof.
  intros Ht Hn Ho. assert (Lt : 1 <= length t) by (destruct t; [congruence|cbn; lia]).
  pose proof (keyboard_stat t) as [Hh _].
  destruct (holds_read src_delivers_prompt n Hh) as (more & r' & w' & Hr & Er & _ & _ & Hh').
  pose proof (wrap_prompt Hh Hr) as Eg. cbn [app] in Eg. rewrite (firstn_all2 t) in Eg by lia.
  unfold eread. cbn [wrap s_read i_in]. unfold keyboard in Hr. cbn [i_in] in Hr. rewrite Hr, Eg.
  cbn [sbind i_unread i_shown]. eexists. split; [reflexivity|]. cbn [i_shown].
  destruct (Nat.ltb_spec 0 (length t)); [|lia]. rewrite Nat.sub_0_r. cbn [app]. rewrite show_lf. f_equal.
  rewrite skipn_app_ge by lia. rewrite skipn_add.
  replace (length t + (n - length t - length t)) with (n - length t) by lia.
  apply firstn_all2. rewrite skipn_length. lia.
Qed.

(** ** Values as bytes. *)
Lemma typed_exact t sz n : (0 < sz)%Z -> (0 <= n)%Z -> (n * sz < 2 ^ 64)%Z ->
  (n * sz <= Z.of_nat (length t))%Z ->
  exists st, typed_read (wrap src_base) sz n (wnew (mksrc t 0 [] false)) =
    Fine (n, firstn (Z.to_nat (n * sz)) t, st) /\
    exists st', s_read (wrap src_base) (length t) st = Fine (skipn (Z.to_nat (n * sz)) t, st').
Proof.
  intros Hs Hn Hw Ht. unfold typed_read. rewrite Z.mod_small by nia.
  set (m := Z.to_nat (n * sz)).
  assert (Lm : m <= length t) by (unfold m; lia).
  pose proof (keyboard_stat t) as [Hh _]. cbn [keyboard i_in] in Hh.
  destruct (holds_read src_delivers_prompt m Hh) as (more & r' & w' & Hr & Er & _ & _ & Hh').
  pose proof (wrap_prompt Hh Hr) as Eg. cbn [app] in Eg.
  cbn [wrap s_read]. rewrite Hr, Eg. cbn [sbind fst snd].
  rewrite firstn_length, Nat.min_l by exact Lm.
  replace (Z.of_nat m / sz)%Z with n. 2:{ unfold m. rewrite Z2Nat.id by nia. now rewrite Z.div_mul by lia. }
  exists w'. split; [reflexivity|].
  destruct (holds_read src_delivers_prompt (length t) Hh') as (more2 & r2 & w2 & Hr2 & _).
  pose proof (wrap_prompt Hh' Hr2) as Eg2. exists w2. rewrite Hr2, Eg2.
  f_equal. f_equal. rewrite skipn_nil. cbn [app].
  assert (Er' : r' = skipn m t).
  { rewrite firstn_nil in Eg. cbn [app] in Eg. subst more. rewrite <- (firstn_skipn m t) in Er at 1.
    apply app_inv_head in Er. now symmetry. }
  subst r'. apply firstn_all2. rewrite skipn_length. lia.
Qed.
Lemma typed_round sz n bytes h : (0 < sz)%Z -> (0 <= n)%Z -> (n * sz < 2 ^ 64)%Z ->
  Z.of_nat (length bytes) = (n * sz)%Z ->
  let f := typed_write sz n bytes (mksnk h []) in
  exists st, typed_read (wrap src_base) sz n (wnew (mksrc (skipn (length h) (held f)) 0 [] false)) =
    Fine (n, bytes, st).
Proof.
  intros Hs Hn Hw Hb. cbv zeta. unfold typed_write. rewrite Z.mod_small by nia.
  rewrite firstn_all2 by lia. cbn [snk_write takes held].
  rewrite skipn_app_ge by lia. rewrite Nat.sub_diag. cbn [skipn].
  destruct (@typed_exact bytes sz n Hs Hn Hw ltac:(lia)) as (st & H & _). exists st. rewrite H.
  rewrite firstn_all2 by lia. reflexivity.
Qed.
Lemma typed_lost t sz : t <> [] -> (Z.of_nat (length t) < sz < 2 ^ 64)%Z ->
  exists st, typed_read (wrap src_base) sz 1 (wnew (mksrc t 0 [] false)) = Fine (0%Z, t, st) /\
    exists st', s_read (wrap src_base) (length t) st = Fine ([], st').
Proof.
  intros Ht Hs. unfold typed_read. rewrite Z.mul_1_l, Z.mod_small by lia.
  set (m := Z.to_nat sz). assert (Lm : length t <= m) by (unfold m; lia).
  pose proof (keyboard_stat t) as [Hh _]. cbn [keyboard i_in] in Hh.
  destruct (holds_read src_delivers_prompt m Hh) as (more & r' & w' & Hr & Er & _ & _ & Hh').
  pose proof (wrap_prompt Hh Hr) as Eg. cbn [app] in Eg. rewrite (firstn_all2 t) in Eg by exact Lm.
  cbn [wrap s_read]. rewrite Hr, Eg. cbn [sbind fst snd].
  rewrite Z.div_small by lia. exists w'. split; [reflexivity|].
  destruct (holds_read src_delivers_prompt (length t) Hh') as (more2 & r2 & w2 & Hr2 & _).
  pose proof (wrap_prompt Hh' Hr2) as Eg2. exists w2. rewrite Hr2, Eg2.
  rewrite firstn_nil in Eg. cbn [app] in Eg. subst more.
  assert (r' = []) as ->.
  { apply (f_equal (@length Z)) in Er. rewrite app_length in Er. destruct r'; [reflexivity|cbn in Er; lia]. }
  rewrite skipn_nil. cbn [app]. now rewrite firstn_nil.
Qed.
Lemma typed_wraps t sz n sch : ((n * sz) mod 2 ^ 64 = 0)%Z ->
  typed_read (wrap src_base) sz n (wnew (mksrc t 0 sch false)) = Fine (0%Z, [], wnew (mksrc t 0 sch false)).
Proof.
  intros H. unfold typed_read. rewrite H. cbn [Z.to_nat wrap s_read]. unfold wread.
  cbn [Nat.eqb sbind fst snd length]. now rewrite Zdiv_0_l.
Qed.

(** ** Rows. *)
Lemma cut_at (l : list Z) : forall (m : list Z) x y t t', ~ In 44%Z l -> ~ In 93%Z l ->
  ~ In 44%Z m -> ~ In 93%Z m -> (x = 44%Z \/ x = 93%Z) -> (y = 44%Z \/ y = 93%Z) ->
  l ++ x :: t = m ++ y :: t' -> l = m /\ x = y /\ t = t'.
Proof.
  induction l as [|a l IH]; intros m x y t t' H1 H2 H3 H4 Hx Hy E.
  - destruct m as [|c m]; [cbn in E; injection E as -> ->; auto|].
    cbn [app] in E. injection E as -> _. exfalso.
    destruct Hx as [->| ->]; [apply H3|apply H4]; now left.
  - destruct m as [|c m].
    + cbn [app] in E. injection E as <- _. exfalso.
      destruct Hy as [->| ->]; [apply H1|apply H2]; now left.
    + cbn [app] in E. injection E as <- E. 
      destruct (IH m x y t t') as (-> & -> & ->); auto.
      * intros F; apply H1; now right.
      * intros F; apply H2; now right.
      * intros F; apply H3; now right.
      * intros F; apply H4; now right.
Qed.
Section RowText.
Context {A : Type} (txt : A -> list Z).
Hypothesis Hplain : forall a, txt a <> [] /\ ~ In 44%Z (txt a) /\ ~ In 93%Z (txt a).
Hypothesis Hinj : forall a a', txt a = txt a' -> a = a'.
Lemma row_rest_head l : exists x t, row_rest txt l = x :: t /\ (x = 44%Z \/ x = 93%Z).
Proof.
  destruct l as [|a l]; cbn [row_rest].
  - exists 93%Z, []. auto.
  - exists 44%Z, (txt a ++ row_rest txt l). auto.
Qed.
Lemma row_rest_inj : forall l l', row_rest txt l = row_rest txt l' -> l = l'.
Proof.
  induction l as [|a l IH]; intros [|a' l'] E; cbn [row_rest] in E; try discriminate; [reflexivity|].
  injection E as E.
  destruct (row_rest_head l) as (x & t & Ex & Hx). destruct (row_rest_head l') as (y & t' & Ey & Hy).
  rewrite Ex, Ey in E. destruct (Hplain a) as (_ & P1 & P2), (Hplain a') as (_ & P3 & P4).
  destruct (cut_at P1 P2 P3 P4 Hx Hy E) as (Ea & -> & ->).
  rewrite (Hinj Ea). f_equal. apply IH. congruence.
Qed.
Lemma row_inj l l' : row txt l = row txt l' -> l = l'.
Proof.
  unfold row. intros [= E]. destruct l as [|a l], l' as [|a' l']; [reflexivity| | |].
  - destruct (Hplain a') as (P0 & P1 & P2). destruct (txt a') as [|c s]; [congruence|].
    cbn [app] in E. injection E as <- _. exfalso. apply P2. now left.
  - destruct (Hplain a) as (P0 & P1 & P2). destruct (txt a) as [|c s]; [congruence|].
    cbn [app] in E. injection E as -> _. exfalso. apply P2. now left.
  - apply row_rest_inj. cbn [row_rest]. now rewrite E.
Qed.
End RowText.

Lemma typed_again t sz n bytes : (0 < sz)%Z -> (0 <= n)%Z -> (n * sz <= 1024)%Z ->
  Z.of_nat (length bytes) = (n * sz)%Z ->
  exists st1 st2 st3, typed_unread (wrap src_base) sz n bytes (wnew (mksrc t 0 [] false)) = Fine st1 /\
    typed_read (wrap src_base) sz n st1 = Fine (n, bytes, st2) /\
    s_read (wrap src_base) (length t) st2 = Fine (t, st3).
Proof.
  intros Hs Hn Hb Hl.
  assert ((n * sz) mod 2 ^ 64 = n * sz)%Z as M by (apply Z.mod_small; nia).
  unfold typed_unread, typed_read. rewrite M.
  assert (Z.to_nat (n * sz) = length bytes) as Ln by lia. rewrite Ln, firstn_all.
  destruct (keyboard_stat t) as [H0 _]. cbn [i_in keyboard] in H0.
  destruct (@holds_unread _ _ _ _ _ [] t bytes H0) as (w1 & E1 & H1); [cbn [length]; lia|].
  rewrite app_nil_r in H1.
  destruct (holds_read src_delivers_prompt (length bytes) H1) as (more & r2 & w2 & E2 & X2 & L2 & _ & H2).
  assert (more = []) as -> by (destruct more; [reflexivity|cbn [length] in L2; lia]).
  rewrite firstn_all, app_nil_r in E2. cbn [app] in X2. subst r2.
  rewrite skipn_all in H2.
  destruct (holds_read src_delivers_prompt (length t) H2) as (more & r3 & w3 & E3 & X3 & L3 & _ & H3).
  pose proof (wrap_prompt H2 E3) as Eg. cbn [app] in Eg. rewrite firstn_all in Eg.
  exists w1, w2, w3. cbn [wrap s_unread s_read]. split; [exact E1|]. split.
  - rewrite E2. cbn [sbind fst snd]. rewrite Hl, Z.div_mul by lia. reflexivity.
  - rewrite E3, Eg. reflexivity.
Qed.
