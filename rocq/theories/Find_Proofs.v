(** Proofs about searching, replacing, splitting and padding of strings. *)
From Verif Require Import Base Ref_Model Range_Model Range_Spec Range_Proofs Find_Model Find_Spec.
Local Open Scope omonad_scope.
Local Open Scope nat_scope.

(** ** Occurrences *)
Lemma occurs_skipn (pat text : list Z) b k :
  b <= length text -> occurs pat (skipn b text) k <-> occurs pat text (b + k).
Proof.
  intros L. rewrite !occurs_nth, skipn_length. split; intros [H1 H2]; (split; [lia|]).
  - intros i Hi. rewrite <- H2, nth_error_skip by lia. f_equal. lia.
  - intros i Hi. rewrite <- H2, nth_error_skip by lia. f_equal. lia.
Qed.

Lemma occurs_app_l (pat text tail : list Z) k :
  occurs pat text k -> occurs pat (text ++ tail) k.
Proof.
  intros (a & c & -> & E). exists a, (c ++ tail). rewrite <- !app_assoc. auto.
Qed.

Lemma occurs_app_inside (pat text tail : list Z) k :
  k + length pat <= length text -> occurs pat (text ++ tail) k -> occurs pat text k.
Proof.
  intros L. rewrite !occurs_nth. intros [_ H]. split; [exact L|].
  intros i Hi. rewrite <- H by exact Hi. rewrite nth_error_app1 by lia. reflexivity.
Qed.

Lemma part_text (text tail : list Z) b :
  b <= length text -> part_of (text ++ tail) b (length text - b) = skipn b text.
Proof.
  intros L. unfold part_of. rewrite skipn_app. replace (b - length text) with 0 by lia.
  cbn [skipn]. rewrite <- (skipn_length b text), firstn_app, Nat.sub_diag. cbn [firstn].
  rewrite firstn_all, app_nil_r. reflexivity.
Qed.

Lemma occurs_bound (pat text : list Z) k : occurs pat text k -> k + length pat <= length text.
Proof. intros H. apply occurs_nth in H. tauto. Qed.

Lemma occurs_one (c : Z) text k : occurs [c] text k <-> nth_error text k = Some c.
Proof.
  rewrite occurs_nth. cbn [length]. split.
  - intros [L H]. specialize (H 0 ltac:(lia)). rewrite Nat.add_0_r in H. exact H.
  - intros H. assert (k < length text) by (apply nth_error_Some; congruence).
    split; [lia|]. intros i Hi. replace i with 0 by lia. rewrite Nat.add_0_r. exact H.
Qed.

(** The least position among finitely many candidates. *)
Lemma least_dec (P : nat -> Prop) n :
  (forall k, {P k} + {~ P k}) -> (forall k, P k -> k < n) ->
  {k | least P k} + {forall k, ~ P k}.
Proof.
  intros D B.
  assert (G : forall m, {k | k < m /\ least P k} + {forall k, k < m -> ~ P k}).
  { induction m as [|m [[k [L H]]|H]].
    - right. lia.
    - left. exists k. split; [lia|exact H].
    - destruct (D m) as [Y|N].
      + left. exists m. split; [lia|]. split; [exact Y|].
        intros j Hj. destruct (le_lt_dec m j); [lia|]. exfalso. exact (H _ l Hj).
      + right. intros k Hk. destruct (Nat.eq_dec k m) as [->|]; [exact N|]. apply H. lia. }
  destruct (G n) as [[k [_ H]]|H]; [left; exists k; exact H|right].
  intros k Hk. exact (H k (B k Hk) Hk).
Qed.

Lemma occurs_dec (pat text : list Z) k : {occurs pat text k} + {~ occurs pat text k}.
Proof.
  destruct (le_lt_dec (k + length pat) (length text)) as [L|L].
  - destruct (list_eq_dec Z.eq_dec (firstn (length pat) (skipn k text)) pat) as [E|E].
    + left. exists (firstn k text), (skipn (length pat) (skipn k text)).
      split; [|rewrite firstn_length; lia].
      rewrite <- E at 1. rewrite firstn_skipn, firstn_skipn. reflexivity.
    + right. intros (a & c & -> & <-). apply E.
      rewrite skipn_app, skipn_all, Nat.sub_diag. cbn [skipn app].
      rewrite firstn_app, firstn_all, Nat.sub_diag. cbn [firstn]. apply app_nil_r.
  - right. intros H. apply occurs_bound in H. lia.
Qed.

Lemma first_from_ex (pat text : list Z) b :
  {r | first_from pat text b r}.
Proof.
  destruct (@least_dec (fun k => b <= k /\ occurs pat text k) (S (length text))) as [[k H]|H].
  - intros k. destruct (le_lt_dec b k); [|right; lia].
    destruct (occurs_dec pat text k); [left|right]; tauto.
  - intros k [_ H]. apply occurs_bound in H. lia.
  - exists (Some k). exact H.
  - exists None. exact H.
Qed.

Lemma first_from_unique (pat text : list Z) b r r' :
  first_from pat text b r -> first_from pat text b r' -> r = r'.
Proof.
  unfold first_from, first_with. destruct r as [k|], r' as [k'|]; intros H H'; auto.
  - destruct H as [H1 H2], H' as [H1' H2']. f_equal.
    pose proof (H2 _ H1'). pose proof (H2' _ H1). lia.
  - destruct H as [H _]. exfalso. exact (H' _ H).
  - destruct H' as [H' _]. exfalso. exact (H _ H').
Qed.

(** ** find *)
Definition report (n : needle) (begin : nat) (r : option nat) : option nat :=
  match n with NOwn _ => r | _ => option_map (fun k => k - begin) r end.


Lemma size_sub_le b a : (a <= b)%nat -> (Z.of_nat b < 2 ^ 63)%Z -> size_sub b a = Z.of_nat (b - a).
Proof.
  intros L B. unfold size_sub, size_mod. rewrite Z.mod_small; [lia|]. lia.
Qed.

Lemma substr_in text b n :
  small text -> b <= length text -> (Z.of_nat n <= Z.of_nat (length text))%Z ->
  substr text b (Z.of_nat n) = Some (firstn n (skipn b text)).
Proof.
  unfold small. intros Sm L Hn. unfold substr. rewrite size_sub_le by lia.
  destruct (Z.eqb_spec (Z.min (Z.of_nat n) (Z.of_nat (length text - b))) 0) as [E|E].
  - assert (n = 0 \/ b = length text) as [->| ->] by lia; [reflexivity|].
    rewrite skipn_all. rewrite firstn_nil. reflexivity.
  - destruct (Z.leb_spec (Z.of_nat b + Z.min (Z.of_nat n) (Z.of_nat (length text - b))) (Z.of_nat (length text))); [|lia].
    f_equal. destruct (Z.min_spec (Z.of_nat n) (Z.of_nat (length text - b))) as [[_ ->]|[G ->]].
    + rewrite Nat2Z.id. reflexivity.
    + rewrite Nat2Z.id. rewrite <- skipn_length, firstn_all.
      rewrite firstn_all2; [reflexivity|]. rewrite skipn_length. lia.
Qed.

Lemma substr_rest text b n :
  small text -> b <= length text -> (Z.of_nat (length text) <= n)%Z ->
  substr text b n = Some (skipn b text).
Proof.
  unfold small. intros Sm L Hn. unfold substr. rewrite size_sub_le by lia.
  rewrite Z.min_r by lia.
  destruct (Z.eqb_spec (Z.of_nat (length text - b)) 0) as [E|E].
  - rewrite skipn_all2 by lia. reflexivity.
  - destruct (Z.leb_spec (Z.of_nat b + Z.of_nat (length text - b)) (Z.of_nat (length text))); [|lia].
    rewrite Nat2Z.id, <- skipn_length, firstn_all. reflexivity.
Qed.

Lemma npos_big text : small text -> (Z.of_nat (length text) <= npos)%Z.
Proof. unfold small, npos, size_mod. lia. Qed.

Lemma replaced_skip pat by_ text k r :
  least (occurs pat text) k -> replaced pat by_ (skipn (k + length pat) text) r ->
  replaced pat by_ text (firstn k text ++ by_ ++ r).
Proof.
  intros [(a & c & E & La) Hm] H. subst text k.
  replace (firstn (length a) (a ++ pat ++ c)) with a.
  2:{ rewrite firstn_app, firstn_all, Nat.sub_diag. cbn. rewrite app_nil_r. reflexivity. }
  constructor.
  - split; [exists a, c; auto|exact Hm].
  - replace (skipn (length a + length pat) (a ++ pat ++ c)) with c in H; [exact H|].
    rewrite app_assoc, skipn_app. rewrite app_length, Nat.sub_diag. cbn [skipn].
    rewrite skipn_all2 by (rewrite app_length; lia). reflexivity.
Qed.

Lemma skip_skip (l : list Z) a b : skipn a (skipn b l) = skipn (b + a) l.
Proof.
  revert l. induction b as [|b IH]; intros l; [reflexivity|].
  destruct l as [|x l]; [rewrite !skipn_nil; reflexivity|]. cbn. apply IH.
Qed.

Lemma substr_any text b n :
  small text -> b <= length text -> (0 <= n)%Z -> exists p, substr text b n = Some p.
Proof.
  intros Sm L Hn. destruct (Z.le_gt_cases (Z.of_nat (length text)) n).
  - eexists. apply substr_rest; auto.
  - rewrite <- (Z2Nat.id n Hn). eexists. apply substr_in; auto. lia.
Qed.

Lemma size_sub_nonneg a b : (0 <= size_sub a b)%Z.
Proof. unfold size_sub, size_mod. apply Z.mod_pos_bound. lia. Qed.

Lemma least_shift (pat text : list Z) b k :
  b <= length text ->
  least (fun k => b <= k /\ occurs pat text k) k ->
  b <= k /\ least (occurs pat (skipn b text)) (k - b).
Proof.
  intros L [[Hb Ho] Hm]. split; [exact Hb|]. split.
  - apply occurs_skipn; [exact L|]. replace (b + (k - b)) with k by lia. exact Ho.
  - intros j Hj. apply occurs_skipn in Hj; [|exact L].
    specialize (Hm (b + j) ltac:(split; [lia|exact Hj])). lia.
Qed.

Lemma find_val_first c text b r :
  b <= length text -> first_from [c] text b r ->
  find_val Z.eqb 0 c (skipn b text) = option_map (fun k => k - b) r.
Proof.
  intros L H.
  assert (G : forall l i, match find_val Z.eqb i c l with
    | Some p => i <= p /\ nth_error l (p - i) = Some c /\ forall j, nth_error l j = Some c -> p - i <= j
    | None => forall j, nth_error l j <> Some c end).
  { induction l as [|x l IH]; intros i; cbn [find_val].
    - intros [|j]; discriminate.
    - destruct (Z.eqb_spec x c) as [->|N].
      + rewrite Nat.sub_diag. repeat split; try reflexivity; lia.
      + specialize (IH (S i)). destruct (find_val Z.eqb (S i) c l) as [p|].
        * destruct IH as (I1 & I2 & I3). split; [lia|].
          replace (p - i) with (S (p - S i)) by lia. split; [exact I2|].
          intros [|j] Hj; [cbn in Hj; congruence|]. cbn in Hj. apply I3 in Hj. lia.
        * intros [|j] Hj; cbn in Hj; [congruence|]. exact (IH j Hj). }
  specialize (G (skipn b text) 0). destruct (find_val Z.eqb 0 c (skipn b text)) as [p|].
  - destruct G as (_ & G2 & G3). rewrite Nat.sub_0_r in G2, G3. rewrite nth_error_skip in G2.
    assert (F : first_from [c] text b (Some (b + p))).
    { split; [split; [lia|apply occurs_one; exact G2]|].
      intros j [Hj Ho]. apply occurs_one in Ho.
      specialize (G3 (j - b)). rewrite nth_error_skip in G3.
      replace (b + (j - b)) with j in G3 by lia. specialize (G3 Ho). lia. }
    rewrite (first_from_unique H F). cbn. f_equal. lia.
  - assert (F : first_from [c] text b None).
    { intros j [Hj Ho]. apply occurs_one in Ho. apply (G (j - b)). rewrite nth_error_skip.
      replace (b + (j - b)) with j by lia. exact Ho. }
    rewrite (first_from_unique H F). reflexivity.
Qed.

Lemma first_at (pat text : list Z) k :
  least (occurs pat text) k -> first_from pat text k (Some k) /\ first_from pat text 0 (Some k).
Proof.
  intros [H1 H2]. split; (split; [split; [lia|exact H1]|]); intros j [_ Hj]; exact (H2 _ Hj).
Qed.

Theorem replace_at_exact text a b c by_ :
  small text -> text = a ++ b ++ c ->
  replace_at text (length a) (length b) by_ = Some (a ++ by_ ++ c).
Proof.
  intros Sm ->. unfold replace_at.
  rewrite substr_in by (auto; rewrite ?app_length; lia).
  rewrite substr_rest by (auto using npos_big; rewrite ?app_length; lia).
  cbn [skipn obind]. rewrite firstn_app, firstn_all, Nat.sub_diag. cbn [firstn]. rewrite app_nil_r.
  f_equal. f_equal. f_equal.
  rewrite app_assoc, skipn_app, skipn_all2 by (rewrite app_length; lia).
  rewrite app_length, Nat.sub_diag. reflexivity.
Qed.

Theorem replace_at_outside text pos size by_ :
  small text -> (Z.of_nat (pos + size) < 2 ^ 63)%Z -> length text < pos + size ->
  replace_at text pos size by_ = None.
Proof.
  unfold small. intros Sm B L. unfold replace_at.
  destruct (@substr_any text 0 (Z.of_nat pos) Sm ltac:(lia) ltac:(lia)) as [a ->]. cbn [obind].
  unfold substr, size_sub, npos, size_mod.
  rewrite <- (Z.mod_add _ 1) by lia. rewrite Z.mod_small by lia.
  destruct (Z.eqb_spec (Z.min (2 ^ 64 - 1) (Z.of_nat (length text) - Z.of_nat (pos + size) + 1 * 2 ^ 64)) 0); [lia|].
  destruct (Z.leb_spec (Z.of_nat (pos + size) +
     Z.min (2 ^ 64 - 1) (Z.of_nat (length text) - Z.of_nat (pos + size) + 1 * 2 ^ 64)) (Z.of_nat (length text))); [lia|].
  reflexivity.
Qed.



Section Find.
Variable idx : Z -> nat.


Lemma search_hit (text tail pat : list Z) b k :
  pat <> [] -> b <= length text -> first_from pat text b (Some k) ->
  search_fwd Z.eqb idx (text ++ tail) b (length text - b) pat = Some (Some k).
Proof.
  intros Ne L H. destruct (least_shift L H) as [Hb Hl].
  rewrite (@search_fwd_finds Z Z.eqb idx Z.eqb_eq (text ++ tail) b (length text - b) pat (k - b)).
  - f_equal. f_equal. lia.
  - exact Ne.
  - rewrite app_length. lia.
  - rewrite part_text by exact L. exact Hl.
Qed.

Lemma search_miss (text tail pat : list Z) b :
  pat <> [] -> b <= length text -> quiet pat text tail -> first_from pat text b None ->
  search_fwd Z.eqb idx (text ++ tail) b (length text - b) pat = Some None.
Proof.
  intros Ne L [Q1 Q2] H.
  destruct (search_fwd Z.eqb idx (text ++ tail) b (length text - b) pat) as [r|] eqn:E.
  - pose proof (@search_fwd_sound Z Z.eqb idx Z.eqb_eq (text ++ tail) b (length text - b) pat r Ne
      ltac:(rewrite app_length; lia) E) as Sd.
    destruct r as [p|]; [|reflexivity]. exfalso.
    destruct Sd as (Ho & Hb & _). apply (H p). split; [exact Hb|].
    exact (occurs_app_inside (Q2 _ Ho) Ho).
  - exfalso. revert E. apply search_fwd_defined; [exact Z.eqb_eq|exact Ne|].
    rewrite app_length. lia.
Qed.


Theorem find_from_hit text tail n b k :
  needle_chars n <> [] -> b <= length text ->
  first_from (needle_chars n) text b (Some k) ->
  find_from idx text tail n b = Some (report n b (Some k)).
Proof.
  intros Ne L H. unfold find_from. rewrite (proj2 (Nat.leb_le _ _) L).
  destruct n as [c|l|l|l]; cbn [needle_chars report] in *.
  - rewrite (find_val_first L H). reflexivity.
  - rewrite (search_hit tail Ne L H). reflexivity.
  - rewrite (search_hit tail Ne L H). reflexivity.
  - exact (search_hit tail Ne L H).
Qed.


Theorem find_from_miss text tail n b :
  needle_chars n <> [] -> b <= length text -> safe_miss n text tail ->
  first_from (needle_chars n) text b None ->
  find_from idx text tail n b = Some None.
Proof.
  intros Ne L Q H. unfold find_from. rewrite (proj2 (Nat.leb_le _ _) L).
  destruct n as [c|l|l|l]; cbn [needle_chars safe_miss] in *.
  - rewrite (find_val_first L H). reflexivity.
  - rewrite (search_miss Ne L Q H). reflexivity.
  - rewrite (search_miss Ne L Q H). reflexivity.
  - exact (search_miss Ne L Q H).
Qed.

Theorem find_from_exact text tail n b :
  needle_chars n <> [] -> b <= length text -> safe_miss n text tail ->
  exists r, first_from (needle_chars n) text b r /\
    find_from idx text tail n b = Some (report n b r).
Proof.
  intros Ne L Q. destruct (first_from_ex (needle_chars n) text b) as [r H].
  exists r. split; [exact H|]. destruct r as [k|].
  - exact (find_from_hit tail Ne L H).
  - rewrite (find_from_miss Ne L Q H). destruct n; reflexivity.
Qed.

Theorem find_from_wrong text tail n b k :
  needle_chars n <> [] -> (forall l, n <> NOwn l) -> 0 < b ->
  first_from (needle_chars n) text b (Some k) ->
  exists q, find_from idx text tail n b = Some (Some q) /\ q <> k.
Proof.
  intros Ne No Hb H. exists (k - b).
  pose proof (proj1 H) as [H1 H2]. pose proof (occurs_bound H2).
  rewrite (@find_from_hit text tail n b k Ne ltac:(lia) H).
  split; [|lia]. destruct n; try reflexivity. exfalso. eapply No. reflexivity.
Qed.

Theorem find_behind text tail n b :
  length text < b -> find_from idx text tail n b = None.
Proof.
  intros L. unfold find_from. destruct (Nat.leb_spec b (length text)); [lia|reflexivity].
Qed.

Theorem find_empty text tail n :
  needle_chars n = [] -> find idx text tail n = None.
Proof.
  intros E. unfold find, find_from. cbn [Nat.leb].
  destruct n as [c|l|l|l]; cbn [needle_chars] in E; try discriminate; subst l; reflexivity.
Qed.

Theorem contains_exact text tail n :
  needle_chars n <> [] -> safe_miss n text tail ->
  exists r, contains idx text tail n = Some r /\
    (r = true <-> exists k, occurs (needle_chars n) text k).
Proof.
  intros Ne Q. unfold contains, find.
  destruct (@find_from_exact text tail n 0 Ne ltac:(lia) Q) as (r & H & E). rewrite E.
  destruct r as [k|].
  - exists true. split; [destruct n; reflexivity|]. split; [|reflexivity].
    intros _. exists k. exact (proj2 (proj1 H)).
  - exists false. split; [destruct n; reflexivity|]. split; [discriminate|].
    intros [k Hk]. exfalso. apply (H k). split; [lia|exact Hk].
Qed.

(** ** substr *)





(** ** replace *)


Lemma replace_own_loop text tail l by_ :
  l <> [] -> small text -> quiet l text tail ->
  forall fuel pos aret, pos <= length text -> length text < fuel + pos ->
  exists r, replace_loop idx fuel text tail (NOwn l) by_ pos aret = Ok (aret ++ r) /\
    replaced l by_ (skipn pos text) r.
Proof.
  intros Ne Sm Q. induction fuel as [|f IH]; intros pos aret L Lf; [lia|].
  cbn [replace_loop].
  destruct (first_from_ex l text pos) as [[k|] H].
  - rewrite (@find_from_hit text tail (NOwn l) pos k Ne L H). cbn [report needle_chars].
    destruct (least_shift L H) as [Hb Hl].
    pose proof (occurs_bound (proj2 (proj1 H))) as B.
    rewrite size_sub_le by (unfold small in Sm; lia).
    rewrite substr_in by (auto; lia).
    destruct l as [|x l]; [contradiction|]. cbn [length] in B |- *.
    destruct (IH (k + S (length l)) (aret ++ firstn (k - pos) (skipn pos text) ++ by_)
      ltac:(lia) ltac:(lia)) as (r & E & R).
    rewrite E. eexists. split; [rewrite <- !app_assoc; reflexivity|].
    apply replaced_skip; [exact Hl|]. rewrite skip_skip. cbn [length].
    replace (pos + (k - pos + S (length l))) with (k + S (length l)) by lia. exact R.
  - rewrite (@find_from_miss text tail (NOwn l) pos Ne L Q H).
    rewrite substr_rest by (auto using npos_big). eexists. split; [reflexivity|].
    constructor. intros k Hk. apply occurs_skipn in Hk; [|exact L].
    apply (H (pos + k)). split; [lia|exact Hk].
Qed.

Theorem replace_own text tail l by_ :
  l <> [] -> small text -> quiet l text tail ->
  forall fuel, length text < fuel ->
  exists r, replace_all idx fuel text tail (NOwn l) by_ = Ok r /\ replaced l by_ text r.
Proof.
  intros Ne Sm Q fuel Lf.
  destruct (@replace_own_loop text tail l by_ Ne Sm Q fuel 0 [] ltac:(lia) ltac:(lia)) as (r & E & R).
  exists r. split; [exact E|exact R].
Qed.



(** From a start position that has an occurrence of the pattern at or behind it
    and that is at least the size of the pattern, the loop never ends. *)
Lemma replace_stuck text tail n by_ last :
  needle_chars n <> [] -> (forall l, n <> NOwn l) -> small text ->
  occurs (needle_chars n) text last ->
  forall fuel pos aret,
  length (needle_chars n) <= pos <= last ->
  replace_loop idx fuel text tail n by_ pos aret = Out.
Proof.
  intros Ne No Sm Ho. induction fuel as [|f IH]; intros pos aret [L1 L2]; [reflexivity|].
  cbn [replace_loop]. pose proof (occurs_bound Ho) as B.
  destruct (first_from_ex (needle_chars n) text pos) as [[k|] H].
  - rewrite (@find_from_hit text tail n pos k Ne ltac:(lia) H).
    replace (report n pos (Some k)) with (Some (k - pos))
      by (destruct n; try reflexivity; exfalso; eapply No; reflexivity).
    destruct (@substr_any text pos (size_sub (k - pos) pos) Sm ltac:(lia) (@size_sub_nonneg _ _)) as [p E].
    rewrite E. apply IH.
    destruct H as [[H1 _] H2]. specialize (H2 last (conj L2 Ho)). lia.
  - exfalso. apply (H last). split; [exact L2|exact Ho].
Qed.

Theorem replace_diverges text tail n by_ :
  needle_chars n <> [] -> (forall l, n <> NOwn l) -> small text ->
  twice (needle_chars n) text ->
  forall fuel, replace_all idx fuel text tail n by_ = Out.
Proof.
  intros Ne No Sm (k & j & Hk & Hj & L) fuel. unfold replace_all.
  destruct fuel as [|f]; [reflexivity|]. cbn [replace_loop].
  assert (H : first_from (needle_chars n) text 0 (Some k)).
  { split; [split; [lia|exact (proj1 Hk)]|]. intros i [_ Hi]. exact (proj2 Hk _ Hi). }
  rewrite (@find_from_hit text tail n 0 k Ne ltac:(lia) H).
  replace (report n 0 (Some k)) with (Some k).
  2:{ destruct n; cbn; rewrite ?Nat.sub_0_r; reflexivity. }
  destruct (@substr_any text 0 (size_sub k 0) Sm ltac:(lia) (@size_sub_nonneg _ _)) as [p E].
  rewrite E. apply (replace_stuck tail by_ Ne No Sm Hj). lia.
Qed.

Theorem replace_once text tail n by_ :
  needle_chars n <> [] -> small text -> safe_miss n text tail ->
  ~ twice (needle_chars n) text ->
  forall fuel, 2 <= fuel ->
  exists r, replace_all idx fuel text tail n by_ = Ok r /\ replaced (needle_chars n) by_ text r.
Proof.
  intros Ne Sm Q Nt fuel Lf. unfold replace_all.
  destruct fuel as [|f]; [lia|]. cbn [replace_loop].
  destruct (first_from_ex (needle_chars n) text 0) as [[k|] H].
  - rewrite (@find_from_hit text tail n 0 k Ne ltac:(lia) H).
    replace (report n 0 (Some k)) with (Some k).
    2:{ destruct n; cbn; rewrite ?Nat.sub_0_r; reflexivity. }
    assert (Hk : least (occurs (needle_chars n) text) k).
    { destruct H as [[_ H1] H2]. split; [exact H1|]. intros j Hj. apply H2. split; [lia|exact Hj]. }
    pose proof (occurs_bound (proj1 Hk)) as B.
    rewrite size_sub_le by (unfold small in Sm; lia). rewrite substr_in by (auto; lia).
    rewrite Nat.sub_0_r. cbn [skipn].
    destruct f as [|f]; [lia|]. cbn [replace_loop].
    rewrite (@find_from_miss text tail n (k + length (needle_chars n)) Ne B Q).
    + rewrite substr_rest by auto using npos_big. eexists. split; [reflexivity|].
      cbn [app]. rewrite <- app_assoc. apply replaced_skip; [exact Hk|].
      constructor. intros j Hj. apply occurs_skipn in Hj; [|exact B].
      apply Nt. do 2 eexists. split; [exact Hk|]. split; [exact Hj|]. lia.
    + intros j [Hj Ho]. apply Nt. do 2 eexists. split; [exact Hk|]. split; [exact Ho|]. exact Hj.
  - rewrite (@find_from_miss text tail n 0 Ne ltac:(lia) Q H).
    rewrite substr_rest by (auto using npos_big; lia). eexists. split; [reflexivity|].
    constructor. intros k Hk. apply (H k). split; [lia|exact Hk].
Qed.



(** ** arec *)


Lemma arec_loop_rel text tail n k :
  needle_chars n <> [] -> (forall l, n <> NOwn l) ->
  least (occurs (needle_chars n) text) k ->
  forall i,
  arec_loop idx i text tail n k (Some 0) = Some (if Nat.odd i then (0, Some k) else (k, Some 0)) /\
  arec_loop idx i text tail n 0 (Some k) = Some (if Nat.odd i then (k, Some 0) else (0, Some k)).
Proof.
  intros Ne No H. destruct (first_at H) as [F1 F2]. pose proof (occurs_bound (proj1 H)) as B.
  assert (R1 : report n k (Some k) = Some 0).
  { destruct n; cbn; rewrite ?Nat.sub_diag; try reflexivity. exfalso. eapply No. reflexivity. }
  assert (R2 : report n 0 (Some k) = Some k).
  { destruct n; cbn; rewrite ?Nat.sub_0_r; reflexivity. }
  induction i as [|i [I1 I2]]; [split; reflexivity|]. cbn [arec_loop].
  rewrite (@find_from_hit text tail n 0 k Ne ltac:(lia) F2), R2. cbn [obind]. rewrite I2.
  rewrite (@find_from_hit text tail n k k Ne ltac:(lia) F1), R1. cbn [obind]. rewrite I1.
  rewrite Nat.odd_succ, <- Nat.negb_odd. destruct (Nat.odd i); split; reflexivity.
Qed.

Lemma arec_loop_own text tail l k :
  l <> [] -> least (occurs l text) k ->
  forall i, arec_loop idx i text tail (NOwn l) k (Some k) = Some (k, Some k).
Proof.
  intros Ne H. destruct (first_at H) as [F1 _]. pose proof (occurs_bound (proj1 H)) as B.
  induction i as [|i IH]; [reflexivity|]. cbn [arec_loop].
  rewrite (@find_from_hit text tail (NOwn l) k k Ne ltac:(lia) F1). exact IH.
Qed.

Theorem arec_result text tail n k index :
  needle_chars n <> [] -> small text ->
  least (occurs (needle_chars n) text) k ->
  arec idx text tail n index = Some (arec_gives n text k index).
Proof.
  intros Ne Sm H. unfold arec, find. destruct (first_at H) as [F1 F2].
  pose proof (occurs_bound (proj1 H)) as B.
  rewrite (@find_from_hit text tail n 0 k Ne ltac:(lia) F2). cbn [obind].
  assert (R2 : report n 0 (Some k) = Some k).
  { destruct n; cbn; rewrite ?Nat.sub_0_r; reflexivity. }
  rewrite R2. rewrite (@find_from_hit text tail n k k Ne ltac:(lia) F1). cbn [obind].
  assert (Z0 : substr text k (size_sub k k) = Some []).
  { rewrite size_sub_le by (unfold small in Sm; lia). rewrite Nat.sub_diag.
    rewrite substr_in by (auto; lia). reflexivity. }
  assert (G : (forall l, n <> NOwn l) ->
    (pe <- arec_loop idx index text tail n k (report n k (Some k)) ;;
      match pe with
      | (pos, Some e) => substr text pos (size_sub e pos)
      | (pos, None) => substr text pos ((npos - Z.of_nat pos) mod size_mod)%Z
      end) =
    Some (if Nat.odd index then firstn k text else match k with O => [] | _ => skipn k text end)).
  { intros No.
    replace (report n k (Some k)) with (Some 0).
    2:{ destruct n; cbn; rewrite ?Nat.sub_diag; try reflexivity. exfalso. eapply No. reflexivity. }
    rewrite (proj1 (arec_loop_rel tail Ne No H index)). cbn [obind].
    destruct (Nat.odd index).
    - rewrite size_sub_le by (unfold small in Sm; lia). rewrite Nat.sub_0_r.
      rewrite substr_in by (auto; lia). reflexivity.
    - destruct k as [|k]; [exact Z0|].
      rewrite substr_rest; [reflexivity|exact Sm|lia|].
      unfold small in Sm. unfold size_sub, size_mod.
      rewrite <- (Z.mod_add _ 1) by lia. rewrite Z.mod_small; lia. }
  destruct n as [c|l|l|l]; try (apply G; congruence).
  cbn [report]. rewrite (@arec_loop_own text tail l k Ne H). cbn [obind arec_gives]. exact Z0.
Qed.

Theorem arec_no_delimiter text tail n index :
  needle_chars n <> [] -> safe_miss n text tail ->
  (forall k, ~ occurs (needle_chars n) text k) ->
  arec idx text tail n index = None.
Proof.
  intros Ne Q H. unfold arec, find.
  rewrite (@find_from_miss text tail n 0 Ne ltac:(lia) Q); [reflexivity|].
  intros k [_ Hk]. exact (H k Hk).
Qed.
End Find.

(** ** Memory behind the text *)
Lemma quiet_zeros pat text n :
  pat <> [] -> ~ In 0%Z pat -> length pat <= n -> quiet pat text (repeat 0%Z n).
Proof.
  intros Ne N0 L. split; [rewrite repeat_length; exact L|].
  intros k H. destruct (le_lt_dec (k + length pat) (length text)) as [|G]; [assumption|].
  exfalso. apply N0. pose proof (occurs_bound H) as B. rewrite app_length, repeat_length in B.
  apply occurs_nth in H. destruct H as [_ H].
  destruct pat as [|x pat]; [contradiction|]. cbn [length] in *.
  specialize (H (length pat) ltac:(lia)).
  rewrite nth_error_app2 in H by lia.
  assert (E : nth_error (repeat 0%Z n) (k + length pat - length text) = Some 0%Z).
  { apply nth_error_repeat. lia. }
  rewrite E in H. symmetry in H. exact (nth_error_In _ _ H).
Qed.

(** ** starts_with, ends_with *)
Lemma str_eqb_eq a b : str_eqb a b = true <-> a = b.
Proof. unfold str_eqb. destruct (list_eq_dec Z.eq_dec a b); split; congruence. Qed.

Lemma begins_firstn (p l : list Z) : begins p l <-> firstn (length p) l = p.
Proof.
  split.
  - intros [c ->]. rewrite firstn_app, firstn_all, Nat.sub_diag. cbn. apply app_nil_r.
  - intros E. exists (skipn (length p) l). rewrite <- E at 1. symmetry. apply firstn_skipn.
Qed.

Lemma ends_skipn (p l : list Z) :
  length p <= length l -> ends p l <-> skipn (length l - length p) l = p.
Proof.
  intros L. split.
  - intros [a ->]. rewrite app_length. replace (length a + length p - length p) with (length a) by lia.
    rewrite skipn_app, skipn_all, Nat.sub_diag. reflexivity.
  - intros E. exists (firstn (length l - length p) l). rewrite <- (firstn_skipn (length l - length p) l) at 1. f_equal. exact E.
Qed.

Theorem starts_with_exact text n :
  small text ->
  exists r, starts_with text n = Some r /\ (r = true <-> begins (needle_chars n) text).
Proof.
  intros Sm.
  assert (G : exists r, (if Nat.ltb (length text) (length (needle_chars n)) then Some false
      else part <- substr text 0 (Z.of_nat (length (needle_chars n))) ;;
           Some (str_eqb part (needle_chars n))) = Some r /\
      (r = true <-> begins (needle_chars n) text)).
  { destruct (Nat.ltb_spec (length text) (length (needle_chars n))) as [L|L].
    - exists false. split; [reflexivity|]. split; [discriminate|].
      intros [c E]. apply (f_equal (@length Z)) in E. rewrite app_length in E. lia.
    - rewrite substr_in by (auto; lia). eexists. split; [reflexivity|].
      rewrite str_eqb_eq. symmetry. apply begins_firstn. }
  destruct n as [c|l|l|l]; try exact G.
  cbn [starts_with needle_chars]. destruct text as [|x t].
  - exists false. split; [reflexivity|]. split; [discriminate|]. intros [? E]. discriminate.
  - cbn. eexists. split; [reflexivity|]. rewrite Z.eqb_eq. split.
    + intros ->. exists t. reflexivity.
    + intros [? E]. cbn in E. congruence.
Qed.

Theorem ends_with_exact text n :
  small text ->
  exists r, ends_with text n = Some r /\ (r = true <-> ends (needle_chars n) text).
Proof.
  intros Sm.
  assert (G : exists r, (if Nat.ltb (length text) (length (needle_chars n)) then Some false
      else part <- substr text (length text - length (needle_chars n)) npos ;;
           Some (str_eqb part (needle_chars n))) = Some r /\
      (r = true <-> ends (needle_chars n) text)).
  { destruct (Nat.ltb_spec (length text) (length (needle_chars n))) as [L|L].
    - exists false. split; [reflexivity|]. split; [discriminate|].
      intros [c E]. apply (f_equal (@length Z)) in E. rewrite app_length in E. lia.
    - rewrite substr_rest by (auto using npos_big; lia). eexists. split; [reflexivity|].
      rewrite str_eqb_eq. symmetry. apply ends_skipn. exact L. }
  destruct n as [c|l|l|l]; try exact G.
  cbn [ends_with needle_chars]. destruct (Nat.ltb_spec (length text) 1) as [L|L].
  - exists false. split; [reflexivity|]. split; [discriminate|]. intros [a E].
    apply (f_equal (@length Z)) in E. rewrite app_length in E. cbn in E. lia.
  - destruct (nth_error text (length text - 1)) as [x|] eqn:E.
    2:{ apply nth_error_None in E. lia. }
    cbn [obind]. eexists. split; [reflexivity|]. rewrite Z.eqb_eq. split.
    + intros ->. apply nth_error_split in E. destruct E as (a & b & Et & La).
      exists a. rewrite Et. f_equal. f_equal.
      assert (length text = length a + S (length b)) by (rewrite Et, app_length; reflexivity).
      destruct b; [reflexivity|cbn in *; lia].
    + intros [a Et]. subst text. rewrite app_length in E. cbn in E.
      rewrite nth_error_app2 in E by lia.
      replace (length a + 1 - 1 - length a) with 0 in E by lia. cbn in E. congruence.
Qed.

(** ends_with(ch, count). *)
Theorem ends_with_count_exact w lo text c count :
  (8 <= w)%Z -> Forall (valT w lo) [c] -> Forall (valT w lo) text -> small text -> 1 <= count ->
  exists r, ends_with_count w text c count = Some r /\
    (r = true <-> ((exists x, In x text /\ x <> c) /\ count <= length text /\ ends (repeat c (count - 1)) text)).
Proof.
  intros Hw Vc Vt Sm Hc. unfold ends_with_count, small in *.
  destruct (Nat.ltb_spec (length text) count) as [L|L].
  { exists false. split; [reflexivity|]. split; [discriminate|]. intros (_ & H & _). lia. }
  destruct (@find_last_not_of_exact w lo Hw [c] text Vc Vt) as (r & -> & H). cbn [obind].
  destruct r as [k|].
  - destruct H as [(x & Hx & Nx) Hm]. assert (Nc : x <> c) by (intros ->; apply Nx; left; reflexivity).
    assert (Lk : k < length text) by (apply nth_error_Some; congruence).
    eexists. split; [reflexivity|]. rewrite Z.leb_le. split.
    + intros Hk. split; [exists x; split; [exact (nth_error_In _ _ Hx)|exact Nc]|]. split; [exact L|].
      rewrite ends_skipn by (rewrite repeat_length; lia). rewrite repeat_length.
      apply nth_error_eq. intros i. rewrite nth_error_skip.
      destruct (le_lt_dec (count - 1) i) as [Hi|Hi].
      * rewrite (proj2 (nth_error_None _ _)) by lia.
        symmetry. apply nth_error_None. rewrite repeat_length. exact Hi.
      * rewrite nth_error_repeat by exact Hi.
        destruct (nth_error text (length text - (count - 1) + i)) as [y|] eqn:E.
        2:{ apply nth_error_None in E. lia. }
        f_equal. destruct (Z.eq_dec y c) as [->|Ny]; [reflexivity|]. exfalso.
        specialize (Hm (length text - (count - 1) + i)).
        assert (length text - (count - 1) + i <= k); [|lia].
        apply Hm. exists y. split; [exact E|]. intros [I|[]]. congruence.
    + intros (_ & _ & He).
      destruct (le_lt_dec k (length text - count)); [lia|]. exfalso.
      rewrite ends_skipn in He by (rewrite repeat_length; lia). rewrite repeat_length in He.
      assert (E : nth_error (skipn (length text - (count - 1)) text) (k - (length text - (count - 1))) = Some x).
      { rewrite nth_error_skip. rewrite <- Hx. f_equal. lia. }
      rewrite He in E. rewrite nth_error_repeat in E by lia. congruence.
  - eexists. split; [reflexivity|]. unfold npos, size_mod. rewrite Z.leb_le. split; [lia|].
    intros ((x & Hx & Nx) & _). exfalso. apply In_nth_error in Hx. destruct Hx as [k Hk].
    apply (H k). exists x. split; [exact Hk|]. intros [I|[]]. congruence.
Qed.

(** ** Padding *)
Theorem pad_left_exact text size c :
  exists k, pad_left text size c = repeat c k ++ text /\
    length (pad_left text size c) = Nat.max size (length text).
Proof.
  unfold pad_left. destruct (Nat.leb_spec size (length text)).
  - exists 0. split; [reflexivity|lia].
  - exists (size - length text). split; [reflexivity|]. rewrite app_length, repeat_length. lia.
Qed.
Theorem pad_right_exact text size c :
  exists k, pad_right text size c = text ++ repeat c k /\
    length (pad_right text size c) = Nat.max size (length text).
Proof.
  unfold pad_right. destruct (Nat.leb_spec size (length text)).
  - exists 0. split; [cbn; symmetry; apply app_nil_r|lia].
  - exists (size - length text). split; [reflexivity|]. rewrite app_length, repeat_length. lia.
Qed.

(** ** Views *)
Theorem view_starts_char_exact text c : view_starts_char text c = true <-> begins [c] text.
Proof.
  destruct text as [|x t]; cbn.
  - split; [discriminate|]. intros [? E]. discriminate.
  - rewrite Z.eqb_eq. split; [intros ->; exists t; reflexivity|]. intros [? E]. cbn in E. congruence.
Qed.
Theorem view_starts_view_exact text str : view_starts_view text str = true <-> begins str text.
Proof.
  unfold view_starts_view. destruct (Nat.ltb_spec (length text) (length str)) as [L|L].
  - split; [discriminate|]. intros [c E]. apply (f_equal (@length Z)) in E. rewrite app_length in E. lia.
  - rewrite str_eqb_eq. symmetry. apply begins_firstn.
Qed.
Theorem view_starts_c_exact text str junk :
  ~ In 0%Z str ->
  exists r, view_starts_c (S (length text)) text (str ++ 0%Z :: junk) 0 = Some r /\
    (r = true <-> begins str text).
Proof.
  intros N0.
  assert (G : forall s t a b, ~ In 0%Z s -> length a = length b ->
    forall fuel, length t < fuel ->
    exists r, view_starts_c fuel (a ++ t) (b ++ s ++ 0%Z :: junk) (length a) = Some r /\
      (r = true <-> begins s t)).
  { induction s as [|y s IH]; intros t a b Ns Lab fuel Lf;
      (destruct fuel as [|f]; [lia|]); cbn [view_starts_c];
      rewrite app_length; rewrite nth_error_app2 by lia;
      replace (length a - length b) with 0 by lia; cbn [app nth_error obind].
    - exists true. split.
      + destruct (Nat.ltb (length a) (length a + length t)); reflexivity.
      + split; [intros _; exists t; reflexivity|reflexivity].
    - assert (y <> 0%Z) by (intros ->; apply Ns; left; reflexivity).
      destruct (Z.eqb_spec y 0) as [|_]; [contradiction|].
      destruct (Nat.ltb_spec (length a) (length a + length t)) as [L|L].
      + rewrite nth_error_app2 by lia. rewrite Nat.sub_diag.
        destruct t as [|x t]; [cbn in L; lia|]. cbn [nth_error obind].
        destruct (Z.eqb_spec x y) as [->|Nxy].
        * destruct (IH t (a ++ [y]) (b ++ [y]) ltac:(intros I; apply Ns; right; exact I)
            ltac:(rewrite !app_length; cbn; lia) f ltac:(cbn in Lf; lia)) as (r & E & R).
          rewrite <- !app_assoc in E. cbn [app] in E. rewrite app_length in E. cbn [length] in E.
          rewrite Nat.add_1_r in E. exists r. split; [exact E|]. rewrite R.
          split; intros [c Ec]; exists c; cbn in *; congruence.
        * exists false. split; [reflexivity|]. split; [discriminate|]. intros [c Ec]. cbn in Ec. congruence.
      + destruct t as [|x t]; [|cbn in L; lia]. exists false. split; [reflexivity|].
        split; [discriminate|]. intros [c Ec]. discriminate. }
  exact (G str text [] [] N0 eq_refl (S (length text)) ltac:(lia)).
Qed.

(** ** Fields *)
Lemma fields_first d l k :
  least (occurs [d] l) k -> nth_error (fields d l) 0 = Some (firstn k l).
Proof.
  revert k. induction l as [|x l IH]; intros k [H1 H2].
  - apply occurs_one in H1. destruct k; discriminate.
  - apply occurs_one in H1. cbn [fields]. destruct (Z.eq_dec x d) as [->|N].
    + specialize (H2 0). rewrite occurs_one in H2. specialize (H2 eq_refl).
      replace k with 0 by lia. reflexivity.
    + destruct k as [|k]; [cbn in H1; congruence|]. cbn in H1.
      assert (Hk : least (occurs [d] l) k).
      { split; [apply occurs_one; exact H1|]. intros j Hj.
        specialize (H2 (S j)). rewrite occurs_one in H2. apply occurs_one in Hj. specialize (H2 Hj). lia. }
      specialize (IH k Hk). destruct (fields d l) as [|f fs]; [discriminate|].
      cbn in *. congruence.
Qed.

Theorem find_exact idx text tail n :
  needle_chars n <> [] -> safe_miss n text tail ->
  exists r, find idx text tail n = Some r /\ first_from (needle_chars n) text 0 r.
Proof.
  intros Ne Q. destruct (@find_from_exact idx text tail n 0 Ne ltac:(lia) Q) as (r & H & E).
  exists r. split; [|exact H]. unfold find. rewrite E. f_equal.
  destruct n, r; cbn; rewrite ?Nat.sub_0_r; reflexivity.
Qed.

Theorem arec_first idx text tail d k :
  small text -> least (occurs [d] text) k ->
  arec idx text tail (NChar d) 1 = nth_error (fields d text) 0.
Proof.
  intros Sm H. rewrite (@arec_result idx text tail (NChar d) k 1 ltac:(discriminate) Sm H).
  rewrite (fields_first H). reflexivity.
Qed.

Theorem view_starts_exact text c str junk : ~ In 0%Z str ->
  (view_starts_char text c = true <-> begins [c] text) /\
  (view_starts_view text str = true <-> begins str text) /\
  exists r, view_starts_c (S (length text)) text (str ++ 0%Z :: junk) 0 = Some r /\
    (r = true <-> begins str text).
Proof.
  intros N0. refine (conj _ (conj _ _)).
  - apply view_starts_char_exact.
  - apply view_starts_view_exact.
  - exact (@view_starts_c_exact text str junk N0).
Qed.
