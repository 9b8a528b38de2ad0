(** Proofs about names of types and functions (Name_Model.v against Name_Spec.v). *)
From Verif Require Import Base Name_Model Name_Spec.

Section P.
Variable dem : list Z -> option (list Z * list Z).
Variable dl : Z -> option (option (list Z)).
Notation whole := (fun t => match dem t with Some (u, g) => Some (u ++ 0%Z :: g) | None => None end).

(** Each name has a block of its own with its text, and there are no other blocks. *)
Record inv (s : nst) (w : texts) : Prop := mkInv {
  i_text : forall i, match fst w i with
    | Some t => exists p, nvars s i = NLive p (length t) /\
        match p with None => t = [] | Some b => exists r, nmem s b = Some (t ++ r) end
    | None => nvars s i = NGone end;
  i_own : forall i j b n m, nvars s i = NLive (Some b) n -> nvars s j = NLive (Some b) m -> i = j;
  i_used : forall b, nmem s b <> None -> exists i n, nvars s i = NLive (Some b) n;
  i_blk : forall b, nblk s <= b -> nmem s b = None;
  i_cnt : ncnt s = snd w;
  i_new : forall i, snd w <= i -> fst w i = None }.

Lemma inv0 : inv nst0 (fun _ => None, 0).
Proof. constructor; cbn; intros; try congruence; try reflexivity. Qed.

Ltac eqs := repeat match goal with
  | H : context [Nat.eqb ?a ?b] |- _ => destruct (Nat.eqb_spec a b); [subst|]
  | |- context [Nat.eqb ?a ?b] => destruct (Nat.eqb_spec a b); [subst|] end.

Lemma live_lt : forall s w i p n, inv s w -> nvars s i = NLive p n -> i < snd w.
Proof.
  intros s w i p n V H. destruct (Nat.lt_ge_cases i (snd w)) as [L|L]; [exact L|].
  pose proof (i_text V i) as T. rewrite (i_new V L) in T. congruence.
Qed.
Lemma blk_lt : forall s w i b n, inv s w -> nvars s i = NLive (Some b) n -> b < nblk s.
Proof.
  intros s w i b n V H. destruct (Nat.lt_ge_cases b (nblk s)) as [L|L]; [exact L|].
  pose proof (i_text V i) as T. destruct (fst w i) as [t|]; [|congruence]. destruct T as (p & E & R).
  rewrite H in E. injection E as <- _. destruct R as [r R]. rewrite (i_blk V L) in R. discriminate.
Qed.
(** A new name in a new block. *)
Lemma make_inv : forall s w t r, inv s w ->
  let '(s1, b) := n_alloc s (t ++ r) in inv (n_new s1 (NLive (Some b) (length t))) (more w t).
Proof.
  intros s [f c] t r V. unfold n_alloc, n_new, more, put, nset. pose proof (i_cnt V) as C. cbn [fst snd] in *.
  constructor; cbn [nvars nmem nblk ncnt fst snd].
  - intros i. rewrite C. destruct (Nat.eqb_spec i c) as [->|N].
    + exists (Some (nblk s)). split; [reflexivity|]. rewrite Nat.eqb_refl. now exists r.
    + pose proof (i_text V i) as T. cbn [fst] in T. destruct (f i) as [u|]; [|exact T]. destruct T as (p & E & R). exists p. split; [exact E|].
      destruct p as [b|]; [|exact R]. destruct (Nat.eqb_spec b (nblk s)) as [->|]; [|exact R].
      pose proof (blk_lt V E). lia.
  - intros i j b n m. destruct (Nat.eqb_spec i (ncnt s)) as [->|Ni], (Nat.eqb_spec j (ncnt s)) as [->|Nj]; intros A B; try reflexivity.
    + injection A as <- _. pose proof (blk_lt V B). lia.
    + injection B as <- _. pose proof (blk_lt V A). lia.
    + exact (i_own V A B).
  - intros b. destruct (Nat.eqb_spec b (nblk s)) as [->|N]; intros H.
    + exists (ncnt s), (length t). now rewrite Nat.eqb_refl.
    + destruct (i_used V H) as (i & n & E). exists i, n. destruct (Nat.eqb_spec i (ncnt s)) as [->|]; [|exact E].
      pose proof (live_lt V E). cbn [snd] in *. lia.
  - intros b L. destruct (Nat.eqb_spec b (nblk s)) as [->|]; [lia|]. apply (i_blk V). lia.
  - now f_equal.
  - intros i L. destruct (Nat.eqb_spec i c) as [->|]; [lia|]. apply (i_new V). cbn. lia.
Qed.
Lemma read_ok : forall s w i t, inv s w -> fst w i = Some t ->
  exists p, nvars s i = NLive p (length t) /\ n_read s p (length t) = NFine t.
Proof.
  intros s w i t V E. pose proof (i_text V i) as T. rewrite E in T. destruct T as (p & H & R). exists p. split; [exact H|].
  destruct p as [b|]; cbn [n_read]; [|now subst t]. destruct R as [r ->]. rewrite app_length.
  destruct (Nat.leb_spec (length t) (length t + length r)); [|lia]. now rewrite firstn_app, Nat.sub_diag, firstn_all, app_nil_r.
Qed.
Lemma gone_ok : forall s w i, inv s w -> fst w i = None -> nvars s i = NGone.
Proof. intros s w i V E. pose proof (i_text V i) as T. now rewrite E in T. Qed.

Lemma step_ok : forall s w o, inv s w ->
  match on_texts whole dl w o with
  | Some (w1, t) => exists s1, n_op dem dl s o = NFine (s1, t) /\ inv s1 w1
  | None => n_op dem dl s o = NUndef
  end.
Proof.
  assert (MK : forall s w name, inv s w ->
    match name with Some t => match whole t with Some u => Some (more w u) | None => None end | None => None end = None /\
      n_make dem s name = NUndef \/
    exists w1 s1, match name with Some t => match whole t with Some u => Some (more w u) | None => None end | None => None end = Some w1 /\
      n_make dem s name = NFine s1 /\ inv s1 w1).
  { intros s w [t|] V; cbn [n_make]; [|now left]. destruct (dem t) as [[u g]|]; [|now left]. right.
    pose proof (make_inv (u ++ 0%Z :: g) [] V) as X. rewrite app_nil_r in X. destruct (n_alloc s (u ++ 0%Z :: g)) as [s1 b]. eauto. }
  intros s w o V. destruct o as [t|a|i|i|i|i]; cbn [on_texts n_op].
  - destruct (MK s w (Some t) V) as [[E ->]|(w1 & s1 & E & -> & V1)]; cbv beta iota in E; destruct (dem t) as [[u g]|]; try discriminate E; cbn [nbind].
    + reflexivity.
    + injection E as <-. eauto.
  - destruct (dl a) as [[t|]|].
    + destruct (MK s w (Some t) V) as [[E ->]|(w1 & s1 & E & -> & V1)]; cbv beta iota in E; destruct (dem t) as [[u g]|]; try discriminate E; cbn [nbind].
      * reflexivity.
      * injection E as <-. eauto.
    + reflexivity.
    + fold unknown. destruct (MK s w (Some unknown) V) as [[E ->]|(w1 & s1 & E & -> & V1)]; cbv beta iota in E;
        destruct (dem unknown) as [[u g]|]; try discriminate E; cbn [nbind].
      * reflexivity.
      * injection E as <-. eauto.
  - destruct (fst w i) as [t|] eqn:E; [|now rewrite (gone_ok V E)].
    destruct (read_ok V E) as (p & -> & R). rewrite R. cbn [nbind].
    pose proof (make_inv t [0%Z] V) as X. destruct (n_alloc s (t ++ [0%Z])) as [s1 b]. eauto.
  - destruct (fst w i) as [t|] eqn:E; [|now rewrite (gone_ok V E)].
    destruct (read_ok V E) as (p & H & _). rewrite H. eexists. split; [reflexivity|].
    pose proof (i_text V i) as T. rewrite E in T. destruct T as (p' & H' & Q). rewrite H in H'. injection H' as <-.
    pose proof (live_lt V H) as L. pose proof (i_cnt V) as C. destruct w as [f c]. cbn [fst snd] in *.
    unfold n_new, more, put, nset. constructor; cbn [nvars nmem nblk ncnt fst snd].
    + intros j. rewrite C. destruct (Nat.eqb_spec j c) as [->|Nj]; [exists p; split; [reflexivity|exact Q]|].
      destruct (Nat.eqb_spec j i) as [->|Ni]; [exists None; split; reflexivity|]. exact (i_text V j).
    + intros j k b n m. rewrite C.
      destruct (Nat.eqb_spec j c) as [->|Nj], (Nat.eqb_spec k c) as [->|Nk]; intros A B; try reflexivity.
      * injection A as -> _. destruct (Nat.eqb_spec k i) as [->|Ki]; [discriminate B|]. exfalso. apply Ki. exact (i_own V B H).
      * injection B as -> _. destruct (Nat.eqb_spec j i) as [->|Ji]; [discriminate A|]. exfalso. apply Ji. exact (i_own V A H).
      * destruct (Nat.eqb_spec j i) as [->|Ji]; [discriminate A|]. destruct (Nat.eqb_spec k i) as [->|Ki]; [discriminate B|].
        exact (i_own V A B).
    + intros b Hb. destruct (i_used V Hb) as (j & n & J). destruct (Nat.eq_dec j i) as [->|Ji].
      * rewrite H in J. injection J as -> _. exists (ncnt s), (length t). now rewrite Nat.eqb_refl.
      * exists j, n. pose proof (live_lt V J) as Lj. cbn [snd] in Lj. destruct (Nat.eqb_spec j (ncnt s)); [lia|].
        destruct (Nat.eqb_spec j i); [contradiction|exact J].
    + exact (i_blk V).
    + now f_equal.
    + intros j Lj. destruct (Nat.eqb_spec j c); [lia|]. destruct (Nat.eqb_spec j i); [lia|]. apply (i_new V). cbn. lia.
  - destruct (fst w i) as [t|] eqn:E; [|now rewrite (gone_ok V E)].
    pose proof (i_text V i) as T. rewrite E in T. destruct T as (p & H & Q). rewrite H.
    pose proof (live_lt V H) as L. pose proof (i_cnt V) as C. destruct w as [f c]. cbn [fst snd] in *.
    assert (X : exists s1, n_free s p = NFine s1 /\ nvars s1 = nvars s /\ nblk s1 = nblk s /\ ncnt s1 = ncnt s /\
      forall b, nmem s1 b = if (match p with Some x => Nat.eqb b x | None => false end) then None else nmem s b).
    { destruct p as [b|]; cbn [n_free]; [|exists s; repeat split]. destruct Q as [r ->]. eexists. split; [reflexivity|]. now cbn. }
    destruct X as (s1 & -> & Ev & Eb & Ec & Em). cbn [nbind]. eexists. split; [reflexivity|].
    unfold put, nset. constructor; cbn [nvars nmem nblk ncnt fst snd].
    + intros j. rewrite Ev. destruct (Nat.eqb_spec j i) as [->|Ni]; [reflexivity|].
      pose proof (i_text V j) as T. cbn [fst] in T. destruct (f j) as [u|]; [|exact T]. destruct T as (q & J & R). exists q. split; [exact J|].
      destruct q as [b|]; [|exact R]. rewrite Em. destruct p as [x|]; [|exact R].
      destruct (Nat.eqb_spec b x) as [->|]; [|exact R]. exfalso. apply Ni. exact (i_own V J H).
    + intros j k b n m. rewrite Ev. destruct (Nat.eqb_spec j i); [discriminate|]. destruct (Nat.eqb_spec k i); [discriminate|]. apply (i_own V).
    + intros b Hb. rewrite Em in Hb.
      assert (N : match p with Some x => Nat.eqb b x | None => false end = false).
      { destruct (match p with Some x => Nat.eqb b x | None => false end); [now destruct Hb|reflexivity]. }
      rewrite N in Hb. destruct (i_used V Hb) as (j & n & J). exists j, n. rewrite Ev. destruct (Nat.eqb_spec j i) as [->|]; [|exact J].
      rewrite H in J. injection J as -> _. now rewrite Nat.eqb_refl in N.
    + intros b Lb. rewrite Em. rewrite Eb in Lb. rewrite (i_blk V Lb). now destruct (match p with Some x => Nat.eqb b x | None => false end).
    + congruence.
    + intros j Lj. destruct (Nat.eqb_spec j i); [reflexivity|]. now apply (i_new V).
  - destruct (fst w i) as [t|] eqn:E; [|now rewrite (gone_ok V E)].
    destruct (read_ok V E) as (p & -> & R). rewrite R. cbn [nbind]. eauto.
Qed.
Lemma run_ok : forall os s w, inv s w ->
  match all_on_texts whole dl w os with
  | Some (w1, l) => exists s1, n_run dem dl s os = NFine (s1, l) /\ inv s1 w1
  | None => n_run dem dl s os = NUndef
  end.
Proof.
  induction os as [|o os IH]; intros s w V; cbn [all_on_texts n_run]; [eauto|].
  pose proof (step_ok o V) as E. destruct (on_texts whole dl w o) as [[w1 t]|]; [|now rewrite E].
  destruct E as (s1 & -> & V1). cbn [nbind]. specialize (IH s1 w1 V1).
  destruct (all_on_texts whole dl w1 os) as [[w2 l]|]; [|now rewrite IH]. destruct IH as (s2 & -> & V2). cbn [nbind]. eauto.
Qed.
Lemma as_texts : forall os,
  match all_on_texts whole dl (fun _ => None, 0) os with
  | Some (w, l) => exists s, n_run dem dl nst0 os = NFine (s, l) /\
                   ((forall i, fst w i = None) -> forall b, nmem s b = None)
  | None => n_run dem dl nst0 os = NUndef
  end.
Proof.
  intros os. pose proof (run_ok os inv0) as R. destruct (all_on_texts whole dl (fun _ => None, 0) os) as [[w l]|]; [|exact R].
  destruct R as (s & E & V). exists s. split; [exact E|]. intros G b. destruct (nmem s b) eqn:M; [|reflexivity].
  destruct (@i_used _ _ V b) as (i & n & J); [congruence|]. now rewrite (gone_ok V (G i)) in J.
Qed.
Lemma run_app : forall os qs s, n_run dem dl s (os ++ qs) =
  nbind (n_run dem dl s os) (fun '(s1, l) => nbind (n_run dem dl s1 qs) (fun '(s2, m) => NFine (s2, l ++ m))).
Proof.
  induction os as [|o os IH]; intros qs s; cbn [app n_run nbind].
  - now destruct (n_run dem dl s qs) as [[s2 m]|].
  - destruct (n_op dem dl s o) as [[s1 t]|]; cbn [nbind]; [|reflexivity]. rewrite IH.
    destruct (n_run dem dl s1 os) as [[s2 l]|]; cbn [nbind]; [|reflexivity]. now destruct (n_run dem dl s2 qs) as [[s3 m]|].
Qed.
Lemma unreadable : forall os o, 
  (exists t, o = NType t /\ dem t = None) \/ (exists a, o = NFunction a /\
     (dl a = Some None \/ (exists t, dl a = Some (Some t) /\ dem t = None) \/ (dl a = None /\ dem [117; 110; 107; 110; 111; 119; 110]%Z = None))) ->
  n_run dem dl nst0 (os ++ [o]) = NUndef.
Proof.
  intros os o H. rewrite run_app. destruct (n_run dem dl nst0 os) as [[s l]|]; cbn [nbind]; [|reflexivity]. cbn [n_run].
  assert (E : n_op dem dl s o = NUndef).
  { destruct H as [(t & -> & D)|(a & -> & [D|[(t & D & F)|[D F]]])]; cbn [n_op].
    - cbn [n_make]. now rewrite D.
    - now rewrite D.
    - rewrite D. cbn [n_make]. now rewrite F.
    - rewrite D. cbn [n_make]. unfold unknown. now rewrite F. }
  now rewrite E.
Qed.
Lemma too_long : forall t u g, dem t = Some (u, g) ->
  exists s v, n_run dem dl nst0 [NType t; NText 0] = NFine (s, [[]; v]) /\ v = u ++ 0%Z :: g /\ length u < length v.
Proof.
  intros t u g D. pose proof (as_texts [NType t; NText 0]) as R. cbn [all_on_texts on_texts] in R. rewrite D in R. cbn in R.
  destruct R as (s & E & _). exists s, (u ++ 0%Z :: g). split; [exact E|]. split; [reflexivity|]. rewrite app_length. cbn. lia.
Qed.
End P.
