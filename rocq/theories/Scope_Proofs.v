(** Proofs about the namespaces. *)
From Verif Require Import Base Scope_Model Scope_Spec.
Local Open Scope nat_scope.

Lemma find_some : forall m k v, find m k = Some v ->
  exists pre post, m = pre ++ (k, v) :: post /\ ~ In k (map fst pre).
Proof.
  induction m as [|[k' v'] r IH]; intros k v H; [discriminate|]. cbn [find] in H.
  destruct (name_dec k' k) as [->|N].
  - injection H as ->. exists [], r. split; [reflexivity|intros []].
  - destruct (IH _ _ H) as (pre & post & -> & I). exists ((k', v') :: pre), post.
    split; [reflexivity|]. cbn. intros [E|E]; auto.
Qed.
Lemma find_none : forall m k, find m k = None -> ~ In k (map fst m).
Proof.
  induction m as [|[k' v'] r IH]; intros k H; [intros []|]. cbn [find] in H.
  destruct (name_dec k' k) as [->|N]; [discriminate|]. cbn. intros [E|E]; [auto|]. exact (IH _ H E).
Qed.
Lemma find_app : forall pre post k v, ~ In k (map fst pre) -> find (pre ++ (k, v) :: post) k = Some v.
Proof.
  induction pre as [|[k' v'] r IH]; intros post k v H; cbn [app find].
  - destruct (name_dec k k); congruence.
  - destruct (name_dec k' k) as [->|N]; [destruct H; now left|]. apply IH. intros I. apply H. now right.
Qed.
Lemma find_not : forall m k, ~ In k (map fst m) -> find m k = None.
Proof.
  induction m as [|[k' v'] r IH]; intros k H; [reflexivity|]. cbn [find].
  destruct (name_dec k' k) as [->|N]; [destruct H; now left|]. apply IH. intros I. apply H. now right.
Qed.

(** What a node answers, as a function. *)
Definition reads (h : heap) (a : nat) (k : name) : option nat :=
  match h a with
  | None => None
  | Some Self => Some a
  | Some (Space m) => Some (match find m k with Some v => v | None => 0 end)
  end.
Lemma reads_shows : forall h a k v, reads h a k = Some v <-> shows h a k v.
Proof.
  intros h a k v. unfold reads. split.
  - destruct (h a) as [[|m]|] eqn:E; intros H; [|destruct (find m k) as [v'|] eqn:F|discriminate]; injection H as <-.
    + now apply sh_self.
    + destruct (find_some F) as (pre & post & -> & I). eapply sh_has; eauto.
    + eapply sh_not; eauto. now apply find_none.
  - intros [E|m pre post v' E -> I|m E I]; rewrite E; [reflexivity| |].
    + now rewrite find_app.
    + now rewrite find_not.
Qed.
Lemma shows_fun : forall h a k v v', shows h a k v -> shows h a k v' -> v = v'.
Proof. intros h a k v v' A B. apply reads_shows in A. apply reads_shows in B. congruence. Qed.
Lemma same_reads : forall h h', (forall a k, reads h' a k = reads h a k) -> same h h'.
Proof. intros h h' H a k v. now rewrite <- !reads_shows, H. Qed.
Lemma reads_same : forall h h', same h h' -> forall a k, reads h' a k = reads h a k.
Proof.
  intros h h' H a k. destruct (reads h' a k) as [v|] eqn:E.
  - apply reads_shows in E. apply H in E. apply reads_shows in E. now rewrite E.
  - destruct (reads h a k) as [v|] eqn:F; [|reflexivity]. apply reads_shows in F. apply H in F.
    apply reads_shows in F. congruence.
Qed.
Lemma same_refl : forall h, same h h.
Proof. intros h a k v. reflexivity. Qed.
Lemma same_trans : forall h1 h2 h3, same h1 h2 -> same h2 h3 -> same h1 h3.
Proof. intros h1 h2 h3 A B a k v. rewrite (A a k v). apply B. Qed.
Lemma same_sym : forall h h', same h h' -> same h' h.
Proof. intros h h' A a k v. symmetry. apply A. Qed.

(** The part of [sound] that [same] keeps, and the kinds of nodes. *)
Definition kind (h : heap) (a : nat) : nat := match h a with None => 0 | Some Self => 1 | Some (Space _) => 2 end.
Definition alike (h h' : heap) : Prop := same h h' /\ forall a, kind h' a = kind h a.
Lemma alike_refl : forall h, alike h h.
Proof. intros h. split; [apply same_refl|reflexivity]. Qed.
Lemma alike_trans : forall h1 h2 h3, alike h1 h2 -> alike h2 h3 -> alike h1 h3.
Proof. intros h1 h2 h3 [A A'] [B B']. split; [eapply same_trans; eauto|]. intros a. now rewrite B'. Qed.
Lemma sound_alike : forall h h', alike h h' -> sound h -> sound h'.
Proof.
  intros h h' [A K] [(S0 & S1 & S2) C].
  assert (Q : forall a, h a = Some Self -> h' a = Some Self).
  { intros a E. specialize (K a). unfold kind in K. rewrite E in K. destruct (h' a) as [[|?]|]; try discriminate. reflexivity. }
  constructor; [repeat split; now apply Q|]. intros a k v H E. apply A in H.
  apply (C _ _ _ H). specialize (K v). unfold kind in K. rewrite E in K. destruct (h v) as [[|?]|]; try discriminate. reflexivity.
Qed.

Lemma arec_ok : forall h a k, h a <> None ->
  exists h' v, arec h a k = Ret (h', v) /\ shows h a k v /\ alike h h'.
Proof.
  intros h a k N. unfold arec. destruct (h a) as [[|m]|] eqn:E; [| |congruence].
  - exists h, a. repeat split; auto; try (apply reads_shows; unfold reads; now rewrite E).
  - destruct (find m k) as [v|] eqn:F.
    + exists h, v. repeat split; auto. apply reads_shows. unfold reads. now rewrite E, F.
    + exists (put h a (Space ((k, 0) :: m))), 0. split; [reflexivity|]. split; [apply reads_shows; unfold reads; now rewrite E, F|].
      split.
      * apply same_reads. intros b j. unfold reads, put. destruct (Nat.eqb_spec b a) as [->|]; [|reflexivity].
        rewrite E. cbn [find]. destruct (name_dec k j) as [<-|]; [now rewrite F|reflexivity].
      * intros b. unfold kind, put. destruct (Nat.eqb_spec b a) as [->|]; [now rewrite E|reflexivity].
Qed.

Lemma type_of_ok : forall h a k, sound h -> h a <> None ->
  exists h' m ty, type_of h a k = Ret (h', ty) /\ shows h a types m /\ shows h m k ty /\ alike h h'.
Proof.
  intros h a k G N. unfold type_of. destruct (arec_ok types N) as (h1 & m & -> & M & A1). cbn [cthen].
  assert (N1 : h1 m <> None).
  { destruct (sound_alike A1 G) as [_ C]. apply (C a types). now apply A1. }
  destruct (arec_ok k N1) as (h2 & ty & -> & T & A2). exists h2, m, ty. split; [reflexivity|]. split; [exact M|].
  split; [now apply A1|]. eapply alike_trans; eauto.
Qed.

Lemma yes_ge : forall a, yes a = true <-> 2 <= a.
Proof. intros a. unfold yes. apply Nat.leb_le. Qed.
Lemma yes_lt : forall a, yes a = false <-> a < 2.
Proof. intros a. unfold yes. apply Nat.leb_gt. Qed.

Lemma declares_same : forall h h' a k, same h h' -> declares h a k -> declares h' a k.
Proof.
  intros h h' a k A [(v & S1 & L)|(m & ty & S1 & S2 & L)].
  - left. exists v. split; [now apply A|exact L].
  - right. exists m, ty. repeat split; [now apply A|now apply A|exact L].
Qed.
Lemma innermost_same : forall h h' k a b, same h h' -> innermost h k a b -> innermost h' k a b.
Proof.
  intros h h' k a b A H. induction H as [a L D|a p b L D U H IH|a L].
  - apply in_here; [exact L|]. eapply declares_same; eauto.
  - eapply in_outer; [exact L| |apply A; exact U|exact IH].
    intros D'. apply D. eapply declares_same; [|exact D']. now apply same_sym.
  - now apply in_none.
Qed.

(** One namespace of the way outwards. *)
Lemma one_space : forall f h a k, sound h -> h a <> None -> 2 <= a ->
  (declares h a k /\ exists h', symbol_space (S f) h a k = Ret (h', a) /\ alike h h') \/
  (~ declares h a k /\ exists h' p, shows h a up p /\ alike h h' /\ symbol_space (S f) h a k = symbol_space f h' p k).
Proof.
  intros f h a k G N L. cbn [symbol_space]. rewrite (proj2 (yes_ge a) L). cbn [negb].
  destruct (arec_ok k N) as (h1 & v & -> & V & A1). cbn [cthen].
  destruct (yes v) eqn:Yv.
  { left. split; [left; exists v; split; [exact V|now apply yes_ge]|]. eauto. }
  pose proof (sound_alike A1 G) as G1.
  assert (N1 : h1 a <> None).
  { destruct A1 as [_ K]. specialize (K a). unfold kind in K. destruct (h a) as [[|?]|]; [| |congruence]; destruct (h1 a); congruence. }
  destruct (type_of_ok k G1 N1) as (h2 & m & ty & -> & M & T & A2). cbn [cthen].
  assert (A12 := alike_trans A1 A2).
  destruct (yes ty) eqn:Yt.
  { left. split; [right; exists m, ty; repeat split; [now apply A1|now apply A1|now apply yes_ge]|]. eauto. }
  right. split.
  { intros [(v' & V' & L')|(m' & ty' & M' & T' & L')].
    - rewrite <- (shows_fun V V') in L'. apply yes_ge in L'. congruence.
    - apply A1 in M'. rewrite <- (shows_fun M M') in T'. apply A1 in T'. rewrite <- (shows_fun T T') in L'.
      apply yes_ge in L'. congruence. }
  assert (N2 : h2 a <> None).
  { destruct A12 as [_ K]. specialize (K a). unfold kind in K. destruct (h a) as [[|?]|]; [| |congruence]; destruct (h2 a); congruence. }
  destruct (arec_ok up N2) as (h3 & p & -> & P & A3). cbn [cthen].
  exists h3, p. split; [now apply A12|]. split; [eapply alike_trans; eauto|reflexivity].
Qed.

Lemma kind_some : forall h h' a, alike h h' -> h a <> None -> h' a <> None.
Proof. intros h h' a [_ K] N. specialize (K a). unfold kind in K. destruct (h a) as [[|?]|]; [| |congruence]; destruct (h' a); congruence. Qed.

Lemma space_found : forall h k a b, innermost h k a b -> sound h -> h a <> None ->
  exists f0, forall f, f0 <= f -> exists h', symbol_space f h a k = Ret (h', b) /\ alike h h'.
Proof.
  intros h k a b H. remember h as h0 eqn:E0.
  assert (Q : forall h1, alike h0 h1 -> sound h1 -> h1 a <> None ->
    exists f0, forall f, f0 <= f -> forall h1', alike h0 h1' -> sound h1' -> h1' a <> None ->
      exists h', symbol_space f h1' a k = Ret (h', b) /\ alike h1' h').
  { clear E0 h. induction H as [a L D|a p b L D U H IH|a L]; intros h1 A1 G1 N1.
    - exists 1. intros f F h1' A G N. destruct f as [|f]; [lia|].
      destruct (one_space f k G N L) as [[_ (h' & E & A')]|[D' _]]; [eauto|].
      destruct D'. exact (declares_same (proj1 A) D).
    - assert (N2 : h1 p <> None). { destruct G1 as [_ C]. apply (C a up). now apply A1. }
      destruct (IH h1 A1 G1 N2) as [f0 F0]. exists (S f0). intros f F h1' A G N. destruct f as [|f]; [lia|].
      destruct (one_space f k G N L) as [[D' _]|[_ (h' & p' & U' & A' & ->)]].
      { destruct D. apply (declares_same (same_sym (proj1 A)) D'). }
      assert (p' = p) as -> by (eapply shows_fun; [exact U'|now apply A]).
      destruct (F0 f ltac:(lia) h') as (h'' & E & A'').
      + eapply alike_trans; eauto.
      + exact (sound_alike A' G).
      + destruct (sound_alike A' G) as [_ C]. apply (C a up). now apply A'.
      + exists h''. split; [exact E|]. eapply alike_trans; eauto.
    - exists 1. intros f F h1' A G N. destruct f as [|f]; [lia|]. cbn [symbol_space]. rewrite (proj2 (yes_lt a) L). cbn [negb].
      exists h1'. split; [reflexivity|apply alike_refl]. }
  intros G N. destruct (Q h0 (alike_refl h0) G N) as [f0 F0]. exists f0. intros f F.
  exact (F0 f F h0 (alike_refl h0) G N).
Qed.

Lemma innermost_ok : forall h k a b, innermost h k a b -> sound h -> h a <> None -> h b <> None.
Proof.
  intros h k a b H G. induction H as [a L D|a p b L D U H IH|a L]; intros N; auto.
  apply IH. destruct G as [_ C]. exact (C _ _ _ U).
Qed.
Lemma special : forall h a, sound h -> a < 2 -> h a = Some Self.
Proof. intros h a [(A & B & C) _] L. destruct a as [|[|a]]; auto. lia. Qed.
Lemma self_shows : forall h a k v, h a = Some Self -> shows h a k v -> v = a.
Proof. intros h a k v E H. apply reads_shows in H. unfold reads in H. rewrite E in H. congruence. Qed.
Lemma undeclared_special : forall h a k, sound h -> a < 2 -> ~ declares h a k.
Proof.
  intros h a k G L. pose proof (special G L) as E. intros [(v & V & Lv)|(m & ty & M & T & Lt)].
  - rewrite (self_shows E V) in Lv. lia.
  - rewrite (self_shows E M) in T. rewrite (self_shows E T) in Lt. lia.
Qed.
Lemma innermost_declares : forall h k a b, innermost h k a b -> 2 <= b -> declares h b k.
Proof. intros h k a b H. induction H; auto. lia. Qed.

Lemma lookup_all : forall h a k b v m ty, sound h -> h a <> None -> innermost h k a b ->
  shows h b k v -> shows h b types m -> shows h m k ty ->
  exists f0, forall f, f0 <= f -> exists s1 s2 s3,
    get_symbol f (mkN h a) k = Ret (s1, v) /\ now s1 = a /\ alike h (nodes s1) /\
    get_symbol_type f (mkN h a) k = Ret (s2, ty) /\ now s2 = a /\ alike h (nodes s2) /\
    has_symbol f (mkN h a) k = Ret (s3, yes b) /\ now s3 = a /\ alike h (nodes s3).
Proof.
  intros h a k b v m ty G N I V M T. destruct (space_found I G N) as [f0 F0]. exists f0. intros f F.
  destruct (F0 f F) as (h1 & E & A1). unfold get_symbol, get_symbol_type, has_symbol. cbn [nodes now]. rewrite E. cbn [cthen].
  pose proof (sound_alike A1 G) as G1. pose proof (kind_some A1 (innermost_ok I G N)) as N1.
  destruct (arec_ok k N1) as (h2 & v' & -> & V' & A2). cbn [cthen]. apply A1 in V'. pose proof (shows_fun V V') as <-.
  destruct (type_of_ok k G1 N1) as (h3 & m' & ty' & -> & M' & T' & A3). cbn [cthen].
  apply A1 in M'. apply A1 in T'. pose proof (shows_fun M M') as <-. pose proof (shows_fun T T') as <-.
  pose proof (alike_trans A1 A2) as A12. pose proof (sound_alike A2 G1) as G2. pose proof (kind_some A2 N1) as N2.
  destruct (type_of_ok k G2 N2) as (h4 & m' & ty' & -> & M'' & T'' & A4). cbn [cthen].
  apply A12 in M''. apply A12 in T''. pose proof (shows_fun M M'') as <-. pose proof (shows_fun T T'') as <-.
  assert (B : 2 <= b -> 2 <= v \/ 2 <= ty).
  { intros L. destruct (innermost_declares I L) as [(v' & W & L')|(m' & ty' & W & W' & L')].
    - rewrite (shows_fun V W). auto.
    - rewrite <- (shows_fun M W) in W'. rewrite (shows_fun T W'). auto. }
  assert (B' : b < 2 -> v < 2 /\ ty < 2).
  { intros L. pose proof (special G L) as E'. rewrite (self_shows E' V). rewrite (self_shows E' M) in T.
    rewrite (self_shows E' T). auto. }
  exists (mkN h2 a), (mkN h3 a), (mkN (if yes v then h2 else h4) a). cbn [nodes now].
  split; [reflexivity|]. split; [reflexivity|]. split; [exact A12|].
  split; [reflexivity|]. split; [reflexivity|]. split; [exact (alike_trans A1 A3)|].
  destruct (yes v) eqn:Yv.
  - split; [|split; [reflexivity|exact A12]]. do 2 f_equal. symmetry. apply yes_ge. apply yes_ge in Yv.
    destruct (Nat.lt_ge_cases b 2) as [L|L]; [destruct (B' L); lia|exact L].
  - split; [|split; [reflexivity|exact (alike_trans A12 A4)]]. do 2 f_equal. apply yes_lt in Yv.
    destruct (Nat.lt_ge_cases b 2) as [L|L].
    + rewrite (proj2 (yes_lt b) L). apply yes_lt. destruct (B' L); lia.
    + rewrite (proj2 (yes_ge b) L). apply yes_ge. destruct (B L); lia.
Qed.

Lemma lookup_endless : forall f h a k, sound h -> h a <> None -> (forall b, ~ innermost h k a b) ->
  symbol_space f h a k = Out.
Proof.
  induction f as [|f IH]; intros h a k G N H; [reflexivity|].
  destruct (Nat.lt_ge_cases a 2) as [L|L]; [destruct (H a); now apply in_none|].
  destruct (one_space f k G N L) as [[D _]|[D (h' & p & U & A & ->)]].
  - destruct (H a). now apply in_here.
  - apply IH.
    + exact (sound_alike A G).
    + destruct (sound_alike A G) as [_ C]. apply (C a up). now apply A.
    + intros b I. apply (H b). eapply in_outer; eauto. eapply innermost_same; [|exact I]. apply same_sym. apply A.
Qed.
Lemma calls_endless : forall f s k, sound (nodes s) -> nodes s (now s) <> None ->
  (forall b, ~ innermost (nodes s) k (now s) b) ->
  get_symbol f s k = Out /\ get_symbol_type f s k = Out /\ has_symbol f s k = Out /\ enter f s k = Out.
Proof.
  intros f s k G N H. unfold enter, get_symbol, get_symbol_type, has_symbol.
  rewrite (lookup_endless f G N H). cbn [cthen]. auto.
Qed.

(** Assignments. *)
Lemma assign_space : forall h a k p m, h a = Some (Space m) ->
  exists h', assign h a k p = Ret h' /\ shows h' a k p /\
    (forall b j v, (b, j) <> (a, k) -> (shows h' b j v <-> shows h b j v)).
Proof.
  intros h a k p m E. assert (N : h a <> None) by congruence.
  unfold assign. destruct (arec_ok k N) as (h1 & v & -> & V & A). cbn [cthen].
  pose proof (proj2 A a) as K. unfold kind in K. rewrite E in K. destruct (h1 a) as [[|m1]|] eqn:E1; try discriminate.
  eexists. split; [reflexivity|]. split.
  - apply reads_shows. unfold reads, put. rewrite Nat.eqb_refl. cbn [find]. destruct (name_dec k k); congruence.
  - intros b j w Ne. rewrite (proj1 A b j w), <- !reads_shows. unfold reads, put.
    destruct (Nat.eqb_spec b a) as [->|]; [|reflexivity]. rewrite E1. cbn [find].
    destruct (name_dec k j) as [<-|]; [congruence|reflexivity].
Qed.
Lemma assign_self : forall h a k p, h a = Some Self -> assign h a k p = Ret h.
Proof. intros h a k p E. unfold assign, arec. rewrite E. cbn [cthen]. now rewrite E. Qed.

(** A namespace that is void, nil, or no namespace at all. *)
Lemma stuck_small : forall h a k f, h a = Some Self -> a < 2 ->
  get_symbol (S f) (mkN h a) k = Ret (mkN h a, a) /\ has_symbol (S f) (mkN h a) k = Ret (mkN h a, false) /\
  enter (S f) (mkN h a) k = Ret (mkN h a).
Proof.
  intros h a k f E L. unfold enter, get_symbol, has_symbol. cbn [nodes now symbol_space].
  rewrite (proj2 (yes_lt a) L). cbn [negb cthen]. unfold type_of, arec. repeat (rewrite E; cbn [cthen]).
  rewrite (proj2 (yes_lt a) L). auto.
Qed.
Lemma stuck_big : forall h a k f, h a = Some Self -> 2 <= a ->
  get_symbol (S f) (mkN h a) k = Ret (mkN h a, a) /\ has_symbol (S f) (mkN h a) k = Ret (mkN h a, true) /\
  enter (S f) (mkN h a) k = Ret (mkN h a).
Proof.
  intros h a k f E L. unfold enter, get_symbol, has_symbol. cbn [nodes now symbol_space].
  rewrite (proj2 (yes_ge a) L). cbn [negb cthen]. unfold arec. repeat (rewrite E; cbn [cthen]).
  rewrite (proj2 (yes_ge a) L). cbn [cthen]. rewrite E. cbn [cthen]. rewrite (proj2 (yes_ge a) L). auto.
Qed.

Lemma enter_innermost : forall h a k b v, sound h -> h a <> None -> innermost h k a b -> shows h b k v ->
  exists f0, forall f, f0 <= f -> exists h', enter f (mkN h a) k = Ret (mkN h' v) /\ alike h h'.
Proof.
  intros h a k b v G N I V.
  destruct (type_of_ok k G (innermost_ok I G N)) as (_ & m & ty & _ & M & T & _).
  destruct (lookup_all G N I V M T) as [f0 F0]. exists f0. intros f F.
  destruct (F0 f F) as (s1 & _ & _ & E & _ & A & _). unfold enter. rewrite E. cbn [cthen]. eauto.
Qed.

Lemma lost : forall h a k b, sound h -> h a <> None -> innermost h k a b -> b < 2 ->
  exists f0, forall f, f0 <= f -> exists h', enter f (mkN h a) k = Ret (mkN h' b) /\ same h h' /\
    forall j f', get_symbol (S f') (mkN h' b) j = Ret (mkN h' b, b) /\
      has_symbol (S f') (mkN h' b) j = Ret (mkN h' b, false) /\ enter (S f') (mkN h' b) j = Ret (mkN h' b).
Proof.
  intros h a k b G N I L. pose proof (special G L) as E.
  destruct (enter_innermost (v := b) G N I) as [f0 F0]; [now apply sh_self|].
  exists f0. intros f F. destruct (F0 f F) as (h' & -> & A). exists h'. split; [reflexivity|]. split; [apply A|].
  intros j f'. apply stuck_small; [|exact L]. apply special; [|exact L]. exact (sound_alike A G).
Qed.

Lemma no_namespace : forall h a k b v, sound h -> h a <> None -> innermost h k a b -> shows h b k v ->
  h v = Some Self -> 2 <= v ->
  exists f0, forall f, f0 <= f -> exists h', enter f (mkN h a) k = Ret (mkN h' v) /\ same h h' /\
    forall j f', get_symbol (S f') (mkN h' v) j = Ret (mkN h' v, v) /\
      has_symbol (S f') (mkN h' v) j = Ret (mkN h' v, true) /\ enter (S f') (mkN h' v) j = Ret (mkN h' v).
Proof.
  intros h a k b v G N I V E L. destruct (enter_innermost G N I V) as [f0 F0].
  exists f0. intros f F. destruct (F0 f F) as (h' & -> & A). exists h'. split; [reflexivity|]. split; [apply A|].
  intros j f'. apply stuck_big; [|exact L]. pose proof (proj2 A v) as K. unfold kind in K. rewrite E in K.
  destruct (h' v) as [[|?]|]; try discriminate. reflexivity.
Qed.

Lemma there_and_back : forall h a k b c, sound h -> h a <> None -> 2 <= a -> innermost h k a b -> shows h b k c ->
  2 <= c -> shows h c up a ->
  exists f0, forall f, f0 <= f -> exists h1 h2, enter f (mkN h a) k = Ret (mkN h1 c) /\
    leave f (mkN h1 c) = Ret (mkN h2 a) /\ same h h2.
Proof.
  intros h a k b c G N La I V Lc U. destruct (enter_innermost G N I V) as [f0 F0]. exists (f0 + 1). intros f F.
  destruct (F0 f ltac:(lia)) as (h1 & -> & A). destruct f as [|f]; [lia|].
  pose proof (sound_alike A G) as G1. assert (N1 : h1 c <> None).
  { destruct G1 as [_ C]. apply (C b k). now apply A. }
  assert (U1 : shows h1 c up a) by now apply A.
  exists h1. cut (exists h2, leave (S f) (mkN h1 c) = Ret (mkN h2 a) /\ same h h2).
  { intros (h2 & Q1 & Q2). exists h2. auto. }
  unfold leave, enter, get_symbol. cbn [nodes now].
  destruct (one_space f up G1 N1 Lc) as [[_ (h2 & -> & A2)]|[D _]]; [|destruct D; left; eauto].
  cbn [cthen]. destruct (arec_ok up (kind_some A2 N1)) as (h3 & v & -> & V3 & A3). cbn [cthen nodes].
  apply A2 in V3. pose proof (shows_fun U1 V3) as <-. exists h3. split; [reflexivity|].
  apply (alike_trans A (alike_trans A2 A3)).
Qed.

Lemma space_ok : forall f h a k h2 c, sound h -> h a <> None -> symbol_space f h a k = Ret (h2, c) -> alike h h2 /\ h c <> None.
Proof.
  induction f as [|f IH]; intros h a k h2 c G N E; [discriminate|].
    destruct (Nat.lt_ge_cases a 2) as [L|L].
    - cbn [symbol_space] in E. rewrite (proj2 (yes_lt a) L) in E. cbn [negb] in E. injection E as <- <-.
      split; [apply alike_refl|exact N].
    - destruct (one_space f k G N L) as [[D (h3 & E3 & A3)]|[D (h3 & p3 & U3 & A3 & E3)]]; rewrite E3 in E.
      + injection E as <- <-. auto.
      + assert (N3 : h3 p3 <> None). { destruct (sound_alike A3 G) as [_ C]. apply (C a up). now apply A3. }
        destruct (IH _ _ _ _ _ (sound_alike A3 G) N3 E) as [A Nc]. split; [exact (alike_trans A3 A)|].
        intros Z. pose proof (proj2 A3 c) as K. unfold kind in K. rewrite Z in K. destruct (h3 c) as [[|?]|]; congruence.
Qed.

Lemma undeclared_passes : forall f h a k p, sound h -> h a <> None -> 2 <= a -> ~ declares h a k -> shows h a up p ->
  forall v, (exists s', get_symbol (S f) (mkN h a) k = Ret (s', v)) <-> (exists s', get_symbol f (mkN h p) k = Ret (s', v)).
Proof.
  assert (Same : forall f h h' a k, alike h h' -> sound h -> h a <> None -> forall c,
     (exists h2, symbol_space f h a k = Ret (h2, c) /\ alike h h2) ->
     (exists h2, symbol_space f h' a k = Ret (h2, c) /\ alike h' h2)).
  { induction f as [|f IH]; intros h h' a k A G N c (h2 & E & A2); [discriminate|].
    destruct (Nat.lt_ge_cases a 2) as [L|L].
    - cbn [symbol_space] in E |- *. rewrite (proj2 (yes_lt a) L) in *. cbn [negb] in *. injection E as <- <-.
      exists h'. split; [reflexivity|apply alike_refl].
    - destruct (one_space f k G N L) as [[D (h3 & E3 & A3)]|[D (h3 & p3 & U3 & A3 & E3)]].
      + rewrite E3 in E. injection E as <- <-.
        destruct (one_space f k (sound_alike A G) (kind_some A N) L) as [[_ (h4 & E4 & A4)]|[D' _]]; [eauto|].
        destruct D'. exact (declares_same (proj1 A) D).
      + rewrite E3 in E.
        destruct (one_space f k (sound_alike A G) (kind_some A N) L) as [[D' _]|[_ (h4 & p4 & U4 & A4 & E4)]].
        { destruct D. exact (declares_same (same_sym (proj1 A)) D'). }
        assert (p4 = p3) as -> by (eapply shows_fun; [exact U4|now apply A]).
        rewrite E4. assert (N3 : h3 p3 <> None).
        { destruct (sound_alike A3 G) as [_ C]. apply (C a up). now apply A3. }
        assert (A34 : alike h3 h4).
        { split.
          - apply (same_trans (same_sym (proj1 A3))). apply (same_trans (proj1 A)). apply A4.
          - intros b. rewrite (proj2 A4), (proj2 A), (proj2 A3). reflexivity. }
        assert (Ex : exists h5, symbol_space f h3 p3 k = Ret (h5, c) /\ alike h3 h5).
        { exists h2. split; [exact E|]. split.
          - apply (same_trans (same_sym (proj1 A3))). apply A2.
          - intros b. rewrite (proj2 A2), (proj2 A3). reflexivity. }
        destruct (IH h3 h4 p3 k A34 (sound_alike A3 G) N3 c Ex) as (h6 & E6 & A6).
        exists h6. split; [exact E6|]. exact (alike_trans A4 A6). }
  assert (Get : forall f h a k v, sound h -> h a <> None ->
    ((exists s', get_symbol f (mkN h a) k = Ret (s', v)) <->
     exists h2 c, symbol_space f h a k = Ret (h2, c) /\ shows h c k v)).
  { intros f h a k v G N. unfold get_symbol. cbn [nodes now]. split.
    - intros [s' E]. destruct (symbol_space f h a k) as [[h2 c]| |] eqn:Es; cbn [cthen] in E; try discriminate.
      destruct (space_ok G N Es) as [A Nc]. destruct (arec_ok k (kind_some A Nc)) as (h3 & v' & E3 & V & A3).
      rewrite E3 in E. cbn [cthen] in E. injection E as <- <-. exists h2, c. split; [reflexivity|now apply A].
    - intros (h2 & c & E & V). rewrite E. cbn [cthen]. destruct (space_ok G N E) as [A Nc].
      destruct (arec_ok k (kind_some A Nc)) as (h3 & v' & E3 & V' & A3). rewrite E3. cbn [cthen].
      apply A in V'. rewrite (shows_fun V V'). eauto. }
  intros f h a k p G N L D U v.
  assert (Np : h p <> None). { destruct G as [_ C]. exact (C _ _ _ U). }
  rewrite (Get (S f) h a k v G N), (Get f h p k v G Np).
  destruct (one_space f k G N L) as [[D' _]|[_ (h1 & p1 & U1 & A1 & ->)]]; [contradiction|].
  pose proof (shows_fun U U1) as <-. split.
  - intros (h2 & c & E & V). destruct (space_ok (sound_alike A1 G) (kind_some A1 Np) E) as [A2 _].
    assert (A10 : alike h1 h). { split; [apply same_sym; apply A1|]. intros b. symmetry. apply A1. }
    destruct (Same f h1 h p k A10 (sound_alike A1 G) (kind_some A1 Np) c) as (h3 & E3 & _); [eauto|]. eauto.
  - intros (h2 & c & E & V). destruct (space_ok G Np E) as [A2 _].
    destruct (Same f h h1 p k A1 G Np c) as (h3 & E3 & _); [eauto|]. eauto.
Qed.

(** Everything a program can come to is sound. *)
Definition fine (s : names) : Prop := sound (nodes s) /\ nodes s (now s) <> None.

Lemma fine_alike : forall h h' a, alike h h' -> sound h -> h a <> None -> fine (mkN h' a).
Proof. intros h h' a A G N. split; [exact (sound_alike A G)|exact (kind_some A N)]. Qed.

Lemma sound_put : forall h a n, sound h -> 
  (h a = None \/ exists m, h a = Some (Space m)) -> (n = Self \/ exists m, n = Space m /\ forall k v, find m k = Some v -> h v <> None) ->
  sound (put h a n).
Proof.
  intros h a n [(S0 & S1 & S2) C] Ha Hn.
  assert (P : forall b, h b <> None -> put h a n b <> None).
  { intros b N. unfold put. destruct (b =? a); congruence. }
  assert (A : forall b, h b = Some Self -> put h a n b = Some Self).
  { intros b E. unfold put. destruct (Nat.eqb_spec b a) as [->|]; [|exact E]. destruct Ha as [Ha|[m Ha]]; congruence. }
  constructor; [repeat split; now apply A|]. intros b k v H. apply reads_shows in H. unfold reads, put in H.
  destruct (Nat.eqb_spec b a) as [->|Ne].
  - destruct Hn as [->|(m & -> & Hm)].
    + injection H as <-. unfold put. rewrite Nat.eqb_refl. discriminate.
    + injection H as <-. destruct (find m k) as [v|] eqn:F; [apply P; exact (Hm _ _ F)|]. apply P. congruence.
  - apply P. apply (C b k). apply reads_shows. exact H.
Qed.

Lemma assign_fine : forall s a k p h, fine s -> nodes s p <> None -> assign (nodes s) a k p = Ret h -> fine (mkN h (now s)).
Proof.
  intros s a k p h [G N] Np E. unfold assign in E. destruct (nodes s a) as [n|] eqn:Ea.
  - destruct (@arec_ok (nodes s) a k ltac:(congruence)) as (h1 & v & E1 & _ & A). rewrite E1 in E. cbn [cthen] in E.
    pose proof (sound_alike A G) as G1. pose proof (kind_some A N) as N1.
    destruct (h1 a) as [[|m]|] eqn:E2; injection E as <-; [now split| |now split].
    split; cbn [nodes now].
    + apply sound_put; [exact G1|right; eauto|]. right. eexists. split; [reflexivity|].
      intros k' v' F. cbn [find] in F. destruct (name_dec k k') as [_|_].
      * injection F as <-. exact (kind_some A Np).
      * destruct G1 as [_ C]. apply (C a k'). apply reads_shows. unfold reads. now rewrite E2, F.
    + unfold put. destruct (now s =? a); congruence.
  - unfold arec in E. rewrite Ea in E. discriminate.
Qed.

Lemma get_fine : forall f s k s' v, fine s -> get_symbol f s k = Ret (s', v) -> fine s' /\ nodes s' v <> None.
Proof.
  intros f [h a] k s' v [G N] E. cbn [nodes now] in *. unfold get_symbol in E. cbn [nodes now] in E.
  destruct (symbol_space f h a k) as [[h1 c]| |] eqn:E1; cbn [cthen] in E; try discriminate.
  destruct (space_ok G N E1) as [A1 Nc]. destruct (arec_ok k (kind_some A1 Nc)) as (h2 & v' & E2 & V & A2).
  rewrite E2 in E. cbn [cthen] in E. injection E as <- <-. cbn [nodes].
  split; [exact (fine_alike (alike_trans A1 A2) G N)|]. destruct (sound_alike A2 (sound_alike A1 G)) as [_ C].
  apply (C c k). now apply A2.
Qed.

Lemma reached_fine : forall s, reached s -> fine s.
Proof.
  intros s H. induction H as [s E|s a n H IH Ea Hn|s a k p h H IH Np E|f s k s' v H IH E|f s k s' v H IH E|f s k s' b H IH E|f s k s' H IH E].
  - set (h0 := nth_error [Self; Self; Self; Space []; Space []; Self]) in *.
    assert (G0 : fine (mkN h0 3)).
    { split; [|discriminate]. constructor; [now repeat split|]. intros a k v V. apply reads_shows in V. unfold reads in V.
      destruct a as [|[|[|[|[|[|a]]]]]]; cbn in V; try (injection V as <-; discriminate).
      rewrite (proj2 (nth_error_None _ _)) in V; [discriminate|cbn; lia]. }
    assert (St : forall h a k p h', fine (mkN h 3) -> h p <> None -> assign h a k p = Ret h' ->
       fine (mkN h' 3) /\ forall b, h b <> None -> h' b <> None).
    { intros h a k p h' F Np E1. split; [exact (assign_fine (s := mkN h 3) F Np E1)|].
      intros b Nb. unfold assign in E1. destruct (arec h a k) as [[h1 v]| |] eqn:E2; cbn [cthen] in E1; try discriminate.
      assert (Na : h a <> None) by (intros Z; unfold arec in E2; rewrite Z in E2; discriminate).
      destruct (arec_ok k Na) as (h1' & v' & E2' & _ & A). rewrite E2' in E2. injection E2 as -> ->.
      pose proof (kind_some A Nb) as Nb1. destruct (h1 a) as [[|m]|]; injection E1 as <-; auto.
      unfold put. destruct (b =? a); congruence. }
    unfold build in E. fold h0 in E.
    assert (Z : forall b, b < 6 -> h0 b <> None).
    { intros b L. destruct b as [|[|[|[|[|[|b]]]]]]; try discriminate. lia. }
    repeat match type of E with
      | cthen (assign ?h ?a ?k ?p) _ = _ =>
        let h' := fresh "h" in let Eh := fresh "E" in
        destruct (assign h a k p) as [h'| |] eqn:Eh; cbn [cthen] in E; try discriminate E;
        let F := fresh "F" in let K := fresh "K" in
        destruct (St _ _ _ _ _ G0 (Z p ltac:(lia)) Eh) as [F K];
        assert (forall b, b < 6 -> h' b <> None) by (intros b L; apply K; now apply Z);
        clear G0 Z K Eh; rename F into G0;
        match goal with X : forall b, b < 6 -> h' b <> None |- _ => rename X into Z end
      end.
    injection E as <-. exact G0.
  - destruct IH as [G N]. split; cbn [nodes now].
    + apply sound_put; [exact G|now left|]. destruct Hn as [->| ->]; [now left|]. right. exists []. split; [reflexivity|discriminate].
    + unfold put. destruct (now s =? a); congruence.
  - exact (assign_fine IH Np E).
  - exact (proj1 (get_fine IH E)).
  - destruct s as [h a], IH as [G N]. cbn [nodes now] in *. unfold get_symbol_type in E. cbn [nodes now] in E.
    destruct (symbol_space f h a k) as [[h1 c]| |] eqn:E1; cbn [cthen] in E; try discriminate.
    destruct (space_ok G N E1) as [A1 Nc].
    destruct (type_of_ok k (sound_alike A1 G) (kind_some A1 Nc)) as (h2 & m & ty & E2 & _ & _ & A2).
    rewrite E2 in E. cbn [cthen] in E. injection E as <- <-. exact (fine_alike (alike_trans A1 A2) G N).
  - destruct s as [h a], IH as [G N]. cbn [nodes now] in *. unfold has_symbol in E. cbn [nodes now] in E.
    destruct (symbol_space f h a k) as [[h1 c]| |] eqn:E1; cbn [cthen] in E; try discriminate.
    destruct (space_ok G N E1) as [A1 Nc]. destruct (arec_ok k (kind_some A1 Nc)) as (h2 & v & E2 & _ & A2).
    rewrite E2 in E. cbn [cthen] in E. pose proof (alike_trans A1 A2) as A12. destruct (yes v).
    + injection E as <- <-. exact (fine_alike A12 G N).
    + destruct (type_of_ok k (sound_alike A12 G) (kind_some A12 Nc)) as (h3 & m & ty & E3 & _ & _ & A3).
      rewrite E3 in E. cbn [cthen] in E. injection E as <- <-. exact (fine_alike (alike_trans A12 A3) G N).
  - unfold enter in E. destruct (get_symbol f s k) as [[s1 v]| |] eqn:E1; cbn [cthen] in E; try discriminate.
    injection E as <-. destruct (get_fine IH E1) as [[G _] Nv]. now split.
Qed.

Lemma space_not_bad : forall f h a k, sound h -> h a <> None -> symbol_space f h a k <> Bad.
Proof.
  induction f as [|f IH]; intros h a k G N; [discriminate|].
  destruct (Nat.lt_ge_cases a 2) as [L|L].
  - cbn [symbol_space]. rewrite (proj2 (yes_lt a) L). discriminate.
  - destruct (one_space f k G N L) as [[_ (h' & -> & _)]|[_ (h' & p & U & A & ->)]]; [discriminate|].
    apply IH; [exact (sound_alike A G)|]. destruct (sound_alike A G) as [_ C]. apply (C a up). now apply A.
Qed.
Lemma calls_not_bad : forall f s k, fine s ->
  get_symbol f s k <> Bad /\ get_symbol_type f s k <> Bad /\ has_symbol f s k <> Bad /\ enter f s k <> Bad.
Proof.
  intros f [h a] k [G N]. cbn [nodes now] in *. unfold enter, get_symbol, get_symbol_type, has_symbol. cbn [nodes now].
  pose proof (@space_not_bad f h a k G N) as B. destruct (symbol_space f h a k) as [[h1 c]| |] eqn:E; [|congruence|cbn; repeat split; discriminate].
  cbn [cthen]. destruct (space_ok G N E) as [A1 Nc].
  destruct (arec_ok k (kind_some A1 Nc)) as (h2 & v & -> & _ & A2). cbn [cthen].
  destruct (type_of_ok k (sound_alike A1 G) (kind_some A1 Nc)) as (h3 & m & ty & -> & _). cbn [cthen].
  pose proof (alike_trans A1 A2) as A12.
  destruct (type_of_ok k (sound_alike A12 G) (kind_some A12 Nc)) as (h4 & m' & ty' & -> & _). cbn [cthen].
  destruct (yes v); repeat split; discriminate.
Qed.

(** Statements for states a program can come to. *)
Lemma reached_lookup : forall s k b v m ty, reached s -> innermost (nodes s) k (now s) b ->
  shows (nodes s) b k v -> shows (nodes s) b types m -> shows (nodes s) m k ty ->
  exists f0, forall f, f0 <= f -> exists s1 s2 s3,
    (get_symbol f s k = Ret (s1, v) /\ now s1 = now s /\ same (nodes s) (nodes s1)) /\
    (get_symbol_type f s k = Ret (s2, ty) /\ now s2 = now s /\ same (nodes s) (nodes s2)) /\
    (has_symbol f s k = Ret (s3, 2 <=? b) /\ now s3 = now s /\ same (nodes s) (nodes s3)).
Proof.
  intros [h a] k b v m ty R I V M T. destruct (reached_fine R) as [G N]. cbn [nodes now] in *.
  destruct (lookup_all G N I V M T) as [f0 F0]. exists f0. intros f F.
  destruct (F0 f F) as (s1 & s2 & s3 & E1 & W1 & A1 & E2 & W2 & A2 & E3 & W3 & A3). exists s1, s2, s3.
  split; [split; [exact E1|split; [exact W1|apply A1]]|]. split; [split; [exact E2|split; [exact W2|apply A2]]|].
  split; [exact E3|split; [exact W3|apply A3]].
Qed.

Lemma define_then_get : forall s k p m, reached s -> 2 <= now s -> nodes s (now s) = Some (Space m) ->
  nodes s p <> None -> 2 <= p ->
  exists h, assign (nodes s) (now s) k p = Ret h /\
    (forall b j v, (b, j) <> (now s, k) -> (shows h b j v <-> shows (nodes s) b j v)) /\
    exists f0, forall f, f0 <= f -> exists s', get_symbol f (mkN h (now s)) k = Ret (s', p).
Proof.
  intros s k p m R L E Np Lp. destruct (assign_space k p E) as (h & Eh & V & Fr). exists h. split; [exact Eh|]. split; [exact Fr|].
  pose proof (reached_fine (r_assign R Np Eh)) as [G N]. cbn [nodes now] in G, N.
  assert (I : innermost h k (now s) (now s)) by (apply in_here; [exact L|left; eauto]).
  destruct (type_of_ok k G N) as (_ & mm & ty & _ & M & T & _).
  destruct (lookup_all G N I V M T) as [f0 F0]. exists f0. intros f F. destruct (F0 f F) as (s1 & _ & _ & E1 & _). eauto.
Qed.

Lemma built : exists s, build = Ret s /\ now s = 3 /\ shows (nodes s) 3 up 0 /\ shows (nodes s) 3 here 3 /\
  shows (nodes s) 3 name_t 2 /\ shows (nodes s) 3 name_nil 1 /\ shows (nodes s) 3 name_void 0 /\
  shows (nodes s) 3 types 4 /\ shows (nodes s) 4 name_void 5 /\
  (forall k v, shows (nodes s) 4 k v -> k <> name_void -> v = 0).
Proof.
  eexists. split; [vm_compute; reflexivity|]. split; [reflexivity|].
  repeat (split; [apply reads_shows; vm_compute; reflexivity|]).
  intros k v V Nv. apply reads_shows in V. unfold reads in V. cbn -[name_dec] in V.
  destruct (name_dec _ k) as [<-|]; [destruct Nv; reflexivity|]. congruence.
Qed.

(** Results of calls on concrete states, apart from the states they leave. *)
Definition val {A} (r : call (names * A)) : call A := cthen r (fun '(_, x) => Ret x).
Lemma val_ret : forall A (r : call (names * A)) v, val r = Ret v -> exists s, r = Ret (s, v).
Proof. intros A [[s x]| |] v E; try discriminate. injection E as <-. eauto. Qed.
Lemma call_ret : forall A (r : call A), (match r with Ret _ => true | _ => false end) = true -> exists x, r = Ret x.
Proof. intros A [x| |] E; try discriminate. eauto. Qed.
