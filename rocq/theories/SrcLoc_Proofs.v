(** Proofs about the places from which memory was asked for. *)
From Verif Require Import Base SrcLoc_Model SrcLoc_Spec.

Section Proofs.
Variable F : Type.
Variable file_of : F -> option (list Z).
Variable line_of : F -> option Z.
Notation run := (run file_of line_of).
Notation sl := (sl F).

(** The invariant: what is cached is that of the frame. *)
Definition fits (outer : option F) (s : sl) : Prop :=
  frame s = outer /\
  match outer with
  | None => fileptr s = None /\ lineval s = 0%Z
  | Some f => (fileptr s = None \/ exists t, file_of f = Some t /\ fileptr s = Some (gen s) /\ cache s = t) /\
              (lineval s = 0%Z \/ line_of f = Some (lineval s))
  end.
Definition seen_of (a : answer) : option (shown * Z) := Some (afile a, aline a).

Lemma ask_fits f s : fits (Some f) s -> forall s1 q s2 n, ask_file file_of s = (s1, q) -> ask_line line_of s1 = (s2, n) ->
  fits (Some f) s2 /\ (look s2 q, n) = place file_of line_of f.
Proof.
  intros (E & Hf & Hl) s1 q s2 n A B. destruct s as [fr fp lv g c]. cbn [frame fileptr lineval gen cache] in *. subst fr.
  unfold ask_file in A. cbn [frame fileptr lineval gen cache] in A. unfold place.
  destruct Hf as [-> | (t & Ft & -> & ->)].
  - destruct (file_of f) as [t|] eqn:Ft; inversion A; subst s1 q; clear A;
      unfold ask_line in B; cbn [frame fileptr lineval gen cache] in B.
    + destruct (Z.eqb_spec lv 0) as [->|Z0].
      * destruct (line_of f) as [m|] eqn:Lf; inversion B; subst s2 n; clear B;
          unfold fits, look; cbn [frame fileptr lineval gen cache]; rewrite Nat.eqb_refl; (split; [|reflexivity]);
          (split; [reflexivity|]); (split; [right; exists t; auto|]); [right; exact Lf|left; reflexivity].
      * destruct Hl as [Hl|Hl]; [contradiction|]. rewrite Hl. inversion B; subst s2 n; clear B.
        unfold fits, look; cbn [frame fileptr lineval gen cache]; rewrite Nat.eqb_refl. split; [|reflexivity].
        split; [reflexivity|]. split; [right; exists t; auto|right; exact Hl].
    + destruct (Z.eqb_spec lv 0) as [->|Z0].
      * destruct (line_of f) as [m|] eqn:Lf; inversion B; subst s2 n; clear B;
          unfold fits, look; cbn [frame fileptr lineval gen cache]; (split; [|reflexivity]);
          (split; [reflexivity|]); (split; [left; reflexivity|]); [right; exact Lf|left; reflexivity].
      * destruct Hl as [Hl|Hl]; [contradiction|]. rewrite Hl. inversion B; subst s2 n; clear B.
        unfold fits, look; cbn [frame fileptr lineval gen cache]. split; [|reflexivity].
        split; [reflexivity|]. split; [left; reflexivity|right; exact Hl].
  - rewrite Ft. inversion A; subst s1 q; clear A; unfold ask_line in B; cbn [frame fileptr lineval gen cache] in B.
    destruct (Z.eqb_spec lv 0) as [->|Z0].
    + destruct (line_of f) as [m|] eqn:Lf; inversion B; subst s2 n; clear B;
        unfold fits, look; cbn [frame fileptr lineval gen cache]; rewrite Nat.eqb_refl; (split; [|reflexivity]);
        (split; [reflexivity|]); (split; [right; exists t; auto|]); [right; exact Lf|left; reflexivity].
    + destruct Hl as [Hl|Hl]; [contradiction|]. rewrite Hl. inversion B; subst s2 n; clear B.
      unfold fits, look; cbn [frame fileptr lineval gen cache]; rewrite Nat.eqb_refl. split; [|reflexivity].
      split; [reflexivity|]. split; [right; exists t; auto|right; exact Hl].
Qed.

Lemma run_fits p : forall outer s, fits outer s -> guarded outer p ->
  fits outer (snd (run p s)) /\ map seen_of (fst (run p s)) = places file_of line_of outer p.
Proof.
  induction p as [|k IH|o b IHb k IHk]; intros outer s W G; cbn [SrcLoc_Model.run places guarded] in *.
  - now split.
  - destruct G as [N G]. destruct outer as [f|]; [|congruence].
    destruct (ask_file file_of s) as [s1 q] eqn:A. destruct (ask_line line_of s1) as [s2 n] eqn:B.
    destruct (@ask_fits f s W s1 q s2 n A B) as [W2 P]. specialize (IH (Some f) s2 W2 G).
    destruct (run k s2) as [l s3]. cbn [fst snd map] in *. destruct IH as [W3 M]. split; [exact W3|].
    rewrite M. unfold seen_of. cbn [afile aline]. now rewrite P.
  - destruct G as [Gb Gk]. destruct (enter s o) as [s1 set] eqn:E.
    assert (H : fits (match outer with Some f => Some f | None => o end) s1 /\
                (forall s2, fits (match outer with Some f => Some f | None => o end) s2 -> fits outer (leave s2 set))).
    { destruct W as [Wf W]. unfold enter in E. rewrite Wf in E. destruct outer as [f|].
      - inversion E; subst s1 set. split; [split; assumption|]. intros s2 W2. exact W2.
      - destruct o as [f|]; inversion E; subst s1 set.
        + destruct W as [W1 W2]. split.
          * split; [reflexivity|]. split; [left; exact W1|left; exact W2].
          * intros s2 _. unfold leave, fits. cbn. auto.
        + split; [split; assumption|]. intros s2 W2. exact W2. }
    destruct H as [W1 L]. specialize (IHb _ s1 W1 Gb). destruct (run b s1) as [l s2]. cbn [fst snd] in IHb. destruct IHb as [W2 M].
    specialize (IHk outer (leave s2 set) (L s2 W2) Gk). destruct (run k (leave s2 set)) as [l' s3]. cbn [fst snd] in *.
    destruct IHk as [W3 M']. split; [exact W3|]. now rewrite map_app, M, M'.
Qed.

(** Nothing is left behind. *)
Lemma outermost p s : frame s = None /\ fileptr s = None /\ lineval s = 0%Z -> guarded None p ->
  (frame (snd (run p s)) = None /\ fileptr (snd (run p s)) = None /\ lineval (snd (run p s)) = 0%Z) /\
  map (fun a => Some (afile a, aline a)) (fst (run p s)) = places file_of line_of None p.
Proof.
  intros (A & B & C) G. destruct (@run_fits p None s (conj A (conj B C)) G) as [(D & E & E') M]. auto.
Qed.

(** A question outside of all guards spoils the next guard. *)
Lemma unguarded s f t n : frame s = None /\ fileptr s = None /\ lineval s = 0%Z -> file_of f = Some t -> line_of f = Some n ->
  map (fun a => (afile a, aline a)) (fst (run (PAsk (PGuard (Some f) (PAsk PEnd) PEnd)) s)) = [(ShText [], 0%Z); (ShText [], n)].
Proof.
  intros (A & B & C) Ff Lf. destruct s as [fr fp lv g c]. cbn [frame fileptr lineval] in *. subst fr fp lv.
  unfold SrcLoc_Model.run, ask_file, ask_line, enter, look. cbn [frame fileptr lineval gen cache].
  cbn [Z.eqb frame fileptr lineval gen cache]. rewrite Lf. cbn [frame fileptr lineval gen cache leave app fst map afile aline].
  now rewrite Nat.eqb_refl.
Qed.

(** Pointers die when the next name is looked up. *)
Lemma ask_gen s s1 q s2 n : ask_file file_of s = (s1, q) -> ask_line line_of s1 = (s2, n) ->
  (gen s <= gen s2)%nat /\ (forall g, q = Some g -> fileptr s = Some g \/ (g <= gen s2)%nat) /\
  (fileptr s2 = q) /\ (fileptr s = None -> (gen s < gen s2)%nat \/ q = None) .
Proof.
  intros A B. unfold ask_file in A.
  assert (K : gen s2 = gen s1 /\ fileptr s2 = fileptr s1).
  { unfold ask_line in B. destruct (Z.eqb (lineval s1) 0); [|inversion B; subst; now split].
    destruct (frame s1) as [f|]; [destruct (line_of f)|]; inversion B; subst; now split. }
  destruct K as [-> ->]. destruct (fileptr s) as [p|] eqn:E.
  - inversion A; subst s1 q. repeat split; [lia| |exact E|discriminate]. intros g H. now left.
  - destruct (match frame s with Some f => file_of f | None => Some [] end); inversion A; subst s1 q; cbn [gen fileptr].
    + repeat split; [lia| |intros _; left; lia]. intros g H. inversion H; subst g. right. lia.
    + repeat split; [lia|discriminate|exact E|intros _; now right].
Qed.
Definition low (s : sl) : Prop := forall g, fileptr s = Some g -> (g <= gen s)%nat.
Lemma run_gen p : forall s, low s ->
  low (snd (run p s)) /\ (gen s <= gen (snd (run p s)))%nat /\
  Forall (fun a => forall g, aptr a = Some g -> (g <= gen (snd (run p s)))%nat) (fst (run p s)) /\
  (fileptr s = None -> (gen s < gen (snd (run p s)))%nat \/
    (fileptr (snd (run p s)) = None /\ Forall (fun a => aptr a = None) (fst (run p s)))).
Proof.
  induction p as [|k IH|o b IHb k IHk]; intros s Lo; cbn [SrcLoc_Model.run].
  - cbn [fst snd]. split; [exact Lo|]. split; [lia|]. split; [constructor|]. intros N. right. split; [exact N|constructor].
  - destruct (ask_file file_of s) as [s1 q] eqn:A. destruct (ask_line line_of s1) as [s2 n] eqn:B.
    destruct (@ask_gen s s1 q s2 n A B) as (G1 & G2 & G3 & G4).
    assert (Q : forall g, q = Some g -> (g <= gen s2)%nat).
    { intros g H. destruct (G2 g H) as [P|P]; [specialize (Lo g P); lia|exact P]. }
    assert (Lo2 : low s2). { intros g H. apply Q. congruence. }
    specialize (IH s2 Lo2). destruct (run k s2) as [l s3]. cbn [fst snd] in *. destruct IH as (I1 & I2 & I3 & I4).
    split; [exact I1|]. split; [lia|]. split.
    + constructor; [|exact I3]. cbn [aptr]. intros g H. specialize (Q g H). lia.
    + intros N. destruct (G4 N) as [G|G]; [left; lia|]. rewrite G in G3. destruct (I4 G3) as [H|[H H']]; [left; lia|].
      right. split; [exact H|]. constructor; [exact G|exact H'].
  - destruct (enter s o) as [s1 set] eqn:E.
    assert (E1 : fileptr s1 = fileptr s /\ gen s1 = gen s).
    { unfold enter in E. destruct (frame s); [|destruct o]; inversion E; auto. }
    destruct E1 as [E1 E2]. assert (Lo1 : low s1). { intros g H. rewrite E2. apply Lo. congruence. }
    specialize (IHb s1 Lo1). destruct (run b s1) as [l s2]. cbn [fst snd] in IHb. destruct IHb as (B1 & B2 & B3 & B4).
    assert (Lo2 : low (leave s2 set)). { unfold leave. destruct set; [intros g H; discriminate H|exact B1]. }
    assert (G2 : gen (leave s2 set) = gen s2) by now destruct set.
    specialize (IHk _ Lo2). destruct (run k (leave s2 set)) as [l' s3]. cbn [fst snd] in *. destruct IHk as (K1 & K2 & K3 & K4).
    split; [exact K1|]. split; [lia|]. split.
    + apply Forall_app. split; [|exact K3]. revert B3. apply Forall_impl. intros a H g P. specialize (H g P). lia.
    + intros N. rewrite <- E1 in N. destruct (B4 N) as [H|[H H']]; [left; lia|].
      assert (N2 : fileptr (leave s2 set) = None) by (unfold leave; destruct set; [reflexivity|exact H]).
      destruct (K4 N2) as [J|[J J']]; [left; lia|]. right. split; [exact J|]. apply Forall_app. now split.
Qed.
Lemma dangles p q s : frame s = None /\ fileptr s = None /\ lineval s = 0%Z -> guarded None p ->
  Exists (fun a => aptr a <> None) (fst (run q (snd (run p s)))) ->
  Forall (fun a => aptr a <> None -> look (snd (run q (snd (run p s)))) (aptr a) = ShDangling) (fst (run p s)).
Proof.
  intros C G X. destruct (@outermost p s C G) as [(D1 & D2 & D3) _]. destruct C as (C1 & C2 & C3).
  assert (Lo : low s) by (intros g H; congruence).
  destruct (@run_gen p s Lo) as (P1 & P2 & P3 & P4). set (s1 := snd (run p s)) in *.
  destruct (@run_gen q s1 P1) as (Q1 & Q2 & Q3 & Q4). destruct (Q4 D2) as [H|[H H']].
  - revert P3. apply Forall_impl. intros a B N. destruct (aptr a) as [g|] eqn:E; [|congruence]. unfold look.
    specialize (B g eq_refl). destruct (Nat.eqb_spec g (gen (snd (run q s1)))); [lia|reflexivity].
  - exfalso. rewrite Exists_exists in X. rewrite Forall_forall in H'. destruct X as (a & I & N). apply N. now apply H'.
Qed.

(** Inside of one guard the pointers stay valid. *)
Lemma ask_stay f s s1 q s2 n : frame s = Some f -> fileptr s = None \/ fileptr s = Some (gen s) ->
  ask_file file_of s = (s1, q) -> ask_line line_of s1 = (s2, n) ->
  frame s2 = Some f /\ fileptr s2 = q /\ (q = None \/ q = Some (gen s2)) /\
  (fileptr s = Some (gen s) -> q = fileptr s /\ gen s2 = gen s /\ cache s2 = cache s).
Proof.
  intros E P A B.
  assert (K : gen s2 = gen s1 /\ fileptr s2 = fileptr s1 /\ frame s2 = frame s1 /\ cache s2 = cache s1).
  { unfold ask_line in B. destruct (Z.eqb (lineval s1) 0); [|inversion B; subst; auto].
    destruct (frame s1) as [f'|] eqn:E1; [destruct (line_of f')|]; inversion B; subst; auto. }
  destruct K as (K1 & K2 & K3 & K4). rewrite K1, K2, K3, K4. unfold ask_file in A. destruct P as [P|P]; rewrite P in A.
  - rewrite E in A. destruct (file_of f); inversion A; subst s1 q; cbn [frame fileptr gen cache]; rewrite P;
      repeat split; auto; try discriminate.
  - inversion A; subst s1 q. rewrite P. repeat split; auto.
Qed.
Lemma run_stay f p : forall s, frame s = Some f -> fileptr s = None \/ fileptr s = Some (gen s) ->
  let e := snd (run p s) in
  frame e = Some f /\ (fileptr e = None \/ fileptr e = Some (gen e)) /\
  (fileptr s = Some (gen s) -> fileptr e = Some (gen e) /\ gen e = gen s /\ cache e = cache s) /\
  (fileptr e = None -> Forall (fun a => aptr a = None) (fst (run p s))) /\
  Forall (fun a => look e (aptr a) = afile a) (fst (run p s)).
Proof.
  induction p as [|k IH|o b IHb k IHk]; intros s E P; cbn [SrcLoc_Model.run].
  - cbn [fst snd]. cbv zeta. split; [exact E|]. split; [exact P|]. split; [auto|]. split; constructor.
  - destruct (ask_file file_of s) as [s1 q] eqn:A. destruct (ask_line line_of s1) as [s2 n] eqn:B.
    destruct (@ask_stay f s s1 q s2 n E P A B) as (E2 & Q & Q' & St).
    assert (P2 : fileptr s2 = None \/ fileptr s2 = Some (gen s2)) by now rewrite Q.
    specialize (IH s2 E2 P2). destruct (run k s2) as [l s3]. cbv zeta in *. cbn [fst snd] in *. destruct IH as (I1 & I2 & I3 & I5 & I4).
    split; [exact I1|]. split; [exact I2|]. split; [|split].
    + intros H. destruct (St H) as (S1 & S2 & S3). assert (H2 : fileptr s2 = Some (gen s2)) by congruence.
      destruct (I3 H2) as (J1 & J2 & J3). repeat split; congruence.
    + intros H. constructor; [|now apply I5]. cbn [aptr]. destruct Q' as [Q'|Q']; [exact Q'|].
      rewrite <- Q in Q'. destruct (I3 Q') as (J1 & _). congruence.
    + constructor; [|exact I4]. cbn [aptr afile]. destruct Q' as [->|Q']; [reflexivity|].
      rewrite <- Q in Q'. destruct (I3 Q') as (J1 & J2 & J3). unfold look. destruct q; [|reflexivity]. now rewrite J2, J3.
  - unfold enter. rewrite E. specialize (IHb s E P). destruct (run b s) as [l s2]. cbv zeta in *. cbn [fst snd] in IHb.
    destruct IHb as (B1 & B2 & B3 & B5 & B4). cbn [leave]. specialize (IHk s2 B1 B2). destruct (run k s2) as [l' s3]. cbn [fst snd] in *.
    destruct IHk as (K1 & K2 & K3 & K5 & K4). split; [exact K1|]. split; [exact K2|]. split; [|split].
    + intros H. destruct (B3 H) as (J1 & J2 & J3). destruct (K3 J1) as (M1 & M2 & M3). repeat split; congruence.
    + intros H. apply Forall_app. split; [|now apply K5]. apply B5. destruct B2 as [B2|B2]; [exact B2|].
      destruct (K3 B2) as (J1 & _). congruence.
    + apply Forall_app. split; [|exact K4]. destruct B2 as [B2|B2].
      * specialize (B5 B2). rewrite Forall_forall in B4, B5 |- *. intros a I. rewrite <- (B4 a I), (B5 a I). reflexivity.
      * destruct (K3 B2) as (J1 & J2 & J3). revert B4. apply Forall_impl. intros a <-. unfold look. destruct (aptr a); [|reflexivity]. now rewrite J2, J3.
Qed.
Lemma valid_inside p s f : frame s = None /\ fileptr s = None /\ lineval s = 0%Z ->
  Forall (fun a => look (snd (run p (fst (enter s (Some f))))) (aptr a) = afile a) (fst (run p (fst (enter s (Some f))))).
Proof.
  intros (A & B & C). unfold enter. rewrite A. cbn [fst]. apply (@run_stay f p); [reflexivity|left; exact B].
Qed.
End Proofs.
