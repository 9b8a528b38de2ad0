(** Proofs for control flow. *)
From Verif Require Import Base Ctl_Model Ctl_Spec.

(** Going on from an optional cell. *)
Definition cont (f : nat) (P : prog) (o : option nat) (v : option Z) : result :=
  match o with None => Fin [] v | Some n => go f P n v end.

Lemma go_eq f P self aret : go (S f) P self aret =
  match nth_error P self with
  | None => Undef
  | Some (st, nx) =>
      match st with
      | Do e => pre [e] (cont f P nx (Some e))
      | Ret => Fin [] aret
      | Jump a => go f P a aret
      | Raise x => Exc [] x
      | Sub a => match go f P a None with Fin tr v => pre tr (cont f P nx v) | r => r end
      end
  end.
Proof. reflexivity. Qed.

Definition final (r : result) : Prop := match r with Fin _ _ | Exc _ _ => True | _ => False end.

Lemma pre_final t r : final (pre t r) -> final r.
Proof. now destruct r. Qed.

Lemma cont_mono_of f g P : (forall self v, final (go f P self v) -> go g P self v = go f P self v) ->
  forall o v, final (cont f P o v) -> cont g P o v = cont f P o v.
Proof. intros H [n|] v F; cbn [cont] in *; auto. Qed.

Lemma go_mono f : forall g P self v, f <= g -> final (go f P self v) -> go g P self v = go f P self v.
Proof.
  induction f as [|f IH]; intros g P self v L F; [destruct F|].
  destruct g as [|g]; [lia|]. assert (L' : f <= g) by lia.
  rewrite !go_eq in *. destruct (nth_error P self) as [[st nx]|]; [|reflexivity].
  destruct st as [e| |a|x|a]; auto.
  - rewrite (@cont_mono_of f g P); [reflexivity|auto|]. now apply pre_final in F.
  - destruct (go f P a None) as [tr w|tr x| |] eqn:E; try now destruct F.
    + rewrite (IH g P a None L'); rewrite E; [|exact I].
      rewrite (@cont_mono_of f g P); [reflexivity|auto|]. now apply pre_final in F.
    + rewrite (IH g P a None L'); rewrite E; [reflexivity|exact I].
Qed.

Lemma cont_mono f g P o v : f <= g -> final (cont f P o v) -> cont g P o v = cont f P o v.
Proof. intros L. apply cont_mono_of. intros. now apply go_mono. Qed.

Lemma steps_trans P n m a b c : steps P n a b -> steps P m b c -> steps P (n + m) a c.
Proof. induction 1; cbn [plus]; auto. intros. econstructor; eauto. Qed.

(** ** Evaluation is execution *)
Lemma go_sound f : forall P c v r, go f P c v = r ->
  match r with
  | Fin tr w => forall k t, exists n, steps P n (Run ((Some c, v) :: k) t) (Run ((None, w) :: k) (t ++ tr))
  | Exc tr x => forall k t, exists n, steps P n (Run ((Some c, v) :: k) t) (Broken x (t ++ tr))
  | _ => True
  end.
Proof.
  induction f as [|f IH]; intros P c v r E; [cbn in E; subst; exact I|].
  assert (C : forall o v r, cont f P o v = r ->
    match r with
    | Fin tr w => forall k t, exists n, steps P n (Run ((o, v) :: k) t) (Run ((None, w) :: k) (t ++ tr))
    | Exc tr x => forall k t, exists n, steps P n (Run ((o, v) :: k) t) (Broken x (t ++ tr))
    | _ => True
    end).
  { intros [m|] u q Eq; cbn [cont] in Eq; [now apply IH|]. subst q. intros k t. exists 0.
    rewrite app_nil_r. constructor. }
  rewrite go_eq in E. destruct (nth_error P c) as [[st nx]|] eqn:N; [|subst; exact I].
  destruct st as [e| |a|x|a].
  - specialize (C nx (Some e) _ eq_refl). destruct (cont f P nx (Some e)) as [tr w|tr x| |];
      cbn [pre] in E; subst r; auto; intros k t; destruct (C k (t ++ [e])) as [n ST].
    + exists (S n). apply S_more with (1 := S_do v k t N). now rewrite <- app_assoc in ST.
    + exists (S n). apply S_more with (1 := S_do v k t N). now rewrite <- app_assoc in ST.
  - subst r. intros k t. exists 1. rewrite app_nil_r. econstructor; [eapply S_return; eauto|constructor].
  - specialize (IH P a v _ eq_refl). rewrite E in IH. destruct r as [tr w|tr x| |]; auto;
      intros k t; destruct (IH k t) as [n ST]; exists (Datatypes.S n); (econstructor; [eapply S_jump; eauto|exact ST]).
  - subst r. intros k t. exists 1. rewrite app_nil_r. econstructor; [eapply S_raise; eauto|constructor].
  - pose proof (IH P a None _ eq_refl) as A. destruct (go f P a None) as [tr w|tr x| |]; try (subst r; exact I).
    + specialize (C nx w _ eq_refl).
      assert (B : forall k t, exists n, steps P n (Run ((Some c, v) :: k) t) (Run ((nx, w) :: k) (t ++ tr))).
      { intros k t. destruct (A ((nx, v) :: k) t) as [n ST].
        exists (Datatypes.S (n + 1)). econstructor; [eapply S_enter; eauto|].
        eapply steps_trans; [exact ST|]. econstructor; [apply S_leave|constructor]. }
      destruct (cont f P nx w) as [tr2 w2|tr2 x2| |]; cbn [pre] in E; subst r; auto; intros k t;
        destruct (B k t) as [n S1]; destruct (C k (t ++ tr)) as [m S2]; exists (n + m);
        rewrite app_assoc; eapply steps_trans; eauto.
    + subst r. intros k t. destruct (A ((nx, v) :: k) t) as [n ST]. exists (Datatypes.S n).
      econstructor; [eapply S_enter; eauto|exact ST].
Qed.

Definition halted (m : machine) : Prop := match m with Run _ _ => False | _ => True end.

Lemma go_complete N : forall P o v k t m, steps P N (Run ((o, v) :: k) t) m -> halted m ->
  exists f,
  match cont f P o v with
  | Fin tr w => exists M, M <= N /\ steps P M (Run ((None, w) :: k) (t ++ tr)) m
  | Exc tr x => m = Broken x (t ++ tr)
  | _ => False
  end.
Proof.
  induction N as [N IH] using lt_wf_ind. intros P o v k t m S H.
  destruct o as [c|].
  2: { exists 0. cbn [cont]. exists N. split; [lia|]. now rewrite app_nil_r. }
  inversion S as [|n m0 m1 m2 S1 S2]; subst; [destruct H|].
  inversion S1 as [c' e nx v' k' tr' E|c' nx v' k' tr' E|c' a nx v' k' tr' E|c' x nx v' k' tr' E
                  |c' a nx v' k' tr' E| |]; subst.
  - destruct (IH n ltac:(lia) _ _ _ _ _ _ S2 H) as [f F]. exists (Datatypes.S f).
    cbn [cont]. rewrite go_eq, E. destruct (cont f P nx (Some e)) as [tr w|tr x| |]; cbn [pre]; try easy.
    + destruct F as (M & L & F). exists M. split; [lia|]. now rewrite <- app_assoc in F.
    + now rewrite <- app_assoc in F.
  - exists 1. cbn [cont]. rewrite go_eq, E. exists n. split; [lia|]. now rewrite app_nil_r.
  - destruct (IH n ltac:(lia) _ _ _ _ _ _ S2 H) as [f F]. exists (Datatypes.S f).
    cbn [cont] in *. rewrite go_eq, E. destruct (go f P a v) as [tr w|tr x| |]; auto.
    destruct F as (M & L & F). exists M. split; [lia|auto].
  - exists 1. cbn [cont]. rewrite go_eq, E. rewrite app_nil_r.
    inversion S2 as [|? ? ? ? X]; subst; [reflexivity|inversion X].
  - destruct (IH n ltac:(lia) _ _ _ _ _ _ S2 H) as [f F]. cbn [cont] in F.
    destruct (go f P a None) as [tr w|tr x| |] eqn:G; try contradiction.
    + destruct F as (M & L & F). inversion F as [|n2 m3 m4 m5 T1 T2]; subst; [destruct H|].
      inversion T1; subst.
      destruct (IH n2 ltac:(lia) _ _ _ _ _ _ T2 H) as [g K]. exists (Datatypes.S (f + g)).
      cbn [cont]. rewrite go_eq, E.
      rewrite (@go_mono f (f + g) P a None) by (rewrite ?G; auto; lia || exact I). rewrite G.
      destruct (cont g P nx w) as [tr2 w2|tr2 x2| |] eqn:G2; try contradiction.
      * rewrite (@cont_mono g (f + g) P nx w) by (rewrite ?G2; auto; lia || exact I). rewrite G2.
        cbn [pre]. destruct K as (M2 & L2 & K). exists M2. split; [lia|]. now rewrite app_assoc.
      * rewrite (@cont_mono g (f + g) P nx w) by (rewrite ?G2; auto; lia || exact I). rewrite G2.
        cbn [pre]. now rewrite app_assoc.
    + exists (Datatypes.S f). cbn [cont]. rewrite go_eq, E, G. exact F.
Qed.

Theorem evaluation P a tr v :
  (exists f, go f P a None = Fin tr v) <-> (exists n, steps P n (Run [(Some a, None)] []) (Stop v tr)).
Proof.
  split.
  - intros [f E]. pose proof (@go_sound f P a None _ E) as S. cbn beta iota in S.
    destruct (S [] []) as [n T]. exists (n + 1). eapply steps_trans; [exact T|].
    econstructor; [apply S_end|constructor].
  - intros [n ST]. destruct (@go_complete n P (Some a) None [] [] _ ST I) as [f F].
    cbn [cont] in F. exists f. destruct (go f P a None) as [tr' w|tr' x| |]; try contradiction.
    + destruct F as (M & _ & F). inversion F as [|? ? ? ? T1 T2]; subst.
      inversion T1; subst. inversion T2 as [|? ? ? ? X]; subst; [|inversion X]. reflexivity.
    + discriminate.
Qed.

Theorem uncaught P a tr x :
  (exists f, go f P a None = Exc tr x) <-> (exists n, steps P n (Run [(Some a, None)] []) (Broken x tr)).
Proof.
  split.
  - intros [f E]. pose proof (@go_sound f P a None _ E) as S. cbn beta iota in S.
    destruct (S [] []) as [n T]. exists n. exact T.
  - intros [n ST]. destruct (@go_complete n P (Some a) None [] [] _ ST I) as [f F].
    cbn [cont] in F. exists f. destruct (go f P a None) as [tr' w|tr' x'| |]; try contradiction.
    + destruct F as (M & _ & F). inversion F as [|? ? ? ? T1 T2]; subst.
      inversion T1; subst. inversion T2 as [|? ? ? ? X]; subst. inversion X.
    + now injection F as -> ->.
Qed.

(** ** Straight lines *)
Definition last_of (v : option Z) (es : list Z) : option Z := last (map Some es) v.

Lemma last_of_cons v e es : last_of v (e :: es) = last_of (Some e) es.
Proof.
  unfold last_of. cbn [map]. destruct es as [|e' es]; [reflexivity|].
  cbn [map]. generalize (Some e') as x. generalize (map Some es) as l. intros l x.
  change (last (Some e :: x :: l) v) with (last (x :: l) v).
  revert x. induction l as [|y l IH]; intros x; [reflexivity|].
  change (last (x :: y :: l) v) with (last (y :: l) v).
  change (last (x :: y :: l) (Some e)) with (last (y :: l) (Some e)). apply IH.
Qed.

Lemma line_go P es : forall c last f v, line P c es last ->
  final (cont f P last (last_of v es)) ->
  exists g, f <= g /\ cont g P c v = pre es (cont f P last (last_of v es)).
Proof.
  induction es as [|e es IH]; intros c last f v L F.
  - cbn [line] in L. subst c. exists f. split; [lia|].
    change (last_of v []) with v. now destruct (cont f P last v).
  - destruct L as (a & nx & -> & N & L). rewrite last_of_cons in *.
    destruct (IH nx last f (Some e) L F) as (g & G & E). exists (S g). split; [lia|].
    cbn [cont]. rewrite go_eq, N, E. now destruct (cont f P last (last_of (Some e) es)).
Qed.

Theorem line_runs P a es : es <> [] -> line P (Some a) es None ->
  exists f, go f P a None = Fin es (last_of None es).
Proof.
  intros _ L. destruct (@line_go P es (Some a) None 0 None L I) as (g & _ & E).
  exists g. cbn [cont] in E. rewrite E. cbn [pre]. now rewrite app_nil_r.
Qed.

Theorem return_ends P a es r nx : line P (Some a) es (Some r) -> nth_error P r = Some (Ret, nx) ->
  exists f, go f P a None = Fin es (last_of None es).
Proof.
  intros L N. assert (R : cont 1 P (Some r) (last_of None es) = Fin [] (last_of None es)).
  { cbn [cont]. now rewrite go_eq, N. }
  destruct (@line_go P es (Some a) (Some r) 1 None L) as (g & _ & E); [now rewrite R|].
  exists g. cbn [cont] in E. cbn [cont] in R. rewrite E, R. cbn [pre]. now rewrite app_nil_r.
Qed.

Theorem goto_skips P a es j nx b es2 : line P (Some a) es (Some j) ->
  nth_error P j = Some (Jump b, nx) -> es2 <> [] -> line P (Some b) es2 None ->
  exists f, go f P a None = Fin (es ++ es2) (last_of None es2).
Proof.
  intros L N Ne L2. destruct (@line_go P es2 (Some b) None 0 (last_of None es) L2 I) as (g & _ & E).
  assert (V : last_of (last_of None es) es2 = last_of None es2).
  { destruct es2 as [|e es2]; [congruence|]. now rewrite !last_of_cons. }
  rewrite V in E. cbn [cont pre] in E. rewrite app_nil_r in E.
  assert (R : cont (S g) P (Some j) (last_of None es) = Fin es2 (last_of None es2)).
  { cbn [cont]. rewrite go_eq, N. exact E. }
  destruct (@line_go P es (Some a) (Some j) (S g) None L) as (h & _ & K); [now rewrite R|].
  exists h. rewrite R in K. cbn [cont pre] in K. exact K.
Qed.

Theorem jump_out_twice P c a n es nx : nth_error P c = Some (Sub a, Some n) ->
  nth_error P a = Some (Jump n, nx) -> es <> [] -> line P (Some n) es None ->
  exists f, go f P c None = Fin (es ++ es) (last_of None es).
Proof.
  intros C A Ne L.
  destruct (@line_go P es (Some n) None 0 None L I) as (g & _ & E).
  destruct (@line_go P es (Some n) None 0 (last_of None es) L I) as (h & _ & K).
  assert (V : last_of (last_of None es) es = last_of None es).
  { destruct es as [|e es]; [congruence|]. now rewrite !last_of_cons. }
  rewrite V in K. cbn [cont pre] in E, K. rewrite app_nil_r in E, K.
  exists (S (S (g + h))). rewrite go_eq, C, go_eq, A.
  rewrite (@go_mono g (g + h)) by (rewrite ?E; auto; lia || exact I). rewrite E.
  cbn [cont]. rewrite (@go_mono h (S (g + h))) by (rewrite ?K; auto; lia || exact I). rewrite K. reflexivity.
Qed.
