(** Lemmas on the stream model: unreading, seeking, line endings. *)
From Verif Require Import Base Stream_Model Stream_Spec.
Local Open Scope nat_scope.

Lemma firstn_app_le (A : Type) (n : nat) (a b : list A) : length a <= n ->
  firstn n (a ++ b) = a ++ firstn (n - length a) b.
Proof. intros H. rewrite firstn_app, firstn_all2 by exact H. reflexivity. Qed.
Lemma firstn_app_ge (A : Type) (n : nat) (a b : list A) : n <= length a ->
  firstn n (a ++ b) = firstn n a.
Proof.
  intros H. rewrite firstn_app. replace (n - length a) with 0 by lia. cbn [firstn].
  apply app_nil_r.
Qed.
Lemma skipn_app_ge (A : Type) (n : nat) (a b : list A) : length a <= n ->
  skipn n (a ++ b) = skipn (n - length a) b.
Proof. intros H. rewrite skipn_app, (skipn_all2 a) by exact H. reflexivity. Qed.
Lemma skipn_app_le (A : Type) (n : nat) (a b : list A) : n <= length a ->
  skipn n (a ++ b) = skipn n a ++ b.
Proof.
  intros H. rewrite skipn_app. replace (n - length a) with 0 by lia. reflexivity.
Qed.
Lemma skipn_add (A : Type) (m n : nat) (l : list A) : skipn n (skipn m l) = skipn (m + n) l.
Proof.
  revert l. induction m as [|m IH]; intros l; [reflexivity|].
  destruct l as [|x l]; [cbn [Nat.add]; rewrite !skipn_nil; reflexivity|exact (IH l)].
Qed.
Lemma length_0_iff (A : Type) (l : list A) : (length l =? 0) = true <-> l = [].
Proof. destruct l; cbn; split; intros; congruence. Qed.

(** ** The handle. *)
Lemma src_delivers_inv (I : src -> Prop) :
  (forall s n w t, I s -> n <= length (rest s) -> I (mksrc (all s) (at_ s + n) t w)) ->
  delivers src_base I rest.
Proof.
  intros HI. split.
  - intros n st Hst. cbn [src_base b_read]. unfold src_read.
    destruct (Nat.eqb_spec n 0) as [->|Hn].
    + exists [], st. repeat split; auto.
    + remember (firstn (allowed n st) (rest st)) as got eqn:Hg.
      exists got, (mksrc (all st) (at_ st + length got) (tl (sched st)) (waiting st)).
      assert (Ha : 1 <= allowed n st <= n).
      { unfold allowed. destruct (sched st); lia. }
      split; [reflexivity|]. split; [|split; [|split]].
      * apply HI; [exact Hst|]. rewrite Hg, firstn_length. lia.
      * unfold rest at 2. cbn [all at_]. rewrite <- skipn_add. fold (rest st).
        rewrite <- (firstn_skipn (allowed n st) (rest st)) at 1. rewrite <- Hg. f_equal.
        rewrite Hg, firstn_length.
        destruct (Nat.le_ge_cases (allowed n st) (length (rest st))) as [L|L].
        -- now rewrite Nat.min_l by exact L.
        -- rewrite Nat.min_r by exact L. now rewrite !skipn_all2 by lia.
      * rewrite Hg, firstn_length. lia.
      * intros E. right. rewrite E in Hg. destruct (rest st) as [|x l]; [reflexivity|].
        destruct (allowed n st); [lia|discriminate].
  - intros st _. cbn [src_base b_end]. unfold src_end, rest. rewrite Nat.leb_le. split.
    + apply skipn_all2.
    + intros E. destruct (Nat.le_gt_cases (length (all st)) (at_ st)) as [L|L]; [exact L|].
      apply (f_equal (@length Z)) in E. rewrite skipn_length in E. cbn in E. lia.
Qed.
Lemma src_delivers : delivers src_base (fun _ => True) rest.
Proof. apply src_delivers_inv. auto. Qed.
Lemma src_delivers_all units : delivers src_base (fun s => all s = units) rest.
Proof. apply src_delivers_inv. auto. Qed.
Lemma src_delivers_at units :
  delivers src_base (fun s => all s = units /\ at_ s <= length units) rest.
Proof.
  apply src_delivers_inv. intros s n w t [A L] Hn. cbn [all at_]. split; [exact A|].
  unfold rest in Hn. rewrite skipn_length, A in Hn. lia.
Qed.

(** ** A stream that takes text back. *)
Section Wrapped.
Context {B : Type} (b : base B) (good : B -> Prop) (coming : B -> list Z).
Hypothesis D : delivers b good coming.

(** [p] has been given back, [r] is still with the source. *)
Definition holds (cap : nat) (w : wst B) (p r : list Z) : Prop :=
  length (wbuf w) = cap /\ wusing w = cap /\ wpos w <= cap /\
  p = skipn (wpos w) (wbuf w) /\ good (wbase w) /\ r = coming (wbase w).

Lemma holds_len cap w p r : holds cap w p r -> length p = cap - wpos w.
Proof. intros (L & U & P & -> & _). rewrite skipn_length. lia. Qed.

Lemma holds_new st : good st -> holds default_buffer_size (wnew st) [] (coming st).
Proof.
  intros G. unfold holds, wnew. cbn [wbuf wusing wpos wbase].
  rewrite repeat_length, skipn_all2 by (rewrite repeat_length; lia). auto 10.
Qed.

Lemma holds_read cap w p r n : holds cap w p r -> exists more r' w',
  wread b n w = Fine (firstn n p ++ more, w') /\ r = more ++ r' /\
  length more <= n - length p /\ (more = [] -> n <= length p \/ r = []) /\
  holds cap w' (skipn n p) r'.
Proof.
  intros Hh. pose proof (holds_len Hh) as Lp. destruct Hh as (L & U & P & E & G & R).
  unfold wread. destruct (Nat.eqb_spec n 0) as [->|Hn].
  { exists [], r, w. cbn [firstn skipn app]. repeat split; auto; cbn; lia. }
  rewrite U. destruct (Nat.eqb_spec (wpos w) cap) as [Hc|Hc].
  - assert (p = []) as -> by (destruct p; [reflexivity|cbn in Lp; lia]).
    destruct (@del_read _ _ _ _ D n (wbase w) G) as (got & st' & Hr & G' & C & Lg & Z0).
    rewrite Hr. cbn [sbind fst snd]. exists got, (coming st'), (mkw (wbuf w) cap (wpos w) st').
    rewrite firstn_nil, skipn_nil. cbn [app length]. subst r.
    refine (conj eq_refl (conj C (conj _ (conj _ _)))); [lia| |].
    + intros ->. destruct (Z0 eq_refl) as [|e]; [lia|right; exact e].
    + unfold holds. cbn [wbuf wusing wpos wbase]. auto 10.
  - set (k := min n (cap - wpos w)).
    destruct (Nat.leb_spec (wpos w + k) (length (wbuf w))) as [_|F]; [|lia].
    destruct (@del_read _ _ _ _ D (n - k) (wbase w) G) as (got & st' & Hr & G' & C & Lg & Z0).
    rewrite Hr. cbn [sbind fst snd].
    assert (Hf : firstn k (skipn (wpos w) (wbuf w)) = firstn n p).
    { rewrite <- E. unfold k. destruct (Nat.le_ge_cases n (cap - wpos w)) as [M|M].
      - now rewrite Nat.min_l by exact M.
      - rewrite Nat.min_r by exact M. rewrite !firstn_all2 by lia. reflexivity. }
    rewrite Hf. exists got, (coming st'), (mkw (wbuf w) cap (wpos w + k) st').
    subst r. refine (conj eq_refl (conj C (conj _ (conj _ _)))); [lia| |].
    + intros ->. destruct (Z0 eq_refl) as [|e]; [left; lia|right; exact e].
    + unfold holds. cbn [wbuf wusing wpos wbase].
      refine (conj L (conj eq_refl (conj _ (conj _ (conj G' eq_refl))))); [lia|].
      rewrite E, skipn_add. unfold k. destruct (Nat.le_ge_cases n (cap - wpos w)) as [M|M].
      * now rewrite Nat.min_l by exact M.
      * rewrite Nat.min_r by exact M. now rewrite !skipn_all2 by lia.
Qed.

Lemma holds_unread cap w p r l : holds cap w p r -> length p + length l <= cap ->
  exists w', wunread l w = Fine w' /\ holds cap w' (l ++ p) r.
Proof.
  intros Hh F. pose proof (holds_len Hh) as Lp. destruct Hh as (L & U & P & E & G & R).
  unfold wunread. destruct (Nat.eqb_spec (length l) 0) as [Hl|Hl].
  { destruct l; [|discriminate]. exists w. split; [reflexivity|]. unfold holds. auto 10. }
  destruct (Nat.ltb_spec (wpos w) (length l)) as [M|M]; [lia|]. cbv zeta.
  destruct (Nat.leb_spec (wpos w - length l + length l) (length (wbuf w))) as [_|M2]; [|lia].
  eexists. split; [reflexivity|]. unfold holds. cbn [wbuf wusing wpos wbase].
  refine (conj _ (conj U (conj _ (conj _ (conj G R))))).
  - rewrite !app_length, firstn_length, skipn_length. lia.
  - lia.
  - rewrite skipn_app_ge by (rewrite firstn_length; lia). rewrite firstn_length.
    replace (wpos w - length l - min (wpos w - length l) (length (wbuf w))) with 0 by lia.
    cbn [skipn]. rewrite E. f_equal. f_equal. lia.
Qed.

Lemma holds_end cap w p r : holds cap w p r -> (wend b w = true <-> p = [] /\ r = []).
Proof.
  intros Hh. pose proof (holds_len Hh) as Lp. destruct Hh as (L & U & P & E & G & R).
  unfold wend. rewrite andb_true_iff, Nat.eqb_eq, (@del_end _ _ _ _ D _ G), <- R, U.
  destruct p; cbn in Lp; split; intros [a c]; split; auto; try lia; discriminate.
Qed.

(** A wrapped stream keeps the contract of a stream. *)
Lemma wrap_obeys cap : 1 <= cap ->
  obeys (wrap b) (fun w => exists p r, holds cap w p r)
    (fun w => skipn (wpos w) (wbuf w) ++ coming (wbase w)) (@wpos B).
Proof.
  intros H1. split.
  - intros n w (p & r & Hh). destruct (holds_read n Hh) as (more & r' & w' & Hr & Er & Lm & Z0 & Hh').
    exists (firstn n p ++ more), w'. cbn [wrap s_read].
    assert (Ep : p = skipn (wpos w) (wbuf w)) by apply Hh.
    assert (Ep' : skipn n p = skipn (wpos w') (wbuf w')) by apply Hh'.
    assert (Erc : r = coming (wbase w)) by apply Hh.
    assert (Erc' : r' = coming (wbase w')) by apply Hh'.
    pose proof (holds_len Hh) as Lp. pose proof (holds_len Hh') as Lp'.
    rewrite skipn_length in Lp'. assert (wpos w <= cap) by apply Hh. assert (wpos w' <= cap) by apply Hh'.
    rewrite <- Ep, <- Erc, <- Ep', <- Erc'.
    refine (conj Hr (conj (ex_intro _ _ (ex_intro _ _ Hh')) (conj _ (conj _ (conj _ (conj _ _)))))).
    + destruct (Nat.le_gt_cases n (length p)) as [M|M].
      * assert (more = []) as -> by (destruct more; [reflexivity|cbn in Lm; lia]).
        rewrite app_nil_r, app_assoc, firstn_skipn, Er. reflexivity.
      * rewrite firstn_all2 by lia. rewrite skipn_all2 by lia. cbn [app].
        rewrite <- app_assoc, Er. reflexivity.
    + rewrite app_length, firstn_length. lia.
    + intros En. apply app_eq_nil in En as [En Em].
      destruct (Z0 Em) as [M|M].
      * left. apply (f_equal (@length Z)) in En. rewrite firstn_length in En. cbn in En. lia.
      * destruct n as [|n]; [now left|]. right. destruct p; [now rewrite M|discriminate].
    + lia.
    + intros Hne. destruct n as [|n].
      * exfalso. apply Hne. cbn [firstn app]. destruct more; [reflexivity|cbn in Lm; lia].
      * lia.
  - intros l w (p & r & Hh) Hl. pose proof (holds_len Hh) as Lp.
    assert (wpos w <= cap) by apply Hh.
    destruct (@holds_unread cap w p r l Hh ltac:(lia)) as (w' & Hu & Hh').
    exists w'. cbn [wrap s_unread].
    pose proof (holds_len Hh') as Lp'. rewrite app_length in Lp'. assert (wpos w' <= cap) by apply Hh'.
    refine (conj Hu (conj (ex_intro _ _ (ex_intro _ _ Hh')) (conj _ _))); [|lia].
    assert (Ep : p = skipn (wpos w) (wbuf w)) by apply Hh.
    assert (Ep' : l ++ p = skipn (wpos w') (wbuf w')) by apply Hh'.
    assert (Erc : r = coming (wbase w)) by apply Hh.
    assert (Erc' : r = coming (wbase w')) by apply Hh'.
    rewrite <- Ep', <- Erc', <- Ep, <- Erc, app_assoc. reflexivity.
  - intros w (p & r & Hh). cbn [wrap s_end]. rewrite (holds_end Hh).
    assert (Ep : p = skipn (wpos w) (wbuf w)) by apply Hh.
    assert (Erc : r = coming (wbase w)) by apply Hh.
    rewrite <- Ep, <- Erc. split; [intros [-> ->]; reflexivity|apply app_eq_nil].
Qed.

Lemma use_shows cap : 1 <= cap -> forall ops w p r k, holds cap w p r -> length p <= k ->
  fits cap ops k ->
  exists tr w' p' r', use (wrap b) ops w = Fine (tr, w') /\ shows ops p r tr p' r' /\ holds cap w' p' r'.
Proof.
  intros H1. induction ops as [|o ops IH]; intros w p r k Hh Hk F.
  { exists [], w, p, r. split; [reflexivity|]. split; [constructor|exact Hh]. }
  destruct o as [n|l| |]; cbn [use do_op fits] in *.
  - destruct (holds_read n Hh) as (more & r' & w' & Hr & Er & Lm & Z0 & Hh').
    cbn [wrap s_read]. rewrite Hr. cbn [sbind snd fst].
    destruct (IH w' (skipn n p) r' (k - n) Hh' ltac:(rewrite skipn_length; lia) F)
      as (tr & w2 & p2 & r2 & Hu & Hs & Hh2).
    rewrite Hu. cbn [sbind fst snd]. do 4 eexists. split; [reflexivity|].
    split; [|exact Hh2]. econstructor; eauto.
  - destruct F as [F1 F2]. destruct (@holds_unread cap w p r l Hh ltac:(lia)) as (w' & Hu & Hh').
    cbn [wrap s_unread]. rewrite Hu. cbn [sbind snd fst].
    destruct (IH w' (l ++ p) r (k + length l) Hh' ltac:(rewrite app_length; lia) F2)
      as (tr & w2 & p2 & r2 & Hu2 & Hs & Hh2).
    rewrite Hu2. cbn [sbind fst snd]. do 4 eexists. split; [reflexivity|].
    split; [|exact Hh2]. constructor. exact Hs.
  - unfold speek. destruct (holds_read 1 Hh) as (more & r' & w' & Hr & Er & Lm & Z0 & Hh').
    cbn [wrap s_read]. rewrite Hr. cbn [sbind snd fst].
    assert (wpos w' <= cap) by apply Hh'.
    pose proof (holds_len Hh') as Lp'.
    destruct p as [|c p].
    + cbn [firstn app length skipn] in *. destruct more as [|c [|? ?]]; [| |cbn in Lm; lia].
      * cbn [app] in Er. subst r'. destruct (Z0 eq_refl) as [|Hr0]; [lia|]. subst r.
        cbn [sbind fst snd].
        destruct (IH w' [] [] (max k 1) Hh' ltac:(cbn; lia) F) as (tr & w2 & p2 & r2 & Hu & Hs & Hh2).
        rewrite Hu. cbn [sbind fst snd]. do 4 eexists. split; [reflexivity|].
        split; [|exact Hh2]. now constructor.
      * destruct (@holds_unread cap w' [] r' [c] Hh' ltac:(cbn; lia)) as (w2 & Hu & Hh2).
        cbn [wrap s_unread sbind]. rewrite Hu. cbn [sbind fst snd].
        destruct (IH w2 [c] r' (max k 1) Hh2 ltac:(cbn; lia) F) as (tr & w3 & p2 & r2 & Hu2 & Hs & Hh3).
        rewrite Hu2. cbn [sbind fst snd]. do 4 eexists. split; [reflexivity|].
        split; [|exact Hh3]. subst r. now constructor.
    + cbn [firstn app skipn] in *. 
      assert (more = []) as -> by (destruct more; [reflexivity|cbn in Lm; lia]).
      cbn [app] in Er. subst r'. pose proof (holds_len Hh) as Lp. assert (wpos w <= cap) by apply Hh.
      cbn [length] in Lp.
      destruct (@holds_unread cap w' p r [c] Hh' ltac:(cbn; lia)) as (w2 & Hu & Hh2).
      cbn [wrap s_unread sbind]. rewrite Hu. cbn [sbind fst snd].
      destruct (IH w2 (c :: p) r (max k 1) Hh2 ltac:(cbn in *; lia) F) as (tr & w3 & p2 & r2 & Hu2 & Hs & Hh3).
      rewrite Hu2. cbn [sbind fst snd]. do 4 eexists. split; [reflexivity|].
      split; [|exact Hh3]. now constructor.
  - unfold sget. destruct (holds_read 1 Hh) as (more & r' & w' & Hr & Er & Lm & Z0 & Hh').
    cbn [wrap s_read]. rewrite Hr. cbn [sbind snd fst].
    destruct p as [|c p].
    + cbn [firstn app length skipn] in *. destruct more as [|c [|? ?]]; [| |cbn in Lm; lia].
      * cbn [app] in Er. subst r'. destruct (Z0 eq_refl) as [|Hr0]; [lia|]. subst r.
        cbn [sbind fst snd].
        destruct (IH w' [] [] (k - 1) Hh' ltac:(cbn; lia) F) as (tr & w2 & p2 & r2 & Hu & Hs & Hh2).
        rewrite Hu. cbn [sbind fst snd]. do 4 eexists. split; [reflexivity|].
        split; [|exact Hh2]. now constructor.
      * cbn [sbind fst snd].
        destruct (IH w' [] r' (k - 1) Hh' ltac:(cbn; lia) F) as (tr & w3 & p2 & r2 & Hu2 & Hs & Hh3).
        rewrite Hu2. cbn [sbind fst snd]. do 4 eexists. split; [reflexivity|].
        split; [|exact Hh3]. subst r. now constructor.
    + cbn [firstn app skipn] in *. 
      assert (more = []) as -> by (destruct more; [reflexivity|cbn in Lm; lia]).
      cbn [app] in Er. subst r'. cbn [sbind fst snd].
      destruct (IH w' p r (k - 1) Hh' ltac:(cbn in *; lia) F) as (tr & w3 & p2 & r2 & Hu2 & Hs & Hh3).
      rewrite Hu2. cbn [sbind fst snd]. do 4 eexists. split; [reflexivity|].
      split; [|exact Hh3]. now constructor.
Qed.

(** More than there is room for. *)
Lemma unread_wild cap w p r l : holds cap w p r -> length p < cap < length p + length l ->
  wunread l w = Wild.
Proof.
  intros Hh F. pose proof (holds_len Hh) as Lp. destruct Hh as (L & U & P & E & G & R).
  unfold wunread. destruct (Nat.eqb_spec (length l) 0) as [Hl|Hl]; [lia|].
  destruct (Nat.ltb_spec (wpos w) (length l)) as [M|M]; [|lia]. cbv zeta. cbn [wbuf wusing wpos wbase].
  assert (Lf : length (forward_resize (length l - wpos w) (wbuf w)) = length l - wpos w).
  { unfold forward_resize. destruct (Nat.leb_spec (length l - wpos w) (length (wbuf w))).
    - rewrite skipn_length. lia.
    - rewrite app_length, repeat_length. lia. }
  rewrite Lf. destruct (Nat.leb_spec (wpos w + (length l - wpos w) - length l + length l) (length l - wpos w));
    [lia|reflexivity].
Qed.
Lemma unread_full cap w p r l n : holds cap w p r -> length p = cap -> l <> [] -> length l < n ->
  1 <= cap ->
  exists w', wunread l w = Fine w' /\
    (exists got, wread b (length l) w' = Fine got /\ fst got = l) /\ wread b n w' = Wild.
Proof.
  intros Hh Hp Hl Hn H1. pose proof (holds_len Hh) as Lp. destruct Hh as (L & U & P & E & G & R).
  assert (W0 : wpos w = 0) by lia.
  assert (Ll : 1 <= length l) by (destruct l; [congruence|cbn; lia]).
  unfold wunread. destruct (Nat.eqb_spec (length l) 0) as [Hl0|Hl0]; [lia|].
  rewrite W0. destruct (Nat.ltb_spec 0 (length l)) as [M|M]; [|lia]. cbv zeta. cbn [wbuf wusing wpos wbase].
  rewrite Nat.sub_0_r. cbn [Nat.add]. rewrite Nat.sub_diag. cbn [Nat.add firstn app].
  assert (Lf : length (forward_resize (length l) (wbuf w)) = length l).
  { unfold forward_resize. destruct (Nat.leb_spec (length l) (length (wbuf w))).
    - rewrite skipn_length. lia.
    - rewrite app_length, repeat_length. lia. }
  rewrite Lf, Nat.leb_refl. rewrite (skipn_all2 (forward_resize _ _)) by lia. rewrite app_nil_r.
  eexists. split; [reflexivity|]. unfold wread. cbn [wbuf wusing wpos wbase]. rewrite U.
  split.
  - destruct (Nat.eqb_spec (length l) 0); [lia|]. destruct (Nat.eqb_spec 0 (cap + length l)); [lia|].
    rewrite Nat.sub_0_r, Nat.min_l by lia. rewrite Nat.leb_refl. cbn [skipn].
    rewrite firstn_all, Nat.sub_diag.
    destruct (@del_read _ _ _ _ D 0 (wbase w) G) as (got & st' & Hr & _ & _ & Lg & _).
    rewrite Hr. cbn [sbind fst snd]. destruct got; [|cbn in Lg; lia]. eexists. split; [reflexivity|].
    cbn [fst]. apply app_nil_r.
  - destruct (Nat.eqb_spec n 0); [lia|]. destruct (Nat.eqb_spec 0 (cap + length l)); [lia|].
    rewrite Nat.sub_0_r. cbn [Nat.add].
    destruct (Nat.leb_spec (min n (cap + length l)) (length l)); [lia|reflexivity].
Qed.
End Wrapped.

Lemma cap_pos : 1 <= default_buffer_size.
Proof. unfold default_buffer_size. lia. Qed.

Lemma shows_new {B : Type} (b : base B) good coming st ops : delivers b good coming -> good st ->
  fits (Z.to_nat 1024) ops 0 ->
  exists tr w p r, use (wrap b) ops (wnew st) = Fine (tr, w) /\ shows ops [] (coming st) tr p r.
Proof.
  intros D G F. destruct (use_shows D cap_pos (holds_new coming G) (le_n 0) F) as (tr & w & p & r & Hu & Hs & _).
  exists tr, w, p, r. split; assumption.
Qed.


Lemma shows_det : forall ops p r tr p1 r1 p2 r2,
  shows ops p r tr p1 r1 -> shows ops p r tr p2 r2 -> p1 = p2 /\ r1 = r2.
Proof.
  induction ops as [|o ops IH]; intros p r tr p1 r1 p2 r2 H1 H2.
  { inversion H1; inversion H2; subst. auto. }
  inversion H1; subst; inversion H2; subst; try (eapply IH; eassumption); try discriminate.
  match goal with H : _ ++ _ = _ ++ _, H' : firstn _ _ ++ _ = firstn _ _ ++ _ |- _ =>
    apply app_inv_head in H'; subst; apply app_inv_head in H; subst end.
  eapply IH; eassumption.
Qed.

Lemma use_holds {B : Type} (b : base B) good coming st ops tr w p r : delivers b good coming ->
  good st -> fits (Z.to_nat 1024) ops 0 ->
  use (wrap b) ops (wnew st) = Fine (tr, w) -> shows ops [] (coming st) tr p r ->
  holds good coming (Z.to_nat 1024) w p r.
Proof.
  intros D G F Hu Hs.
  destruct (use_shows D cap_pos (holds_new coming G) (le_n 0) F) as (tr' & w' & p' & r' & Hu' & Hs' & Hh).
  rewrite Hu in Hu'. injection Hu' as <- <-. destruct (shows_det Hs Hs') as [-> ->]. exact Hh.
Qed.

Lemma too_much {B : Type} (b : base B) good coming st ops tr w p r l : delivers b good coming ->
  good st -> fits (Z.to_nat 1024) ops 0 ->
  use (wrap b) ops (wnew st) = Fine (tr, w) -> shows ops [] (coming st) tr p r ->
  (Z.of_nat (length p) < 1024 < Z.of_nat (length p + length l))%Z ->
  s_unread (wrap b) l w = Wild.
Proof.
  intros D G F Hu Hs Hl. pose proof (use_holds D G F Hu Hs) as Hh.
  cbn [wrap s_unread]. apply (unread_wild Hh). lia.
Qed.
Lemma too_much_full {B : Type} (b : base B) good coming st ops tr w p r l n : delivers b good coming ->
  good st -> fits (Z.to_nat 1024) ops 0 ->
  use (wrap b) ops (wnew st) = Fine (tr, w) -> shows ops [] (coming st) tr p r ->
  Z.of_nat (length p) = 1024%Z -> l <> [] -> length l < n ->
  exists w', s_unread (wrap b) l w = Fine w' /\ s_read (wrap b) n w' = Wild.
Proof.
  intros D G F Hu Hs Hp Hl Hn. pose proof (use_holds D G F Hu Hs) as Hh.
  destruct (unread_full D Hh ltac:(lia) Hl Hn ltac:(lia)) as (w' & Hw & _ & Hw2).
  exists w'. cbn [wrap s_unread s_read]. auto.
Qed.

(** A file that never falls short. *)
Lemma src_prompt n s got s' : sched s = [] -> src_read n s = Fine (got, s') ->
  got = firstn n (rest s) /\ sched s' = [].
Proof.
  intros Hs. unfold src_read. destruct (Nat.eqb_spec n 0) as [->|Hn].
  - intros [= <- <-]. auto.
  - intros [= <- <-]. cbn [sched]. unfold allowed. rewrite Hs. auto.
Qed.
Lemma wrap_prompt cap w p r n got w' :
  holds (fun s => sched s = []) rest cap w p r -> wread src_base n w = Fine (got, w') ->
  got = firstn n (p ++ r).
Proof.
  intros Hh. pose proof (holds_len Hh) as Lp. destruct Hh as (L & U & P & E & G & R).
  unfold wread. destruct (Nat.eqb_spec n 0) as [->|Hn].
  { intros [= <- <-]. reflexivity. }
  rewrite U. destruct (Nat.eqb_spec (wpos w) cap) as [Hc|Hc].
  - assert (p = []) as -> by (destruct p; [reflexivity|cbn in Lp; lia]).
    destruct (b_read src_base n (wbase w)) as [[g s']| | |] eqn:Hr; cbn [sbind]; try discriminate.
    intros [= <- <-]. apply (@src_prompt _ _ _ _ G) in Hr as [-> _]. cbn [fst app]. now subst r.
  - set (k := min n (cap - wpos w)).
    destruct (Nat.leb_spec (wpos w + k) (length (wbuf w))) as [_|F]; [|lia].
    destruct (b_read src_base (n - k) (wbase w)) as [[g s']| | |] eqn:Hr; cbn [sbind]; try discriminate.
    intros [= <- <-]. apply (@src_prompt _ _ _ _ G) in Hr as [-> _]. cbn [fst]. rewrite <- E, <- R.
    unfold k. destruct (Nat.le_ge_cases n (cap - wpos w)) as [M|M].
    + rewrite Nat.min_l by exact M. rewrite Nat.sub_diag. cbn [firstn]. rewrite app_nil_r.
      symmetry. apply firstn_app_ge. lia.
    + rewrite Nat.min_r by exact M. rewrite <- Lp, firstn_all. symmetry. apply firstn_app_le. lia.
Qed.
Lemma src_delivers_prompt : delivers src_base (fun s => sched s = []) rest.
Proof.
  pose proof src_delivers as D. split.
  - intros n st G. destruct (@del_read _ _ _ _ D n st I) as (got & st' & Hr & _ & X).
    exists got, st'. split; [exact Hr|]. split; [|exact X]. exact (proj2 (@src_prompt _ _ _ _ G Hr)).
  - intros st _. apply (@del_end _ _ _ _ D). exact I.
Qed.
Lemma read_exact units ops tr w p r n : fits (Z.to_nat 1024) ops 0 ->
  use (wrap src_base) ops (wnew (mksrc units 0 [] false)) = Fine (tr, w) ->
  shows ops [] units tr p r ->
  exists w', s_read (wrap src_base) n w = Fine (firstn n (p ++ r), w').
Proof.
  intros F Hu Hs.
  pose proof (@use_holds _ _ _ _ (mksrc units 0 [] false) ops tr w p r src_delivers_prompt eq_refl F Hu Hs) as Hh.
  destruct (holds_read src_delivers_prompt n Hh) as (more & r' & w' & Hr & _).
  exists w'. cbn [wrap s_read]. rewrite Hr. f_equal. f_equal. exact (wrap_prompt Hh Hr).
Qed.

(** ** Seeking. *)
Lemma wseek_holds units cap w p r d off : holds (fun s => all s = units) rest cap w p r ->
  let from := match d with beg => 0%Z | end_ => Z.of_nat (length units) | cur => wtell w end in
  let x := wseek d off w in
  if (from + off <? 0)%Z then x = ((-1)%Z, w)
  else fst x = (from + off)%Z /\
       holds (fun s => all s = units) rest cap (snd x) p (skipn (Z.to_nat (from + off)) units).
Proof.
  intros Hh. cbv zeta. destruct Hh as (L & U & P & E & G & R).
  unfold wseek, src_seek, wtell, src_tell. rewrite G.
  set (q := (match d with beg => 0 | end_ => Z.of_nat (length units) | cur => Z.of_nat (at_ (wbase w)) end + off)%Z).
  destruct (q <? 0)%Z; cbn [fst snd].
  - destruct w; reflexivity.
  - split; [reflexivity|]. unfold holds. cbn [wbuf wusing wpos wbase].
    refine (conj L (conj U (conj P (conj E (conj _ _))))); [reflexivity|].
    unfold rest. cbn [all at_]. reflexivity.
Qed.
Lemma wseek_to_seek x w : wseek_to x w = ((fst (wseek beg x w) =? x)%Z, snd (wseek beg x w)).
Proof. reflexivity. Qed.

Lemma after_holds units sch ops w p r : after_use units sch ops w p r ->
  holds (fun s => all s = units) rest (Z.to_nat 1024) w p r.
Proof.
  intros (tr & F & Hu & Hs).
  exact (@use_holds _ _ _ _ (mksrc units 0 sch false) ops tr w p r (src_delivers_all units) eq_refl F Hu Hs).
Qed.
Lemma after_holds_at units sch ops w p r : after_use units sch ops w p r ->
  holds (fun s => all s = units /\ at_ s <= length units) rest (Z.to_nat 1024) w p r.
Proof.
  intros (tr & F & Hu & Hs).
  refine (@use_holds _ _ _ _ (mksrc units 0 sch false) ops tr w p r (src_delivers_at units) _ F Hu Hs).
  split; [reflexivity|cbn; lia].
Qed.

Lemma seek_then_use units sch ops w p r d off ops2 : after_use units sch ops w p r ->
  (0 <= match d with beg => 0 | end_ => Z.of_nat (length units) | cur => wtell w end + off)%Z ->
  fits (Z.to_nat 1024) ops2 (length p) ->
  exists q w1 tr w2 p2 r2,
    q = (match d with beg => 0 | end_ => Z.of_nat (length units) | cur => wtell w end + off)%Z /\
    wseek d off w = (q, w1) /\ use (wrap src_base) ops2 w1 = Fine (tr, w2) /\
    shows ops2 p (skipn (Z.to_nat q) units) tr p2 r2.
Proof.
  intros A Hq F. pose proof (after_holds A) as Hh.
  pose proof (wseek_holds d off Hh) as Hx. cbv zeta in Hx.
  set (q := (match d with beg => 0 | end_ => Z.of_nat (length units) | cur => wtell w end + off)%Z) in *.
  destruct (Z.ltb_spec q 0); [lia|]. destruct Hx as [Hx1 Hx2].
  destruct (use_shows (src_delivers_all units) cap_pos Hx2 (le_n _) F) as (tr & w2 & p2 & r2 & Hu & Hs & _).
  exists q, (snd (wseek d off w)), tr, w2, p2, r2.
  split; [reflexivity|]. split; [|auto]. rewrite <- Hx1. now destruct (wseek d off w).
Qed.
Lemma seek_refused units sch ops w p r d off : after_use units sch ops w p r ->
  (match d with beg => 0 | end_ => Z.of_nat (length units) | cur => wtell w end + off < 0)%Z ->
  wseek d off w = ((-1)%Z, w).
Proof.
  intros A Hq. pose proof (wseek_holds d off (after_holds A)) as Hx. cbv zeta in Hx.
  apply Z.ltb_lt in Hq. now rewrite Hq in Hx.
Qed.
Lemma seek_then_get units sch ops w c p r x : after_use units sch ops w (c :: p) r -> (0 <= x)%Z ->
  exists w1 w2, wseek_to x w = (true, w1) /\ sget (wrap src_base) w1 = Fine (c, w2).
Proof.
  intros A Hx.
  assert (Lp : length (c :: p) <= Z.to_nat 1024).
  { rewrite (holds_len (after_holds A)). lia. }
  destruct (@seek_then_use units sch ops w (c :: p) r beg x [OGet] A ltac:(lia) I)
    as (q & w1 & tr & w2 & p2 & r2 & Eq & Hs & Hu & Hsh).
  exists w1, w2. rewrite wseek_to_seek, Hs. cbn [fst snd]. subst q. split.
  - rewrite Z.add_0_l, Z.eqb_refl. reflexivity.
  - cbn [use do_op] in Hu. inversion Hsh; subst.
    match goal with H : shows [] _ _ _ _ _ |- _ => inversion H; subst end.
    destruct (sget (wrap src_base) w1) as [[c' w']| | |]; cbn [sbind fst snd] in Hu; try discriminate.
    congruence.
Qed.
Lemma tell_counts units sch ops w p r : after_use units sch ops w p r ->
  wtell w = (Z.of_nat (length units) - Z.of_nat (length r))%Z.
Proof.
  intros A. destruct (after_holds_at A) as (_ & _ & _ & _ & [Ga Gb] & R).
  unfold wtell, src_tell. subst r. unfold rest. rewrite skipn_length, Ga. lia.
Qed.
