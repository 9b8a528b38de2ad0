(** Function objects: counting is the same as sharing. *)
From Verif Require Import Base Fun_Model Fun_Spec.
Local Open Scope nat_scope.

Lemma put_length (X : Type) (l : list X) i x : length (put l i x) = length l.
Proof. revert i; induction l as [|y l IH]; intros [|i]; cbn; auto. Qed.
Lemma nth_put_same (X : Type) (l : list X) i x : i < length l -> nth_error (put l i x) i = Some x.
Proof. revert i; induction l as [|y l IH]; intros [|i] H; cbn in *; auto; try lia. apply IH; lia. Qed.
Lemma nth_put_other (X : Type) (l : list X) i j x : i <> j -> nth_error (put l i x) j = nth_error l j.
Proof. revert i j; induction l as [|y l IH]; intros [|i] [|j] H; cbn; auto; try lia. Qed.
Lemma put_set (X : Type) (l : list X) i x : i < length l -> put l i x = set_nth l i x.
Proof.
  unfold set_nth. revert i; induction l as [|y l IH]; intros [|i] H; cbn in *; try lia; auto.
  f_equal. apply IH. lia.
Qed.
Lemma put_app_last (X : Type) (l : list X) x y : put (l ++ [x]) (length l) y = l ++ [y].
Proof. induction l as [|z l IH]; cbn; [reflexivity|now f_equal]. Qed.
Lemma put_app_left (X : Type) (l r : list X) i x : i < length l -> put (l ++ r) i x = put l i x ++ r.
Proof. revert i; induction l as [|y l IH]; intros [|i] H; cbn in *; try lia; auto. f_equal. apply IH. lia. Qed.
Lemma nth_last (X : Type) (l : list X) x : nth_error (l ++ [x]) (length l) = Some x.
Proof. rewrite nth_error_app2, Nat.sub_diag by lia. reflexivity. Qed.
Lemma nth_lt (X : Type) (l : list X) i x : nth_error l i = Some x -> i < length l.
Proof. intros H. apply nth_error_Some. now rewrite H. Qed.

(** ** How many function objects show a callable. *)
Definition is_at (h : option handle) (p : nat) : nat :=
  match h with Some (Some q) => if q =? p then 1 else 0 | _ => 0 end.
Fixpoint holders (p : nat) (vs : list (option handle)) : nat :=
  match vs with [] => 0 | h :: r => is_at h p + holders p r end.
Lemma holders_app p l r : holders p (l ++ r) = holders p l + holders p r.
Proof. induction l as [|h l IH]; cbn; [reflexivity|lia]. Qed.
Lemma holders_put p vs v x y : nth_error vs v = Some x ->
  holders p (put vs v y) + is_at x p = holders p vs + is_at y p.
Proof.
  revert v; induction vs as [|h vs IH]; intros [|v] H; cbn in *; try discriminate.
  - injection H as <-. lia.
  - specialize (IH v H). lia.
Qed.
Arguments holders_put p vs v {x} y _.
Lemma is_at_same p : is_at (Some (Some p)) p = 1.
Proof. cbn. now rewrite Nat.eqb_refl. Qed.
Lemma holders_in p vs v : nth_error vs v = Some (Some (Some p)) -> 1 <= holders p vs.
Proof.
  intros H. pose proof (holders_put p vs v None H) as E. rewrite is_at_same in E. cbn in E. lia.
Qed.
Lemma holders_some p vs : 1 <= holders p vs -> exists v, nth_error vs v = Some (Some (Some p)).
Proof.
  induction vs as [|h vs IH]; cbn; [lia|]. intros H. destruct h as [[q|]|]; cbn in H.
  - destruct (Nat.eqb_spec q p) as [->|N]; [exists 0; reflexivity|].
    destruct (IH ltac:(lia)) as [v E]. now exists (S v).
  - destruct (IH H) as [v E]. now exists (S v).
  - destruct (IH H) as [v E]. now exists (S v).
Qed.

Arguments holders_some : clear implicits.
Arguments nth_lt {X} l i {x} _.

Section Counting.
Context {V : Type}.
(** Counts [cnt] are right: the callables with a count are there, the others were
    destroyed once. *)
Definition right_ (cnt : nat -> nat) (cs : list (cell (V := V))) (l : list nat) (ts : list callable) : Prop :=
  length cs = length ts /\ NoDup l /\ (forall p, In p l -> p < length ts) /\
  forall p c, nth_error ts p = Some c ->
    (cnt p = 0 /\ nth_error cs p = Some Gone /\ In p l) \/
    (0 < cnt p /\ nth_error cs p = Some (Live c (cnt p)) /\ ~ In p l).
Lemma right_ext cnt cnt' cs l ts : (forall p, cnt p = cnt' p) -> right_ cnt cs l ts -> right_ cnt' cs l ts.
Proof.
  intros E (L & N & B & H). refine (conj L (conj N (conj B _))). intros p c T. rewrite <- E. auto.
Qed.
Lemma right_live cnt cs l ts p : right_ cnt cs l ts -> 0 < cnt p -> p < length ts ->
  exists c, nth_error ts p = Some c /\ nth_error cs p = Some (Live c (cnt p)).
Proof.
  intros (L & N & B & H) C P. destruct (nth_error ts p) as [c|] eqn:T; [|apply nth_error_None in T; lia].
  exists c. split; [reflexivity|]. destruct (H p c T) as [(Z0 & _)|(_ & E & _)]; [lia|exact E].
Qed.
Definition up (cnt : nat -> nat) (h : handle) (p : nat) : nat := cnt p + is_at (Some h) p.
Definition down (cnt : nat -> nat) (h : handle) (p : nat) : nat := cnt p - is_at (Some h) p.
Lemma up_right cnt (s : state (V := V)) ts h : right_ cnt (cells s) (log s) ts ->
  match h with None => True | Some p => 0 < cnt p /\ p < length ts end ->
  exists cs, add_ref s h = FFine (with_cells s cs (log s)) /\ right_ (up cnt h) cs (log s) ts.
Proof.
  intros H Hh. destruct h as [p|]; cbn [add_ref].
  - destruct Hh as [C P]. destruct (right_live H C P) as (c & T & E). rewrite E.
    eexists. split; [reflexivity|]. destruct H as (L & N & B & H).
    refine (conj _ (conj N (conj B _))); [now rewrite put_length|].
    intros q d Tq. unfold up. cbn. destruct (Nat.eqb_spec p q) as [<-|X].
    + rewrite T in Tq. injection Tq as <-. right. split; [lia|].
      rewrite nth_put_same by (rewrite L; exact P). split; [do 2 f_equal; lia|].
      destruct (H p c T) as [(Z0 & _)|(_ & _ & I)]; [lia|exact I].
    + rewrite nth_put_other by exact X. rewrite Nat.add_0_r. auto.
  - exists (cells s). split; [destruct s; reflexivity|]. apply (@right_ext cnt); [|exact H].
    intros q. unfold up. cbn. lia.
Qed.
Lemma down_right cnt (s : state (V := V)) ts h : right_ cnt (cells s) (log s) ts ->
  match h with None => True | Some p => 0 < cnt p /\ p < length ts end ->
  exists cs l, cut_ref s h = FFine (with_cells s cs l) /\ right_ (down cnt h) cs l ts.
Proof.
  intros H Hh. destruct h as [p|]; cbn [cut_ref].
  - destruct Hh as [C P]. destruct (right_live H C P) as (c & T & E). rewrite E.
    destruct H as (L & N & B & H). destruct (cnt p) as [|[|n]] eqn:K; [lia| |].
    + eexists _, _. split; [reflexivity|].
      destruct (H p c T) as [(Z0 & _)|(_ & _ & I)]; [lia|].
      refine (conj _ (conj (NoDup_cons _ I N) (conj _ _))); [now rewrite put_length| |].
      * intros q [<-|Q]; auto.
      * intros q d Tq. unfold down. cbn [is_at]. destruct (Nat.eqb_spec p q) as [<-|X].
        -- left. rewrite K. rewrite nth_put_same by (rewrite L; exact P). cbn; auto.
        -- rewrite nth_put_other by exact X. rewrite Nat.sub_0_r.
           destruct (H q d Tq) as [(A0 & A1 & A2)|(A0 & A1 & A2)]; [left; cbn; auto|right].
           split; [exact A0|]. split; [exact A1|]. intros [Y|Y]; [now apply X|contradiction].
    + eexists _, _. split; [reflexivity|]. refine (conj _ (conj N (conj B _))); [now rewrite put_length|].
      intros q d Tq. unfold down. cbn [is_at]. destruct (Nat.eqb_spec p q) as [<-|X].
      * rewrite T in Tq. injection Tq as <-. right. rewrite K. split; [lia|].
        rewrite nth_put_same by (rewrite L; exact P). split; [do 2 f_equal; lia|].
        destruct (H p c T) as [(Z0 & _)|(_ & _ & I)]; [lia|exact I].
      * rewrite nth_put_other by exact X. rewrite Nat.sub_0_r. auto.
  - exists (cells s), (log s). split; [destruct s; reflexivity|]. apply (@right_ext cnt); [|exact H].
    intros q. unfold down. cbn. lia.
Qed.
(** A new callable, as soon as it has its first reference. *)
Lemma new_right cnt (s : state (V := V)) ts c : right_ cnt (cells s) (log s) ts ->
  (forall p, 0 < cnt p -> p < length ts) ->
  add_ref (fst (made s c)) (snd (made s c)) = FFine (with_cells s (cells s ++ [Live c 1]) (log s)) /\
  right_ (up cnt (Some (length ts))) (cells s ++ [Live c 1]) (log s) (ts ++ [c]).
Proof.
  intros (L & N & B & H) Bc. split.
  - cbn. rewrite nth_last, put_app_last. reflexivity.
  - refine (conj _ (conj N (conj _ _))).
    + rewrite !app_length, L. reflexivity.
    + intros p I. rewrite app_length. specialize (B p I). lia.
    + intros p d T. unfold up. cbn [is_at]. destruct (Nat.eqb_spec (length ts) p) as [<-|X].
      * rewrite nth_last in T. injection T as <-. right.
        assert (cnt (length ts) = 0) as -> by (destruct (cnt (length ts)) eqn:K; [reflexivity|];
          specialize (Bc (length ts)); lia).
        split; [lia|]. rewrite <- L, nth_last. split; [reflexivity|]. rewrite L. intros I. specialize (B _ I). lia.
      * rewrite Nat.add_0_r. assert (p < length ts) as P.
        { pose proof (nth_lt _ _ T) as P. rewrite app_length in P. cbn in P. lia. }
        rewrite nth_error_app1 in T by exact P. rewrite nth_error_app1 by (rewrite L; exact P). auto.
Qed.
End Counting.

Section Steps.
Context {V A R : Type} (run : Z -> V -> A -> V * option R) (nothing : R).
Context (comparable : Z -> bool) (same : Z -> V -> V -> bool) (plain : Z -> V -> option Z).
Context (run_plain : Z -> A -> option R) (part_at : Z -> Z) (null_part_at : Z).
Notation step := (step run nothing comparable same plain run_plain part_at null_part_at).
Notation steps := (steps run nothing comparable same plain run_plain part_at null_part_at).
Notation astep := (astep run nothing comparable same plain run_plain).
Notation asteps := (asteps run nothing comparable same plain run_plain).
(** The machine with counts and the expectation agree. *)
Definition agree (s : state (V := V)) (a : astate (V := V)) : Prop :=
  vars s = shows a /\ right_ (fun p => holders p (vars s)) (cells s) (log s) (things a) /\
  (forall v p, nth_error (vars s) v = Some (Some (Some p)) -> p < length (things a)).

Lemma agree_bound s a p : agree s a -> 1 <= holders p (vars s) -> p < length (things a).
Proof. intros (_ & _ & B) H. destruct (holders_some p _ H) as [v E]. eauto. Qed.
Lemma agree_handle s a v h : agree s a -> has a v h ->
  var s v = FFine h /\ match h with None => True | Some p => 0 < holders p (vars s) /\ p < length (things a) end.
Proof.
  intros (E & _ & B) H. unfold has in H. rewrite <- E in H. unfold var. rewrite H.
  split; [reflexivity|]. destruct h as [p|]; [|exact I]. split; [eapply holders_in; eauto|eauto].
Qed.
Lemma agree_cell s a v p : agree s a -> has a v (Some p) ->
  exists c n, nth_error (things a) p = Some c /\ nth_error (cells s) p = Some (Live c n).
Proof.
  intros G H. destruct (agree_handle G H) as [_ [C P]]. destruct G as (_ & Hr & _).
  destruct (right_live Hr C P) as (c & T & E). eauto.
Qed.

(** [reset] to a callable that is there. *)
Lemma reset_ok s a v k h : agree s a -> has a v k ->
  match h with None => True | Some p => 0 < holders p (vars s) /\ p < length (things a) end ->
  exists s', reset s v h = FFine s' /\ agree s' (mka (things a) (set_nth (shows a) v (Some h))) /\
    local s' = local s /\ gobal s' = gobal s /\ off_set s' = off_set s.
Proof.
  intros G Hv Hh. destruct (agree_handle G Hv) as [Ev Hk]. unfold reset. rewrite Ev. cbn [fbind].
  pose proof G as (Es & Hr & B).
  destruct (@up_right V _ s (things a) h Hr Hh) as (cs & Eu & Hu). rewrite Eu. cbn [fbind].
  assert (Hv' : nth_error (vars s) v = Some (Some k)) by (rewrite Es; exact Hv).
  pose proof (nth_lt _ _ Hv') as Lv.
  set (s2 := with_vars (with_cells s cs (log s)) (put (vars (with_cells s cs (log s))) v (Some h))).
  destruct (@down_right V (up (fun p => holders p (vars s)) h) s2 (things a) k) as (cs' & l' & Ed & Hd).
  { exact Hu. }
  { destruct k as [p|]; [|exact I]. split; [unfold up; lia|apply Hk]. }
  rewrite Ed. eexists. split; [reflexivity|]. split; [|auto].
  refine (conj _ (conj _ _)); cbn [vars with_cells with_vars s2 things shows cells log].
  - rewrite Es. apply put_set. now rewrite <- Es.
  - eapply right_ext; [|exact Hd]. intros p. unfold down, up.
    pose proof (holders_put p (vars s) v (Some h) Hv'). lia.
  - intros u p Hu'. destruct (Nat.eq_dec v u) as [<-|X].
    + rewrite nth_put_same in Hu' by exact Lv. injection Hu' as ->. apply Hh.
    + rewrite nth_put_other in Hu' by exact X. eauto.
Qed.
(** A new object. *)
Lemma born_ok s a h : agree s a ->
  match h with None => True | Some p => 0 < holders p (vars s) /\ p < length (things a) end ->
  exists s', born s h = FFine s' /\ agree s' (mka (things a) (shows a ++ [Some h])) /\
    local s' = local s /\ gobal s' = gobal s /\ off_set s' = off_set s /\ vars s' = vars s ++ [Some h].
Proof.
  intros G Hh. pose proof G as (Es & Hr & B). unfold born.
  destruct (@up_right V _ s (things a) h Hr Hh) as (cs & Eu & Hu). rewrite Eu. cbn [fbind].
  eexists. split; [reflexivity|]. split; [|auto].
  refine (conj _ (conj _ _)); cbn [vars with_cells with_vars things shows cells log].
  - now rewrite Es.
  - eapply right_ext; [|exact Hu]. intros p. unfold up. rewrite holders_app. cbn [holders]. lia.
  - intros u p Hu'. destruct (Nat.lt_ge_cases u (length (vars s))) as [X|X].
    + rewrite nth_error_app1 in Hu' by exact X. eauto.
    + rewrite nth_error_app2 in Hu' by exact X. destruct (u - length (vars s)) as [|[|n]]; [|discriminate..].
      cbn in Hu'. injection Hu' as ->. apply Hh.
Qed.
(** Storing a new callable. *)
Lemma store_ok s a v k c : agree s a -> has a v k ->
  exists s', (let '(s1, h) := made s c in reset s1 v h) = FFine s' /\
    agree s' (mka (things a ++ [c]) (set_nth (shows a) v (Some (Some (length (things a)))))) /\
    local s' = local s /\ gobal s' = gobal s /\ off_set s' = off_set s.
Proof.
  intros G Hv. destruct (agree_handle G Hv) as [Ev Hk]. pose proof G as (Es & Hr & B).
  assert (Hv' : nth_error (vars s) v = Some (Some k)) by (rewrite Es; exact Hv).
  pose proof (nth_lt _ _ Hv') as Lv. pose proof Hr as (Lc & _).
  destruct (@new_right V _ s (things a) c Hr) as [En Hn].
  { intros p Hp. exact (agree_bound G Hp). }
  change (match made s c with (s1, h) => reset s1 v h end) with (reset (fst (made s c)) v (snd (made s c))).
  unfold reset. replace (var (fst (made s c)) v) with (var s v) by reflexivity. rewrite Ev. cbn [fbind].
  rewrite En. cbn [fbind]. cbn [made snd]. rewrite Lc.
  set (s2 := with_vars _ _).
  destruct (@down_right V (up (fun p => holders p (vars s)) (Some (length (things a)))) s2 (things a ++ [c]) k)
    as (cs' & l' & Ed & Hd).
  { exact Hn. }
  { destruct k as [p|]; [|exact I]. rewrite app_length. destruct Hk. split; [unfold up; lia|lia]. }
  rewrite Ed. eexists. split; [reflexivity|]. split; [|auto].
  refine (conj _ (conj _ _)); cbn [vars with_cells with_vars s2 things shows cells log].
  - rewrite Es. apply put_set. now rewrite <- Es.
  - eapply right_ext; [|exact Hd]. intros p. unfold down, up.
    pose proof (holders_put p (vars s) v (Some (Some (length (things a)))) Hv'). lia.
  - intros u p Hu'. rewrite app_length. cbn [length]. destruct (Nat.eq_dec v u) as [<-|X].
    + rewrite nth_put_same in Hu' by exact Lv. injection Hu' as <-. lia.
    + rewrite nth_put_other in Hu' by exact X. specialize (B u p Hu'). lia.
Qed.
(** Exchanging handles between objects. *)
Lemma vars_ok s a vs : agree s a -> (forall p, holders p vs = holders p (vars s)) ->
  agree (with_vars s vs) (mka (things a) vs).
Proof.
  intros G E. pose proof G as (Es & Hr & B). refine (conj eq_refl (conj _ _)); cbn [vars with_vars things cells log].
  - eapply right_ext; [|exact Hr]. intros p. symmetry. apply E.
  - intros u p Hu. eapply agree_bound; [exact G|]. rewrite <- E. eapply holders_in; eauto.
Qed.
Lemma call_ok s a v h x : agree s a -> has a v h ->
  exists s' ts r, call run nothing s h x = FFine (s', r) /\ answers run nothing a h x ts r /\
    agree s' (mka ts (shows a)) /\ local s' = local s /\ gobal s' = gobal s /\ off_set s' = off_set s /\
    vars s' = vars s.
Proof.
  intros G Hv. destruct h as [p|]; cbn [call answers].
  - destruct (agree_cell G Hv) as (c & n & T & E). rewrite E.
    destruct (run (tag c) (val c) x) as [v' r] eqn:Er.
    eexists _, _, _. split; [reflexivity|]. split.
    { exists c. split; [exact T|]. rewrite Er. auto. }
    split; [|auto]. pose proof G as (Es & (L & N & B & H) & B').
    pose proof (nth_lt _ _ T) as P.
    refine (conj Es (conj (conj _ (conj N (conj _ _))) _)); cbn [vars with_cells things shows cells log fst].
    + rewrite put_length, <- put_set, put_length by exact P. exact L.
    + rewrite <- put_set, put_length by exact P. exact B.
    + intros q d Tq. rewrite <- put_set in Tq by exact P. destruct (Nat.eq_dec p q) as [<-|X].
      * rewrite nth_put_same in Tq by exact P. injection Tq as <-.
        destruct (H p c T) as [(A0 & A1 & A2)|(A0 & A1 & A2)]; [congruence|right].
        rewrite nth_put_same by (rewrite L; exact P). rewrite E in A1. injection A1 as ->. auto.
      * rewrite nth_put_other in Tq by exact X. rewrite nth_put_other by exact X. auto.
    + rewrite <- put_set, put_length by exact P. exact B'.
  - exists s, (things a), (Some nothing). destruct a as [ts0 vs0].
    split; [reflexivity|]. split; [auto|]. split; [exact G|auto].
Qed.

(** ** One step. *)
Lemma has_bound (a : astate (V := V)) v h : has a v h -> v < length (shows a).
Proof. apply nth_lt. Qed.
Lemma has_last ts vs h : has (mka (V := V) ts (vs ++ [Some h])) (length vs) h.
Proof. unfold has. cbn [shows]. apply nth_last. Qed.
Lemma set_last (X : Type) (l : list X) x y : set_nth (l ++ [x]) (length l) y = l ++ [y].
Proof. rewrite <- put_set by (rewrite app_length; cbn; lia). apply put_app_last. Qed.

Lemma step_ok o s a : agree s a -> ordinary o -> (forall v, In v (names o) -> exists h, has a v h) ->
  exists s' a' r, step o s = FFine (s', r) /\ astep o a a' r /\ agree s' a'.
Proof.
  intros G Ho Hn. destruct o; cbn [ordinary names] in *; try contradiction; cbn [Fun_Model.step].
  - destruct (@born_ok s a None G I) as (s' & E & G' & _). rewrite E. cbn [fbind].
    eexists _, _, _. split; [reflexivity|]. split; [constructor|exact G'].
  - destruct (@born_ok s a None G I) as (s' & E & G' & _ & _ & _ & Ev). rewrite E. cbn [fbind].
    assert (Hl : has (mka (things a) (shows a ++ [Some None])) (length (shows a)) None) by apply has_last.
    destruct (@store_ok s' _ _ _ c G' Hl) as (s2 & E2 & G2 & _). destruct G as (Es & _).
    rewrite Es. destruct (made s' c) as [s1 h]. rewrite E2. cbn [fbind].
    eexists _, _, _. split; [reflexivity|]. split; [constructor|]. cbn [things shows] in G2.
    rewrite set_last in G2. exact G2.
  - destruct (Hn w (or_introl eq_refl)) as [h Hh]. destruct (agree_handle G Hh) as [E1 C]. rewrite E1. cbn [fbind].
    destruct (@born_ok s a h G C) as (s' & E & G' & _). rewrite E. cbn [fbind].
    eexists _, _, _. split; [reflexivity|]. split; [econstructor; eassumption|exact G'].
  - destruct (Hn w (or_introl eq_refl)) as [h Hh]. destruct (agree_handle G Hh) as [E1 C]. rewrite E1. cbn [fbind].
    destruct (@born_ok s a None G I) as (s' & E & G' & _ & _ & _ & Ev). rewrite E. cbn [fbind].
    pose proof G as (Es & _). pose proof (has_bound Hh) as Lw.
    eexists _, _, _. split; [reflexivity|]. split; [econstructor; exact Hh|].
    rewrite Ev, put_app_last. rewrite put_app_left by (rewrite Es; exact Lw). rewrite Es, put_set by exact Lw.
    change (set_nth (shows a) w (Some None) ++ [Some h])
      with (shows (mka (things a) (set_nth (shows a) w (Some None) ++ [Some h]))).
    change (things a) with (things (mka (things a) (shows a ++ [Some None]))).
    apply (@vars_ok s' _ _ G'). cbn [shows]. intros p. rewrite Ev, !holders_app, Es. cbn [holders].
    rewrite <- put_set by exact Lw. pose proof (holders_put p (shows a) w (Some None) Hh) as X. cbn [is_at] in *. lia.
  - destruct (Hn v (or_introl eq_refl)) as [k Hk]. destruct (Hn w (or_intror (or_introl eq_refl))) as [h Hh].
    destruct (agree_handle G Hh) as [E1 C]. rewrite E1. cbn [fbind].
    destruct (@reset_ok s a v k h G Hk C) as (s' & E & G' & _). rewrite E. cbn [fbind].
    eexists _, _, _. split; [reflexivity|]. split; [econstructor; eauto|exact G'].
  - destruct (Hn v (or_introl eq_refl)) as [k Hk].
    destruct (@store_ok s a v k c G Hk) as (s2 & E2 & G2 & _). destruct (made s c) as [s1 h]. rewrite E2. cbn [fbind].
    eexists _, _, _. split; [reflexivity|]. split; [econstructor; eauto|exact G2].
  - destruct (Hn v (or_introl eq_refl)) as [k Hk].
    destruct (@reset_ok s a v k None G Hk I) as (s' & E & G' & _). rewrite E. cbn [fbind].
    eexists _, _, _. split; [reflexivity|]. split; [econstructor; eauto|exact G'].
  - destruct (Hn v (or_introl eq_refl)) as [h Hh]. destruct (Hn w (or_intror (or_introl eq_refl))) as [k Hk].
    destruct (agree_handle G Hh) as [E1 _]. destruct (agree_handle G Hk) as [E2 _]. rewrite E1, E2. cbn [fbind].
    eexists _, _, _. split; [reflexivity|]. split; [econstructor; eauto|].
    pose proof G as (Es & _). pose proof (has_bound Hh) as L1. pose proof (has_bound Hk) as L2. rewrite Es.
    rewrite put_set by (rewrite put_length; exact L2). rewrite put_set by exact L1.
    apply vars_ok; [exact G|]. intros p. rewrite Es, <- !put_set by (rewrite <- ?put_set, ?put_length; assumption).
    pose proof (holders_put p (shows a) v (Some k) Hh) as X1.
    destruct (Nat.eq_dec v w) as [<-|X].
    + unfold has in *. rewrite Hh in Hk. injection Hk as <-.
      assert (Y : nth_error (put (shows a) v (Some h)) v = Some (Some h)) by (apply nth_put_same; exact L1).
      pose proof (holders_put p _ v (Some h) Y). lia.
    + assert (Y : nth_error (put (shows a) v (Some k)) w = Some (Some k)) by (rewrite nth_put_other; assumption).
      pose proof (holders_put p _ w (Some h) Y). lia.
  - destruct (Hn v (or_introl eq_refl)) as [h Hh]. destruct (agree_handle G Hh) as [E1 C]. rewrite E1. cbn [fbind].
    pose proof G as (Es & Hr & B). pose proof (has_bound Hh) as Lv.
    assert (Hv' : nth_error (vars s) v = Some (Some h)) by (rewrite Es; exact Hh).
    set (s1 := with_vars s (put (vars s) v None)).
    destruct (@down_right V (fun p => holders p (vars s)) s1 (things a) h Hr C) as (cs & l & Ed & Hd).
    rewrite Ed. cbn [fbind]. eexists _, _, _. split; [reflexivity|]. split; [econstructor; eauto|].
    refine (conj _ (conj _ _)); cbn [vars with_cells with_vars s1 things shows cells log].
    + rewrite Es. apply put_set. exact Lv.
    + eapply right_ext; [|exact Hd]. intros p. unfold down.
      pose proof (holders_put p (vars s) v None Hv') as X. cbn [is_at] in X |- *. lia.
    + intros u p Hu. destruct (Nat.eq_dec v u) as [<-|X].
      * rewrite nth_put_same in Hu by (rewrite Es; exact Lv). discriminate.
      * rewrite nth_put_other in Hu by exact X. eauto.
  - destruct (Hn v (or_introl eq_refl)) as [h Hh]. destruct (agree_handle G Hh) as [E1 C]. rewrite E1. cbn [fbind].
    destruct (@call_ok s a v h a0 G Hh) as (s' & ts & r & Ec & An & G' & _). rewrite Ec. cbn [fbind fst snd].
    eexists _, _, _. split; [reflexivity|]. split; [econstructor; eauto|exact G'].
  - destruct (Hn v (or_introl eq_refl)) as [h Hh]. destruct (agree_handle G Hh) as [E1 C]. rewrite E1. cbn [fbind].
    eexists _, _, _. split; [reflexivity|]. split; [|exact G]. econstructor; [exact Hh|].
    destruct h; split; congruence.
  - destruct (Hn v (or_introl eq_refl)) as [h Hh]. destruct (Hn w (or_intror (or_introl eq_refl))) as [k Hk].
    destruct (agree_handle G Hh) as [E1 _]. destruct (agree_handle G Hk) as [E2 _]. rewrite E1, E2. cbn [fbind].
    destruct h as [p|], k as [q|]; cbn [equal].
    + destruct (agree_cell G Hh) as (c & n & T & E). destruct (agree_cell G Hk) as (d & m & T2 & E3).
      rewrite E, E3. cbn [fbind]. eexists _, _, _. split; [reflexivity|]. split; [|exact G].
      econstructor; [exact Hh|exact Hk|]. cbn [look]. rewrite T, T2. unfold alike.
      rewrite !andb_true_iff, Z.eqb_eq. tauto.
    + destruct (agree_cell G Hh) as (c & n & T & E). rewrite E. cbn [fbind].
      eexists _, _, _. split; [reflexivity|]. split; [|exact G].
      econstructor; [exact Hh|exact Hk|]. cbn [look]. rewrite T. split; [discriminate|contradiction].
    + destruct (agree_cell G Hk) as (c & n & T & E). rewrite E. cbn [fbind].
      eexists _, _, _. split; [reflexivity|]. split; [|exact G].
      econstructor; [exact Hh|exact Hk|]. cbn [look]. rewrite T. split; [discriminate|contradiction].
    + cbn [fbind]. eexists _, _, _. split; [reflexivity|]. split; [|exact G].
      econstructor; [exact Hh|exact Hk|]. cbn [look]. tauto.
  - destruct (Hn v (or_introl eq_refl)) as [h Hh]. destruct (agree_handle G Hh) as [E1 C]. rewrite E1. cbn [fbind].
    destruct h as [p|]; cbn [equal_to].
    + destruct (agree_cell G Hh) as (d & n & T & E). rewrite E. cbn [fbind].
      eexists _, _, _. split; [reflexivity|]. split; [|exact G].
      econstructor; [exact Hh|]. cbn [look]. rewrite T. unfold alike. rewrite !andb_true_iff, Z.eqb_eq. tauto.
    + cbn [fbind]. eexists _, _, _. split; [reflexivity|]. split; [|exact G].
      econstructor; [exact Hh|]. cbn [look]. split; [discriminate|contradiction].
  - destruct (Hn v (or_introl eq_refl)) as [h Hh]. destruct (agree_handle G Hh) as [E1 C]. rewrite E1. cbn [fbind].
    assert (X : forall l g, agree (with_slots s l g) a) by (intros; exact G).
    destruct h as [p|].
    + destruct (agree_cell G Hh) as (d & n & T & E). rewrite E. destruct (plain (tag d) (val d)) as [k|] eqn:Pl.
      * eexists _, _, _. split; [reflexivity|]. split; [|exact G].
        econstructor; [exact Hh|]. cbn [look]. now rewrite T.
      * eexists _, _, _. split; [reflexivity|]. split; [|apply X].
        econstructor; [exact Hh|]. cbn [look]. now rewrite T.
    + eexists _, _, _. split; [reflexivity|]. split; [|apply X]. econstructor; [exact Hh|reflexivity].
  - eexists _, _, _. split; [reflexivity|]. split; [constructor|exact G].
Qed.

(** ** Programs. *)
Definition there (x : option handle) : bool := match x with Some _ => true | None => false end.
Lemma nth_there vs v : nth v (map there vs) false = true -> exists h, nth_error vs v = Some (Some h).
Proof.
  revert v; induction vs as [|x vs IH]; intros [|v] H; cbn in *; try discriminate; auto.
  destruct x as [h|]; [exists h; reflexivity|discriminate].
Qed.
Lemma map_set_nth (X Y : Type) (f : X -> Y) l i x : map f (set_nth l i x) = set_nth (map f l) i (f x).
Proof. unfold set_nth. rewrite map_app, firstn_map. cbn [map]. now rewrite skipn_map. Qed.
Lemma set_nth_same (X : Type) (l : list X) i x : nth_error l i = Some x -> set_nth l i x = l.
Proof.
  unfold set_nth. revert i; induction l as [|y l IH]; intros [|i] H; cbn in *; try discriminate.
  - now injection H as ->.
  - f_equal. apply IH. exact H.
Qed.
Lemma there_set vs v k h : nth_error vs v = Some (Some k) -> map there (set_nth vs v (Some h)) = map there vs.
Proof.
  intros H. rewrite map_set_nth. apply set_nth_same. rewrite nth_error_map, H. reflexivity.
Qed.
Lemma nth_set_nth_same (X : Type) (l : list X) i x : i < length l -> nth_error (set_nth l i x) i = Some x.
Proof. intros H. rewrite <- put_set by exact H. now apply nth_put_same. Qed.
Lemma nth_set_nth_other (X : Type) (l : list X) i j x : i < length l -> i <> j ->
  nth_error (set_nth l i x) j = nth_error l j.
Proof. intros H N. rewrite <- put_set by exact H. now apply nth_put_other. Qed.

Lemma alive_step o a a' r : astep o a a' r ->
  map there (shows a') =
    (match o with
     | ODrop v => firstn v (map there (shows a)) ++ false :: skipn (S v) (map there (shows a))
     | _ => map there (shows a)
     end) ++ (if builds o then [true] else []).
Proof.
  unfold has. destruct 1; cbn [builds shows]; rewrite ?app_nil_r, ?map_app; cbn [map there]; auto;
    unfold has in *.
  - now rewrite (there_set _ H).
  - exact (there_set _ H).
  - exact (there_set _ H).
  - exact (there_set _ H).
  - destruct (Nat.eq_dec v w) as [<-|X].
    + rewrite H in H0. injection H0 as <-. rewrite !(set_nth_same H). reflexivity.
    + erewrite there_set; [exact (there_set _ H)|].
      rewrite nth_set_nth_other by (auto; eapply nth_lt; eauto). exact H0.
  - apply map_set_nth.
Qed.
Lemma names_there (o : op (V := V) (A := A)) (a : astate (V := V)) : Forall (fun v => nth v (map there (shows a)) false = true) (names o) ->
  forall v, In v (names o) -> exists h, has (V := V) a v h.
Proof. intros H v I. rewrite Forall_forall in H. exact (nth_there (H v I)). Qed.

Lemma steps_ok os : forall s a, agree s a -> Forall ordinary os -> proper os (map there (shows a)) ->
  exists s' a' r, steps os s = FFine (s', r) /\ asteps os a a' r /\ agree s' a'.
Proof.
  induction os as [|o os IH]; intros s a G Ho Hp; cbn [Fun_Model.steps].
  - exists s, a, []. split; [reflexivity|]. split; [constructor|exact G].
  - inversion Ho; subst. cbn [proper] in Hp. destruct Hp as [Hn Hp].
    destruct (step_ok G H1 (names_there Hn)) as (s1 & a1 & r1 & E1 & A1 & G1).
    rewrite E1. cbn [fbind fst snd]. rewrite <- (alive_step A1) in Hp.
    destruct (IH s1 a1 G1 H2 Hp) as (s2 & a2 & r2 & E2 & A2 & G2). rewrite E2. cbn [fbind fst snd].
    eexists _, _, _. split; [reflexivity|]. split; [econstructor; eauto|exact G2].
Qed.
Lemma agree_log s a : agree s a -> NoDup (log s) /\
  forall p, In p (log s) <-> p < length (things a) /\ ~ shown a p.
Proof.
  intros G. pose proof G as (Es & (L & N & B & H) & B'). split; [exact N|]. intros p. split.
  - intros I. specialize (B p I). split; [exact B|]. intros [v Hv].
    destruct (agree_handle G Hv) as [_ [C _]].
    destruct (nth_error (things a) p) as [c|] eqn:T; [|apply nth_error_None in T; lia].
    destruct (H p c T) as [(Z0 & _)|(_ & _ & X)]; [lia|contradiction].
  - intros [P X]. destruct (nth_error (things a) p) as [c|] eqn:T; [|apply nth_error_None in T; lia].
    destruct (H p c T) as [(_ & _ & I)|(C & _)]; [exact I|].
    destruct X. destruct (holders_some p _ C) as [v E]. exists v. unfold has. now rewrite <- Es.
Qed.
Lemma start_agree off : agree (start off) (mka [] []).
Proof.
  refine (conj eq_refl (conj (conj eq_refl (conj (NoDup_nil _) (conj _ _))) _)).
  - intros p [].
  - intros [|p] c H; discriminate.
  - intros [|v] p H; discriminate.
Qed.
(** The whole: no count, no freed memory is ever seen. *)
Lemma functions_share off os : Forall ordinary os -> proper os [] ->
  exists s a r, steps os (start off) = FFine (s, r) /\ asteps os (mka [] []) a r /\ vars s = shows a /\
    NoDup (log s) /\ (forall p, In p (log s) <-> p < length (things a) /\ ~ shown a p).
Proof.
  intros Ho Hp. destruct (steps_ok (start_agree off) Ho Hp) as (s & a & r & E & A0 & G).
  exists s, a, r. split; [exact E|]. split; [exact A0|]. split; [apply G|]. exact (agree_log G).
Qed.
(** What is expected of a program is one thing. *)
Lemma iff_bool (b c : bool) (P : Prop) : (b = true <-> P) -> (c = true <-> P) -> b = c.
Proof. destruct b, c; intuition congruence. Qed.
Ltac same_has := repeat match goal with
  | H : has ?a ?v ?h, K : has ?a ?v ?k |- _ =>
      assert (h = k) by (unfold has in *; congruence); subst; clear K
  end.
Lemma astep_det o a a1 r1 a2 r2 : astep o a a1 r1 -> astep o a a2 r2 -> a1 = a2 /\ r1 = r2.
Proof.
  destruct 1; inversion 1; subst; same_has; auto.
  - match goal with X : answers _ _ _ ?h _ _ _, Y : answers _ _ _ _ _ _ _ |- _ =>
      revert X Y; destruct h as [p|]; cbn [answers] end.
    + intros (c & T & E1 & E2) (d & T' & E3 & E4). rewrite T in T'. injection T' as <-. now subst.
    + intros [E1 E2] [E3 E4]. now subst.
  - split; [reflexivity|]. do 2 f_equal. eapply iff_bool; eassumption.
  - split; [reflexivity|]. do 2 f_equal. eapply iff_bool; eassumption.
  - split; [reflexivity|]. do 2 f_equal. eapply iff_bool; eassumption.
Qed.
Lemma asteps_det os : forall a a1 r1 a2 r2, asteps os a a1 r1 -> asteps os a a2 r2 -> a1 = a2 /\ r1 = r2.
Proof.
  induction os as [|o os IH]; intros a a1 r1 a2 r2 H1 H2; inversion H1; inversion H2; subst; auto.
  match goal with X : astep o a ?b _, Y : astep o a ?c _ |- _ =>
    match b with c => fail 1 | _ => destruct (astep_det X Y) as [-> ->] end end.
  match goal with X : asteps os _ a1 _, Y : asteps os _ a2 _ |- _ => destruct (IH _ _ _ _ _ X Y) as [-> ->] end.
  auto.
Qed.

(** ** Deep copies. *)
Lemma agree_deep s a w p : agree s a -> has a w (Some p) ->
  step (ODeep w) s = FWild \/
  exists s', step (ODeep w) s = FFine (s', []) /\ agree s' (mka (things a) (shows a ++ [Some (Some p)])).
Proof.
  intros G Hw. destruct (agree_handle G Hw) as [Ev C]. destruct (agree_cell G Hw) as (c & n & T & E).
  cbn [Fun_Model.step]. rewrite Ev. cbn [fbind copy_get]. rewrite E.
  destruct (Z.eqb (off_set s) (part_at (tag c))); [right|left; reflexivity]. cbn [fbind].
  destruct (@born_ok s a None G I) as (s1 & E1 & G1 & _ & _ & _ & V1). rewrite E1. cbn [fbind].
  pose proof G as (Es & _). rewrite Es.
  assert (Hl : has (mka (things a) (shows a ++ [Some None])) (length (shows a)) None) by apply has_last.
  destruct (@reset_ok s1 _ _ _ (Some p) G1 Hl) as (s2 & E2 & G2 & _).
  { cbn [things]. rewrite V1, holders_app. cbn [holders is_at]. destruct C. split; lia. }
  rewrite E2. cbn [fbind]. exists s2. split; [reflexivity|]. cbn [things shows] in G2.
  rewrite set_last in G2. exact G2.
Qed.
(** After any program a deep copy is undefined, or it shows the callable of the
    function it was made from. *)
Lemma deep_copy_shares off os s a r w p : Forall ordinary os -> proper os [] ->
  steps os (start off) = FFine (s, r) -> asteps os (mka [] []) a r -> has a w (Some p) ->
  step (ODeep w) s = FWild \/
  exists s', step (ODeep w) s = FFine (s', []) /\ nth_error (vars s') (length (vars s)) = Some (Some (Some p)) /\
    nth_error (vars s') w = Some (Some (Some p)) /\
    forall x y, exists s2 ts r1 ts' r2,
      steps [OCall (length (vars s)) x; OCall w y] s' = FFine (s2, [RCall r1; RCall r2]) /\
      answers run nothing a (Some p) x ts r1 /\
      answers run nothing (mka ts (shows a)) (Some p) y ts' r2.
Proof.
  intros Ho Hp E A0 Hw. destruct (steps_ok (start_agree off) Ho Hp) as (s0 & a0 & r0 & E0 & A1 & G).
  rewrite E in E0. injection E0 as <- <-. destruct (asteps_det A0 A1) as [<- _].
  destruct (agree_deep G Hw) as [W|(s' & W & G')]; [left; exact W|right]. exists s'.
  split; [exact W|]. pose proof G as (Es & _). pose proof G' as (Es' & _). cbn [shows] in Es'.
  rewrite Es', Es. split; [apply nth_last|]. split.
  { rewrite nth_error_app1 by (eapply has_bound; eauto). exact Hw. }
  intros x y.
  assert (Hl : has (mka (things a) (shows a ++ [Some (Some p)])) (length (shows a)) (Some p)) by apply has_last.
  destruct (agree_handle G' Hl) as [E1 _].
  destruct (@call_ok s' _ _ _ x G' Hl) as (s1 & ts & r1 & Ec & An & G1 & _).
  cbn [shows] in G1.
  assert (Hw1 : has (mka ts (shows a ++ [Some (Some p)])) w (Some p)).
  { unfold has. cbn [shows]. rewrite nth_error_app1 by (eapply has_bound; eauto). exact Hw. }
  destruct (agree_handle G1 Hw1) as [E2 _].
  destruct (@call_ok s1 _ _ _ y G1 Hw1) as (s2 & ts' & r2 & Ec2 & An2 & _).
  exists s2, ts, r1, ts', r2. split; [|split; [exact An|exact An2]].
  cbn [Fun_Model.steps Fun_Model.step]. rewrite E1. cbn [fbind]. rewrite Ec. cbn [fbind fst snd].
  rewrite E2. cbn [fbind]. rewrite Ec2. reflexivity.
Qed.

(** ** Function pointers. *)
Lemma cut_slots (s s' : state (V := V)) h : cut_ref s h = FFine s' ->
  local s' = local s /\ gobal s' = gobal s /\ off_set s' = off_set s.
Proof.
  destruct h as [p|]; cbn [cut_ref]; [|intros [= <-]; auto].
  destruct (nth_error (cells s) p) as [[c [|[|n]]|]|]; try discriminate; intros [= <-]; auto.
Qed.
Lemma add_slots (s s' : state (V := V)) h : add_ref s h = FFine s' ->
  local s' = local s /\ gobal s' = gobal s /\ off_set s' = off_set s.
Proof.
  destruct h as [p|]; cbn [add_ref]; [|intros [= <-]; auto].
  destruct (nth_error (cells s) p) as [[c n|]|]; try discriminate; intros [= <-]; auto.
Qed.
Lemma born_slots (s s' : state (V := V)) h : born s h = FFine s' ->
  local s' = local s /\ gobal s' = gobal s /\ off_set s' = off_set s.
Proof.
  unfold born. destruct (add_ref s h) as [s1| |] eqn:E; cbn [fbind]; try discriminate.
  intros [= <-]. exact (add_slots E).
Qed.
Lemma reset_slots (s s' : state (V := V)) v h : reset s v h = FFine s' ->
  local s' = local s /\ gobal s' = gobal s /\ off_set s' = off_set s.
Proof.
  unfold reset. destruct (var s v) as [k| |]; cbn [fbind]; try discriminate.
  destruct (add_ref s h) as [s1| |] eqn:E; cbn [fbind]; try discriminate.
  intros H. destruct (add_slots E) as (A1 & A2 & A3). destruct (cut_slots H) as (B1 & B2 & B3).
  cbn in *. now rewrite B1, B2, B3.
Qed.
Lemma call_slots (s s' : state (V := V)) h x r : call run nothing s h x = FFine (s', r) ->
  local s' = local s /\ gobal s' = gobal s /\ off_set s' = off_set s.
Proof.
  destruct h as [p|]; cbn [call]; [|intros [= <- <-]; auto].
  destruct (nth_error (cells s) p) as [[c n|]|]; try discriminate.
  destruct (run (tag c) (val c) x). intros [= <- <-]; auto.
Qed.
Lemma step_slots t o s s' r : quiet t o -> step o s = FFine (s', r) -> local s' t = local s t.
Proof.
  enough (quiet t o -> step o s = FFine (s', r) ->
    (local s' = local s /\ gobal s' = gobal s /\ off_set s' = off_set s) \/ local s' t = local s t) as X.
  { intros Q E. destruct (X Q E) as [(Y & _)|Y]; [now rewrite Y|exact Y]. }
  intros Ho. destruct o; cbn [quiet] in Ho; try contradiction; cbn [Fun_Model.step];
  repeat match goal with
  | |- context [var ?s ?v] => destruct (var s v) as [?h| |]; cbn [fbind]; try discriminate
  end.
  - destruct (born s None) as [s1| |] eqn:E; cbn [fbind]; try discriminate. intros [= <- <-]. left. exact (born_slots E).
  - destruct (born s None) as [s1| |] eqn:E; cbn [fbind]; try discriminate. cbn [made].
    destruct (reset _ _ _) as [s2| |] eqn:E2; cbn [fbind]; try discriminate. intros [= <- <-].
    destruct (born_slots E) as (A1 & A2 & A3). destruct (reset_slots E2) as (B1 & B2 & B3).
    left. cbn in *. now rewrite B1, B2, B3.
  - destruct (born s h) as [s1| |] eqn:E; cbn [fbind]; try discriminate. intros [= <- <-]. left. exact (born_slots E).
  - destruct (born s None) as [s1| |] eqn:E; cbn [fbind]; try discriminate. intros [= <- <-]. left. exact (born_slots E).
  - destruct (reset s v h) as [s1| |] eqn:E; cbn [fbind]; try discriminate. intros [= <- <-]. left. exact (reset_slots E).
  - cbn [made]. destruct (reset _ _ _) as [s1| |] eqn:E; cbn [fbind]; try discriminate.
    intros [= <- <-]. left. exact (reset_slots E).
  - destruct (reset s v None) as [s1| |] eqn:E; cbn [fbind]; try discriminate.
    intros [= <- <-]. left. exact (reset_slots E).
  - intros [= <- <-]. auto.
  - destruct (cut_ref _ _) as [s1| |] eqn:E; cbn [fbind]; try discriminate. intros [= <- <-]. left. exact (cut_slots E).
  - destruct (call _ _ _ _ _) as [[s1 y]| |] eqn:E; cbn [fbind]; try discriminate.
    intros [= <- <-]. left. exact (call_slots E).
  - intros [= <- <-]. auto.
  - destruct (equal _ _ _ _ _) as [b| |]; cbn [fbind]; try discriminate. intros [= <- <-]. auto.
  - destruct (equal_to _ _ _ _ _) as [b| |]; cbn [fbind]; try discriminate. intros [= <- <-]. auto.
  - intros H. right. revert H. destruct h as [p|].
    + destruct (nth_error (cells s) p) as [[c n|]|]; try discriminate.
      destruct (plain (tag c) (val c)); intros [= <- <-]; [reflexivity|]. cbn.
      destruct (Nat.eqb_spec t t0) as [->|]; [contradiction|reflexivity].
    + intros [= <- <-]. cbn. destruct (Nat.eqb_spec t t0) as [->|]; [contradiction|reflexivity].
  - intros [= <- <-]. auto.
Qed.
Lemma steps_slots t os : forall s s' r, Forall (quiet t) os -> steps os s = FFine (s', r) -> local s' t = local s t.
Proof.
  induction os as [|o os IH]; intros s s' r Ho; cbn [Fun_Model.steps].
  - intros [= <- <-]. auto.
  - inversion Ho; subst. destruct (step o s) as [[s1 r1]| |] eqn:E; cbn [fbind fst snd]; try discriminate.
    destruct (steps os s1) as [[s2 r2]| |] eqn:E2; cbn [fbind fst snd]; try discriminate. intros [= <- <-].
    rewrite <- (step_slots H1 E). exact (IH _ _ _ H2 E2).
Qed.
Lemma quiet_ordinary t (os : list (op (V := V) (A := A))) : Forall (quiet t) os -> Forall ordinary os.
Proof. apply Forall_impl. intros []; cbn; auto. Qed.
Lemma agree_slots s a l g : agree s a -> agree (with_slots s l g) a.
Proof. exact (fun G => G). Qed.
(** Calling through the slot of a thread. *)
Lemma call_slot s a t x h : agree s a -> local s t = Some h ->
  match h with
  | None => exists s', step (OCallPointer t x) s = FFine (s', [RCall (Some nothing)]) /\ agree s' a
  | Some p =>
      (shown a p -> forall c, nth_error (things a) p = Some c ->
        match run (tag c) (val c) x with
        | (v, Some y) => exists s', step (OCallPointer t x) s = FFine (s', [RCall (Some y)]) /\
            agree s' (mka (set_nth (things a) p (mkc (tag c) v)) (shows a))
        | (_, None) => step (OCallPointer t x) s = FDies
        end) /\
      (p < length (things a) -> ~ shown a p -> step (OCallPointer t x) s = FWild)
  end.
Proof.
  intros G El. cbn [Fun_Model.step]. rewrite El. set (s1 := with_slots s _ _).
  assert (G1 : agree s1 a) by exact G. clearbody s1. destruct h as [p|].
  - split.
    + intros [v Hv] c T. destruct (@call_ok s1 a v (Some p) x G1 Hv) as (s' & ts & r & Ec & An & G' & _).
      rewrite Ec. cbn [fbind fst snd]. cbn [answers] in An. destruct An as (d & T' & -> & ->).
      rewrite T in T'. injection T' as <-. destruct (run (tag c) (val c) x) as [v' [y|]]; cbn [fst snd] in *; [|reflexivity].
      exists s'. split; [reflexivity|exact G'].
    + intros P X. pose proof G1 as (Es & (L & N & B & H) & _). cbn [call].
      destruct (nth_error (things a) p) as [c|] eqn:T; [|apply nth_error_None in T; lia].
      destruct (H p c T) as [(_ & Eg & _)|(C & _)]; [rewrite Eg; reflexivity|].
      destruct X. destruct (holders_some p _ C) as [v E]. exists v. unfold has. now rewrite <- Es.
  - cbn [call fbind fst snd]. exists s1. auto.
Qed.
Lemma steps_app os : forall os' s, steps (os ++ os') s =
  fbind (steps os s) (fun x => fbind (steps os' (fst x)) (fun y => FFine (fst y, snd x ++ snd y))).
Proof.
  induction os as [|o os IH]; intros os' s; cbn [app Fun_Model.steps fbind fst snd].
  - destruct (steps os' s) as [[s' r]| |]; reflexivity.
  - destruct (step o s) as [[s1 r1]| |]; cbn [fbind fst snd]; try reflexivity. rewrite IH.
    destruct (steps os s1) as [[s2 r2]| |]; cbn [fbind fst snd]; try reflexivity.
    destruct (steps os' s2) as [[s3 r3]| |]; cbn [fbind fst snd]; try reflexivity. now rewrite app_assoc.
Qed.
Lemma alive_steps os : forall a a' r, asteps os a a' r -> forall os', proper (os ++ os') (map there (shows a)) ->
  proper os' (map there (shows a')).
Proof.
  induction os as [|o os IH]; intros a a' r H os' P; inversion H; subst; [exact P|].
  cbn [app proper] in P. destruct P as [_ P].
  match goal with X : astep _ _ _ _ |- _ => rewrite <- (alive_step X) in P end. eapply IH; eauto.
Qed.
Lemma proper_app (os os' : list (op (V := V) (A := A))) : forall al, proper (os ++ os') al -> proper os al.
Proof. induction os as [|o os IH]; intros al; cbn [app proper]; [auto|]. intros [H P]. split; auto. Qed.

(** Between the conversion and the call any program that makes no pointer in that thread. *)
Lemma pointer_ok off os1 os2 t v x :
  Forall ordinary os1 -> Forall (quiet t) os2 -> proper (os1 ++ OPointer t v :: os2) [] ->
  exists s1 a1 r1 h, steps os1 (start off) = FFine (s1, r1) /\ asteps os1 (mka [] []) a1 r1 /\ has a1 v h /\
  ((forall c, look a1 h = Some c -> plain (tag c) (val c) = None) ->
  exists s2 a2 r2, steps (os1 ++ OPointer t v :: os2) (start off) = FFine (s2, r1 ++ RPointer None :: r2) /\
    asteps os2 a1 a2 r2 /\ vars s2 = shows a2 /\
    match h with
    | None => exists s', step (OCallPointer t x) s2 = FFine (s', [RCall (Some nothing)]) /\ vars s' = shows a2
    | Some p => exists c, nth_error (things a2) p = Some c /\
        (shown a2 p ->
          match run (tag c) (val c) x with
          | (w, Some y) => exists s', step (OCallPointer t x) s2 = FFine (s', [RCall (Some y)]) /\
              vars s' = shows a2 /\
              exists n, nth_error (cells s') p = Some (Live (mkc (tag c) w) n)
          | (_, None) => step (OCallPointer t x) s2 = FDies
          end) /\
        (~ shown a2 p -> step (OCallPointer t x) s2 = FWild)
    end).
Proof.
  intros Ho1 Ho2 Hp. destruct (steps_ok (start_agree off) Ho1 (proper_app Hp)) as (s1 & a1 & r1 & E1 & A1 & G1).
  pose proof (alive_steps A1 Hp) as Hp2. cbn [proper names builds] in Hp2. destruct Hp2 as [Hn Hp2].
  rewrite app_nil_r in Hp2. inversion Hn; subst. destruct (nth_there H1) as [h Hh].
  exists s1, a1, r1, h. split; [exact E1|]. split; [exact A1|]. split; [exact Hh|]. intros Pl.
  destruct (agree_handle G1 Hh) as [Ev C].
  set (s1' := with_slots s1 (fun u => if u =? t then Some h else local s1 u) (Some h)).
  assert (Ep : step (OPointer t v) s1 = FFine (s1', [RPointer None])).
  { cbn [Fun_Model.step]. rewrite Ev. cbn [fbind]. destruct h as [p|]; [|reflexivity].
    destruct (agree_cell G1 Hh) as (c & n & T & E). rewrite E, (Pl c T). reflexivity. }
  assert (G1' : agree s1' a1) by exact G1.
  destruct (steps_ok G1' (quiet_ordinary Ho2) Hp2) as (s2 & a2 & r2 & E2 & A2 & G2).
  exists s2, a2, r2. split.
  { rewrite steps_app, E1. cbn [fbind fst snd Fun_Model.steps]. rewrite Ep. cbn [fbind fst snd]. rewrite E2.
    reflexivity. }
  split; [exact A2|]. split; [apply G2|].
  pose proof (steps_slots Ho2 E2) as El.
  assert (Es : local s2 t = Some h) by (rewrite El; cbn; now rewrite Nat.eqb_refl).
  pose proof (call_slot x G2 Es) as Hc. destruct h as [p|].
  - assert (P : p < length (things a2)).
    { clear - A2 C. destruct C as [_ C]. revert a1 a2 r2 A2 C.
      induction os2 as [|o os IH]; intros a1 a2 r2 H P; inversion H; subst; [exact P|].
      eapply IH; [eassumption|]. match goal with X : astep _ _ _ _ |- _ => clear - X P; destruct X end; cbn [things]; rewrite ?app_length; try lia.
      destruct h as [q|]; cbn [answers] in H0.
      - destruct H0 as (c & T & -> & _). rewrite <- put_set, put_length by (eapply nth_lt; eauto). exact P.
      - destruct H0 as [-> _]. exact P. }
    destruct (nth_error (things a2) p) as [c|] eqn:T; [|apply nth_error_None in T; lia].
    exists c. split; [reflexivity|]. destruct Hc as [H3 H4]. split; [|auto].
    intros Sh. specialize (H3 Sh c eq_refl). destruct (run (tag c) (val c) x) as [w [y|]]; [|exact H3].
    destruct H3 as (s' & E' & G'). exists s'. split; [exact E'|]. split; [apply G'|].
    destruct Sh as [u Hu]. destruct (@agree_cell s' _ u p G' Hu) as (d & n & Td & Ed).
    exists n. rewrite Ed. do 2 f_equal. cbn [things] in Td.
    rewrite nth_set_nth_same in Td by (eapply nth_lt; eauto). now injection Td as <-.
  - destruct Hc as (s' & E' & G'). exists s'. split; [exact E'|]. apply G'.
Qed.
(** A plain function: the pointer is that function, whatever happens later. *)
Lemma pointer_plain s a t v p c k : agree s a -> has a v (Some p) -> nth_error (things a) p = Some c ->
  plain (tag c) (val c) = Some k -> step (OPointer t v) s = FFine (s, [RPointer (Some k)]).
Proof.
  intros G Hv T Pl. cbn [Fun_Model.step]. destruct (agree_handle G Hv) as [Ev _]. rewrite Ev. cbn [fbind].
  destruct (agree_cell G Hv) as (d & n & T' & E). rewrite T in T'. injection T' as <-. rewrite E, Pl. reflexivity.
Qed.
Lemma plain_pointer off os s a r t v p c k : Forall ordinary os -> proper os [] ->
  steps os (start off) = FFine (s, r) -> asteps os (mka [] []) a r ->
  has a v (Some p) -> nth_error (things a) p = Some c -> plain (tag c) (val c) = Some k ->
  step (OPointer t v) s = FFine (s, [RPointer (Some k)]) /\
  forall s' x, step (OCallPlain k x) s' = FFine (s', [RCall (run_plain k x)]).
Proof.
  intros Ho Hp E A0 Hv T Pl. destruct (steps_ok (start_agree off) Ho Hp) as (s0 & a0 & r0 & E0 & A1 & G).
  rewrite E in E0. injection E0 as <- <-. destruct (asteps_det A0 A1) as [<- _].
  split; [|reflexivity]. exact (pointer_plain t G Hv T Pl).
Qed.
(** A function holding a callable whose type has no [==] is not equal to itself. *)
Lemma equal_self off os s a r v p c : Forall ordinary os -> proper os [] ->
  steps os (start off) = FFine (s, r) -> asteps os (mka [] []) a r ->
  has a v (Some p) -> nth_error (things a) p = Some c -> comparable (tag c) = false ->
  step (OEqual v v) s = FFine (s, [RBool false]).
Proof.
  intros Ho Hp E A0 Hv T Cm. destruct (steps_ok (start_agree off) Ho Hp) as (s0 & a0 & r0 & E0 & A1 & G).
  rewrite E in E0. injection E0 as <- <-. destruct (asteps_det A0 A1) as [<- _].
  cbn [Fun_Model.step]. destruct (agree_handle G Hv) as [Ev _]. rewrite Ev. cbn [fbind equal].
  destruct (agree_cell G Hv) as (d & n & T' & E'). rewrite T in T'. injection T' as <-. rewrite E', Cm.
  cbn [fbind]. now rewrite andb_false_r.
Qed.
End Steps.
