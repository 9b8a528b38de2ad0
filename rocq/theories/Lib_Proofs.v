(** Proofs about loading libraries. *)
From Verif Require Import Base Lib_Model Lib_Spec.
Local Open Scope Z_scope.

Lemma set_at_same : forall A (l : list A) j x y, nth_error l j = Some y -> nth_error (set_at l j x) j = Some x.
Proof. induction l as [|z r IH]; intros [|j] x y H; try discriminate; cbn in *; [reflexivity|eauto]. Qed.
Lemma set_at_other : forall A (l : list A) j k x, j <> k -> nth_error (set_at l j x) k = nth_error l k.
Proof. induction l as [|z r IH]; intros [|j] [|k] x H; cbn; try reflexivity; try congruence. apply IH. congruence. Qed.

(** How many elements have a property. *)
Fixpoint many {A} (f : A -> bool) (l : list A) : nat :=
  match l with [] => 0%nat | x :: r => ((if f x then 1 else 0) + many f r)%nat end.
Lemma many_app : forall A (f : A -> bool) l r, many f (l ++ r) = (many f l + many f r)%nat.
Proof. induction l as [|x l IH]; intros r; [reflexivity|]. cbn [many app]. rewrite IH. lia. Qed.
Lemma many_set : forall A (f : A -> bool) l j x y, nth_error l j = Some y ->
  (many f (set_at l j x) + (if f y then 1 else 0) = many f l + (if f x then 1 else 0))%nat.
Proof.
  induction l as [|z r IH]; intros [|j] x y H; try discriminate; cbn [set_at many nth_error] in *.
  - injection H as ->. lia.
  - specialize (IH _ x _ H). lia.
Qed.
Lemma many_pos : forall A (f : A -> bool) l, (0 < many f l)%nat -> exists j x, nth_error l j = Some x /\ f x = true.
Proof.
  induction l as [|z r IH]; intros H; [cbn in H; lia|]. cbn [many] in H. destruct (f z) eqn:E.
  - exists O, z. auto.
  - destruct (IH ltac:(lia)) as (j & x & H1 & H2). exists (S j), x. auto.
Qed.
Lemma many_in : forall A (f : A -> bool) l j x, nth_error l j = Some x -> f x = true -> (0 < many f l)%nat.
Proof.
  induction l as [|z r IH]; intros [|j] x H E; try discriminate; cbn [nth_error many] in *.
  - injection H as ->. rewrite E. lia.
  - specialize (IH _ _ H E). lia.
Qed.

Definition holdsb (j : nat) (v : var) : bool :=
  match v with VLib (Some i) => Nat.eqb i j | VFun (Some i) _ _ => Nat.eqb i j | _ => false end.
Lemma holdsb_spec : forall j v, holdsb j v = true <-> holds v j.
Proof. intros j [[i|]|[i|] n c|]; cbn; rewrite ?Nat.eqb_eq; intuition congruence. Qed.
Definition uses (h : Z) (i : info) : bool := match i with Live _ h' _ => h' =? h | Freed => false end.

Section System.
Variable file : Z -> option Z.
Variable sym : Z -> Z -> option Z.
Hypothesis OK : proper file.

(** Counters are right: each object is held as often as it says, and each library
    is open once for each object. *)
Record good (s : lstate) : Prop := mkGood {
  g_count : forall j n h c, nth_error (infos s) j = Some (Live n h c) -> c = many (holdsb j) (vars s) /\ (0 < c)%nat;
  g_none : forall j, (forall n h c, nth_error (infos s) j <> Some (Live n h c)) -> many (holdsb j) (vars s) = O;
  g_open : forall h, h <> 0 -> opened s h = many (uses h) (infos s);
  g_file : forall j n h c, nth_error (infos s) j = Some (Live n h c) -> file n = Some h \/ (file n = None /\ h = 0) }.

Lemma held_live : forall s x v j, good s -> nth_error (vars s) x = Some v -> holds v j ->
  exists n h c, nth_error (infos s) j = Some (Live n h c).
Proof.
  intros s x v j G E H. apply holdsb_spec in H. pose proof (@many_in _ _ _ _ _ E H) as P.
  destruct (nth_error (infos s) j) as [[n h c|]|] eqn:F; [eauto| |]; rewrite (@g_none s G j) in P; try lia; intros; congruence.
Qed.

Lemma good_start : good lstart.
Proof.
  constructor; cbn.
  - intros [|j]; discriminate.
  - reflexivity.
  - reflexivity.
  - intros [|j]; discriminate.
Qed.

Lemma nth_snoc : forall A (l : list A) x j y, nth_error (l ++ [x]) j = Some y ->
  nth_error l j = Some y \/ (j = length l /\ y = x).
Proof.
  intros A l x j y H. destruct (Nat.lt_ge_cases j (length l)) as [L|L].
  - rewrite nth_error_app1 in H by lia. auto.
  - rewrite nth_error_app2 in H by lia. destruct (j - length l)%nat as [|k] eqn:E; cbn in H.
    + right. split; [lia|congruence].
    + destruct k; discriminate.
Qed.

(** A new pointer to an object that is held already. *)
Lemma add_good : forall s i v, good s -> (forall j, i = Some j -> exists n h c, nth_error (infos s) j = Some (Live n h c)) ->
  (forall j, holds v j <-> i = Some j) ->
  exists s1, add_ref s i = LFine s1 /\ vars s1 = vars s /\ good (new_var s1 v) /\
    (forall j n h c, nth_error (infos s) j = Some (Live n h c) -> exists c', nth_error (infos s1) j = Some (Live n h c')).
Proof.
  intros s i v G L Hv. destruct i as [j|]; cbn [add_ref].
  - destruct (L j eq_refl) as (n & h & c & E). rewrite E. eexists. split; [reflexivity|]. split; [reflexivity|].
    assert (Hj : forall j', holdsb j' v = Nat.eqb j j').
    { intros j'. destruct (holdsb j' v) eqn:B.
      - apply holdsb_spec in B. apply Hv in B. injection B as ->. symmetry. apply Nat.eqb_refl.
      - symmetry. apply Nat.eqb_neq. intros <-. assert (T : holdsb j v = true) by (apply holdsb_spec; now apply Hv). congruence. }
    split.
    + constructor; cbn [new_var infos vars opened].
      * intros j' n' h' c' E'. rewrite many_app. cbn [many]. rewrite Hj. destruct (Nat.eqb_spec j j') as [<-|Ne].
        -- rewrite (set_at_same _ E) in E'. injection E' as <- <- <-. destruct (g_count G E). lia.
        -- rewrite set_at_other in E' by auto. destruct (g_count G E'). lia.
      * intros j' N'. rewrite many_app. cbn [many]. rewrite Hj. destruct (Nat.eqb_spec j j') as [<-|Ne].
        -- destruct (N' n h (S c)). apply (set_at_same _ E).
        -- rewrite (@g_none s G j'); [reflexivity|]. intros n' h' c'. specialize (N' n' h' c'). now rewrite set_at_other in N' by auto.
      * intros h' Nh. rewrite (g_open G Nh). pose proof (many_set (uses h') (Live n h (S c)) E) as M.
        cbn [uses] in M. lia.
      * intros j' n' h' c' E'. destruct (Nat.eqb_spec j j') as [<-|Ne].
        -- rewrite (set_at_same _ E) in E'. injection E' as <- <- <-. exact (g_file G E).
        -- rewrite set_at_other in E' by auto. exact (g_file G E').
    + intros j' n' h' c' E'. cbn [infos]. destruct (Nat.eqb_spec j j') as [<-|Ne].
      * rewrite E in E'. injection E' as <- <- <-. exists (S c). apply (set_at_same _ E).
      * exists c'. now rewrite set_at_other by auto.
  - exists s. split; [reflexivity|]. split; [reflexivity|].
    assert (Hj : forall j', holdsb j' v = false).
    { intros j'. destruct (holdsb j' v) eqn:B; [|reflexivity]. apply holdsb_spec in B. apply Hv in B. discriminate. }
    split; [|eauto]. constructor; cbn [new_var infos vars opened].
    + intros j' n' h' c' E'. rewrite many_app. cbn [many]. rewrite Hj. destruct (g_count G E'). lia.
    + intros j' N'. rewrite many_app. cbn [many]. rewrite Hj. rewrite (g_none G N'). reflexivity.
    + intros h' Nh. exact (g_open G Nh).
    + intros j' n' h' c' E'. exact (g_file G E').
Qed.

(** Loading. *)
Lemma load_good : forall s n, good s -> exists s', lstep file sym s (OLoad n) = LFine (s', SNothing) /\ good s'.
Proof.
  intros s n G. cbn [lstep]. eexists. split; [reflexivity|].
  assert (V : forall j, many (holdsb j) (vars s ++ [VLib (Some (length (infos s)))]) =
     (many (holdsb j) (vars s) + if Nat.eqb (length (infos s)) j then 1 else 0)%nat).
  { intros j. rewrite many_app. cbn [many holdsb]. lia. }
  assert (Z0 : many (holdsb (length (infos s))) (vars s) = O).
  { apply (g_none G). intros n' h' c' E. pose proof (nth_error_Some (infos s) (length (infos s))) as [Q _].
    specialize (Q ltac:(congruence)). lia. }
  assert (C : forall (o : Z -> nat) h, (forall h', h' <> 0 -> o h' = (opened s h' + if (h =? h')%Z then 1 else 0)%nat) ->
     (file n = Some h \/ (file n = None /\ h = 0)) ->
     good (mkLs o (infos s ++ [Live n h 1]) (vars s ++ [VLib (Some (length (infos s)))]))).
  { intros o h Ho Hf. constructor; cbn [infos vars opened].
    - intros j n' h' c' E. rewrite V. destruct (nth_snoc E) as [E'|[-> Q]].
      + assert (j < length (infos s))%nat by (apply nth_error_Some; congruence).
        destruct (Nat.eqb_spec (length (infos s)) j); [lia|]. destruct (g_count G E'). lia.
      + injection Q as -> -> ->. rewrite Nat.eqb_refl, Z0. lia.
    - intros j N. rewrite V. destruct (Nat.eqb_spec (length (infos s)) j) as [<-|Ne].
      + destruct (N n h 1%nat). rewrite nth_error_app2, Nat.sub_diag by lia. reflexivity.
      + rewrite (@g_none s G j); [reflexivity|]. intros n' h' c' E. apply (N n' h' c').
        rewrite nth_error_app1; [exact E|]. apply nth_error_Some. congruence.
    - intros h' Nh. rewrite Ho by exact Nh. rewrite many_app. cbn [many uses]. rewrite (g_open G Nh). lia.
    - intros j n' h' c' E. destruct (nth_snoc E) as [E'|[_ Q]]; [exact (g_file G E')|].
      injection Q as -> -> ->. exact Hf. }
  destruct (file n) as [h|] eqn:F; apply C; auto.
  - intros h' Nh. unfold count_at. rewrite (Z.eqb_sym h h'). destruct (Z.eqb_spec h' h) as [->|]; lia.
  - intros h' Nh. destruct (Z.eqb_spec 0 h'); [congruence|lia].
Qed.

(** The end of a variable. *)
Lemma drop_good : forall s x v i, good s -> nth_error (vars s) x = Some v -> (forall j, holds v j <-> i = Some j) ->
  (forall j, i = Some j -> forall n, nth_error (infos s) j <> Some (Live n 0 1)) ->
  exists s1, drop_ref s i = LFine s1 /\ good (mkLs (opened s1) (infos s1) (set_at (vars s1) x VGone)).
Proof.
  intros s x v i G E Hv Nz.
  assert (Hj : forall j', holdsb j' v = match i with Some j => Nat.eqb j j' | None => false end).
  { intros j'. destruct (holdsb j' v) eqn:B.
    - apply holdsb_spec in B. apply Hv in B. rewrite B. symmetry. apply Nat.eqb_refl.
    - destruct i as [j|]; [|reflexivity]. symmetry. apply Nat.eqb_neq. intros <-.
      assert (T : holdsb j v = true) by (apply holdsb_spec; now apply Hv). congruence. }
  assert (M : forall j', (many (holdsb j') (set_at (vars s) x VGone) + (if holdsb j' v then 1 else 0) = many (holdsb j') (vars s))%nat).
  { intros j'. pose proof (many_set (holdsb j') VGone E) as M. cbn [holdsb] in M. lia. }
  destruct i as [j|]; cbn [drop_ref].
  - destruct (@held_live s x v j G E) as (n & h & c & Ei); [now apply Hv|]. rewrite Ei.
    destruct (g_count G Ei) as [Ec Pc]. pose proof (M j) as Mj. rewrite Hj, Nat.eqb_refl in Mj.
    destruct c as [|[|c]]; [lia| |].
    + assert (Nh : h <> 0). { intros ->. exact (Nz j eq_refl n Ei). }
      unfold close. destruct (Z.eqb_spec h 0); [congruence|].
      pose proof (g_open G Nh) as Eo. assert (Po : (0 < many (uses h) (infos s))%nat).
      { eapply many_in; [exact Ei|]. cbn. apply Z.eqb_refl. }
      destruct (opened s h) as [|o] eqn:Oh; [lia|]. cbn [lbind]. eexists. split; [reflexivity|].
      constructor; cbn [infos vars opened].
      * intros j' n' h' c' E'. specialize (M j'). rewrite Hj in M. destruct (Nat.eqb_spec j j') as [Q|Ne]; [subst j'|].
        -- rewrite (set_at_same _ Ei) in E'. discriminate.
        -- rewrite set_at_other in E' by auto. destruct (g_count G E'). lia.
      * intros j' N'. specialize (M j'). rewrite Hj in M. destruct (Nat.eqb_spec j j') as [Q|Ne]; [subst j'; lia|].
        rewrite (@g_none s G j') in M; [lia|]. intros n' h' c'. specialize (N' n' h' c'). now rewrite set_at_other in N' by auto.
      * intros h' Nh'. pose proof (many_set (uses h') Freed Ei) as Ms. cbn [uses] in Ms.
        unfold count_at. destruct (Z.eqb_spec h' h) as [->|Nq].
        -- rewrite Z.eqb_refl in Ms. lia.
        -- destruct (Z.eqb_spec h h'); [congruence|]. rewrite (g_open G Nh'). lia.
      * intros j' n' h' c' E'. destruct (Nat.eqb_spec j j') as [Q|Ne]; [subst j'|].
        -- rewrite (set_at_same _ Ei) in E'. discriminate.
        -- rewrite set_at_other in E' by auto. exact (g_file G E').
    + eexists. split; [reflexivity|]. constructor; cbn [infos vars opened].
      * intros j' n' h' c' E'. specialize (M j'). rewrite Hj in M. destruct (Nat.eqb_spec j j') as [Q|Ne]; [subst j'|].
        -- rewrite (set_at_same _ Ei) in E'. injection E' as <- <- <-. lia.
        -- rewrite set_at_other in E' by auto. destruct (g_count G E'). lia.
      * intros j' N'. specialize (M j'). rewrite Hj in M. destruct (Nat.eqb_spec j j') as [Q|Ne]; [subst j'|].
        -- destruct (N' n h (S c)). apply (set_at_same _ Ei).
        -- rewrite (@g_none s G j') in M; [lia|]. intros n' h' c'. specialize (N' n' h' c'). now rewrite set_at_other in N' by auto.
      * intros h' Nh'. pose proof (many_set (uses h') (Live n h (S c)) Ei) as Ms. cbn [uses] in Ms.
        rewrite (g_open G Nh'). lia.
      * intros j' n' h' c' E'. destruct (Nat.eqb_spec j j') as [Q|Ne]; [subst j'|].
        -- rewrite (set_at_same _ Ei) in E'. injection E' as <- <- <-. exact (g_file G Ei).
        -- rewrite set_at_other in E' by auto. exact (g_file G E').
  - exists s. split; [reflexivity|]. constructor; cbn [infos vars opened].
    + intros j' n' h' c' E'. specialize (M j'). rewrite Hj in M. destruct (g_count G E'). lia.
    + intros j' N'. specialize (M j'). rewrite Hj in M. rewrite (g_none G N') in M. lia.
    + intros h' Nh. exact (g_open G Nh).
    + intros j' n' h' c' E'. exact (g_file G E').
Qed.

(** One step keeps the counters right. *)
Lemma handle_ok : forall s x v i, good s -> nth_error (vars s) x = Some v -> (forall j, holds v j <-> i = Some j) ->
  exists h, handle_of s i = LFine h.
Proof.
  intros s x v [j|] G E Hv; [|cbn; eauto]. destruct (@held_live s x v j G E) as (n & h & c & Ei); [now apply Hv|].
  cbn. rewrite Ei. eauto.
Qed.
Lemma lib_holds : forall i j, holds (VLib i) j <-> i = Some j.
Proof. intros [k|] j; cbn; intuition congruence. Qed.
Lemma fun_holds : forall i n a j, holds (VFun i n a) j <-> i = Some j.
Proof. intros [k|] n a j; cbn; intuition congruence. Qed.

(** The steps that the system can refuse. *)
Definition refused (s : lstate) (o : lop) : Prop :=
  match o with
  | ODrop x => exists v j n, nth_error (vars s) x = Some v /\ holds v j /\ nth_error (infos s) j = Some (Live n 0 1)
  | OSym x n => exists i h, nth_error (vars s) x = Some (VLib i) /\ handle_of s i = LFine h /\ sym h n = None
  | _ => False
  end.

Lemma step_good : forall s o, good s -> ~ refused s o -> exists s' b, lstep file sym s o = LFine (s', b) /\ good s'.
Proof.
  intros s o G R.
  assert (Add : forall x v i w, nth_error (vars s) x = Some v -> (forall j, holds v j <-> i = Some j) ->
     (forall j, holds w j <-> i = Some j) ->
     exists s1, add_ref s i = LFine s1 /\ good (new_var s1 w)).
  { intros x v i w E Hv Hw. destruct (@add_good s i w G) as (s1 & E1 & _ & G1 & _); [|exact Hw|eauto].
    intros j ->. apply (@held_live s x v j G E). now apply Hv. }
  destruct o as [n| |x|x|x|x n|x|x|x].
  - destruct (load_good n G) as (s' & E & G'). eauto.
  - destruct (@add_good s None (VLib None) G) as (s1 & E1 & _ & G1 & _); [discriminate|apply lib_holds|].
    injection E1 as <-. cbn [lstep]. eauto.
  - cbn [lstep]. destruct (nth_error (vars s) x) as [[i|i n a|]|] eqn:E; [| |eauto|eauto].
    + destruct (Add x _ i (VLib i) E (lib_holds i) (lib_holds i)) as (s1 & -> & G1). cbn [lbind]. eauto.
    + destruct (Add x _ i (VFun i n a) E (fun_holds i n a) (fun_holds i n a)) as (s1 & -> & G1). cbn [lbind]. eauto.
  - cbn [lstep]. destruct (nth_error (vars s) x) as [v|] eqn:E; [|eauto].
    assert (D : forall i, (forall j, holds v j <-> i = Some j) -> exists s1, drop_ref s i = LFine s1 /\
       good (mkLs (opened s1) (infos s1) (set_at (vars s1) x VGone))).
    { intros i Hv. apply (@drop_good s x v i G E Hv). intros j -> n Ei. apply R. exists v, j, n. split; [exact E|].
      split; [now apply Hv|exact Ei]. }
    destruct v as [i|i n a|]; [| |eauto].
    + destruct (D i (lib_holds i)) as (s1 & -> & G1). cbn [lbind]. eauto.
    + destruct (D i (fun_holds i n a)) as (s1 & -> & G1). cbn [lbind]. eauto.
  - cbn [lstep]. destruct (nth_error (vars s) x) as [[i|i n a|]|] eqn:E; [|eauto|eauto|eauto].
    destruct (@handle_ok s x _ i G E (lib_holds i)) as [h ->]. cbn [lbind]. eauto.
  - cbn [lstep]. destruct (nth_error (vars s) x) as [[i|i n' a|]|] eqn:E; [|eauto|eauto|eauto].
    destruct (@handle_ok s x _ i G E (lib_holds i)) as [h Eh]. rewrite Eh. cbn [lbind].
    destruct (sym h n) as [a|] eqn:Es; [|destruct R; exists i, h; auto].
    destruct (Add x _ i (VFun i n a) E (lib_holds i) (fun_holds i n a)) as (s1 & -> & G1). cbn [lbind]. eauto.
  - cbn [lstep]. destruct (nth_error (vars s) x) as [[i|i n a|]|] eqn:E; [eauto| |eauto|eauto].
    destruct i as [j|]; cbn [handle_of lbind Z.eqb]; [|eauto].
    destruct (@held_live s x _ j G E) as (n' & h & c & Ei); [reflexivity|]. rewrite Ei. cbn [lbind].
    destruct (Z.eqb_spec h 0); [eauto|]. rewrite (g_open G) by assumption.
    pose proof (@many_in _ (uses h) (infos s) j _ Ei (Z.eqb_refl h)). destruct (many (uses h) (infos s)); [lia|eauto].
  - cbn [lstep]. destruct (nth_error (vars s) x) as [[i|i n a|]|] eqn:E; eauto.
  - cbn [lstep]. destruct (nth_error (vars s) x) as [[i|i n a|]|] eqn:E; [eauto| |eauto|eauto].
    destruct (Add x _ i (VLib i) E (fun_holds i n a) (lib_holds i)) as (s1 & -> & G1). cbn [lbind]. eauto.
Qed.

Lemma step_inv : forall s o s' b, good s -> lstep file sym s o = LFine (s', b) -> good s'.
Proof.
  intros s o s' b G E.
  assert (R : ~ refused s o).
  { intros R. destruct o as [n| |x|x|x|x n|x|x|x]; try contradiction; cbn [lstep] in E.
    - destruct R as (v & j & n & Ex & Hv & Ei). rewrite Ex in E.
      destruct v as [[i|]|[i|] n' a|]; try contradiction; cbn in Hv; subst i; cbn [drop_ref] in E; rewrite Ei in E;
        cbn in E; discriminate.
    - destruct R as (i & h & Ex & Eh & Es). rewrite Ex, Eh in E. cbn [lbind] in E. rewrite Es in E. discriminate. }
  destruct (step_good G R) as (s2 & b2 & E2 & G2). congruence.
Qed.
Lemma run_inv : forall l s s' bs, good s -> lrun file sym s l = LFine (s', bs) -> good s'.
Proof.
  induction l as [|o r IH]; intros s s' bs G E; cbn [lrun] in E; [injection E as <- <-; exact G|].
  destruct (lstep file sym s o) as [[s1 b]|] eqn:E1; [|discriminate]. cbn [lbind] in E.
  destruct (lrun file sym s1 r) as [[s2 bs2]|] eqn:E2; [|discriminate]. injection E as <- <-.
  exact (IH _ _ _ (step_inv G E1) E2).
Qed.

Lemma open_iff : forall s h, good s -> h <> 0 -> ((0 < opened s h)%nat <-> in_use s h).
Proof.
  intros s h G Nh. rewrite (g_open G Nh). split.
  - intros P. destruct (many_pos P) as (j & [n h' c|] & E & U); [|discriminate]. cbn in U. apply Z.eqb_eq in U. subst h'.
    destruct (g_count G E) as [Ec Pc]. rewrite Ec in Pc. destruct (many_pos Pc) as (x & v & Ex & Hx).
    apply holdsb_spec in Hx. exists x, v, j, n, c. auto.
  - intros (x & v & j & n & c & Ex & Hx & E). eapply many_in; [exact E|]. cbn. apply Z.eqb_refl.
Qed.

Lemma function_called : forall s x j n a name h c, good s -> nth_error (vars s) x = Some (VFun (Some j) n a) ->
  nth_error (infos s) j = Some (Live name h c) -> lstep file sym s (OCall x) = LFine (s, SCalled a).
Proof.
  intros s x j n a name h c G Ex Ei. cbn [lstep]. rewrite Ex. cbn [handle_of]. rewrite Ei. cbn [lbind].
  destruct (Z.eqb_spec h 0); [reflexivity|]. rewrite (g_open G) by assumption.
  pose proof (@many_in _ (uses h) (infos s) j _ Ei (Z.eqb_refl h)). destruct (many (uses h) (infos s)); [lia|reflexivity].
Qed.

(** Programs whose libraries and symbols all exist. *)
Definition real (s : lstate) : Prop := forall j n h c, nth_error (infos s) j = Some (Live n h c) -> h <> 0.
Lemma real_set : forall s j i n h c, real s -> nth_error (infos s) j = Some (Live n h c) ->
  (i = Freed \/ exists c', i = Live n h c') ->
  forall j' n' h' c', nth_error (set_at (infos s) j i) j' = Some (Live n' h' c') -> h' <> 0.
Proof.
  intros s j i n h c R E Hi j' n' h' c' E'. destruct (Nat.eq_dec j j') as [Q|Ne].
  - subst j'. rewrite (set_at_same _ E) in E'. destruct Hi as [->|[c2 ->]]; [discriminate|]. injection E' as <- <- <-. exact (R _ _ _ _ E).
  - rewrite set_at_other in E' by auto. exact (R _ _ _ _ E').
Qed.
Lemma add_real : forall s i s1, real s -> add_ref s i = LFine s1 -> real s1.
Proof.
  intros s [j|] s1 R E; cbn [add_ref] in E; [|now injection E as <-].
  destruct (nth_error (infos s) j) as [[n h c|]|] eqn:Ei; try discriminate. injection E as <-.
  intros j'. cbn [infos]. eapply real_set; eauto.
Qed.
Lemma drop_real : forall s i s1, real s -> drop_ref s i = LFine s1 -> real s1.
Proof.
  intros s [j|] s1 R E; cbn [drop_ref] in E; [|now injection E as <-].
  destruct (nth_error (infos s) j) as [[n h c|]|] eqn:Ei; try discriminate.
  assert (K : forall i, (i = Freed \/ exists c', i = Live n h c') -> forall o v, real (mkLs o (set_at (infos s) j i) v)).
  { intros i Hi o v j'. cbn [infos]. eapply real_set; eauto. }
  destruct c as [|[|c]].
  - destruct (close (opened s) h); [|discriminate]. injection E as <-. apply K. now left.
  - destruct (close (opened s) h); [|discriminate]. injection E as <-. apply K. now left.
  - injection E as <-. apply K. right. eauto.
Qed.
Lemma step_real : forall s o s' b, real s -> (forall n, o = OLoad n -> file n <> None) ->
  lstep file sym s o = LFine (s', b) -> real s'.
Proof.
  intros s o s' b R H E.
  assert (Id : forall A B (x y : A) (u w : B), LFine (x, u) = LFine (y, w) -> x = y) by congruence.
  destruct o as [n| |x|x|x|x n|x|x|x]; cbn [lstep] in E.
  - destruct (file n) as [h|] eqn:F; [|destruct (H n eq_refl); exact F]. apply Id in E. subst s'.
    intros j n' h' c' Ej. cbn [infos] in Ej. destruct (nth_snoc Ej) as [E'|[_ Q]]; [exact (R _ _ _ _ E')|].
    injection Q as _ -> _. exact (OK F).
  - apply Id in E. subst s'. exact R.
  - destruct (nth_error (vars s) x) as [[i|i n a|]|]; try (apply Id in E; subst s'; exact R);
      (destruct (add_ref s i) as [s1|] eqn:E1; [|discriminate]; cbn [lbind] in E; apply Id in E; subst s'; exact (@add_real _ i _ R E1)).
  - destruct (nth_error (vars s) x) as [[i|i n a|]|]; try (apply Id in E; subst s'; exact R);
      (destruct (drop_ref s i) as [s1|] eqn:E1; [|discriminate]; cbn [lbind] in E; apply Id in E; subst s'; exact (@drop_real _ i _ R E1)).
  - destruct (nth_error (vars s) x) as [[i|i n a|]|]; try (apply Id in E; subst s'; exact R).
    destruct (handle_of s i); [|discriminate]. cbn [lbind] in E. apply Id in E. subst s'. exact R.
  - destruct (nth_error (vars s) x) as [[i|i n' a|]|]; try (apply Id in E; subst s'; exact R).
    destruct (handle_of s i) as [h|]; [|discriminate]. cbn [lbind] in E. destruct (sym h n); [|discriminate].
    destruct (add_ref s i) as [s1|] eqn:E1; [|discriminate]. cbn [lbind] in E. apply Id in E. subst s'. exact (@add_real _ i _ R E1).
  - destruct (nth_error (vars s) x) as [[i|i n a|]|]; try (apply Id in E; subst s'; exact R).
    destruct (handle_of s i) as [h|]; [|discriminate]. cbn [lbind] in E.
    destruct (h =? 0); [|destruct (opened s h); [discriminate|]]; apply Id in E; subst s'; exact R.
  - destruct (nth_error (vars s) x) as [[i|i n a|]|]; apply Id in E; subst s'; exact R.
  - destruct (nth_error (vars s) x) as [[i|i n a|]|]; try (apply Id in E; subst s'; exact R).
    destruct (add_ref s i) as [s1|] eqn:E1; [|discriminate]. cbn [lbind] in E. apply Id in E. subst s'. exact (@add_real _ i _ R E1).
Qed.

Lemma run_fine : forall l s, good s -> real s -> (forall n, In (OLoad n) l -> file n <> None) ->
  (forall x n h, In (OSym x n) l -> sym h n <> None) -> exists s' bs, lrun file sym s l = LFine (s', bs).
Proof.
  induction l as [|o r IH]; intros s G R HL HS; cbn [lrun]; [eauto|].
  destruct (@step_good s o G) as (s1 & b & E & G1).
  { destruct o; try (intros []; fail); cbn [refused].
    - intros (v & j & n & _ & _ & Ei). exact (R _ _ _ _ Ei eq_refl).
    - intros (i & h & _ & _ & Es). exact (HS _ _ _ (or_introl eq_refl) Es). }
  rewrite E. cbn [lbind]. destruct (IH s1 G1) as (s2 & bs & ->).
  - apply (@step_real s o s1 b R); [|exact E]. intros n ->. apply HL. now left.
  - intros n I. apply HL. now right.
  - intros x n h I. apply (HS x). now right.
  - cbn [lbind]. eauto.
Qed.

(** Libraries and symbols that do not exist. *)
Lemma missing_library : forall s n, good s -> file n = None ->
  lrun file sym s [OLoad n; OOk (length (vars s)); ODrop (length (vars s))] = LWild /\
  exists s' bs, lrun file sym s [OLoad n; OOk (length (vars s))] = LFine (s', [SNothing; bs]) /\ bs = SBool false.
Proof.
  intros s n G F. cbn [lrun lstep]. rewrite F. cbn [lbind vars infos opened].
  rewrite nth_error_app2, Nat.sub_diag by lia. cbn [nth_error handle_of infos lbind].
  rewrite nth_error_app2, Nat.sub_diag by lia. cbn [nth_error lbind]. cbn [vars].
  rewrite nth_error_app2, Nat.sub_diag by lia. cbn [nth_error drop_ref infos].
  rewrite nth_error_app2, Nat.sub_diag by lia. cbn [nth_error close Z.eqb lbind negb].
  split; [reflexivity|]. eexists _, (SBool false). split; reflexivity.
Qed.
Lemma missing_symbol : forall s x i h n, nth_error (vars s) x = Some (VLib i) -> handle_of s i = LFine h ->
  sym h n = None -> lstep file sym s (OSym x n) = LWild.
Proof. intros s x i h n Ex Eh Es. cbn [lstep]. rewrite Ex, Eh. cbn [lbind]. now rewrite Es. Qed.
Lemma own_symbol : forall s n m a, file n = None -> sym 0 m = Some a ->
  exists s', lrun file sym s [OLoad n; OSym (length (vars s)) m; OCall (S (length (vars s)))] =
    LFine (s', [SNothing; SNothing; SCalled a]).
Proof.
  intros s n m a F Es. remember (S (length (vars s))) as k eqn:Ek. cbn [lrun lstep]. rewrite F. cbn [lbind vars infos opened].
  rewrite nth_error_app2, Nat.sub_diag by lia. cbn [nth_error handle_of infos lbind].
  rewrite nth_error_app2, Nat.sub_diag by lia. cbn [nth_error lbind]. rewrite Es. cbn [add_ref infos].
  rewrite nth_error_app2, Nat.sub_diag by lia. cbn [nth_error lbind new_var vars opened infos].
  rewrite nth_error_app2 by (rewrite app_length; cbn; lia). rewrite app_length. cbn [length].
  replace (k - (length (vars s) + 1))%nat with O by lia. cbn [nth_error handle_of new_var infos].
  rewrite (@set_at_same _ _ (length (infos s)) _ (Live n 0 1)) by (rewrite nth_error_app2, Nat.sub_diag by lia; reflexivity).
  cbn [lbind Z.eqb]. eauto.
Qed.
(** The library and the name of a function. *)
Lemma symbol_parts : forall s x i n s' b, nth_error (vars s) x = Some (VLib i) -> lstep file sym s (OSym x n) = LFine (s', b) ->
  exists a h, handle_of s i = LFine h /\ sym h n = Some a /\ nth_error (vars s') (length (vars s)) = Some (VFun i n a) /\
    lstep file sym s' (OName (length (vars s))) = LFine (s', SName n) /\
    forall s2 b2, lstep file sym s' (OLib (length (vars s))) = LFine (s2, b2) ->
      nth_error (vars s2) (S (length (vars s))) = Some (VLib i).
Proof.
  intros s x i n s' b Ex E. cbn [lstep] in E. rewrite Ex in E. destruct (handle_of s i) as [h|] eqn:Eh; [|discriminate].
  cbn [lbind] in E. destruct (sym h n) as [a|] eqn:Es; [|discriminate].
  assert (Vs : forall s i s1, add_ref s i = LFine s1 -> vars s1 = vars s).
  { intros t [j|] s1 E1; cbn [add_ref] in E1; [|now injection E1 as <-].
    destruct (nth_error (infos t) j) as [[? ? ?|]|]; try discriminate. now injection E1 as <-. }
  destruct (add_ref s i) as [s1|] eqn:E1; [|discriminate]. cbn [lbind] in E. injection E as <- <-.
  assert (W : nth_error (vars (new_var s1 (VFun i n a))) (length (vars s)) = Some (VFun i n a)).
  { cbn [new_var vars]. rewrite (Vs _ _ _ E1), nth_error_app2, Nat.sub_diag by lia. reflexivity. }
  exists a, h. split; [reflexivity|]. split; [exact Es|]. split; [exact W|]. split.
  - cbn [lstep]. now rewrite W.
  - intros s2 b2 E2. cbn [lstep] in E2. rewrite W in E2. destruct (add_ref (new_var s1 (VFun i n a)) i) as [s3|] eqn:E3; [|discriminate].
    cbn [lbind] in E2. injection E2 as <- <-. cbn [new_var vars]. rewrite (Vs _ _ _ E3). cbn [new_var vars].
    rewrite (Vs _ _ _ E1). rewrite nth_error_app2 by (rewrite app_length; cbn; lia). rewrite app_length. cbn [length].
    replace (S (length (vars s)) - (length (vars s) + 1))%nat with O by lia. reflexivity.
Qed.
End System.
