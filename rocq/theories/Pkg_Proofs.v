(** Proofs about the choice of packages (Pkg_Model.v against Pkg_Spec.v). *)
From Coq Require Import String.
From Verif Require Import Base Pkg_Model Pkg_Spec.
Open Scope nat_scope.

(** Induction over trees. *)
Fixpoint relay_ind2 (P : relay -> Prop) (Ho : forall p, P (ROne p))
  (Ha : forall l, (forall r, In r l -> P r) -> P (RAll l)) (Hp : forall l, (forall r, In r l -> P r) -> P (RPick l))
  (r : relay) {struct r} : P r :=
  let all := fix all (l : list relay) : forall x, In x l -> P x :=
    match l return forall x, In x l -> P x with
    | [] => fun x H => match H with end
    | y :: t => fun x H => match H with or_introl e => eq_ind y P (relay_ind2 Ho Ha Hp y) x e | or_intror h => all t x h end
    end in
  match r with ROne p => Ho p | RAll l => Ha l (all l) | RPick l => Hp l (all l) end.

Lemma same_spec : forall a b, same_package a b = true <-> stands_for a b.
Proof.
  intros a b. unfold same_package, stands_for. rewrite andb_true_iff, String.eqb_eq, Z.eqb_eq. tauto.
Qed.
Lemma same_refl : forall a, same_package a a = true.
Proof. intros a. apply same_spec. split; reflexivity. Qed.

Section P.
Variable found : pkg -> bool.
Variable inst : pkg -> bool.
Variable rnd : nat -> nat.
Notation add1 := (add_package found).
Notation addl := (add_list found).
Notation get := (get_relay found inst rnd).

(** A list grown from another by new packages that can be found. *)
Inductive grow (M : pkg -> Prop) (pl : list pkg) : list pkg -> Prop :=
| G0 : grow M pl pl
| G1 pl' p : grow M pl pl' -> (forall q, In q pl' -> ~ stands_for q p) -> found p = true -> M p -> grow M pl (pl' ++ [p]).

Lemma grow_weak : forall (M N : pkg -> Prop) a b, (forall p, M p -> N p) -> grow M a b -> grow N a b.
Proof. intros M N a b H G. induction G; [constructor|constructor; auto]. Qed.
Lemma grow_trans : forall M a b c, grow M a b -> grow M b c -> grow M a c.
Proof. intros M a b c G H. induction H; [exact G|constructor; auto]. Qed.
Lemma grow_app : forall M a b, grow M a b -> exists e, b = a ++ e /\ forall p, In p e -> found p = true /\ M p.
Proof.
  intros M a b G. induction G as [|b p G (e & E & H) N F Mp].
  - exists []. split; [now rewrite app_nil_r|intros p []].
  - exists (e ++ [p]). split; [subst b; now rewrite app_assoc|]. intros q [I|[<-|[]]]%in_app_or; auto.
Qed.
Lemma grow_incl : forall M a b q, grow M a b -> In q a -> In q b.
Proof. intros M a b q G I. destruct (grow_app G) as (e & -> & _). apply in_or_app. auto. Qed.
Lemma diff_snoc : forall l p, all_different l -> (forall q, In q l -> ~ stands_for q p) -> all_different (l ++ [p]).
Proof.
  unfold all_different. induction 1 as [|a l F D IH]; intros N; cbn [app].
  - constructor; constructor.
  - constructor.
    + apply Forall_app. split; [exact F|]. constructor; [apply N; now left|constructor].
    + apply IH. intros q I. apply N. now right.
Qed.
Lemma grow_diff : forall M a b, grow M a b -> all_different a -> all_different b.
Proof. intros M a b G D. induction G; [exact D|]. now apply diff_snoc. Qed.

Lemma add1_cases : forall pl p,
  (add1 pl p = Got pl /\ exists q, In q pl /\ stands_for q p) \/
  ((forall q, In q pl -> ~ stands_for q p) /\
   ((found p = true /\ add1 pl p = Got (pl ++ [p])) \/ (found p = false /\ add1 pl p = NotFound))).
Proof.
  intros pl p. unfold add_package. destruct (existsb (fun q => same_package q p) pl) eqn:E.
  - left. split; [reflexivity|]. apply existsb_exists in E. destruct E as (q & I & S1). exists q. split; [exact I|]. now apply same_spec.
  - right. split.
    + intros q I St. assert (X : existsb (fun q => same_package q p) pl = true) by
        (apply existsb_exists; exists q; split; [exact I|now apply same_spec]). congruence.
    + destruct (found p); auto.
Qed.
Lemma addl_app : forall a b pl, addl pl (a ++ b) = match addl pl a with Got x => addl x b | e => e end.
Proof.
  induction a as [|p a IH]; intros b pl; cbn [app add_list]; [reflexivity|].
  destruct (add1 pl p); [apply IH|reflexivity..].
Qed.
Lemma addl_incl : forall l pl, incl l pl -> addl pl l = Got pl.
Proof.
  induction l as [|p l IH]; intros pl I; cbn [add_list]; [reflexivity|].
  destruct (add1_cases pl p) as [[-> _]|[N _]].
  - apply IH. intros q H. apply I. now right.
  - exfalso. apply (N p); [apply I; now left|split; reflexivity].
Qed.
Lemma addl_grow : forall M pl c, grow M pl c -> addl pl c = Got c.
Proof.
  intros M pl c G. induction G as [|c p G IH N F Mp]; [apply addl_incl, incl_refl|].
  rewrite addl_app, IH. cbn [add_list]. destruct (add1_cases c p) as [[_ (q & I & St)]|[_ [[_ ->]|[F' _]]]]; [|reflexivity|congruence].
  exfalso. now apply (N q).
Qed.

(** The two loops over the branches of a tree. *)
Fixpoint all_go (l : list relay) (pl : list pkg) (k : nat) : pout (list pkg) * nat :=
  match l with
  | [] => (Got pl, k)
  | r1 :: rest => match get r1 pl k with (Got pl1, k1) => all_go rest pl1 k1 | e => e end
  end.
Fixpoint alts (pl : list pkg) (l : list relay) (k : nat) : pout (list (list pkg)) * nat :=
  match l with
  | [] => (Got [], k)
  | r1 :: rest =>
    match get r1 pl k with
    | (Got c, k1) => match alts pl rest k1 with (Got cs, k2) => (Got (c :: cs), k2) | e => e end
    | (NotFound, k1) => alts pl rest k1
    | (NoPick, k1) => (NoPick, k1)
    | (Undef, k1) => (Undef, k1)
    end
  end.
Lemma get_all : forall l pl k, get (RAll l) pl k = all_go l pl k.
Proof.
  intros l pl k. cbn [get_relay]. revert pl k. induction l as [|r l IH]; intros pl k; cbn [all_go]; [reflexivity|].
  destruct (get r pl k) as [[?| | |] ?]; [apply IH|reflexivity..].
Qed.
Lemma get_pick : forall l pl k, get (RPick l) pl k =
  match alts pl l k with
  | (Got cs, k1) => pick_from found inst rnd pl cs k1
  | (NotFound, k1) => (NotFound, k1) | (NoPick, k1) => (NoPick, k1) | (Undef, k1) => (Undef, k1)
  end.
Proof.
  intros l pl k. cbn [get_relay].
  set (f := fix alts (l : list relay) (k : nat) {struct l} := _).
  assert (E : f l k = alts pl l k).
  { revert k. induction l as [|r l IH]; intros k; [reflexivity|]. change (f (r :: l) k) with
      (match get r pl k with
       | (Got c, k1) => match f l k1 with (Got cs, k2) => (Got (c :: cs), k2) | e => e end
       | (NotFound, k1) => f l k1 | (NoPick, k1) => (NoPick, k1) | (Undef, k1) => (Undef, k1) end).
    cbn [alts]. destruct (get r pl k) as [[?| | |] k1]; [|apply IH|reflexivity..]. now rewrite IH. }
  rewrite E. destruct (alts pl l k) as [[?| | |] ?]; reflexivity.
Qed.

(** Choosing. *)
Lemma min_fold : forall ls a,
  (fold_left (fun m l => if Nat.ltb (length l) m then length l else m) ls a <= a /\
  forall l : list pkg, In l ls -> fold_left (fun m l => if Nat.ltb (length l) m then length l else m) ls a <= length l) /\
  (fold_left (fun m l => if Nat.ltb (length l) m then length l else m) ls a = a \/
   exists l, In l ls /\ length l = fold_left (fun m l => if Nat.ltb (length l) m then length l else m) ls a).
Proof.
  induction ls as [|x ls IH]; intros a; cbn [fold_left].
  - split; [split; [lia|intros l []]|now left].
  - set (b := if Nat.ltb (length x) a then length x else a).
    assert (Hb : b <= a /\ b <= length x /\ (b = a \/ b = length x)).
    { unfold b. destruct (Nat.ltb_spec (length x) a); lia. }
    destruct (IH b) as [[A B] C]. split; [split; [lia|]|].
    + intros l [<-|I]; [lia|]. now apply B.
    + destruct C as [C|(l & I & C)].
      * destruct Hb as (_ & _ & [E|E]); [left; congruence|]. right. exists x. split; [now left|congruence].
      * right. exists l. split; [now right|exact C].
Qed.
Lemma min_size_le : forall ls l, In l ls -> min_size ls <= length l.
Proof. intros ls l I. unfold min_size. apply (proj2 (proj1 (min_fold ls (length (hd [] ls))))), I. Qed.
Lemma min_size_in : forall ls, ls <> [] -> exists l, In l ls /\ length l = min_size ls.
Proof.
  intros [|x ls] H; [easy|]. unfold min_size. destruct (proj2 (min_fold (x :: ls) (length (hd [] (x :: ls))))) as [E|E]; [|exact E].
  exists x. split; [now left|]. now rewrite E.
Qed.
Lemma max_fold : forall ls a,
  a <= fold_left (fun m l => if Nat.ltb m (installed inst l) then installed inst l else m) ls a /\
  forall l : list pkg, In l ls -> installed inst l <= fold_left (fun m l => if Nat.ltb m (installed inst l) then installed inst l else m) ls a.
Proof.
  induction ls as [|x ls IH]; intros a; cbn [fold_left]; [split; [lia|intros l []]|].
  set (b := if Nat.ltb a (installed inst x) then installed inst x else a).
  assert (Hb : a <= b /\ installed inst x <= b). { unfold b. destruct (Nat.ltb_spec a (installed inst x)); lia. }
  destruct (IH b) as [A B]. split; [lia|]. intros l [<-|I]; [lia|]. now apply B.
Qed.
Lemma max_le : forall ls l, In l ls -> installed inst l <= max_installed inst ls.
Proof. intros ls l I. apply (proj2 (max_fold ls 0)), I. Qed.
Lemma erase_none : forall counts m i ls, nth i counts 0 <> m -> erase_loop counts m i ls = [].
Proof.
  intros counts m i ls H. induction ls as [|l ls IH]; cbn [erase_loop]; [reflexivity|].
  destruct (Nat.eqb_spec (nth i counts 0) m) as [E|E]; [congruence|exact IH].
Qed.
Lemma erase_ok : forall m ls pre c,
  In c (erase_loop (map (installed inst) (pre ++ ls)) m (length pre) ls) -> In c ls /\ installed inst c = m.
Proof.
  intros m. induction ls as [|l ls IH]; intros pre c; cbn [erase_loop]; [intros []|].
  assert (E : nth (length pre) (map (installed inst) (pre ++ l :: ls)) 0 = installed inst l).
  { rewrite map_app, app_nth2; rewrite map_length; [|lia]. now rewrite Nat.sub_diag. }
  destruct (Nat.eqb_spec (nth (length pre) (map (installed inst) (pre ++ l :: ls)) 0) m) as [H|H].
  - intros [<-|I]; [split; [now left|congruence]|]. replace (pre ++ l :: ls) with ((pre ++ [l]) ++ ls) in I by now rewrite <- app_assoc.
    replace (S (length pre)) with (length (pre ++ [l])) in I by (rewrite app_length; cbn; lia).
    destruct (IH _ _ I). split; [now right|assumption].
  - rewrite erase_none by exact H. intros [].
Qed.
Lemma erase_all : forall m ls pre, (forall c, In c ls -> installed inst c = m) ->
  erase_loop (map (installed inst) (pre ++ ls)) m (length pre) ls = ls.
Proof.
  intros m. induction ls as [|l ls IH]; intros pre H; cbn [erase_loop]; [reflexivity|].
  assert (E : nth (length pre) (map (installed inst) (pre ++ l :: ls)) 0 = installed inst l).
  { rewrite map_app, app_nth2; rewrite map_length; [|lia]. now rewrite Nat.sub_diag. }
  rewrite E, (H l) by now left. rewrite Nat.eqb_refl. f_equal.
  replace (pre ++ l :: ls) with ((pre ++ [l]) ++ ls) by now rewrite <- app_assoc.
  replace (S (length pre)) with (length (pre ++ [l])) by (rewrite app_length; cbn; lia).
  apply IH. intros c I. apply H. now right.
Qed.

Lemma pick_facts : forall M pl ls k o k', (forall c, In c ls -> grow M pl c) ->
  pick_from found inst rnd pl ls k = (o, k') ->
  (exists c, o = Got c /\ In c ls /\ (forall d, In d ls -> length c <= length d) /\
     forall d, In d ls -> length d = length c -> installed inst d <= installed inst c) \/
  (o = NoPick /\ ls = []) \/
  (o = Undef /\ ls <> [] /\ exists a b, In a ls /\ In b ls /\ length a = length b /\ installed inst a <> installed inst b).
Proof.
  intros M pl ls k o k' HG. unfold pick_from. destruct ls as [|l0 lr] eqn:EL; [intros [= <- _]; right; left; auto|].
  rewrite <- EL in *. assert (NE : ls <> []) by congruence. clear l0 lr EL.
  set (l1 := of_size (min_size ls) ls).
  assert (H1 : forall c, In c l1 <-> In c ls /\ length c = min_size ls).
  { intros c. unfold l1, of_size. rewrite filter_In, Nat.eqb_eq. reflexivity. }
  set (l2 := if Nat.eqb (length l1) 1 then l1 else _).
  assert (H2 : forall c, In c l2 -> In c l1 /\ forall d, In d l1 -> installed inst d <= installed inst c).
  { intros c. unfold l2. destruct (Nat.eqb_spec (length l1) 1) as [E|E].
    - destruct l1 as [|x [|]]; try discriminate E. intros I. split; [exact I|]. intros d [<-|[]]. destruct I as [<-|[]]. lia.
    - intros I. apply (@erase_ok (max_installed inst l1) l1 [] c) in I. destruct I as [I ->]. split; [exact I|]. apply max_le. }
  destruct l2 as [|x2 r2] eqn:E2; [|rewrite <- E2 in *].
  - intros [= <- _]. right. right. split; [reflexivity|]. split; [exact NE|].
    destruct (min_size_in NE) as (a & Ia & La). assert (Ja : In a l1) by now apply H1.
    destruct (existsb (fun d => negb (Nat.eqb (installed inst d) (installed inst a))) l1) eqn:Ex.
    + apply existsb_exists in Ex. destruct Ex as (b & Ib & Nb). apply negb_true_iff, Nat.eqb_neq in Nb.
      exists a, b. apply H1 in Ib. destruct Ib as [Ib Lb]. repeat split; try assumption; congruence.
    + exfalso.
      assert (U : forall d, In d l1 -> installed inst d = installed inst a).
      { intros d Id. destruct (Nat.eq_dec (installed inst d) (installed inst a)) as [e|n]; [exact e|].
        assert (X : existsb (fun d => negb (Nat.eqb (installed inst d) (installed inst a))) l1 = true)
          by (apply existsb_exists; exists d; split; [exact Id|now apply negb_true_iff, Nat.eqb_neq]). congruence. }
      unfold l2 in E2. destruct (Nat.eqb_spec (length l1) 1) as [L|L]; [rewrite E2 in Ja; destruct Ja|].
      assert (Mx : max_installed inst l1 = installed inst a).
      { apply Nat.le_antisymm; [|now apply max_le]. unfold max_installed.
        assert (G : forall s v, (forall d, In d s -> installed inst d = installed inst a) -> v <= installed inst a ->
          fold_left (fun m l => if Nat.ltb m (installed inst l) then installed inst l else m) s v <= installed inst a).
        { induction s as [|x s IH]; intros v Hs Hv; cbn [fold_left]; [exact Hv|].
          apply IH; [intros d I; apply Hs; now right|]. rewrite (Hs x) by (now left). destruct (Nat.ltb v (installed inst a)); lia. }
        apply G; [exact U|lia]. }
      pose proof (@erase_all (max_installed inst l1) l1 []) as EA. cbn [app length] in EA. rewrite EA in E2.
      * rewrite E2 in Ja. destruct Ja.
      * intros c Ic. rewrite Mx. now apply U.
  - set (c := nth (Nat.modulo (rnd k) (length l2)) l2 []).
    assert (Ic : In c l2). { apply nth_In. apply Nat.mod_upper_bound. rewrite E2. cbn. lia. }
    destruct (H2 c Ic) as [I1 X]. destruct (proj1 (H1 c) I1) as [I0 Lc].
    rewrite (addl_grow (HG c I0)). intros [= <- _]. left. exists c. split; [reflexivity|]. split; [exact I0|]. split.
    + intros d Id. rewrite Lc. now apply min_size_le.
    + intros d Id Ld. apply X, H1. split; [exact Id|congruence].
Qed.

(** The lists that the alternatives give. *)
Lemma alts_in : forall pl l k cs k', alts pl l k = (Got cs, k') ->
  forall c, In c cs -> exists r k1 k2, In r l /\ get r pl k1 = (Got c, k2).
Proof.
  intros pl. induction l as [|r l IH]; intros k cs k' E c I; cbn [alts] in E.
  - injection E as <- _. destruct I.
  - destruct (get r pl k) as [[d| | |] k1] eqn:G; try discriminate E.
    + destruct (alts pl l k1) as [[ds| | |] k2] eqn:A; try discriminate E. injection E as <- _.
      destruct I as [<-|I]; [exists r, k, k1; split; [now left|exact G]|].
      destruct (IH _ _ _ A c I) as (r' & a & b & J & H). exists r', a, b. split; [now right|exact H].
    + destruct (IH _ _ _ E c I) as (r' & a & b & J & H). exists r', a, b. split; [now right|exact H].
Qed.
Lemma enough_more : forall L L' r, (forall q, In q L -> In q L') -> enough L r -> enough L' r.
Proof.
  intros L L' r H. induction r as [p|l IH|l IH] using relay_ind2; intros E; inversion E; subst.
  - econstructor; eauto.
  - constructor. intros r I. apply IH; auto.
  - eapply E_pick; eauto.
Qed.
Lemma sound : forall r pl k pl' k', get r pl k = (Got pl', k') -> grow (mentions r) pl pl' /\ enough pl' r.
Proof.
  induction r as [p|l IH|l IH] using relay_ind2; intros pl k pl' k' E.
  - cbn [get_relay] in E. injection E as E _.
    destruct (add1_cases pl p) as [[A (q & I & St)]|[N [[F A]|[F A]]]]; rewrite A in E; try discriminate E; injection E as <-.
    + split; [constructor|]. econstructor; eauto.
    + split; [constructor; [constructor|exact N|exact F|constructor]|]. apply E_one with p; [apply in_or_app; right; now left|split; reflexivity].
  - rewrite get_all in E.
    assert (X : forall l0 pl k, (forall r, In r l0 -> In r l) -> all_go l0 pl k = (Got pl', k') ->
              grow (mentions (RAll l)) pl pl' /\ forall r, In r l0 -> enough pl' r).
    { clear E pl k. induction l0 as [|r l0 IH0]; intros pl k Sub E; cbn [all_go] in E.
      - injection E as <- _. split; [constructor|intros r []].
      - destruct (get r pl k) as [[pl1| | |] k1] eqn:G; try discriminate E.
        assert (Ir : In r l) by (apply Sub; now left).
        destruct (IH r Ir _ _ _ _ G) as [G1 E1]. destruct (IH0 pl1 k1) as [G2 E2]; [intros x Hx; apply Sub; now right|exact E|].
        split.
        + eapply grow_trans; [|exact G2]. eapply grow_weak; [|exact G1]. intros q M. now apply M_all with r.
        + intros x [<-|Ix]; [|now apply E2]. apply (enough_more (L := pl1)); [|exact E1]. intros q Hq. now apply (grow_incl G2). }
    destruct (X l pl k) as [G H]; [auto|exact E|]. split; [exact G|]. now constructor.
  - rewrite get_pick in E. destruct (alts pl l k) as [[cs| | |] k1] eqn:A; try discriminate E.
    assert (HG : forall c, In c cs -> grow (mentions (RPick l)) pl c /\ enough c (RPick l)).
    { intros c I. destruct (alts_in A I) as (r & a & b & J & H). destruct (IH r J _ _ _ _ H) as [G1 E1].
      split; [|now apply E_pick with r]. eapply grow_weak; [|exact G1]. intros q M. now apply M_pick with r. }
    destruct (@pick_facts (mentions (RPick l)) pl _ _ _ _ (fun c I => proj1 (HG c I)) E) as [(c & [= ->] & I & _)|[[[=] _]|[[=] _]]].
    now apply HG.
Qed.

(** Trees without alternatives take no numbers and are met whenever they can be. *)
Lemma plain_same : forall r, plain r -> forall pl, exists o, forall k, get r pl k = (o, k).
Proof.
  induction r as [p|l IH|l IH] using relay_ind2; intros P pl; inversion P; subst.
  - exists (add1 pl p). reflexivity.
  - assert (X : forall l0 pl, (forall r, In r l0 -> In r l) -> exists o, forall k, all_go l0 pl k = (o, k)).
    { clear pl. induction l0 as [|r l0 IH0]; intros pl Sub; [exists (Got pl); reflexivity|].
      assert (Ir : In r l) by (apply Sub; now left).
      destruct (IH r Ir (H0 r Ir) pl) as [o Ho]. destruct o as [pl1| | |].
      - destruct (IH0 pl1) as [o1 H1]; [intros x Hx; apply Sub; now right|]. exists o1. intros k. cbn [all_go]. rewrite Ho. apply H1.
      - exists NotFound. intros k. cbn [all_go]. now rewrite Ho.
      - exists NoPick. intros k. cbn [all_go]. now rewrite Ho.
      - exists Undef. intros k. cbn [all_go]. now rewrite Ho. }
    destruct (X l pl) as [o Ho]; [auto|]. exists o. intros k. rewrite get_all. apply Ho.
Qed.
Lemma plain_ends : forall r, plain r -> forall pl k, (exists c, get r pl k = (Got c, k)) \/ get r pl k = (NotFound, k).
Proof.
  induction r as [p|l IH|l IH] using relay_ind2; intros P pl k; inversion P; subst.
  - cbn [get_relay]. destruct (add1_cases pl p) as [[-> _]|[_ [[_ ->]|[_ ->]]]]; eauto.
  - rewrite get_all. assert (X : forall l0 pl, (forall r, In r l0 -> In r l) ->
      (exists c, all_go l0 pl k = (Got c, k)) \/ all_go l0 pl k = (NotFound, k)).
    { clear pl. induction l0 as [|r l0 IH0]; intros pl Sub; [left; exists pl; reflexivity|].
      assert (Ir : In r l) by (apply Sub; now left). cbn [all_go].
      destruct (IH r Ir (H0 r Ir) pl k) as [[c ->]| ->]; [|now right]. apply IH0. intros x Hx; apply Sub; now right. }
    now apply X.
Qed.
Lemma met_more : forall L L' r, (forall q, In q L -> In q L') -> can_be_met found L r -> can_be_met found L' r.
Proof.
  intros L L' r H. induction r as [p|l IH|l IH] using relay_ind2; intros E; inversion E; subst.
  - eapply B_have; eauto.
  - now apply B_find.
  - constructor. intros r I. apply IH; auto.
  - eapply B_pick; eauto.
Qed.
Lemma plain_met : forall r, plain r -> forall pl k, can_be_met found pl r -> exists c, get r pl k = (Got c, k).
Proof.
  induction r as [p|l IH|l IH] using relay_ind2; intros P pl k B; inversion P; subst.
  - cbn [get_relay]. destruct (add1_cases pl p) as [[-> _]|[N [[_ ->]|[F ->]]]]; eauto.
    exfalso. inversion B; subst; [|congruence]. eapply N; eauto.
  - rewrite get_all. inversion B; subst. clear B P.
    assert (X : forall l0 pl, (forall r, In r l0 -> In r l) -> (forall r, In r l0 -> can_be_met found pl r) -> exists c, all_go l0 pl k = (Got c, k)).
    { clear H1 pl. induction l0 as [|r l0 IH0]; intros pl Sub B; [exists pl; reflexivity|].
      assert (Ir : In r l) by (apply Sub; now left). cbn [all_go].
      destruct (IH r Ir (H0 r Ir) pl k (B r (or_introl eq_refl))) as [c E]. rewrite E.
      destruct (sound E) as [G _]. apply IH0; [intros x Hx; apply Sub; now right|].
      intros x Hx. apply (met_more (L := pl)); [intros q Hq; now apply (grow_incl G)|]. apply B. now right. }
    now apply X.
Qed.
Lemma alts_plain : forall pl l k, (forall r, In r l -> plain r) -> exists cs, alts pl l k = (Got cs, k) /\
  forall r c k1 k2, In r l -> get r pl k1 = (Got c, k2) -> In c cs.
Proof.
  intros pl. induction l as [|r l IH]; intros k P; [exists []; split; [reflexivity|intros r c k1 k2 []]|].
  destruct (IH k) as (cs & E & H); [intros x I; apply P; now right|].
  destruct (plain_same (P r (or_introl eq_refl)) pl) as [o Ho]. cbn [alts].
  destruct (plain_ends (P r (or_introl eq_refl)) pl k) as [[c G]|G]; rewrite G, E.
  - exists (c :: cs). split; [reflexivity|]. intros x d k1 k2 [<-|I] D; [|right; now apply H with x k1 k2].
    rewrite Ho in G, D. left. congruence.
  - exists cs. split; [reflexivity|]. intros x d k1 k2 [<-|I] D; [|now apply H with x k1 k2].
    rewrite Ho in G, D. congruence.
Qed.
Lemma flat_met : forall r, flat r -> forall pl k, can_be_met found pl r ->
  (exists c k', get r pl k = (Got c, k')) \/ (exists k', get r pl k = (Undef, k')) /\ exists a b, inst a <> inst b.
Proof.
  induction r as [p|l IH|l IH] using relay_ind2; intros P pl k B; inversion P; subst.
  - left. destruct (@plain_met (ROne p) (P_one p) pl k B) as [c E]. eauto.
  - rewrite get_all. inversion B; subst. clear B P.
    assert (X : forall l0 pl k, (forall r, In r l0 -> In r l) -> (forall r, In r l0 -> can_be_met found pl r) ->
      (exists c k', all_go l0 pl k = (Got c, k')) \/ (exists k', all_go l0 pl k = (Undef, k')) /\ exists a b, inst a <> inst b).
    { clear H1 pl k. induction l0 as [|r l0 IH0]; intros pl k Sub B; [left; exists pl, k; reflexivity|].
      assert (Ir : In r l) by (apply Sub; now left). cbn [all_go].
      destruct (IH r Ir (H0 r Ir) pl k (B r (or_introl eq_refl))) as [(c & k1 & E)|[(k1 & E) U]]; rewrite E; [|right; eauto].
      destruct (sound E) as [G _]. apply IH0; [intros x Hx; apply Sub; now right|].
      intros x Hx. apply (met_more (L := pl)); [intros q Hq; now apply (grow_incl G)|]. apply B. now right. }
    now apply X.
  - rewrite get_pick. destruct (@alts_plain pl l k H0) as (cs & E & H). rewrite E.
    assert (NE : cs <> []).
    { inversion B; subst. destruct (plain_met (H0 r H2) k H3) as [c C]. intros ->. exact (H r c k k H2 C). }
    assert (HG : forall c, In c cs -> grow (fun _ => True) pl c).
    { intros c I. destruct (alts_in E I) as (r & a & b & J & D). destruct (sound D) as [G _]. now apply (grow_weak (M := mentions r)). }
    destruct (pick_from found inst rnd pl cs k) as [o k'] eqn:PF.
    destruct (pick_facts HG PF) as [(c & -> & _)|[[_ ?]|(-> & _ & a & b & _ & _ & L & D)]]; [eauto|contradiction|].
    right. split; [eauto|].
    (* the numbers of installed packages differ, so some package differs *)
    assert (Y : forall u v : list pkg, length u = length v -> length (filter inst u) <> length (filter inst v) -> exists x y, inst x <> inst y).
    { clear. induction u as [|x u IHu]; intros [|y v] Lu N; try discriminate Lu; [now destruct N|]. cbn [filter] in N. injection Lu as Lu.
      destruct (inst x) eqn:Ex, (inst y) eqn:Ey; cbn [length] in N.
      - apply (IHu v Lu). lia.
      - exists x, y. congruence.
      - exists x, y. congruence.
      - now apply (IHu v Lu). }
    exact (Y a b L D).
Qed.
(** Among plain alternatives the chosen list is a smallest one, and among those of its
    size one with the most packages installed. *)
Lemma best : forall l pl k pl' k', (forall r, In r l -> plain r) -> get (RPick l) pl k = (Got pl', k') ->
  forall r c k1 k2, In r l -> get r pl k1 = (Got c, k2) ->
  length pl' <= length c /\ (length c = length pl' -> how_many inst c <= how_many inst pl').
Proof.
  intros l pl k pl' k' P E r c k1 k2 I C. rewrite get_pick in E. destruct (@alts_plain pl l k P) as (cs & A & H). rewrite A in E.
  assert (HG : forall c, In c cs -> grow (fun _ => True) pl c).
  { intros d J. destruct (alts_in A J) as (x & a & b & Jx & D). destruct (sound D) as [G _]. now apply (grow_weak (M := mentions x)). }
  destruct (pick_facts HG E) as [(d & [= ->] & J & L & M)|[[[=] _]|[[=] _]]].
  pose proof (H r c k1 k2 I C) as Ic. split; [now apply L|]. intros Q. now apply M.
Qed.
(** Two new packages of which only the second is installed. *)
Lemma second_installed : forall a b pl k, ~ In (pname a, pmajor a) (map (fun q => (pname q, pmajor q)) pl) ->
  ~ In (pname b, pmajor b) (map (fun q => (pname q, pmajor q)) pl) ->
  found a = true -> found b = true -> inst a = false -> inst b = true -> fst (get (RPick [ROne a; ROne b]) pl k) = Undef.
Proof.
  intros a b pl k Na Nb Fa Fb Ia Ib. rewrite get_pick. cbn [alts get_relay].
  assert (X : forall p, ~ In (pname p, pmajor p) (map (fun q => (pname q, pmajor q)) pl) -> found p = true -> add1 pl p = Got (pl ++ [p])).
  { intros p N F. destruct (add1_cases pl p) as [[_ (q & I & S1 & S2)]|[_ [[_ E]|[E _]]]]; [|exact E|congruence].
    exfalso. apply N, in_map_iff. exists q. split; [congruence|exact I]. }
  rewrite (X a Na Fa), (X b Nb Fb). unfold pick_from.
  assert (M : min_size [pl ++ [a]; pl ++ [b]] = S (length pl)).
  { unfold min_size. cbn [fold_left hd]. rewrite !app_length. cbn [length]. rewrite !Nat.add_1_r, !Nat.ltb_irrefl. reflexivity. }
  rewrite M. unfold of_size. cbn [filter]. rewrite !app_length. cbn [length]. rewrite !Nat.add_1_r, !Nat.eqb_refl. cbn [length Nat.eqb map].
  assert (Ca : installed inst (pl ++ [a]) = installed inst pl).
  { unfold installed. rewrite filter_app. cbn [filter]. rewrite Ia. now rewrite app_nil_r. }
  assert (Cb : installed inst (pl ++ [b]) = S (installed inst pl)).
  { unfold installed. rewrite filter_app. cbn [filter]. rewrite Ib, app_length. cbn [length]. lia. }
  rewrite erase_none; [reflexivity|]. cbn [nth]. unfold max_installed. cbn [fold_left]. rewrite Ca, Cb.
  destruct (Nat.ltb_spec 0 (installed inst pl)); destruct (Nat.ltb_spec (installed inst pl) (S (installed inst pl))); try lia.
  destruct (Nat.ltb_spec 0 (S (installed inst pl))); lia.
Qed.
Lemma old_minor : forall p q pl k, In q pl -> stands_for q p -> get (ROne p) pl k = (Got pl, k).
Proof.
  intros p q pl k I St. cbn [get_relay]. destruct (add1_cases pl p) as [[-> _]|[N _]]; [reflexivity|]. exfalso. now apply (N q).
Qed.
(** What a load list is. *)
Lemma load_ok : forall r L, load_list found inst rnd r = Got L ->
  enough L r /\ all_different L /\ forall p, In p L -> found p = true /\ mentions r p.
Proof.
  intros r L E. unfold load_list in E. destruct (get r [] 0) as [o k] eqn:G. cbn [fst] in E. subst o.
  destruct (sound G) as [Gr En]. split; [exact En|]. split.
  - apply (grow_diff Gr). constructor.
  - destruct (grow_app Gr) as (e & -> & H). exact H.
Qed.
Lemma grown_ok : forall r pl k pl' k', get r pl k = (Got pl', k') -> exists e, pl' = pl ++ e /\ enough pl' r /\
  (all_different pl -> all_different pl') /\ forall p, In p e -> found p = true /\ mentions r p.
Proof.
  intros r pl k pl' k' E. destruct (sound E) as [Gr En]. destruct (grow_app Gr) as (e & Q & H).
  exists e. repeat split; try assumption; try (now apply H). intros D. now apply (grow_diff Gr).
Qed.
End P.
