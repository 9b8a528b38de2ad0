(** Proofs about copy-on-write handles (C36). *)
From Verif Require Import Base Ref_Model Cow_Model Cow_Spec.
From Verif Require Import Ref_Proofs.
Local Open Scope nat_scope.

Section Proofs.
Variable T : Type.
Variable def : T.
Variable eqb : T -> T -> bool.
Notation cow := (cow T).
Notation cop := (cop T).

Definition odec (x y : option nat) : {x = y} + {x <> y}.
Proof. decide equality. apply Nat.eq_dec. Defined.
Definition cntv (l : list (option nat)) (o : nat) : nat := count_occ odec l (Some o).
Definition eq1 (a : option nat) (o : nat) : nat := if odec a (Some o) then 1 else 0.

Lemma eq1_same : forall o, eq1 (Some o) o = 1.
Proof. intros. unfold eq1. destruct (odec (Some o) (Some o)); congruence. Qed.
Lemma eq1_diff : forall p o, p <> o -> eq1 (Some p) o = 0.
Proof. intros. unfold eq1. destruct (odec (Some p) (Some o)); congruence. Qed.
Lemma eq1_none : forall o, eq1 None o = 0.
Proof. reflexivity. Qed.

Lemma cntv_upd : forall l i a a' o, nth_error l i = Some a -> cntv (upd l i a') o + eq1 a o = cntv l o + eq1 a' o.
Proof.
  unfold cntv, eq1. induction l as [|b l IH]; intros [|i] a a' o H; cbn in *; try discriminate.
  - injection H as ->. destruct (odec a (Some o)), (odec a' (Some o)); lia.
  - specialize (IH i a a' o H). destruct (odec b (Some o)); lia.
Qed.
Lemma cntv_snoc : forall l a o, cntv (l ++ [a]) o = cntv l o + eq1 a o.
Proof. intros. unfold cntv, eq1. rewrite count_occ_app. cbn. destruct (odec a (Some o)); lia. Qed.
Lemma cntv_pos : forall l i o, nth_error l i = Some (Some o) -> cntv l o > 0.
Proof. intros. unfold cntv. apply count_occ_In. eapply nth_error_In; eauto. Qed.
Lemma cntv_two : forall l i k o, i <> k -> nth_error l i = Some (Some o) -> nth_error l k = Some (Some o) -> cntv l o > 1.
Proof.
  intros l i k o N Hi Hk. pose proof (@cntv_upd l i (Some o) None o Hi) as E. rewrite eq1_same, eq1_none in E.
  assert (nth_error (upd l i None) k = Some (Some o)).
  { rewrite nth_upd. apply not_eq_sym, Nat.eqb_neq in N. rewrite N. auto. }
  apply cntv_pos in H. lia.
Qed.
Lemma cntv_zero : forall l o, (forall i, nth_error l i <> Some (Some o)) -> cntv l o = 0.
Proof.
  intros l o H. unfold cntv. apply count_occ_not_In. intros A. apply In_nth_error in A. destruct A as [i A]. apply (H i A).
Qed.

Lemma getB_nth : forall (b : list (option (nat * T))) o x, getB b o = Some x -> nth_error b o = Some (Some x).
Proof. intros b o x. unfold getB. destruct (nth_error b o) as [[y|]|]; congruence. Qed.
Lemma getB_lt : forall (b : list (option (nat * T))) o x, getB b o = Some x -> o < length b.
Proof. intros b o x H. apply getB_nth in H. apply nth_error_Some. congruence. Qed.
Lemma getB_upd : forall (b : list (option (nat * T))) o c p, o < length b -> getB (upd b o c) p = if Nat.eqb p o then c else getB b p.
Proof.
  intros b o c p H. unfold getB. rewrite nth_upd. destruct (Nat.eqb p o) eqn:E; auto.
  apply Nat.ltb_lt in H. rewrite H. destruct c; auto.
Qed.
Lemma getB_snoc : forall (b : list (option (nat * T))) x p, getB (b ++ [Some x]) p = if Nat.eqb p (length b) then Some x else getB b p.
Proof. intros b x p. unfold getB. rewrite nth_snoc. destruct (Nat.eqb p (length b)); auto. Qed.

Definition Wk (s : cow) : Prop :=
  (forall p n v, getB (bl s) p = Some (n, v) -> n = cntv (vs s) p) /\
  (forall i p, nth_error (vs s) i = Some (Some p) -> exists x, getB (bl s) p = Some x).
Definition CI (s : cow) : Prop := Wk s /\ (forall p n v, getB (bl s) p = Some (n, v) -> n > 0).

Lemma blk_nth : forall (s : cow) i o, blk_of s i = Some o <-> nth_error (vs s) i = Some (Some o).
Proof. intros. unfold blk_of. destruct (nth_error (vs s) i) as [[x|]|]; split; congruence. Qed.

(** Redirecting a handle to a block. *)
Lemma set_block_ok : forall (s : cow) i o old n v, Wk s ->
  (forall p n v, p <> o -> getB (bl s) p = Some (n, v) -> n > 0) ->
  nth_error (vs s) i = Some (Some old) -> getB (bl s) o = Some (n, v) ->
  exists s', set_block s i o = Some s' /\ CI s' /\ vs s' = upd (vs s) i (Some o) /\
    (forall k, seen s' k = if Nat.eqb k i then Some v else seen s k).
Proof.
  intros s i o old n v [W1 W2] P Hi Ho.
  pose proof (getB_lt Ho) as Lo. destruct (W2 _ _ Hi) as [[m w] Hold]. pose proof (getB_lt Hold) as Lold.
  pose proof (W1 _ _ _ Ho) as En. pose proof (W1 _ _ _ Hold) as Em. pose proof (cntv_pos Hi) as Pm.
  assert (Hib : blk_of s i = Some old) by (apply blk_nth; auto).
  set (b1 := upd (bl s) o (Some (S n, v))).
  assert (Lb1 : length b1 = length (bl s)) by apply upd_length.
  assert (Gold : getB b1 old = Some (if Nat.eqb old o then (S n, v) else (m, w))).
  { unfold b1. rewrite getB_upd by auto. destruct (Nat.eqb old o); auto. }
  assert (Hmn : old = o -> m = n /\ w = v) by (intros ->; rewrite Ho in Hold; injection Hold; auto).
  set (c := if Nat.eqb old o then (S n, v) else (m, w)) in *.
  assert (Ec : fst c = if Nat.eqb old o then S n else m) by (unfold c; destruct (Nat.eqb old o); auto).
  assert (Evc : snd c = if Nat.eqb old o then v else w) by (unfold c; destruct (Nat.eqb old o); auto).
  destruct c as [q z] eqn:Eqc. cbn [fst snd] in Ec, Evc.
  destruct q as [|q]; [destruct (Nat.eqb old o); lia|].
  set (b2 := upd b1 old (if Nat.eqb q 0 then None else Some (q, z))).
  exists (mkCow b2 (upd (vs s) i (Some o))). split.
  { unfold set_block. rewrite Hib. cbn [obind]. unfold badd. rewrite Ho. cbn [obind]. fold b1. unfold bcut. rewrite Gold. reflexivity. }
  assert (G2 : forall p, getB b2 p = if Nat.eqb p old then (if Nat.eqb q 0 then None else Some (q, z))
                                     else if Nat.eqb p o then Some (S n, v) else getB (bl s) p).
  { intros p. unfold b2. rewrite getB_upd by lia. unfold b1. rewrite getB_upd by auto. auto. }
  assert (HC : forall p, cntv (upd (vs s) i (Some o)) p + eq1 (Some old) p = cntv (vs s) p + eq1 (Some o) p).
  { intros p. apply cntv_upd; auto. }
  assert (Hq0 : q = 0 -> old <> o /\ m = 1).
  { intros ->. destruct (Nat.eqb_spec old o) as [E|E]; [|split; auto; lia]. destruct (Hmn E). lia. }
  assert (Hkeep : forall k p, k <> i -> nth_error (vs s) k = Some (Some p) -> exists x, getB b2 p = Some x).
  { intros k p Nk Hk. rewrite G2. destruct (Nat.eqb_spec p old) as [->|N].
    - destruct (Nat.eqb_spec q 0) as [E|E]; [|eauto]. destruct (Hq0 E) as [_ E1].
      pose proof (cntv_two Nk Hk Hi). lia.
    - destruct (Nat.eqb p o); [eauto|]. apply (W2 _ _ Hk). }
  assert (Go : exists n', getB b2 o = Some (n', v)).
  { rewrite G2. destruct (Nat.eqb_spec o old) as [E|E].
    - destruct (Nat.eqb_spec q 0) as [Q|Q]; [destruct (Hq0 Q); congruence|]. rewrite <- E, Nat.eqb_refl in Evc. subst z. eauto.
    - rewrite Nat.eqb_refl. eauto. }
  split; [split; [split|]|split; [reflexivity|]]; cbn [bl vs].
  - intros p n' v' Hp. specialize (HC p). rewrite G2 in Hp. destruct (Nat.eqb_spec p old) as [->|N].
    + destruct (Nat.eqb q 0); [discriminate|]. injection Hp as <- <-. rewrite eq1_same in HC.
      destruct (Nat.eqb_spec old o) as [E|E].
      * rewrite E, eq1_same in HC. rewrite E in *. lia.
      * rewrite eq1_diff in HC by auto. lia.
    + rewrite (eq1_diff (p := old) (o := p)) in HC by auto. destruct (Nat.eqb_spec p o) as [->|N'].
      * injection Hp as <- <-. rewrite eq1_same in HC. lia.
      * rewrite (eq1_diff (p := o) (o := p)) in HC by auto. rewrite (W1 _ _ _ Hp). lia.
  - intros k p Hk. rewrite nth_upd in Hk. destruct (Nat.eqb_spec k i) as [->|N].
    + destruct (Nat.ltb i (length (vs s))); [|discriminate]. injection Hk as <-. destruct Go as [n' Go]. eauto.
    + eapply Hkeep; eauto.
  - intros p n' v' Hp. rewrite G2 in Hp. destruct (Nat.eqb_spec p old) as [->|N].
    + destruct (Nat.eqb_spec q 0); [discriminate|]. injection Hp as <- <-. lia.
    + destruct (Nat.eqb_spec p o) as [->|N']; [injection Hp as <- <-; lia|]. eapply P; eauto.
  - intros k. unfold seen, blk_of. cbn [vs bl]. rewrite nth_upd. destruct (Nat.eqb_spec k i) as [->|N].
    + assert (L : i < length (vs s)) by (apply nth_error_Some; congruence). apply Nat.ltb_lt in L. rewrite L.
      destruct Go as [n' ->]. auto.
    + destruct (nth_error (vs s) k) as [[p|]|] eqn:Ek; auto. rewrite G2.
      destruct (Nat.eqb_spec p old) as [->|N1].
      * destruct (Nat.eqb_spec q 0) as [Q|Q].
        -- destruct (Hq0 Q) as [_ E1]. pose proof (cntv_two N Ek Hi). lia.
        -- rewrite Hold. rewrite Evc. destruct (Nat.eqb_spec old o) as [E|E]; [destruct (Hmn E); subst; auto|auto].
      * destruct (Nat.eqb_spec p o) as [->|N2]; auto. rewrite Ho. auto.
Qed.

(** The effect of every operation on the values, comparison included. *)
Definition x_op (l : list (option T)) (o : cop) : list (option T) :=
  match o with
  | CEq i j => match val l i, val l j with Some v, Some w => if eqb v w then upd l i (val l j) else l | _, _ => l end
  | _ => fst (s_op def eqb l o)
  end.

Definition Rel (s : cow) (l : list (option T)) : Prop :=
  CI s /\ length (vs s) = length l /\ forall i, seen s i = val l i.

Lemma val_upd : forall (l : list (option T)) i a k, i < length l -> val (upd l i a) k = if Nat.eqb k i then a else val l k.
Proof.
  intros. unfold val. rewrite nth_upd. destruct (Nat.eqb k i); auto. apply Nat.ltb_lt in H. rewrite H. destruct a; auto.
Qed.
Lemma val_snoc : forall (l : list (option T)) a k, val (l ++ [a]) k = if Nat.eqb k (length l) then a else val l k.
Proof. intros. unfold val. rewrite nth_snoc. destruct (Nat.eqb k (length l)); auto. destruct a; auto. Qed.
Lemma val_lt : forall (l : list (option T)) i, val l i <> None -> i < length l.
Proof. intros l i H. unfold val in H. apply nth_error_Some. destruct (nth_error l i); congruence. Qed.

Lemma rel_get : forall s l i v, Rel s l -> val l i = Some v ->
  exists o n, blk_of s i = Some o /\ nth_error (vs s) i = Some (Some o) /\ getB (bl s) o = Some (n, v).
Proof.
  intros s l i v (_ & _ & H) E. rewrite <- H in E. unfold seen in E.
  destruct (blk_of s i) as [o|] eqn:B; [|discriminate]. destruct (getB (bl s) o) as [[n w]|] eqn:G; [|discriminate].
  injection E as ->. exists o, n. split; auto. split; auto. apply blk_nth; auto.
Qed.

(** A new variable on an existing block. *)
Lemma badd_ok : forall (b : list (option (nat * T))) va o n v, Wk (mkCow b va) -> (forall p n v, p <> o -> getB b p = Some (n, v) -> n > 0) ->
  getB b o = Some (n, v) ->
  exists b', badd b o = Some b' /\ CI (mkCow b' (va ++ [Some o])) /\
    forall k, seen (mkCow b' (va ++ [Some o])) k = if Nat.eqb k (length va) then Some v else seen (mkCow b va) k.
Proof.
  intros b va o n v [W1 W2] P Ho. cbn [bl vs] in *. pose proof (getB_lt Ho) as L.
  exists (upd b o (Some (S n, v))). split; [unfold badd; rewrite Ho; reflexivity|].
  assert (G : forall p, getB (upd b o (Some (S n, v))) p = if Nat.eqb p o then Some (S n, v) else getB b p) by (intros; apply getB_upd; auto).
  split; [split; [split|]|]; cbn [bl vs].
  - intros p n' v' Hp. rewrite G in Hp. rewrite cntv_snoc. destruct (Nat.eqb_spec p o) as [->|N].
    + injection Hp as <- <-. rewrite eq1_same. rewrite (W1 _ _ _ Ho). lia.
    + rewrite eq1_diff by auto. rewrite (W1 _ _ _ Hp). lia.
  - intros i p Hp. rewrite G. destruct (Nat.eqb_spec p o) as [->|N]; [eauto|].
    rewrite nth_snoc in Hp. destruct (Nat.eqb i (length va)); [congruence|]. eapply W2; eauto.
  - intros p n' v' Hp. rewrite G in Hp. destruct (Nat.eqb_spec p o) as [->|N]; [injection Hp as <- <-; lia|]. eapply P; eauto.
  - intros k. unfold seen, blk_of. cbn [vs bl]. rewrite nth_snoc. destruct (Nat.eqb k (length va)).
    + rewrite G, Nat.eqb_refl. auto.
    + destruct (nth_error va k) as [[p|]|]; auto. rewrite G. destruct (Nat.eqb_spec p o) as [->|N]; auto. rewrite Ho. auto.
Qed.

Lemma fresh_ok : forall s v, CI s -> Wk (mkCow (bl s ++ [Some (0, v)]) (vs s)) /\
  (forall p n w, p <> length (bl s) -> getB (bl s ++ [Some (0, v)]) p = Some (n, w) -> n > 0) /\
  getB (bl s ++ [Some (0, v)]) (length (bl s)) = Some (0, v) /\
  (forall k, seen (mkCow (bl s ++ [Some (0, v)]) (vs s)) k = seen s k).
Proof.
  intros s v [[W1 W2] P].
  assert (Hn : forall i p, nth_error (vs s) i = Some (Some p) -> p < length (bl s)).
  { intros i p H. destruct (W2 _ _ H) as [x Hx]. eapply getB_lt; eauto. }
  split; [split|split; [|split]]; cbn [bl vs].
  - intros p n w Hp. rewrite getB_snoc in Hp. destruct (Nat.eqb_spec p (length (bl s))) as [->|N].
    + injection Hp as <- <-. symmetry. apply cntv_zero. intros i H. apply Hn in H. lia.
    + eapply W1; eauto.
  - intros i p H. rewrite getB_snoc. destruct (Nat.eqb p (length (bl s))); [eauto|]. eapply W2; eauto.
  - intros p n w N Hp. rewrite getB_snoc in Hp. apply Nat.eqb_neq in N. rewrite N in Hp. eapply P; eauto.
  - rewrite getB_snoc, Nat.eqb_refl. auto.
  - intros k. unfold seen, blk_of. cbn [vs bl]. destruct (nth_error (vs s) k) as [[p|]|] eqn:E; auto.
    rewrite getB_snoc. apply Hn in E. destruct (Nat.eqb_spec p (length (bl s))); [lia|auto].
Qed.

Lemma copy_check_ok : forall s l i v, Rel s l -> val l i = Some v ->
  exists s', copy_check s i = Some s' /\ Rel s' l /\ exists o, nth_error (vs s') i = Some (Some o) /\ getB (bl s') o = Some (1, v).
Proof.
  intros s l i v HR Hv. destruct (rel_get HR Hv) as (o & n & B & N & G). destruct HR as (HC & HL & HS).
  unfold copy_check. rewrite B. cbn [obind]. rewrite G. cbn [obind].
  destruct (Nat.eqb_spec n 1) as [->|Nn].
  - exists s. split; auto. split; [repeat split; auto; apply HC|]. eauto.
  - cbn [new_block]. destruct (fresh_ok v HC) as (F1 & F2 & F3 & F4).
    destruct (@set_block_ok (mkCow (bl s ++ [Some (0, v)]) (vs s)) i (length (bl s)) o 0 v F1 F2 N F3) as (s' & A & C & D & E).
    exists s'. split; auto. split.
    + split; auto. split; [rewrite D; cbn [vs]; rewrite upd_length; auto|].
      intros k. rewrite E, F4. destruct (Nat.eqb_spec k i) as [->|Nk]; auto.
    + exists (length (bl s)). cbn [vs] in D. rewrite D, nth_upd, Nat.eqb_refl.
      assert (Li : i < length (vs s)) by (apply nth_error_Some; congruence). assert (Li' := Li). apply Nat.ltb_lt in Li. rewrite Li. split; auto.
      assert (Hn : nth_error (vs s') i = Some (Some (length (bl s)))) by (rewrite D, nth_upd, Nat.eqb_refl, Li; auto).
      specialize (E i). rewrite Nat.eqb_refl in E. unfold seen, blk_of in E. rewrite Hn in E.
      destruct (getB (bl s') (length (bl s))) as [[n' w]|] eqn:G'; [|discriminate]. injection E as ->.
      destruct C as [[C1 C2] C3]. rewrite (C1 _ _ _ G'). f_equal. f_equal. rewrite D.
      pose proof (@cntv_upd (vs s) i (Some o) (Some (length (bl s))) (length (bl s)) N) as U.
      assert (Lo : o < length (bl s)) by (eapply getB_lt; eauto).
      rewrite eq1_diff, eq1_same in U by lia.
      assert (Z : cntv (vs s) (length (bl s)) = 0).
      { apply cntv_zero. intros k H. destruct HC as [[_ W2] _]. destruct (W2 _ _ H) as [x Hx]. apply getB_lt in Hx. lia. }
      lia.
Qed.

Lemma drop_ok : forall (s : cow) i o n v, CI s -> nth_error (vs s) i = Some (Some o) -> getB (bl s) o = Some (n, v) ->
  exists b, bcut (bl s) o = Some b /\ CI (mkCow b (upd (vs s) i None)) /\
    forall k, seen (mkCow b (upd (vs s) i None)) k = if Nat.eqb k i then None else seen s k.
Proof.
  intros s i o n v [[W1 W2] P] Hi Ho. pose proof (getB_lt Ho) as L. pose proof (P _ _ _ Ho) as Pn. pose proof (W1 _ _ _ Ho) as En.
  destruct n as [|q]; [lia|].
  exists (upd (bl s) o (if Nat.eqb q 0 then None else Some (q, v))). split; [unfold bcut; rewrite Ho; reflexivity|].
  set (c := if Nat.eqb q 0 then None else Some (q, v)).
  assert (G : forall p, getB (upd (bl s) o c) p = if Nat.eqb p o then c else getB (bl s) p) by (intros; apply getB_upd; auto).
  assert (HC : forall p, cntv (upd (vs s) i None) p + eq1 (Some o) p = cntv (vs s) p).
  { intros p. pose proof (@cntv_upd (vs s) i (Some o) None p Hi) as U. rewrite eq1_none in U. lia. }
  assert (Hkeep : forall k, k <> i -> nth_error (vs s) k = Some (Some o) -> c = Some (q, v)).
  { intros k N Hk. unfold c. destruct (Nat.eqb_spec q 0) as [->|]; auto. pose proof (cntv_two N Hk Hi). lia. }
  split; [split; [split|]|]; cbn [bl vs].
  - intros p n' v' Hp. specialize (HC p). rewrite G in Hp. destruct (Nat.eqb_spec p o) as [->|N].
    + unfold c in Hp. destruct (Nat.eqb q 0); [discriminate|]. injection Hp as <- <-. rewrite eq1_same in HC. lia.
    + rewrite eq1_diff in HC by auto. rewrite (W1 _ _ _ Hp). lia.
  - intros k p Hk. rewrite nth_upd in Hk. destruct (Nat.eqb_spec k i) as [->|N].
    + destruct (Nat.ltb i (length (vs s))); discriminate.
    + rewrite G. destruct (Nat.eqb_spec p o) as [->|N']; [rewrite (Hkeep k N Hk); eauto|]. eapply W2; eauto.
  - intros p n' v' Hp. rewrite G in Hp. destruct (Nat.eqb_spec p o) as [->|N].
    + unfold c in Hp. destruct (Nat.eqb_spec q 0); [discriminate|]. injection Hp as <- <-. lia.
    + eapply P; eauto.
  - intros k. unfold seen, blk_of. cbn [vs bl]. rewrite nth_upd. destruct (Nat.eqb_spec k i) as [->|N].
    + destruct (Nat.ltb i (length (vs s))); auto.
    + destruct (nth_error (vs s) k) as [[p|]|] eqn:E; auto. rewrite G.
      destruct (Nat.eqb_spec p o) as [->|N']; auto. rewrite (Hkeep k N E), Ho. auto.
Qed.

Lemma op_rel : forall s l o, Rel s l -> clegal l o ->
  exists s', c_op def eqb s o = Some (s', snd (s_op def eqb l o)) /\ Rel s' (x_op l o).
Proof.
  intros s l o HR HL. destruct o as [|v|i|i j|i j|i f|i j|i|i]; cbn [clegal] in HL.
  - destruct HR as (HC & Hlen & HS). destruct (fresh_ok def HC) as (F1 & F2 & F3 & F4).
    destruct (@badd_ok (bl s ++ [Some (0, def)]) (vs s) (length (bl s)) 0 def F1 F2 F3) as (b & A & B & C).
    eexists. split.
    + cbn [c_op new_block]. rewrite A. reflexivity.
    + split; [exact B|]. cbn [x_op s_op fst vs]. rewrite !app_length, Hlen. split; auto.
      intros k. rewrite C, F4, val_snoc, HS, Hlen. auto.
  - destruct HL.
  - destruct (val l i) as [v|] eqn:Ev; [|congruence]. destruct (rel_get HR Ev) as (o & n & B & N & G).
    destruct HR as (HC & Hlen & HS).
    destruct (@badd_ok (bl s) (vs s) o n v) as (b & A & B' & C); auto.
    { destruct s; apply HC. }
    { intros p n' v' _ H. eapply (proj2 HC); eauto. }
    eexists. split.
    + cbn [c_op]. rewrite B. cbn [obind]. rewrite A. reflexivity.
    + split; [exact B'|]. cbn [x_op s_op fst vs]. rewrite !app_length, Hlen. split; auto.
      intros k. rewrite C, val_snoc, Hlen. rewrite Ev. destruct (Nat.eqb k (length l)); auto. destruct s. apply HS.
  - destruct HL as [H1 H2]. destruct (val l i) as [v|] eqn:Ei; [|congruence]. destruct (val l j) as [w|] eqn:Ej; [|congruence].
    destruct (rel_get HR Ei) as (o1 & n1 & B1 & N1 & G1). destruct (rel_get HR Ej) as (o2 & n2 & B2 & N2 & G2).
    assert (Li : i < length l) by (apply val_lt; congruence).
    destruct HR as (HC & Hlen & HS).
    destruct (@set_block_ok s i o2 o1 n2 w) as (s' & A & C & D & E); auto.
    { apply HC. } { intros p n' v' _ H. eapply (proj2 HC); eauto. }
    exists s'. split.
    + cbn [c_op]. rewrite B2. cbn [obind]. rewrite A. reflexivity.
    + split; [exact C|]. cbn [x_op s_op fst]. rewrite D, !upd_length. split; auto.
      intros k. rewrite E, val_upd, Ej by auto. destruct (Nat.eqb k i); auto.
  - destruct HL as [H1 H2]. destruct (val l i) as [v|] eqn:Ei; [|congruence]. destruct (val l j) as [w|] eqn:Ej; [|congruence].
    destruct (rel_get HR Ei) as (o1 & n1 & B1 & N1 & G1). destruct (rel_get HR Ej) as (o2 & n2 & B2 & N2 & G2).
    assert (Li : i < length l) by (apply val_lt; congruence). assert (Lj : j < length l) by (apply val_lt; congruence).
    destruct HR as (HC & Hlen & HS).
    assert (Nj : nth_error (upd (vs s) i (Some o2)) j = Some (Some o2)).
    { rewrite nth_upd. destruct (Nat.eqb_spec j i) as [->|]; auto. rewrite Hlen. apply Nat.ltb_lt in Li. rewrite Li. auto. }
    eexists. split.
    + cbn [c_op]. rewrite B1. cbn [obind]. rewrite B2. cbn [obind]. reflexivity.
    + assert (HCt : forall p, cntv (upd (upd (vs s) i (Some o2)) j (Some o1)) p = cntv (vs s) p).
      { intros p. pose proof (@cntv_upd (vs s) i (Some o1) (Some o2) p N1). pose proof (@cntv_upd _ j (Some o2) (Some o1) p Nj). lia. }
      destruct HC as [[W1 W2] P].
      split; [split; [split|]|]; cbn [bl vs].
      * intros p n' v' Hp. rewrite HCt. eauto.
      * intros k p Hk. rewrite nth_upd, nth_upd, upd_length in Hk.
        destruct (Nat.eqb k j); [destruct (Nat.ltb j (length (vs s))); [|discriminate]; injection Hk as <-; eauto|].
        destruct (Nat.eqb k i); [destruct (Nat.ltb i (length (vs s))); [|discriminate]; injection Hk as <-; eauto|].
        eapply W2; eauto.
      * exact P.
      * cbn [x_op s_op fst]. rewrite !upd_length. split; auto. intros k.
        rewrite !val_upd by (rewrite ?upd_length; auto). unfold seen, blk_of. cbn [vs bl]. rewrite nth_upd, nth_upd, upd_length, Hlen.
        apply Nat.ltb_lt in Li, Lj. rewrite Li, Lj.
        destruct (Nat.eqb k j); [rewrite G1, Ei; auto|]. destruct (Nat.eqb k i); [rewrite G2, Ej; auto|]. apply HS.
  - destruct (val l i) as [v|] eqn:Ei; [|congruence].
    destruct (copy_check_ok HR Ei) as (s1 & A & HR1 & o & N & G).
    assert (Li : i < length l) by (apply val_lt; congruence).
    destruct HR1 as (HC & Hlen & HS). pose proof (getB_lt G) as Lo.
    eexists. split.
    + cbn [c_op]. rewrite A. cbn [obind]. rewrite (proj2 (blk_nth s1 i o) N). cbn [obind]. rewrite G. cbn [obind].
      unfold put. rewrite G. cbn [obind]. reflexivity.
    + destruct HC as [[W1 W2] P].
      assert (GG : forall p, getB (upd (bl s1) o (Some (1, f v))) p = if Nat.eqb p o then Some (1, f v) else getB (bl s1) p) by (intros; apply getB_upd; auto).
      split; [split; [split|]|]; cbn [bl vs].
      * intros p n' v' Hp. rewrite GG in Hp. destruct (Nat.eqb_spec p o) as [->|Np]; [injection Hp as <- <-; apply (W1 _ _ _ G)|eauto].
      * intros k p Hk. rewrite GG. destruct (Nat.eqb p o); [eauto|]. eapply W2; eauto.
      * intros p n' v' Hp. rewrite GG in Hp. destruct (Nat.eqb_spec p o) as [->|Np]; [injection Hp as <- <-; lia|eauto].
      * cbn [x_op s_op fst]. rewrite upd_length. split; auto. intros k. rewrite val_upd, Ei by auto. cbn [option_map].
        unfold seen, blk_of. cbn [vs bl]. destruct (Nat.eqb_spec k i) as [->|Nk].
        -- rewrite N, GG, Nat.eqb_refl. auto.
        -- rewrite <- HS. unfold seen, blk_of. destruct (nth_error (vs s1) k) as [[p|]|] eqn:E; auto. rewrite GG.
           destruct (Nat.eqb_spec p o) as [->|Np]; auto.
           pose proof (cntv_two Nk E N) as H2. rewrite <- (W1 _ _ _ G) in H2. lia.
  - destruct HL as [H1 H2]. destruct (val l i) as [v|] eqn:Ei; [|congruence]. destruct (val l j) as [w|] eqn:Ej; [|congruence].
    destruct (rel_get HR Ei) as (o1 & n1 & B1 & N1 & G1). destruct (rel_get HR Ej) as (o2 & n2 & B2 & N2 & G2).
    assert (Li : i < length l) by (apply val_lt; congruence).
    cbn [c_op]. rewrite B1. cbn [obind]. rewrite B2. cbn [obind]. rewrite G1. cbn [obind]. rewrite G2. cbn [obind].
    cbn [x_op s_op snd]. rewrite Ei, Ej. destruct (eqb v w).
    + destruct HR as (HC & Hlen & HS).
      destruct (@set_block_ok s i o2 o1 n2 w) as (s' & A & C & D & E); auto.
      { apply HC. } { intros p n' v' _ H. eapply (proj2 HC); eauto. }
      exists s'. rewrite A. cbn [obind]. split; auto.
      split; [exact C|]. rewrite D, !upd_length. split; auto.
      intros k. rewrite E, val_upd by auto. destruct (Nat.eqb k i); auto.
    + exists s. auto.
  - destruct (val l i) as [v|] eqn:Ei; [|congruence]. destruct (rel_get HR Ei) as (o & n & B & N & G).
    exists s. split; auto. cbn [c_op s_op snd]. rewrite B. cbn [obind]. rewrite G. cbn [obind]. rewrite Ei. auto.
  - destruct (val l i) as [v|] eqn:Ei; [|congruence]. destruct (rel_get HR Ei) as (o & n & B & N & G).
    assert (Li : i < length l) by (apply val_lt; congruence).
    destruct HR as (HC & Hlen & HS). destruct (@drop_ok s i o n v HC N G) as (b & A & C & D).
    eexists. split.
    + cbn [c_op]. rewrite B. cbn [obind]. rewrite A. reflexivity.
    + split; [exact C|]. cbn [x_op s_op fst vs]. rewrite !upd_length. split; auto.
      intros k. rewrite D, val_upd by auto. destruct (Nat.eqb k i); auto.
Qed.

Lemma upd_same : forall (l : list (option T)) i, i < length l -> upd l i (val l i) = l.
Proof.
  intros l i. unfold val. revert i. induction l as [|a l IH]; intros [|i] H; cbn in *; try lia.
  - destruct a; auto.
  - f_equal. apply IH. lia.
Qed.

Lemma x_op_lawful : (forall x y, eqb x y = true -> x = y) -> forall l o, clegal l o -> x_op l o = fst (s_op def eqb l o).
Proof.
  intros Heq l [|v|i|i j|i j|i f|i j|i|i] HL; auto. cbn in *. destruct HL as [H1 H2].
  destruct (val l i) as [v|] eqn:Ei; auto. destruct (val l j) as [w|] eqn:Ej; auto.
  destruct (eqb v w) eqn:E; auto. apply Heq in E. subst w. rewrite <- Ei. apply upd_same. apply val_lt. congruence.
Qed.

Lemma rel0 : Rel (cow0 T) [].
Proof.
  assert (G : forall p, getB (bl (cow0 T)) p = None) by (intros [|p]; reflexivity).
  split; [split; [split|]|split; [reflexivity|]].
  - intros p n v H. rewrite G in H. discriminate.
  - intros [|i] p H; discriminate.
  - intros p n v H. rewrite G in H. discriminate.
  - intros [|i]; reflexivity.
Qed.

(** C36: with a lawful [==], any history behaves as independent values. *)
Lemma history_from : (forall x y, eqb x y = true -> x = y) -> forall os s l, Rel s l -> clegal_run def eqb l os ->
  exists s', c_run def eqb s os = Some (s', snd (s_run def eqb l os)) /\ Rel s' (fst (s_run def eqb l os)).
Proof.
  intros Heq. induction os as [|o os IH]; intros s l HR HL; cbn [clegal_run c_run s_run] in *.
  - exists s. auto.
  - destruct HL as [H1 H2]. destruct (op_rel HR H1) as (s1 & A & HR1). rewrite x_op_lawful in HR1 by auto.
    destruct (s_op def eqb l o) as [l1 a] eqn:E. cbn [fst snd] in *.
    destruct (IH s1 l1 HR1 H2) as (s2 & B & HR2). rewrite A. cbn [obind]. rewrite B. cbn [obind].
    destruct (s_run def eqb l1 os) as [l2 q]. exists s2. auto.
Qed.
Lemma cow_history : (forall x y, eqb x y = true -> x = y) -> forall os, clegal_run def eqb [] os ->
  exists s, c_run def eqb (cow0 T) os = Some (s, snd (s_run def eqb [] os)) /\
    (forall i, seen s i = val (fst (s_run def eqb [] os)) i) /\
    (forall p, getB (bl s) p <> None <-> exists i, blk_of s i = Some p).
Proof.
  intros Heq os HL. destruct (history_from Heq rel0 HL) as (s & A & HC & Hlen & HS). exists s. split; auto. split; auto.
  intros p. destruct HC as [[W1 W2] P]. split.
  - intros H. destruct (getB (bl s) p) as [[n v]|] eqn:G; [|congruence].
    pose proof (P _ _ _ G) as Pn. rewrite (W1 _ _ _ G) in Pn. apply count_occ_In in Pn. apply In_nth_error in Pn.
    destruct Pn as [i Hi]. exists i. apply blk_nth. auto.
  - intros [i Hi]. apply blk_nth in Hi. destruct (W2 _ _ Hi) as [x Hx]. congruence.
Qed.

(** C36 for every [==]. *)
Lemma op_legal : forall s l o s' a, Rel s l -> c_op def eqb s o = Some (s', a) -> clegal l o.
Proof.
  intros s l o s' a HR H.
  assert (K : forall i p, blk_of s i = Some p -> val l i <> None).
  { intros i p B. destruct HR as ([[_ W2] _] & _ & HS). rewrite <- HS. unfold seen. rewrite B. apply blk_nth in B.
    destruct (W2 _ _ B) as [[n v] ->]. discriminate. }
  assert (K' : forall i, blk_of s i = None -> val l i = None).
  { intros i B. destruct HR as (_ & _ & HS). rewrite <- HS. unfold seen. rewrite B. auto. }
  destruct o as [|v|i|i j|i j|i f|i j|i|i]; cbn [c_op clegal] in *; auto.
  - discriminate.
  - destruct (blk_of s i) eqn:B; [eauto|discriminate].
  - destruct (blk_of s j) as [o|] eqn:B; [|discriminate]. cbn [obind] in H. unfold set_block in H.
    destruct (blk_of s i) eqn:B'; [|discriminate]. eauto.
  - destruct (blk_of s i) eqn:B; [|discriminate]. cbn [obind] in H. destruct (blk_of s j) eqn:B'; [|discriminate]. eauto.
  - unfold copy_check in H. destruct (blk_of s i) eqn:B; [|discriminate]. eauto.
  - destruct (blk_of s i) eqn:B; [|discriminate]. cbn [obind] in H. destruct (blk_of s j) eqn:B'; [|discriminate]. eauto.
  - destruct (blk_of s i) eqn:B; [eauto|discriminate].
  - destruct (blk_of s i) eqn:B; [eauto|discriminate].
Qed.

Lemma run_rel : forall os s l s' a, Rel s l -> c_run def eqb s os = Some (s', a) -> exists l', Rel s' l'.
Proof.
  induction os as [|o os IH]; intros s l s' a HR H; cbn [c_run] in H.
  - injection H as <- <-. eauto.
  - destruct (c_op def eqb s o) as [[s1 b]|] eqn:E; [|discriminate]. cbn [obind] in H.
    destruct (op_rel HR (@op_legal _ _ _ _ _ HR E)) as (s1' & A & HR1). rewrite E in A. injection A as -> ->.
    destruct (c_run def eqb s1' os) as [[s2 q]|] eqn:E2; [|discriminate]. cbn [obind] in H. injection H as <- <-. eauto.
Qed.

Lemma val_app_lt : forall (l : list (option T)) a k, k < length l -> val (l ++ [a]) k = val l k.
Proof. intros. rewrite val_snoc. destruct (Nat.eqb_spec k (length l)); [lia|auto]. Qed.

Lemma isolated : forall os s q o s' a, c_run def eqb (cow0 T) os = Some (s, q) -> c_op def eqb s o = Some (s', a) ->
  forall i, i < length (vs s) -> ~ target o i -> seen s' i = seen s i.
Proof.
  intros os s q o s' a Hr Ho. destruct (@run_rel _ _ _ _ _ rel0 Hr) as [l HR]. pose proof (@op_legal _ _ _ _ _ HR Ho) as HL.
  destruct (op_rel HR HL) as (s1 & A & HR'). rewrite Ho in A. injection A as <- _.
  destruct HR as (_ & Hlen & HS), HR' as (_ & _ & HS'). intros i Hi Ht. rewrite HS', HS. rewrite Hlen in Hi.
  destruct o as [|v|k|k j|k j|k f|k j|k|k]; cbn [x_op s_op fst target clegal] in *; auto.
  - apply val_app_lt; auto.
  - destruct HL.
  - apply val_app_lt; auto.
  - rewrite val_upd by (apply val_lt; tauto). destruct (Nat.eqb_spec i k); [tauto|auto].
  - rewrite !val_upd by (rewrite ?upd_length; apply val_lt; tauto).
    destruct (Nat.eqb_spec i j); [tauto|]. destruct (Nat.eqb_spec i k); [tauto|auto].
  - rewrite val_upd by (apply val_lt; tauto). destruct (Nat.eqb_spec i k); [tauto|auto].
  - destruct (val l k) as [x|] eqn:E1; [|auto]. destruct (val l j) as [y|]; [|auto]. destruct (eqb x y); auto.
    rewrite val_upd by (apply val_lt; congruence). destruct (Nat.eqb_spec i k); [tauto|auto].
  - rewrite val_upd by (apply val_lt; tauto). destruct (Nat.eqb_spec i k); [tauto|auto].
Qed.

(** In every reachable state an operation on live handles is defined, unless it is construction from arguments. *)
Lemma defined_on_live : forall os s q o, c_run def eqb (cow0 T) os = Some (s, q) ->
  (forall i, mentions o i -> seen s i <> None) -> (forall v, o <> CNewFrom v) -> c_op def eqb s o <> None.
Proof.
  intros os s q o Hr Hm Hn. destruct (@run_rel _ _ _ _ _ rel0 Hr) as [l HR].
  assert (HL : clegal l o).
  { destruct HR as (_ & _ & HS).
    assert (K : forall i, mentions o i -> val l i <> None) by (intros i H; rewrite <- HS; auto).
    destruct o; cbn [clegal mentions] in *; auto. apply (Hn v); auto. }
  destruct (op_rel HR HL) as (s1 & A & _). rewrite A. discriminate.
Qed.

(** Comparison leaves the left handle with an equal value. *)
Lemma compare_keeps : forall os s q i j x y, c_run def eqb (cow0 T) os = Some (s, q) -> seen s i = Some x -> seen s j = Some y ->
  exists s', c_op def eqb s (CEq T i j) = Some (s', ABool T (eqb x y)) /\
    seen s' i = Some (if eqb x y then y else x) /\ seen s' j = Some y.
Proof.
  intros os s q i j x y Hr Hx Hy. destruct (@run_rel _ _ _ _ _ rel0 Hr) as [l HR]. assert (HR0 := HR). destruct HR0 as (_ & _ & HS).
  rewrite HS in Hx, Hy.
  destruct (@op_rel s l (CEq T i j) HR) as (s' & A & _ & _ & HS'); [split; congruence|].
  exists s'. cbn [s_op snd] in A. rewrite Hx, Hy in A. split; auto. rewrite !HS'. cbn [x_op]. rewrite Hx, Hy.
  destruct (eqb x y); auto. assert (i < length l) by (apply val_lt; congruence). rewrite !val_upd, Nat.eqb_refl by auto.
  destruct (Nat.eqb j i); auto.
Qed.

(** Construction from arguments is undefined in every state. *)
Lemma new_from_undefined : forall s v, c_op def eqb s (CNewFrom v) = None.
Proof. reflexivity. Qed.
End Proofs.
