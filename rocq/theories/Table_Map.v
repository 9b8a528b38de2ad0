(** Proofs about the map. *)
From Coq Require Import Permutation.
From Verif Require Import Base Table_Model Table_Spec Table_Proofs Table_Hash.

Section Map.
Variables K V : Type.
Variable keqb : K -> K -> bool.
Variable veqb : V -> V -> bool.
Variable dflt : V.
Hypothesis HK : equivalence keqb.
Hypothesis HV : equivalence veqb.
Variable gold : nat -> nat.
Hypothesis HG : forall n, 0 < n -> 0 < gold n.
Variable mx : Z.
Variable unst : bool.
Variable hk0 : K -> Z.

Notation entry := (entry K V).
Notation bkt := (list nat * list entry)%type.

Lemma krefl x : keqb x x = true. Proof. apply HK. Qed.
Lemma ksym x y : keqb x y = keqb y x. Proof. apply HK. Qed.
Lemma ktrans x y z : keqb x y = true -> keqb y z = true -> keqb x z = true. Proof. apply HK. Qed.
Lemma vrefl x : veqb x x = true. Proof. apply HV. Qed.
Lemma vsym x y : veqb x y = true -> veqb y x = true. Proof. destruct HV as (_ & S & _). now rewrite S. Qed.
Lemma vtrans x y z : veqb x y = true -> veqb y z = true -> veqb x z = true. Proof. apply HV. Qed.

(** No two entries have equal keys. *)
Fixpoint KD (l : list entry) : Prop :=
  match l with
  | [] => True
  | e :: r => (forall e', In e' r -> keqb (fst e) (fst e') = false) /\ KD r
  end.

Lemma KD_perm l l' : Permutation l l' -> KD l -> KD l'.
Proof.
  induction 1; cbn [KD]; auto.
  - intros (A & B). split; [|auto]. intros e' I. apply A. now apply (Permutation_in e' (Permutation_sym H)).
  - intros (A & B & C). split; [|split; [|exact C]].
    + intros e' [<-|I]; [|now apply B]. rewrite ksym. apply A. now left.
    + intros e' I. apply A. now right.
Qed.

Lemma KD_app_r a b : KD (a ++ b) -> KD b.
Proof. induction a; cbn; [auto|]. intros (_ & H). auto. Qed.

(** The entries [l] describe the function [m]. *)
Definition holds (l : list entry) (m : K -> V) : Prop :=
  KD l /\
  (forall e, In e l -> veqb (snd e) (m (fst e)) = true) /\
  (forall k, (forall e, In e l -> keqb (fst e) k = false) -> veqb dflt (m k) = true) /\
  (forall k k', keqb k k' = true -> veqb (m k) (m k') = true).

Lemma holds_perm l l' m : Permutation l l' -> holds l m -> holds l' m.
Proof.
  intros P (A & B & C & D). split; [exact (KD_perm P A)|]. split; [|split; [|exact D]].
  - intros e I. apply B. now apply (Permutation_in e (Permutation_sym P)).
  - intros k Hk. apply C. intros e I. apply Hk. now apply (Permutation_in e P).
Qed.

Lemma holds_add l m k : holds l m -> (forall e, In e l -> keqb (fst e) k = false) -> holds ((k, dflt) :: l) m.
Proof.
  intros (A & B & C & D) N. split; [|split; [|split; [|exact D]]].
  - cbn. split; [|exact A]. intros e I. rewrite ksym. now apply N.
  - intros e [<-|I]; [|now apply B]. cbn. now apply C.
  - intros k' Hk. apply C. intros e I. apply Hk. now right.
Qed.

Lemma holds_set l m k k' v v' : holds ((k', v') :: l) m -> keqb k' k = true ->
  holds ((k', v) :: l) (fun x => if keqb k x then v else m x).
Proof.
  intros (A & B & C & D) E. cbn [KD fst] in A. destruct A as (A1 & A2).
  split; [split; assumption|]. split; [|split].
  - intros e [<-|I]; cbn [fst snd].
    + rewrite ksym, E. apply vrefl.
    + destruct (keqb k (fst e)) eqn:Ek; [|apply B; now right].
      specialize (A1 e I). rewrite (ktrans E Ek) in A1. discriminate.
  - intros x Hx. destruct (keqb k x) eqn:Ek.
    + specialize (Hx (k', v) (or_introl eq_refl)). cbn in Hx. rewrite (ktrans E Ek) in Hx. discriminate.
    + apply C. intros e [<-|I]; [exact (Hx (k', v) (or_introl eq_refl))|]. apply Hx. now right.
  - intros x y Exy. destruct (keqb k x) eqn:Ex, (keqb k y) eqn:Ey.
    + apply vrefl.
    + rewrite (ktrans Ex Exy) in Ey. discriminate.
    + rewrite ksym in Exy. rewrite (ktrans Ey Exy) in Ex. discriminate.
    + now apply D.
Qed.

(** Some entry of [l] has the key [k]. *)
Definition has (l : list entry) (k : K) : Prop := exists e, In e l /\ keqb (fst e) k = true.

Lemma has_dec l k : {has l k} + {forall e, In e l -> keqb (fst e) k = false}.
Proof.
  destruct (existsb (fun e => keqb (fst e) k) l) eqn:E.
  - left. apply existsb_exists in E. exact E.
  - right. intros e I. destruct (keqb (fst e) k) eqn:Ek; [|reflexivity]. rewrite <- E. symmetry. apply existsb_exists. eauto.
Qed.

Lemma has_perm l l' k : Permutation l l' -> has l k <-> has l' k.
Proof.
  intros P. split; intros (e & I & E); exists e; split; auto.
  - exact (Permutation_in e P I).
  - exact (Permutation_in e (Permutation_sym P) I).
Qed.

Lemma has_cons e l k : has (e :: l) k <-> keqb (fst e) k = true \/ has l k.
Proof.
  split.
  - intros (x & [<-|I] & E); [now left|right; exists x; auto].
  - intros [E|(x & I & E)]; [exists e; split; [now left|exact E]|exists x; split; [now right|exact E]].
Qed.

Lemma has_rows ps ps' k : rows_perm ps ps' -> has (bag ps) k <-> has (bag ps') k.
Proof. intros P. apply has_perm, rows_perm_bag, P. Qed.

Definition hash_ok (hk : K -> Z) : Prop :=
  unst = true \/ (hk = hk0 /\ forall x y, keqb x y = true -> hk0 x = hk0 y).

Lemma findable_key hk k (ps : list bkt) : hash_ok hk -> (unst = false -> placed (ehash hk0) ps) ->
  findable unst (hk k) (ekey keqb k) ps.
Proof.
  intros [U|(-> & C)] P; [now left|]. destruct (unst) eqn:U; [now left|]. right.
  exists (ehash hk0). split; [auto|]. intros e E. now apply C.
Qed.

(** State of one map. *)
Record mrep (h : heap entry) (t : table) (m : K -> V) (ps : list bkt) : Prop := {
  mr_rep : Trep h t ps;
  mr_len : 0 < length t;
  mr_holds : holds (bag ps) m;
  mr_placed : unst = false -> placed (ehash hk0) ps }.

Lemma mrep_rows h t m ps h' t' ps' : mrep h t m ps -> Trep h' t' ps' -> rows_perm ps ps' -> mrep h' t' m ps'.
Proof.
  intros M R P. split; [exact R| | |].
  - rewrite (Trep_length R), <- (Forall2_length P), <- (Trep_length (mr_rep M)). apply M.
  - exact (holds_perm (rows_perm_bag P) (mr_holds M)).
  - intros U. exact (placed_incl (mr_placed M U) (rows_perm_incl P)).
Qed.

Lemma rows_len h t ps h' t' (ps' : list bkt) : Trep h t ps -> Trep h' t' ps' -> rows_perm ps ps' -> length t' = length t.
Proof. intros R R' P. rewrite (Trep_length R'), (Trep_length R). symmetry. exact (Forall2_length P). Qed.

Lemma m_index_spec hk fuel h t k m ps :
  mrep h t m ps -> hash_ok hk -> S (length (bag ps)) < fuel ->
  exists h' t' a ps1 al e l ps2,
    m_index keqb dflt gold mx unst hk fuel h t k = Done (h', t', a) /\
    mrep h' t' m (ps1 ++ (a :: al, e :: l) :: ps2) /\ keqb (fst e) k = true /\
    length (bag (ps1 ++ (a :: al, e :: l) :: ps2)) <= S (length (bag ps)) /\
    fstep h h' (foot ps) (foot (ps1 ++ (a :: al, e :: l) :: ps2)) /\
    (forall x, has (bag (ps1 ++ (a :: al, e :: l) :: ps2)) x <-> keqb k x = true \/ has (bag ps) x) /\
    ((Z.of_nat (S (length (bag ps))) <= mx)%Z -> length t' = length t).
Proof.
  intros M HO Hf. unfold m_index.
  destruct (@t_find_spec _ unst fuel h t (hk k) (ekey keqb k) ps (mr_rep M) (mr_len M) ltac:(lia)
      (findable_key k HO (mr_placed M))) as (h1 & t1 & r1 & p1 & E1 & R1 & RP1 & F1 & M1).
  rewrite E1. cbn [bnd]. pose proof (mrep_rows M R1 RP1) as MR1.
  pose proof (Permutation_length (rows_perm_bag RP1)) as LB1.
  pose proof (rows_len (mr_rep M) R1 RP1) as LN1.
  destruct r1 as [a|].
  - destruct M1 as (q1 & al & e & l & q2 & -> & Ek).
    exists h1, t1, a, q1, al, e, l, q2. split; [reflexivity|]. split; [exact MR1|]. split; [exact Ek|]. split; [lia|]. split; [exact F1|]. split; [|auto].
    intros x. rewrite <- (has_rows x RP1). split; [now right|]. intros [Ex|Hx]; [|exact Hx].
    apply (has_rows x RP1). exists e. split; [|exact (ktrans Ek Ex)]. rewrite bag_app, bag_cons. apply in_or_app; right. now left.
  - destruct (@t_add_spec _ (ehash hk) gold mx fuel h1 t1 (k, dflt) p1 HG R1 (mr_len MR1)) as (h2 & t2 & p2 & E2 & R2 & PL2 & LT2 & PB2 & F2 & LN2); [lia|].
    rewrite E2. cbn [bnd].
    assert (MR2 : mrep h2 t2 m p2).
    { split; [exact R2|exact LT2| |].
      - apply (holds_perm PB2). apply holds_add; [apply MR1|]. intros e I. apply M1.
        exact (Permutation_in e (Permutation_sym (rows_perm_bag RP1)) I).
      - intros U. destruct HO as [HO|(-> & _)]; [congruence|]. apply PL2, MR1, U. }
    pose proof (Permutation_length PB2) as LB2. cbn [length] in LB2.
    destruct (@t_find_spec _ unst fuel h2 t2 (hk k) (ekey keqb k) p2 R2 LT2 ltac:(lia)
      (findable_key k HO (mr_placed MR2))) as (h3 & t3 & r3 & p3 & E3 & R3 & RP3 & F3 & M3).
    rewrite E3. cbn [bnd]. pose proof (mrep_rows MR2 R3 RP3) as MR3.
    pose proof (Permutation_length (rows_perm_bag RP3)) as LB3.
    destruct r3 as [a|].
    + destruct M3 as (q1 & al & e & l & q2 & -> & Ek).
      exists h3, t3, a, q1, al, e, l, q2. split; [reflexivity|]. split; [exact MR3|]. split; [exact Ek|].
      split; [lia|]. split; [exact (fstep_trans F1 (fstep_trans F2 F3))|]. split.
      { intros x. rewrite <- (has_rows x RP3), <- (has_perm x PB2), has_cons, <- (has_rows x RP1). reflexivity. }
      intros LE. rewrite (rows_len R2 R3 RP3), LN2, LN1; [reflexivity|]. lia.
    + exfalso. assert (I : In (k, dflt) (bag p2)) by (apply (Permutation_in (k, dflt) PB2); now left).
      specialize (M3 _ I). unfold ekey in M3. cbn in M3. rewrite krefl in M3. discriminate.
Qed.

(** The node found, in memory. *)
Lemma mid_cell h t ps1 a al (e : entry) l ps2 : Trep h t (ps1 ++ (a :: al, e :: l) :: ps2) ->
  exists nx, cell h a = Some (e, nx).
Proof.
  intros R. destruct (bucket_split (i := length ps1) R) as (t1 & s & t2 & q1 & al' & l' & q2 & Et & Ep & L1 & L2 & EB & Rb & ND & BD).
  { rewrite (Trep_length R), app_length. cbn. lia. }
  assert ((al', l') = (a :: al, e :: l)).
  { clear -Ep L2. revert q1 L2 Ep. induction ps1 as [|p ps1 IH]; intros [|q q1] L2 Ep; try discriminate.
    - cbn in Ep. now injection Ep as -> -> _.
    - cbn in Ep. injection Ep as _ Ep. injection L2 as L2. exact (IH _ L2 Ep). }
  injection H as -> ->. destruct Rb as ((_ & nx & C & _) & _). eauto.
Qed.

Lemma placed_replace hf ps1 al (x y : entry) l ps2 : placed hf (ps1 ++ (al, x :: l) :: ps2) -> hf y = hf x ->
  placed hf (ps1 ++ (al, y :: l) :: ps2).
Proof.
  intros P E.
  assert (P2 : placed hf (ps1 ++ (al, l) :: ps2)).
  { apply (placed_incl P). apply rows_incl_mid. intros z Hz. now right. }
  apply (placed_set P2). rewrite app_length. cbn [length].
  specialize (P (length ps1) al (x :: l) x). rewrite app_length in P. cbn [length] in P. rewrite E. apply P; [|now left].
  rewrite nth_error_app2, Nat.sub_diag by lia. reflexivity.
Qed.

Lemma write_rep h t ps1 a al (e e' : entry) l ps2 nx :
  Trep h t (ps1 ++ (a :: al, e :: l) :: ps2) -> cell h a = Some (e, nx) ->
  Trep (upd h a (Some (e', nx))) t (ps1 ++ (a :: al, e' :: l) :: ps2) /\
  fstep h (upd h a (Some (e', nx))) (foot (ps1 ++ (a :: al, e :: l) :: ps2)) (foot (ps1 ++ (a :: al, e' :: l) :: ps2)).
Proof.
  intros R C. destruct (bucket_split (i := length ps1) R) as (t1 & s & t2 & q1 & al' & l' & q2 & Et & Ep & L1 & L2 & EB & Rb & ND & BD).
  { rewrite (Trep_length R), app_length. cbn. lia. }
  assert (q1 = ps1 /\ (al', l') :: q2 = (a :: al, e :: l) :: ps2) as (-> & E2).
  { clear -Ep L2. revert q1 L2 Ep. induction ps1 as [|p ps1 IH]; intros [|q q1] L2 Ep; try discriminate.
    - auto.
    - cbn in Ep. injection Ep as -> Ep. injection L2 as L2. destruct (IH _ L2 Ep) as (-> & ->). auto. }
  injection E2 as -> -> ->. subst t.
  apply Trep_step with (s := s); auto.
  - destruct Rb as ((Et & nx' & C' & L) & Z). split; [|exact Z]. cbn [fst snd lseg]. split; [exact Et|].
    rewrite C in C'. injection C' as ->. exists nx'. split; [apply upd_same|].
    apply lseg_frame with (h := h); [|exact L]. intros x Hx. apply upd_other. intros ->.
    apply NoDup_cons_iff in ND. tauto.
  - apply fstep_within; [apply incl_refl| |reflexivity|tauto]. intros x Hx. apply upd_other. intros ->. apply Hx. now left.
Qed.

Lemma m_set_spec hk fuel h t k v m ps :
  mrep h t m ps -> hash_ok hk -> S (length (bag ps)) < fuel ->
  exists h' t' ps', m_set keqb dflt gold mx unst hk fuel h t k v = Done (h', t') /\
    mrep h' t' (fun x => if keqb k x then v else m x) ps' /\
    length (bag ps') <= S (length (bag ps)) /\ fstep h h' (foot ps) (foot ps') /\
    (forall x, has (bag ps') x <-> keqb k x = true \/ has (bag ps) x) /\
    ((Z.of_nat (S (length (bag ps))) <= mx)%Z -> length t' = length t).
Proof.
  intros M HO Hf. unfold m_set.
  destruct (@m_index_spec hk fuel h t k m ps M HO Hf) as (h1 & t1 & a & q1 & al & [k' v'] & l & q2 & E & MR & Ek & LB & F & HS & LN).
  rewrite E. cbn [bnd]. destruct (mid_cell (mr_rep MR)) as (nx & C). rewrite C.
  destruct (@write_rep _ _ _ _ _ _ (k', v) _ _ _ (mr_rep MR) C) as (R2 & F2).
  eexists _, _, _. split; [reflexivity|]. split; [|split; [|split; [exact (fstep_trans F F2)|split; [|exact LN]]]].
  - split; [exact R2|apply MR| |].
    + apply holds_perm with ((k', v) :: bag (q1 ++ (al, l) :: q2)).
      { symmetry. apply perm_mid_bag. reflexivity. }
      apply holds_set with (v' := v'); [|exact Ek].
      apply holds_perm with (2 := mr_holds MR). apply perm_mid_bag. reflexivity.
    + intros U. apply placed_replace with (x := (k', v')); [apply MR, U|reflexivity].
  - rewrite bag_app, bag_cons, !app_length in *. cbn [snd length] in *. lia.
  - intros x. rewrite <- HS.
    assert (PM : forall u, Permutation (bag (q1 ++ (a :: al, (k', u) :: l) :: q2)) ((k', u) :: bag (q1 ++ (al, l) :: q2))).
    { intros u. apply perm_mid_bag. reflexivity. }
    rewrite (has_perm x (PM v)), (has_perm x (PM v')), !has_cons. reflexivity.
Qed.

Lemma in_mid_bag ps1 (al : list nat) (e : entry) l ps2 : In e (bag (ps1 ++ (al, e :: l) :: ps2)).
Proof. rewrite bag_app, bag_cons. apply in_or_app; right. now left. Qed.

Lemma holds_read l m e k : holds l m -> In e l -> keqb (fst e) k = true -> veqb (snd e) (m k) = true.
Proof. intros (A & B & C & D) I E. apply vtrans with (m (fst e)); [now apply B|now apply D]. Qed.

Lemma m_get_spec hk fuel h t k m ps :
  mrep h t m ps -> hash_ok hk -> S (length (bag ps)) < fuel ->
  exists h' t' v ps', m_get keqb dflt gold mx unst hk fuel h t k = Done (h', t', v) /\
    mrep h' t' m ps' /\ veqb v (m k) = true /\
    length (bag ps') <= S (length (bag ps)) /\ fstep h h' (foot ps) (foot ps') /\
    (forall x, has (bag ps') x <-> keqb k x = true \/ has (bag ps) x) /\
    ((Z.of_nat (S (length (bag ps))) <= mx)%Z -> length t' = length t).
Proof.
  intros M HO Hf. unfold m_get.
  destruct (@m_index_spec hk fuel h t k m ps M HO Hf) as (h1 & t1 & a & q1 & al & [k' v'] & l & q2 & E & MR & Ek & LB & F & HS & LN).
  rewrite E. cbn [bnd]. destruct (mid_cell (mr_rep MR)) as (nx & C). rewrite C.
  eexists _, _, _, _. split; [reflexivity|]. split; [exact MR|]. split; [|split; [exact LB|split; [exact F|split; [exact HS|exact LN]]]].
  apply (holds_read (mr_holds MR) (in_mid_bag _ _ _ _ _) Ek).
Qed.

(** The const lookup: also tells that the map is only reordered. *)
Lemma m_cget_spec hk fuel h t k m ps :
  mrep h t m ps -> hash_ok hk -> length (bag ps) < fuel ->
  exists h' t' v ps', m_cget keqb dflt unst hk fuel h t k = Done (h', t', v) /\
    mrep h' t' m ps' /\ veqb v (m k) = true /\
    rows_perm ps ps' /\ fstep h h' (foot ps) (foot ps') /\
    (forall e, In e (bag ps) -> keqb (fst e) k = true ->
      v = snd e /\ exists q1 a al l q2, ps' = q1 ++ (a :: al, e :: l) :: q2).
Proof.
  intros M HO Hf. unfold m_cget.
  destruct (@t_find_spec _ unst fuel h t (hk k) (ekey keqb k) ps (mr_rep M) (mr_len M) Hf
      (findable_key k HO (mr_placed M))) as (h1 & t1 & r1 & p1 & E1 & R1 & RP1 & F1 & M1).
  rewrite E1. cbn [bnd]. pose proof (mrep_rows M R1 RP1) as MR1.
  destruct r1 as [a|].
  - destruct M1 as (q1 & al & e & l & q2 & -> & Ek). destruct (mid_cell R1) as (nx & C).
    rewrite C. destruct e as [k' v'].
    eexists _, _, _, _. split; [reflexivity|]. split; [exact MR1|]. split; [|split; [exact RP1|split; [exact F1|]]].
    + apply (holds_read (mr_holds MR1) (in_mid_bag _ _ _ _ _) Ek).
    + intros e I Ee. assert (e = (k', v')) as ->; [|eauto 10].
      apply (Permutation_in e (rows_perm_bag RP1)) in I.
      destruct (mr_holds MR1) as (KDn & _).
      assert (P : Permutation (bag (q1 ++ (a :: al, (k', v') :: l) :: q2)) ((k', v') :: bag (q1 ++ (al, l) :: q2))).
      { apply perm_mid_bag. reflexivity. }
      apply (KD_perm P) in KDn. destruct KDn as (N & _). apply (Permutation_in e P) in I.
      destruct I as [<-|I]; [reflexivity|]. specialize (N e I). unfold ekey in Ek. cbn [fst] in N, Ek.
      rewrite ksym in Ee. rewrite (ktrans Ek Ee) in N. discriminate.
  - eexists _, _, _, _. split; [reflexivity|]. split; [exact MR1|]. split; [|split; [exact RP1|split; [exact F1|]]].
    + destruct (mr_holds M) as (_ & _ & C & _). apply C. exact M1.
    + intros e I Ee. specialize (M1 e I). unfold ekey in M1. congruence.
Qed.

(** * Shrinking *)
Lemma shrink_bucket_spec fuel : forall n h s al l,
  brep h s (al, l) -> NoDup al -> Forall (fun a => a < nxt h) al -> length l < fuel -> length l < n ->
  exists h' s' al' l' r, shrink_bucket veqb dflt n fuel h s = Done (h', s') /\ brep h' s' (al', l') /\
    NoDup al' /\ Forall (fun a => a < nxt h') al' /\ fstep h h' al al' /\
    Permutation l (r ++ l') /\ Forall (fun e : entry => eempty veqb dflt e = true) r /\
    Forall (fun e : entry => eempty veqb dflt e = false) l'.
Proof.
  induction n as [|n IH]; intros h s al l R ND BD Hf Hn; [lia|].
  cbn [shrink_bucket].
  destruct (s_remove_spec (eempty veqb dflt) R ND Hf) as (h1 & s1 & b & al1 & l1 & E & R1 & ND1 & I1 & N1 & F1 & M1).
  rewrite E. cbn [bnd]. destruct b.
  - destruct M1 as (d & P & Pd).
    assert (LL : length l = S (length l1)) by (apply Permutation_length in P; exact P).
    destruct (IH h1 s1 al1 l1 R1 ND1) as (h' & s' & al' & l' & r & E2 & R2 & ND2 & BD2 & F2 & P2 & A2 & B2); [|lia|lia|].
    { apply (Forall_lt_incl I1). now rewrite N1. }
    exists h', s', al', l', (d :: r). split; [exact E2|]. split; [exact R2|]. split; [exact ND2|]. split; [exact BD2|].
    split; [exact (fstep_trans F1 F2)|]. split; [|split; [constructor; auto|exact B2]].
    apply perm_trans with (1 := P). cbn. now apply perm_skip.
  - destruct M1 as (-> & M1). exists h1, s1, al1, l, []. split; [reflexivity|]. split; [exact R1|]. split; [exact ND1|].
    split; [apply (Forall_lt_incl I1); now rewrite N1|]. split; [exact F1|]. split; [reflexivity|]. split; [constructor|].
    apply Forall_forall. exact M1.
Qed.

Lemma shrink_all_spec fuel : forall t h ps,
  Trep h t ps -> length (bag ps) < fuel ->
  exists h' t' ps' r, shrink_all veqb dflt fuel fuel h t = Done (h', t') /\ Trep h' t' ps' /\
    rows_incl ps ps' /\ fstep h h' (foot ps) (foot ps') /\ Permutation (bag ps) (r ++ bag ps') /\
    Forall (fun e : entry => eempty veqb dflt e = true) r /\ Forall (fun e : entry => eempty veqb dflt e = false) (bag ps').
Proof.
  induction t as [|s t IH]; intros h ps R Hf.
  - pose proof R as (A & _). inversion A; subst. exists h, [], [], []. split; [reflexivity|]. split; [exact R|].
    split; [constructor|]. split; [apply fstep_refl|]. split; [constructor|]. split; constructor.
  - assert (exists al l ps2, ps = (al, l) :: ps2) as (al & l & ps2 & ->).
    { destruct R as (A & _). inversion A as [|? [al l] ? ps2]; subst. eauto. }
    rewrite bag_cons in Hf. cbn [snd] in Hf. rewrite app_length in Hf.
    destruct (IH h ps2 (Trep_tl R)) as (h1 & t1 & ps1 & r1 & E1 & R1 & I1 & F1 & P1 & A1 & B1); [lia|].
    cbn [shrink_all]. rewrite E1. cbn [bnd].
    destruct (Trep_tail R R1 F1) as (R2 & F2). destruct (Trep_hd R2) as (Rb & ND & BD).
    destruct (@shrink_bucket_spec fuel fuel h1 s al l Rb ND BD) as (h' & s' & al' & l' & r & E & Rb' & ND' & BD' & F' & P' & A' & B'); [lia|lia|].
    rewrite E. cbn [bnd].
    destruct (@Trep_step _ h1 h' [] s t1 [] al l ps1 s' al' l' R2 eq_refl Rb' ND' F' BD') as (R3 & F3).
    cbn [app] in R3, F3.
    exists h', (s' :: t1), ((al', l') :: ps1), (r ++ r1). split; [reflexivity|]. split; [exact R3|]. split; [|split; [|split; [|split]]].
    + constructor; [|exact I1]. cbn [snd]. intros x Hx. apply (Permutation_in x (Permutation_sym P')). apply in_or_app. now right.
    + exact (fstep_trans F2 F3).
    + rewrite !bag_cons. cbn [snd]. rewrite <- app_assoc.
      apply perm_trans with ((r ++ l') ++ (r1 ++ bag ps1)); [now apply Permutation_app|].
      rewrite <- app_assoc. apply Permutation_app_head. apply Permutation_app_swap_app.
    + apply Forall_app. auto.
    + rewrite bag_cons. apply Forall_app. auto.
Qed.

Lemma holds_shrink l r l' m : holds l m -> Permutation l (r ++ l') ->
  Forall (fun e : entry => eempty veqb dflt e = true) r -> holds l' m.
Proof.
  intros H P A. apply (holds_perm P) in H. destruct H as (H1 & H2 & H3 & H4).
  rewrite Forall_forall in A.
  split; [exact (KD_app_r H1)|]. split; [|split; [|exact H4]].
  - intros e I. apply H2, in_or_app. now right.
  - intros k Hk. destruct (existsb (fun e => keqb (fst e) k) r) eqn:X.
    + apply existsb_exists in X. destruct X as (e & I & Ek).
      specialize (A e I). unfold eempty in A. apply vtrans with (snd e); [now apply vsym|].
      apply vtrans with (m (fst e)); [apply H2, in_or_app; now left|now apply H4].
    + apply H3. intros e I. apply in_app_or in I. destruct I as [I|I]; [|now apply Hk].
      destruct (keqb (fst e) k) eqn:Ek; [|reflexivity]. rewrite <- X. symmetry. apply existsb_exists. eauto.
Qed.

Lemma has_shrink l r l' m : holds l m -> Permutation l (r ++ l') ->
  Forall (fun e : entry => eempty veqb dflt e = true) r -> Forall (fun e : entry => eempty veqb dflt e = false) l' ->
  forall k, has l' k <-> has l k /\ veqb (m k) dflt = false.
Proof.
  intros (H1 & H2 & H3 & H4) P A B k. rewrite Forall_forall in A, B. split.
  - intros (e & I & E). assert (Il : In e l).
    { apply (Permutation_in e (Permutation_sym P)), in_or_app. now right. }
    split; [exists e; auto|]. specialize (B e I). unfold eempty in B.
    destruct (veqb (m k) dflt) eqn:Ek; [|reflexivity]. rewrite <- B. symmetry.
    apply vtrans with (m k); [|exact Ek]. apply vtrans with (m (fst e)); [now apply H2|now apply H4].
  - intros ((e & I & E) & N). apply (Permutation_in e P) in I as I'. apply in_app_or in I'. destruct I' as [I'|I']; [|exists e; auto].
    specialize (A e I'). unfold eempty in A. rewrite (@vtrans (m k) (snd e) dflt) in N; [discriminate| |exact A].
    apply vsym. apply vtrans with (m (fst e)); [now apply H2|now apply H4].
Qed.

Lemma m_shrink_spec fuel h t m ps :
  mrep h t m ps -> length (bag ps) < fuel ->
  exists h' t' ps', m_shrink veqb dflt fuel h t = Done (h', t') /\ mrep h' t' m ps' /\
    length (bag ps') <= length (bag ps) /\ fstep h h' (foot ps) (foot ps') /\
    Forall (fun e : entry => eempty veqb dflt e = false) (bag ps') /\ length ps' = length ps /\
    (forall k, has (bag ps') k <-> has (bag ps) k /\ veqb (m k) dflt = false).
Proof.
  intros M Hf. unfold m_shrink.
  destruct (shrink_all_spec (mr_rep M) Hf) as (h' & t' & ps' & r & E & R & RI & F & P & A & B).
  exists h', t', ps'. split; [exact E|]. split; [|split; [|split; [exact F|split; [exact B|split; [symmetry; exact (Forall2_length RI)|exact (has_shrink (mr_holds M) P A B)]]]]].
  - split; [exact R| | |].
    + rewrite (Trep_length R), <- (Forall2_length RI), <- (Trep_length (mr_rep M)). apply M.
    + exact (holds_shrink (mr_holds M) P A).
    + intros U. exact (placed_incl (mr_placed M U) RI).
  - apply Permutation_length in P. rewrite app_length in P. lia.
Qed.

(** * Several maps in one memory *)
Record wrep (w : world K V) (m : store K V) (PS : nat -> list bkt) : Prop := {
  wr_each : forall i, mrep (wh w) (wt w i) (m i) (PS i);
  wr_disj : forall i j x, i <> j -> In x (foot (PS i)) -> ~ In x (foot (PS j));
  wr_tight : forall x, cell (wh w) x <> None -> exists i, In x (foot (PS i)) }.

Definition setP (PS : nat -> list bkt) (i : nat) (ps : list bkt) : nat -> list bkt :=
  fun x => if Nat.eqb x i then ps else PS x.

Lemma foot_lt w m PS i x : wrep w m PS -> In x (foot (PS i)) -> x < nxt (wh w).
Proof.
  intros W I. destruct (wr_each W i) as [(_ & _ & C) _ _ _]. rewrite Forall_forall in C. auto.
Qed.

(** One map changes within its footprint, the others do not notice. *)
Lemma wrep_step w m PS i h' t' mi ps' :
  wrep w m PS -> mrep h' t' mi ps' -> fstep (wh w) h' (foot (PS i)) (foot ps') ->
  wrep (mkWorld h' (setT (wt w) i t')) (fun j => if Nat.eqb j i then mi else m j) (setP PS i ps').
Proof.
  intros W M (F1 & F2 & F3 & F4). split.
  - intros j. cbn [wh wt]. unfold setT, setP. destruct (Nat.eqb_spec j i) as [->|N]; [exact M|].
    pose proof (wr_each W j) as MJ. split; [|apply MJ|apply MJ|apply MJ].
    apply Trep_frame with (h := wh w); [|exact F3|apply MJ].
    intros x Hx. apply F2; [|exact (foot_lt W Hx)]. exact (wr_disj W N Hx).
  - intros a b x N. unfold setP. destruct (Nat.eqb_spec a i) as [->|Na], (Nat.eqb_spec b i) as [->|Nb]; [congruence| | |].
    + intros Hx I. destruct (F1 x Hx) as [J|J]; [exact (wr_disj W N J I)|]. pose proof (foot_lt W I). lia.
    + intros Hx I. destruct (F1 x I) as [J|J]; [exact (wr_disj W N Hx J)|]. pose proof (foot_lt W Hx). lia.
    + apply (wr_disj W N).
  - intros x Hx. cbn [wh] in Hx. destruct (F4 x Hx) as [J|(J & K0)].
    + exists i. unfold setP. now rewrite Nat.eqb_refl.
    + destruct (wr_tight W K0) as (j & Ij). exists j. unfold setP. destruct (Nat.eqb_spec j i) as [->|]; [contradiction|exact Ij].
Qed.

Lemma wrep_ext w m m' PS : wrep w m PS -> (forall i k, m i k = m' i k) -> wrep w m' PS.
Proof.
  intros W E. split; [|apply W|apply W]. intros i. pose proof (wr_each W i) as [A B (C1 & C2 & C3 & C4) D].
  split; auto. split; [exact C1|]. split; [|split].
  - intros e I. rewrite <- E. auto.
  - intros k Hk. rewrite <- E. auto.
  - intros k k' Ek. rewrite <- !E. auto.
Qed.

(** * Comparing two maps *)
Lemma eq_bucket_spec hk fuel j : hash_ok hk -> forall n w m PS tmp al l,
  wrep w m PS -> lseg (wh w) tmp al l None -> (forall x, In x al -> ~ In x (foot (PS j)) /\ x < nxt (wh w)) ->
  length (bag (PS j)) < fuel -> length l < n ->
  exists w' b ps', eq_bucket keqb veqb dflt unst hk n fuel w j tmp = Done (w', b) /\
    wrep w' m (setP PS j ps') /\ rows_perm (PS j) ps' /\
    (forall x, ~ In x (foot (PS j)) -> x < nxt (wh w) -> cell (wh w') x = cell (wh w) x) /\
    nxt (wh w) <= nxt (wh w') /\ (forall i, i <> j -> wt w' i = wt w i) /\
    (forall x, In x (foot ps') -> In x (foot (PS j)) \/ nxt (wh w) <= x) /\
    (b = true <-> forall e, In e l -> veqb (m j (fst e)) (snd e) = true).
Proof.
  intros HO. induction n as [|n IH]; intros w m PS tmp al l W L DJ Hf Hn; [lia|].
  destruct al as [|a al]; destruct l as [|[k v] l]; cbn [lseg] in L; try easy.
  - subst tmp. exists w, true, (PS j). split; [reflexivity|]. split.
    { split.
      - intros i. unfold setP. destruct (Nat.eqb_spec i j) as [->|]; apply W.
      - intros i i' x N. unfold setP. destruct (Nat.eqb_spec i j) as [->|], (Nat.eqb_spec i' j) as [->|]; apply W; auto.
      - intros x Hx. destruct (wr_tight W Hx) as (z & Iz). exists z. unfold setP. now destruct (Nat.eqb_spec z j) as [->|]. }
    split; [apply rows_perm_refl|]. split; [auto|]. split; [lia|]. split; [auto|]. split; [auto|].
    split; [intros _ e []|auto].
  - destruct L as (-> & nx & C & L). cbn [eq_bucket]. rewrite C.
    destruct (@m_cget_spec hk fuel (wh w) (wt w j) k (m j) (PS j) (wr_each W j) HO Hf)
      as (h1 & t1 & v' & ps1 & E & MR & Ev & RP & F & _).
    rewrite E. cbn [bnd].
    assert (W1 : wrep (mkWorld h1 (setT (wt w) j t1)) m (setP PS j ps1)).
    { apply wrep_ext with (fun i => if Nat.eqb i j then m j else m i); [now apply wrep_step|].
      intros i x. now destruct (Nat.eqb_spec i j) as [->|]. }
    destruct F as (F1 & F2 & F3 & _).
    destruct (veqb v' v) eqn:Evv.
    + rewrite F2 by (apply DJ; now left). rewrite C.
      destruct (IH (mkWorld h1 (setT (wt w) j t1)) m (setP PS j ps1) nx al l W1)
        as (w' & b & ps' & E2 & W2 & RP2 & G1 & G2 & G3 & G4 & G5).
      * cbn [wh]. apply lseg_frame with (h := wh w); [|exact L]. intros x Hx. apply F2; apply DJ; now right.
      * intros x Hx. cbn [wh]. unfold setP. rewrite Nat.eqb_refl. destruct (DJ x) as (D1 & D2); [now right|].
        split; [|lia]. intros I. destruct (F1 x I); [contradiction|lia].
      * unfold setP. rewrite Nat.eqb_refl. rewrite <- (Permutation_length (rows_perm_bag RP)). exact Hf.
      * cbn in Hn. lia.
      * unfold setP in RP2, G1, G4. rewrite Nat.eqb_refl in RP2, G1, G4. cbn [wh wt] in G1, G2, G3, G4.
        exists w', b, ps'. split; [exact E2|]. split; [|split; [exact (rows_perm_trans RP RP2)|split; [|split; [lia|split; [|split]]]]].
        -- split.
           ++ intros i. pose proof (wr_each W2 i) as Q. unfold setP in *. destruct (Nat.eqb i j); exact Q.
           ++ intros i i' x N. pose proof (@wr_disj _ _ _ W2 i i' x N) as Q. unfold setP in *.
              destruct (Nat.eqb i j), (Nat.eqb i' j); exact Q.
           ++ intros x Hx. destruct (wr_tight W2 Hx) as (z & Iz). exists z. unfold setP in *. destruct (Nat.eqb z j); exact Iz.
        -- intros x Hx Lx. rewrite G1; [now apply F2| |lia]. intros I. destruct (F1 x I); [contradiction|lia].
        -- intros i Ni. rewrite G3 by exact Ni. unfold setT. now destruct (Nat.eqb_spec i j).
        -- intros x Hx. destruct (G4 x Hx) as [J|J]; [|right; lia]. destruct (F1 x J); [now left|right; lia].
        -- rewrite G5. split.
           ++ intros H e [<-|I]; [|now apply H]. cbn [fst snd]. apply vtrans with v'; [now apply vsym|exact Evv].
           ++ intros H e I. apply H. now right.
    + eexists _, false, ps1. split; [reflexivity|]. split; [exact W1|]. split; [exact RP|]. cbn [wh wt].
      split; [exact F2|]. split; [exact F3|]. split; [|split].
      * intros i Ni. unfold setT. now destruct (Nat.eqb_spec i j).
      * intros x Hx. destruct (F1 x Hx) as [J|J]; [now left|right; lia].
      * split; [discriminate|]. intros H. specialize (H (k, v) (or_introl eq_refl)). cbn in H.
        rewrite <- Evv. exact (vtrans Ev H).
Qed.

Lemma wrep_setP_same w m PS i : wrep w m PS -> wrep w m (setP PS i (PS i)).
Proof.
  intros W. split.
  - intros j. unfold setP. destruct (Nat.eqb_spec j i) as [->|]; apply W.
  - intros a b x N. unfold setP. destruct (Nat.eqb_spec a i) as [->|], (Nat.eqb_spec b i) as [->|]; apply W; auto.
  - intros x Hx. destruct (wr_tight W Hx) as (z & Iz). exists z. unfold setP. now destruct (Nat.eqb_spec z i) as [->|].
Qed.

Lemma skipn_mid A (q1 : list A) x q2 :
  skipn (length q1) (q1 ++ x :: q2) = x :: skipn (S (length q1)) (q1 ++ x :: q2).
Proof. induction q1 as [|q q1 IH]; [reflexivity|]. exact IH. Qed.

Lemma eq_buckets_spec hk fuel i j : hash_ok hk -> i <> j -> forall c w m PS b,
  wrep w m PS -> length (bag (PS j)) < fuel -> length (bag (PS i)) < fuel ->
  b + c = length (wt w i) ->
  exists w' r ps', eq_buckets keqb veqb dflt unst hk fuel fuel w i j b c = Done (w', r) /\
    wrep w' m (setP PS j ps') /\ rows_perm (PS j) ps' /\
    (r = true <-> forall q e, In q (skipn b (PS i)) -> In e (snd q) -> veqb (m j (fst e)) (snd e) = true).
Proof.
  intros HO Nij. induction c as [|c IH]; intros w m PS b W Hf Hfi Hb; cbn [eq_buckets].
  - exists w, true, (PS j). split; [reflexivity|]. split; [now apply wrep_setP_same|]. split; [apply rows_perm_refl|].
    split; [|auto]. intros _ q e I. rewrite (Trep_length (mr_rep (wr_each W i))) in Hb.
    rewrite skipn_all2 in I by lia. destruct I.
  - destruct (bucket_split (i := b) (mr_rep (wr_each W i))) as (t1 & s & t2 & q1 & al & l & q2 & Et & Ep & L1 & L2 & EB & Rb & ND & BD); [lia|].
    rewrite EB. cbn [bnd].
    assert (Hl : length l < fuel).
    { rewrite Ep, bag_app, bag_cons, !app_length in Hfi. cbn [snd] in Hfi. lia. }
    destruct (@eq_bucket_spec hk fuel j HO fuel w m PS (top s) al l W (proj1 Rb)) as (w1 & r1 & ps1 & E & W1 & RP & G1 & G2 & G3 & G4 & G5); auto.
    { intros x Hx. rewrite Forall_forall in BD. split; [|auto]. apply (wr_disj W Nij). rewrite Ep, foot_app, foot_cons.
      apply in_or_app; right; apply in_or_app; now left. }
    rewrite E. cbn [bnd].
    assert (SK : skipn b (PS i) = (al, l) :: skipn (S b) (PS i)).
    { rewrite Ep, <- L2. apply skipn_mid. }
    assert (PI : setP PS j ps1 i = PS i) by (unfold setP; destruct (Nat.eqb_spec i j); [congruence|reflexivity]).
    assert (PJ : setP PS j ps1 j = ps1) by (unfold setP; now rewrite Nat.eqb_refl).
    destruct r1.
    + destruct (IH w1 m (setP PS j ps1) (S b) W1) as (w' & r & ps' & E2 & W2 & RP2 & G).
      * rewrite PJ, <- (Permutation_length (rows_perm_bag RP)). exact Hf.
      * rewrite PI. exact Hfi.
      * rewrite G3 by exact Nij. lia.
      * rewrite PI in G. rewrite PJ in RP2. exists w', r, ps'. split; [exact E2|]. split; [|split; [exact (rows_perm_trans RP RP2)|]].
        -- split.
           ++ intros z. pose proof (wr_each W2 z) as Q. unfold setP in *. destruct (Nat.eqb z j); exact Q.
           ++ intros z z' x N. pose proof (@wr_disj _ _ _ W2 z z' x N) as Q. unfold setP in *.
              destruct (Nat.eqb z j), (Nat.eqb z' j); exact Q.
           ++ intros x Hx. destruct (wr_tight W2 Hx) as (z & Iz). exists z. unfold setP in *. destruct (Nat.eqb z j); exact Iz.
        -- rewrite G, SK. split.
           ++ intros H q e [<-|I] Ie; [|now apply (H q e)]. cbn [snd] in Ie. now apply G5.
           ++ intros H q e I. apply H. now right.
    + exists w1, false, ps1. split; [reflexivity|]. split; [exact W1|]. split; [exact RP|].
      rewrite SK. split; [discriminate|]. intros H. apply G5. intros e I. apply (H (al, l) e); [now left|exact I].
Qed.

(** Pigeonhole on keys. *)
Lemma pigeon : forall a b, KD a -> KD b -> (forall e, In e a -> has b (fst e)) ->
  length a <= length b /\ (length b <= length a -> forall e, In e b -> has a (fst e)).
Proof.
  induction a as [|x a IH]; intros b Ka Kb H.
  - cbn. split; [lia|]. intros L e I. destruct b; [destruct I|cbn in L; lia].
  - cbn [KD] in Ka. destruct Ka as (Nx & Ka).
    destruct (H x (or_introl eq_refl)) as (y & Iy & Ey).
    apply in_split in Iy. destruct Iy as (b1 & b2 & ->).
    assert (P : Permutation (b1 ++ y :: b2) (y :: b1 ++ b2)) by (symmetry; apply Permutation_middle).
    pose proof (KD_perm P Kb) as (Ny & Kb').
    destruct (IH (b1 ++ b2) Ka Kb') as (L1 & S1).
    { intros e I. destruct (H e (or_intror I)) as (z & Iz & Ez). exists z. split; [|exact Ez].
      apply (Permutation_in z P) in Iz. destruct Iz as [<-|Iz]; [|exact Iz].
      specialize (Nx e I). rewrite ksym in Ey. rewrite (ktrans Ey Ez) in Nx. discriminate. }
    rewrite (Permutation_length P). cbn [length]. split; [lia|].
    intros L e I. apply (Permutation_in e P) in I. destruct I as [<-|I].
    + exists x. split; [now left|]. now rewrite ksym.
    + destruct (S1 ltac:(lia) e I) as (z & Iz & Ez). exists z. split; [now right|exact Ez].
Qed.

(** Entries with non-default values: equality of all entries of one side with
    the other side decides equality everywhere. *)
Lemma full_holds_has l m (e : entry) : holds l m -> Forall (fun e : entry => eempty veqb dflt e = false) l ->
  forall k, veqb (m k) (snd e) = true -> eempty veqb dflt e = false -> has l k.
Proof.
  intros (A & B & C & D) F k E NE. destruct (has_dec l k) as [H|H]; [exact H|].
  specialize (C k H). unfold eempty in NE. rewrite (vsym (vtrans C E)) in NE. discriminate.
Qed.

Lemma maps_agree A B ma mb :
  holds A ma -> holds B mb ->
  Forall (fun e : entry => eempty veqb dflt e = false) A -> Forall (fun e : entry => eempty veqb dflt e = false) B ->
  (forall k, veqb (ma k) (mb k) = true) <->
  (length A = length B /\ forall e, In e A -> veqb (mb (fst e)) (snd e) = true).
Proof.
  intros HA HB FA FB. pose proof HA as (KA & A2 & A3 & A4). pose proof HB as (KB & B2 & B3 & B4).
  rewrite Forall_forall in FA, FB. split.
  - intros H.
    assert (HAB : forall e, In e A -> veqb (mb (fst e)) (snd e) = true).
    { intros e I. apply vtrans with (ma (fst e)); [apply vsym, H|now apply vsym, A2]. }
    assert (HBA : forall e, In e B -> veqb (ma (fst e)) (snd e) = true).
    { intros e I. apply vtrans with (mb (fst e)); [apply H|now apply vsym, B2]. }
    split; [|exact HAB].
    destruct (@pigeon A B KA KB) as (L1 & _).
    { intros e I. apply (@full_holds_has B mb e HB); [now apply Forall_forall|now apply HAB|now apply FA]. }
    destruct (@pigeon B A KB KA) as (L2 & _).
    { intros e I. apply (@full_holds_has A ma e HA); [now apply Forall_forall|now apply HBA|now apply FB]. }
    lia.
  - intros (L & HAB) k.
    destruct (@pigeon A B KA KB) as (_ & S).
    { intros e I. apply (@full_holds_has B mb e HB); [now apply Forall_forall|now apply HAB|now apply FA]. }
    specialize (S ltac:(lia)).
    destruct (has_dec A k) as [(e & I & Ek)|NA].
    + apply vtrans with (ma (fst e)); [apply A4; now rewrite ksym|].
      apply vtrans with (snd e); [now apply vsym, A2|].
      apply vtrans with (mb (fst e)); [now apply vsym, HAB|now apply B4].
    + assert (NB : forall e, In e B -> keqb (fst e) k = false).
      { intros e I. destruct (keqb (fst e) k) eqn:Ek; [|reflexivity].
        destruct (S e I) as (z & Iz & Ez). rewrite <- (NA z Iz). symmetry. exact (ktrans Ez Ek). }
      apply vtrans with dflt; [apply vsym; now apply A3|now apply B3].
Qed.

Lemma wrep_shrink fuel w m PS i : wrep w m PS -> length (bag (PS i)) < fuel ->
  exists h' t' ps', m_shrink veqb dflt fuel (wh w) (wt w i) = Done (h', t') /\
    wrep (mkWorld h' (setT (wt w) i t')) m (setP PS i ps') /\ length (bag ps') <= length (bag (PS i)) /\
    Forall (fun e : entry => eempty veqb dflt e = false) (bag ps') /\ length ps' = length (PS i) /\
    (forall k, has (bag ps') k <-> has (bag (PS i)) k /\ veqb (m i k) dflt = false).
Proof.
  intros W Hf.
  destruct (@m_shrink_spec fuel _ _ _ _ (wr_each W i) Hf) as (h1 & t1 & ps1 & E & M1 & L1 & F1 & B1 & N1 & S1).
  exists h1, t1, ps1. split; [exact E|]. split; [|auto].
  apply wrep_ext with (fun x => if Nat.eqb x i then m i else m x); [now apply wrep_step|].
  intros x k. now destruct (Nat.eqb_spec x i) as [->|].
Qed.

Lemma m_eq_spec hk fuel w m PS i j : wrep w m PS -> hash_ok hk -> i <> j ->
  length (bag (PS i)) < fuel -> length (bag (PS j)) < fuel ->
  exists w' b PS', m_eq keqb veqb dflt unst hk fuel w i j = Done (w', b) /\ wrep w' m PS' /\
    (forall x, length (bag (PS' x)) <= length (bag (PS x)) /\ length (PS' x) = length (PS x)) /\
    (forall x k, has (bag (PS' x)) k <-> has (bag (PS x)) k /\ (x = i \/ x = j -> veqb (m x k) dflt = false)) /\
    (b = true <-> forall k, veqb (m i k) (m j k) = true).
Proof.
  intros W HO N Hi Hj. unfold m_eq.
  destruct (wrep_shrink W Hi) as (h1 & t1 & p1 & E1 & W1 & L1 & B1 & N1 & S1). rewrite E1. cbn [bnd].
  set (w1 := mkWorld h1 (setT (wt w) i t1)) in *.
  assert (PJ : setP PS i p1 j = PS j) by (unfold setP; destruct (Nat.eqb_spec j i); [congruence|reflexivity]).
  destruct (@wrep_shrink fuel w1 m _ j W1) as (h2 & t2 & p2 & E2 & W2 & L2 & B2 & N2 & S2); [rewrite PJ; exact Hj|].
  rewrite E2. cbn [bnd]. rewrite PJ in L2, N2, S2.
  set (w2 := mkWorld h2 (setT (wt w1) j t2)) in *.
  set (PS2 := setP (setP PS i p1) j p2) in *.
  assert (P2J : PS2 j = p2) by (unfold PS2, setP; now rewrite Nat.eqb_refl).
  assert (P2I : PS2 i = p1).
  { unfold PS2, setP. rewrite Nat.eqb_refl. destruct (Nat.eqb_spec i j); [congruence|reflexivity]. }
  assert (LE2 : forall x, length (bag (PS2 x)) <= length (bag (PS x)) /\ length (PS2 x) = length (PS x)).
  { intros x. unfold PS2, setP. destruct (Nat.eqb_spec x j) as [->|]; [lia|]. destruct (Nat.eqb_spec x i) as [->|]; lia. }
  assert (HS2 : forall x k, has (bag (PS2 x)) k <-> has (bag (PS x)) k /\ (x = i \/ x = j -> veqb (m x k) dflt = false)).
  { intros x k. unfold PS2, setP. destruct (Nat.eqb_spec x j) as [->|Nj].
    - rewrite S2. tauto.
    - destruct (Nat.eqb_spec x i) as [->|Ni]; [rewrite S1; tauto|]. tauto. }
  rewrite (t_size_spec (mr_rep (wr_each W2 i))), (t_size_spec (mr_rep (wr_each W2 j))), P2I, P2J.
  pose proof (@maps_agree (bag p1) (bag p2) (m i) (m j)) as AG.
  specialize (AG ltac:(rewrite <- P2I; apply W2) ltac:(rewrite <- P2J; apply W2) B1 B2).
  destruct (Z.eqb_spec (Z.of_nat (length (bag p1))) (Z.of_nat (length (bag p2)))) as [EL|NL].
  - destruct (@eq_buckets_spec hk fuel i j HO N (length (wt w2 i)) w2 m PS2 0 W2) as (w' & r & ps' & E & W' & RP & G).
    { rewrite P2J. lia. } { rewrite P2I. lia. } { reflexivity. }
    exists w', r, (setP PS2 j ps'). split; [exact E|]. split; [exact W'|]. split.
    { intros x. unfold setP. destruct (Nat.eqb_spec x j) as [->|]; [|apply LE2].
      rewrite <- (Permutation_length (rows_perm_bag RP)), <- (Forall2_length RP). apply LE2. }
    split.
    { intros x k. unfold setP. destruct (Nat.eqb_spec x j) as [->|]; [|apply HS2].
      rewrite <- (has_rows k RP). apply HS2. }
    rewrite AG, G, P2I. cbn [skipn]. split.
    + intros H. split; [lia|]. intros e I. apply in_bag_nth in I. destruct I as (k & q & Eq & I).
      apply (H q e); [exact (nth_error_In _ _ Eq)|exact I].
    + intros (_ & H) q e Iq Ie. apply H. unfold bag. apply in_concat. exists (snd q). split; [|exact Ie].
      now apply in_map.
  - exists w2, false, PS2. split; [reflexivity|]. split; [exact W2|]. split; [exact LE2|]. split; [exact HS2|].
    rewrite AG. split; [discriminate|]. intros (E & _). lia.
Qed.

(** * Histories *)
Definition op_hash_ok (o : mop_t K V) : Prop :=
  unst = true \/ ((forall x y, keqb x y = true -> hk0 x = hk0 y) /\ mop_hash hk0 o).

(** Which keys have an entry. *)
Definition sees (PS : nat -> list bkt) (s : keyset K) : Prop := forall i k, s i k = true <-> has (bag (PS i)) k.

Lemma lists_of_bag l s : KD l -> (forall k, s k = true <-> has l k) -> lists_keys keqb s (map fst l).
Proof.
  intros D S. split.
  - clear S. induction l as [|e l IH]; cbn [map]; [constructor|]. destruct D as (A & B). constructor; [|auto].
    apply Forall_forall. intros k I. apply in_map_iff in I. destruct I as (e' & <- & I). now apply A.
  - intros k. rewrite S. split.
    + intros (e & I & E). exists (fst e). split; [now apply in_map|exact E].
    + intros (k' & I & E). apply in_map_iff in I. destruct I as (e & <- & I). exists e. auto.
Qed.

Lemma KD_map (g : entry -> entry) l : (forall e, fst (g e) = fst e) -> KD l -> KD (map g l).
Proof.
  intros G. induction l as [|e l IH]; cbn [map KD]; [auto|]. intros (A & B). split; [|auto].
  intros e' I. apply in_map_iff in I. destruct I as (x & <- & I). rewrite !G. now apply A.
Qed.

Lemma has_map (g : entry -> entry) l k : (forall e, fst (g e) = fst e) -> has (map g l) k <-> has l k.
Proof.
  intros G. split.
  - intros (e & I & E). apply in_map_iff in I. destruct I as (x & <- & I). rewrite G in E. exists x. auto.
  - intros (e & I & E). exists (g e). split; [now apply in_map|]. now rewrite G.
Qed.

Lemma has_key l k k' : keqb k k' = true -> has l k -> has l k'.
Proof. intros E (e & I & X). exists e. split; [exact I|]. exact (ktrans X E). Qed.

Lemma holds_update l m (s : K -> bool) f : (forall x y, veqb x y = true -> veqb (f x) (f y) = true) ->
  (forall k, s k = true <-> has l k) -> holds l m ->
  holds (map (fun e : entry => (fst e, f (snd e))) l) (fun k => if s k then f (m k) else m k).
Proof.
  intros CF S (A & B & C & D). split; [|split; [|split]].
  - apply KD_map; [reflexivity|exact A].
  - intros e I. apply in_map_iff in I. destruct I as (x & <- & I). cbn [fst snd].
    rewrite (proj2 (S (fst x))); [apply CF, B, I|]. exists x. split; [exact I|apply krefl].
  - intros k Hk. destruct (s k) eqn:Sk.
    + apply S in Sk. destruct Sk as (e & I & E). specialize (Hk (fst e, f (snd e))). cbn [fst] in Hk.
      rewrite Hk in E; [discriminate|]. apply in_map_iff. exists e. auto.
    + apply C. intros e I. specialize (Hk (fst e, f (snd e))). cbn [fst] in Hk. apply Hk. apply in_map_iff. exists e. auto.
  - intros k k' E. assert (SE : s k = s k').
    { destruct (s k) eqn:Sk, (s k') eqn:Sk'; auto.
      - apply S in Sk. apply (has_key E) in Sk. apply S in Sk. congruence.
      - rewrite ksym in E. apply S in Sk'. apply (has_key E) in Sk'. apply S in Sk'. congruence. }
    rewrite <- SE. destruct (s k); [apply CF|]; now apply D.
Qed.

Lemma placed_update hf (g : entry -> entry) (ps : list bkt) : (forall e, hf (g e) = hf e) -> placed hf ps -> placed hf (upd_rows g ps).
Proof.
  intros G P i al l x E I. unfold upd_rows in *. rewrite map_length. rewrite nth_error_map in E.
  destruct (nth_error ps i) as [[al0 l0]|] eqn:En; [|discriminate]. cbn in E. injection E as <- <-.
  apply in_map_iff in I. destruct I as (y & <- & I). rewrite G. exact (P i _ _ y En I).
Qed.

Lemma sees_set PS s i ps' b : sees PS s -> (forall k, b k = true <-> has (bag ps') k) ->
  sees (setP PS i ps') (fun j k => if Nat.eqb j i then b k else s j k).
Proof. intros S H j k. unfold setP. destruct (Nat.eqb j i); [apply H|apply S]. Qed.

Lemma sees_ext PS s s' : sees PS s -> (forall i k, s i k = s' i k) -> sees PS s'.
Proof. intros S E i k. rewrite <- E. apply S. Qed.

Lemma m_op_spec fuel n w ms PS o : wrep w (fst ms) PS -> sees PS (snd ms) -> op_hash_ok o -> usual_op veqb o ->
  (forall i, length (bag (PS i)) <= n) -> S n < fuel ->
  exists w' a PS', m_op keqb veqb dflt gold mx unst fuel w o = Done (w', a) /\
    wrep w' (fst (effect keqb veqb dflt ms o)) PS' /\ sees PS' (snd (effect keqb veqb dflt ms o)) /\
    answer_ok keqb veqb ms o a /\ (forall i, length (bag (PS' i)) <= S n) /\
    ((Z.of_nat (S n) <= mx)%Z -> (forall i, length (PS i) = 5) -> forall i, length (PS' i) = 5).
Proof.
  destruct ms as (m, s). cbn [fst snd]. intros W SE OH NS Hn Hf. unfold effect. cbn [fst snd].
  assert (HO : forall hk, (mop_hash hk0 o -> hk = hk0) -> hash_ok hk).
  { intros hk H. destruct OH as [U|(C & MH)]; [now left|]. right. split; [now apply H|exact C]. }
  assert (SZ : forall i ps', length (bag ps') <= S (length (bag (PS i))) -> forall x, length (bag (setP PS i ps' x)) <= S n).
  { intros i ps' L x. unfold setP. pose proof (Hn x). pose proof (Hn i). destruct (Nat.eqb_spec x i) as [->|]; lia. }
  assert (SL : forall i ps', length ps' = length (PS i) -> (forall x, length (PS x) = 5) -> forall x, length (setP PS i ps' x) = 5).
  { intros i ps' L A x. unfold setP. destruct (Nat.eqb_spec x i) as [->|]; [now rewrite L|apply A]. }
  assert (ST : forall i h' t' m' ps', mrep h' t' m' ps' -> ((Z.of_nat (S (length (bag (PS i)))) <= mx)%Z -> length t' = length (wt w i)) ->
     (Z.of_nat (S n) <= mx)%Z -> (forall x, length (PS x) = 5) -> forall x, length (setP PS i ps' x) = 5).
  { intros i h' t' m' ps' M LN LE. apply SL. rewrite <- (Trep_length (mr_rep M)), <- (Trep_length (mr_rep (wr_each W i))).
    apply LN. specialize (Hn i). lia. }
  assert (SA : forall i k ps', (forall x, has (bag ps') x <-> keqb k x = true \/ has (bag (PS i)) x) ->
     sees (setP PS i ps') (fun j x => Nat.eqb i j && keqb k x || s j x)).
  { intros i k ps' H. eapply sees_ext; [apply (@sees_set PS s i ps' (fun x => keqb k x || s i x) SE)|].
    - intros x. rewrite orb_true_iff, H, (SE i x). reflexivity.
    - intros j x. cbn beta. rewrite (Nat.eqb_sym j i). destruct (Nat.eqb_spec i j) as [->|]; reflexivity. }
  destruct o as [hk i k v|hk i k|hk i k|i|hk i j|i|i|i f|i]; cbn [m_op effect_values effect_keys answer_ok].
  - destruct (@m_set_spec hk fuel (wh w) (wt w i) k v (m i) (PS i) (wr_each W i)) as (h' & t' & ps' & E & M & L & F & HS & LN).
    { apply HO. auto. } { specialize (Hn i). lia. }
    rewrite E. cbn [bnd]. eexists _, _, _. split; [reflexivity|]. split; [|split; [exact (SA _ _ _ HS)|split; [reflexivity|split; [exact (SZ _ _ L)|exact (ST _ _ _ _ _ M LN)]]]].
    eapply wrep_ext; [exact (wrep_step W M F)|]. intros j x. cbn beta.
    rewrite (Nat.eqb_sym j i). destruct (Nat.eqb_spec i j) as [->|]; cbn [andb]; [|reflexivity]. destruct (keqb k x); reflexivity.
  - destruct (@m_get_spec hk fuel (wh w) (wt w i) k (m i) (PS i) (wr_each W i)) as (h' & t' & v & ps' & E & M & Ev & L & F & HS & LN).
    { apply HO. auto. } { specialize (Hn i). lia. }
    rewrite E. cbn [bnd]. eexists _, _, _. split; [reflexivity|]. split; [|split; [exact (SA _ _ _ HS)|split; [exists v; auto|split; [exact (SZ _ _ L)|exact (ST _ _ _ _ _ M LN)]]]].
    eapply wrep_ext; [exact (wrep_step W M F)|]. intros j x. cbn beta. now destruct (Nat.eqb_spec j i) as [->|].
  - destruct (@m_cget_spec hk fuel (wh w) (wt w i) k (m i) (PS i) (wr_each W i)) as (h' & t' & v & ps' & E & M & Ev & RP & F & _).
    { apply HO. auto. } { specialize (Hn i). lia. }
    rewrite E. cbn [bnd]. eexists _, _, _. split; [reflexivity|]. split; [|split; [|split; [exists v; auto|split]]].
    + eapply wrep_ext; [exact (wrep_step W M F)|]. intros j x. cbn beta. now destruct (Nat.eqb_spec j i) as [->|].
    + intros j x. unfold setP. destruct (Nat.eqb_spec j i) as [->|]; [|apply SE]. rewrite <- (has_rows x RP). apply SE.
    + apply SZ. rewrite <- (Permutation_length (rows_perm_bag RP)). lia.
    + intros _. apply SL. symmetry. exact (Forall2_length RP).
  - destruct (@wrep_shrink fuel w m PS i W) as (h' & t' & ps' & E & W' & L & _ & N & HS).
    { specialize (Hn i). lia. }
    rewrite E. cbn [bnd]. eexists _, _, _. split; [reflexivity|]. split; [exact W'|]. split; [|split; [reflexivity|split; [apply SZ; lia|]]].
    + intros j x. unfold setP. rewrite (Nat.eqb_sym j i). rewrite andb_true_iff, orb_true_iff, !negb_true_iff, (SE j x).
      destruct (Nat.eqb_spec i j) as [->|]; [rewrite HS; intuition discriminate|tauto].
    + intros _. now apply SL.
  - destruct (@m_eq_spec hk fuel w m PS i j W) as (w' & b & PS' & E & W' & L & HS & G).
    { apply HO. auto. } { exact NS. } { specialize (Hn i). lia. } { specialize (Hn j). lia. }
    rewrite E. cbn [bnd]. eexists _, _, _. split; [reflexivity|]. split; [exact W'|]. split; [|split; [exists b; auto|split]].
    + intros x k. rewrite andb_true_iff, orb_true_iff, !negb_true_iff, orb_false_iff, (SE x k), HS, !Nat.eqb_neq.
      destruct (Nat.eq_dec i x) as [->|], (Nat.eq_dec j x) as [->|]; intuition congruence.
    + intros x. specialize (L x). specialize (Hn x). lia.
    + intros _ A x. rewrite (proj2 (L x)). apply A.
  - destruct (@t_clear_spec _ fuel (wh w) (wt w i) (PS i) (mr_rep (wr_each W i))) as (h' & E & F).
    { specialize (Hn i). lia. }
    rewrite E. cbn [bnd]. eexists _, _, _. split; [reflexivity|].
    assert (M : mrep h' (t_new 5) (fun _ => dflt) (repeat ([], []) 5)).
    { split; [apply t_new_rep|cbn; lia| |intros _; apply placed_new].
      rewrite bag_new. split; [exact I|]. split; [intros e []|]. split; intros; apply vrefl. }
    split; [|split; [|split; [reflexivity|split]]].
    + eapply wrep_ext; [exact (wrep_step W M F)|]. intros j x. cbn beta. rewrite (Nat.eqb_sym j i). now destruct (Nat.eqb i j).
    + eapply sees_ext; [apply (@sees_set PS s i (repeat ([], []) 5) (fun _ => false) SE)|].
      * intros k. rewrite bag_new. split; [discriminate|]. intros (e & [] & _).
      * intros j x. cbn beta. rewrite (Nat.eqb_sym j i). now destruct (Nat.eqb i j).
    + apply SZ. rewrite bag_new. cbn. lia.
    + intros _ A x. unfold setP. destruct (Nat.eqb x i); [reflexivity|apply A].
  - unfold m_values. rewrite (t_visit_spec (mr_rep (wr_each W i))) by (specialize (Hn i); lia). cbn [bnd].
    eexists _, _, PS. split; [reflexivity|]. split; [exact W|]. split; [exact SE|].
    split; [|split; [intros x; specialize (Hn x); lia|auto]].
    destruct (mr_holds (wr_each W i)) as (HD & HB & _).
    exists (map snd (bag (PS i))), (map fst (bag (PS i))). split; [reflexivity|].
    split; [apply lists_of_bag; [exact HD|apply SE]|].
    clear -HB. induction (bag (PS i)) as [|e l IH]; cbn [map]; constructor.
    + apply HB. now left.
    + apply IH. intros e' I. apply HB. now right.
  - unfold m_update.
    destruct (@t_update_spec _ (fun e : entry => (fst e, f (snd e))) fuel (wt w i) (wh w) (PS i) (mr_rep (wr_each W i))) as (h' & E & R & F & N).
    { specialize (Hn i). lia. }
    rewrite E. cbn [bnd].
    set (ps' := upd_rows (fun e : entry => (fst e, f (snd e))) (PS i)) in *.
    assert (M : mrep h' (wt w i) (fun k => if s i k then f (m i k) else m i k) ps').
    { split; [exact R|apply W| |].
      - unfold ps'. rewrite upd_rows_bag. apply holds_update; [exact NS|apply SE|apply W].
      - intros U. apply placed_update; [reflexivity|]. apply (wr_each W i), U. }
    assert (FS : fstep (wh w) h' (foot (PS i)) (foot ps')).
    { unfold ps'. rewrite upd_rows_foot. apply fstep_within; [apply incl_refl|auto|auto|tauto]. }
    pose proof (wrep_step W M FS) as W'.
    exists (mkWorld h' (wt w)), (ANone V), (setP PS i ps'). split; [reflexivity|]. split; [|split; [|split; [reflexivity|split]]].
    + split; [|apply W'|apply W']. intros j. pose proof (wr_each W' j) as [A B (C1 & C2 & C3 & C4) D]. cbn [wh wt] in *.
      assert (TJ : setT (wt w) i (wt w i) j = wt w j) by (unfold setT; now destruct (Nat.eqb_spec j i) as [->|]).
      rewrite TJ in *.
      assert (EX : forall x, (if Nat.eqb j i then fun k => if s i k then f (m i k) else m i k else m j) x =
        (if Nat.eqb i j && s i x then f (m j x) else m j x)).
      { intros x. rewrite (Nat.eqb_sym j i). destruct (Nat.eqb_spec i j) as [->|]; reflexivity. }
      split; auto. split; [exact C1|]. split; [|split].
      * intros e I. rewrite <- EX. auto.
      * intros k Hk. rewrite <- EX. auto.
      * intros k k' Ek. rewrite <- !EX. auto.
    + intros j k. unfold setP. destruct (Nat.eqb_spec j i) as [->|]; [|apply SE].
      unfold ps'. rewrite upd_rows_bag, has_map by reflexivity. apply SE.
    + apply SZ. unfold ps'. rewrite upd_rows_bag, map_length. lia.
    + intros _. apply SL. unfold ps', upd_rows. apply map_length.
  - eexists _, _, PS. split; [reflexivity|]. split; [exact W|]. split; [exact SE|].
    split; [|split; [intros x; specialize (Hn x); lia|auto]].
    exists (map fst (bag (PS i))). rewrite (t_size_spec (mr_rep (wr_each W i))), map_length. split; [reflexivity|].
    apply lists_of_bag; [apply (wr_each W i)|apply SE].
Qed.

Lemma m_run_spec fuel : forall os n w ms PS, wrep w (fst ms) PS -> sees PS (snd ms) -> Forall op_hash_ok os -> Forall (usual_op veqb) os ->
  (forall i, length (bag (PS i)) <= n) -> n + length os < fuel ->
  exists w' l PS', m_run keqb veqb dflt gold mx unst fuel w os = Done (w', l) /\ answers_ok keqb veqb dflt ms os l /\
    wrep w' (fst (fold_left (effect keqb veqb dflt) os ms)) PS' /\ sees PS' (snd (fold_left (effect keqb veqb dflt) os ms)) /\
    (forall i, length (bag (PS' i)) <= n + length os) /\
    ((Z.of_nat (n + length os) <= mx)%Z -> (forall i, length (PS i) = 5) -> forall i, length (PS' i) = 5).
Proof.
  induction os as [|o os IH]; intros n w ms PS W SE OH NS Hn Hf.
  - exists w, [], PS. cbn. split; [reflexivity|]. split; [exact I|]. split; [exact W|]. split; [exact SE|]. split; [|auto].
    intros i. specialize (Hn i). lia.
  - inversion OH; subst. inversion NS; subst. cbn [length] in Hf.
    destruct (@m_op_spec fuel n w ms PS o W SE) as (w1 & a & PS1 & E & W1 & SE1 & A & L1 & N1); auto; [lia|].
    cbn [m_run]. rewrite E. cbn [bnd].
    destruct (IH (S n) w1 (effect keqb veqb dflt ms o) PS1 W1 SE1) as (w' & l & PS' & E2 & A2 & W2 & SE2 & L2 & N2); auto; [lia|].
    rewrite E2. cbn [bnd]. exists w', (a :: l), PS'. split; [reflexivity|]. split; [split; assumption|].
    split; [exact W2|]. split; [exact SE2|]. cbn [length]. split; [intros i; specialize (L2 i); lia|].
    intros LE A5. apply N2; [lia|]. apply N1; [lia|exact A5].
Qed.

Lemma wrep0 : wrep (world0 K V) (fst (start K dflt)) (fun _ => repeat ([], []) 5).
Proof.
  split.
  - intros i. split.
    + apply t_new_rep.
    + cbn. lia.
    + rewrite bag_new. split; [exact I|]. split; [intros e []|]. split; intros; apply vrefl.
    + intros _. apply placed_new.
  - intros i j x _. rewrite foot_new. intros [].
  - intros x Hx. now cbn in Hx.
Qed.

Lemma sees0 : sees (fun _ => repeat ([], []) 5) (snd (start K dflt)).
Proof. intros i k. rewrite bag_new. split; [discriminate|]. intros (e & [] & _). Qed.

Lemma hashes_ok os : (unst = true \/ stable_key_hashes keqb hk0 os) -> Forall op_hash_ok os.
Proof.
  intros C. apply Forall_forall. intros o I. destruct C as [U|(C & H)]; [now left|]. right. split; [exact C|].
  rewrite Forall_forall in H. auto.
Qed.

Theorem maps_are_functions fuel os :
  Forall (usual_op veqb) os -> (unst = true \/ stable_key_hashes keqb hk0 os) -> length os < fuel ->
  exists w l, m_run keqb veqb dflt gold mx unst fuel (world0 K V) os = Done (w, l) /\
    answers_ok keqb veqb dflt (start K dflt) os l.
Proof.
  intros NS C Hf.
  destruct (@m_run_spec fuel os 0 (world0 K V) (start K dflt) (fun _ => repeat (([], []) : bkt) 5)) as (w & l & _ & E & A & _).
  - apply wrep0.
  - apply sees0.
  - exact (hashes_ok C).
  - exact NS.
  - intros i. rewrite bag_new. cbn. lia.
  - lia.
  - exists w, l. auto.
Qed.

(** * Nothing stays allocated when all maps used are cleared *)
Lemma keys_fold os : forall (ms : store K V * keyset K) i, (forall o, In o os -> ~ fills i o) -> (forall k, snd ms i k = false) ->
  forall k, snd (fold_left (effect keqb veqb dflt) os ms) i k = false.
Proof.
  induction os as [|o os IH]; intros ms i NF E k; [apply E|]. cbn [fold_left]. apply IH.
  - intros o' I. apply NF. now right.
  - intros k'. specialize (NF o (or_introl eq_refl)). specialize (E k').
    unfold effect. cbn [snd].
    destruct o; cbn [effect_keys fills] in *; rewrite ?E; cbn [andb]; auto.
    + apply Nat.eqb_neq in NF. now rewrite NF.
    + apply Nat.eqb_neq in NF. now rewrite NF.
    + apply andb_false_r.
Qed.

Lemma keys_cleared is : forall (ms : store K V * keyset K) i k, In i is \/ snd ms i k = false ->
  snd (fold_left (effect keqb veqb dflt) (map (@MClear K V) is) ms) i k = false.
Proof.
  induction is as [|j is IH]; intros ms i k H; cbn [map fold_left].
  - destruct H as [[]|H]. exact H.
  - apply IH. cbn [effect snd effect_keys]. destruct (Nat.eqb_spec j i) as [->|N]; [now right|].
    destruct H as [[->|H]|H]; [congruence|now left|right; now rewrite H].
Qed.

Theorem maps_no_leak fuel os is :
  Forall (usual_op veqb) os -> (unst = true \/ stable_key_hashes keqb hk0 os) ->
  (forall i o, In o os -> fills i o -> In i is) -> length os + length is < fuel ->
  exists w l, m_run keqb veqb dflt gold mx unst fuel (world0 K V) (os ++ map (@MClear K V) is) = Done (w, l) /\
    forall a, cell (wh w) a = None.
Proof.
  intros NS C FI Hf.
  destruct (@m_run_spec fuel (os ++ map (@MClear K V) is) 0 (world0 K V) (start K dflt) (fun _ => repeat (([], []) : bkt) 5))
    as (w & l & PS & E & _ & W & SE & _).
  - apply wrep0.
  - apply sees0.
  - apply Forall_app. split; [exact (hashes_ok C)|]. apply Forall_forall. intros o I. apply in_map_iff in I.
    destruct I as (i & <- & _). destruct C as [U|(C & _)]; [now left|right; split; [exact C|exact I]].
  - apply Forall_app. split; [exact NS|]. apply Forall_forall. intros o I. apply in_map_iff in I.
    destruct I as (i & <- & _). exact I.
  - intros i. rewrite bag_new. cbn. lia.
  - rewrite app_length, map_length. lia.
  - exists w, l. split; [exact E|]. intros a. destruct (cell (wh w) a) eqn:Ca; [exfalso|reflexivity].
    assert (Na : cell (wh w) a <> None) by congruence.
    destruct (wr_tight W Na) as (i & Ia).
    assert (B : bag (PS i) = []).
    { destruct (bag (PS i)) as [|e r] eqn:Eb; [reflexivity|exfalso].
      assert (X : snd (fold_left (effect keqb veqb dflt) (os ++ map (@MClear K V) is) (start K dflt)) i (fst e) = true).
      { apply SE. rewrite Eb. exists e. split; [now left|apply krefl]. }
      rewrite fold_left_app, keys_cleared in X; [discriminate|].
      destruct (in_dec Nat.eq_dec i is) as [I|I]; [now left|right].
      apply keys_fold; [|reflexivity]. intros o Io F. exact (I (FI i o Io F)). }
    pose proof (foot_bag_length (mr_rep (wr_each W i))) as L. rewrite B in L. destruct (foot (PS i)); [exact Ia|discriminate].
Qed.

(** * Comparing a map with itself *)
Lemma lseg_in h p al (l : list entry) q a e : lseg h p al l q -> In (a, e) (combine al l) ->
  exists nx, cell h a = Some (e, nx).
Proof.
  revert p l; induction al as [|b al IH]; intros p [|d l] L I; cbn in L; try easy.
  destruct L as (-> & nx & C & L). cbn in I. destruct I as [I|I].
  - injection I as -> ->. eauto.
  - exact (IH _ _ L I).
Qed.

Definition zip (ps : list bkt) : list (nat * entry) := concat (map (fun p => combine (fst p) (snd p)) ps).

Lemma rows_len_eq h t ps : Trep (T := entry) h t ps -> Forall (fun p => length (fst p) = length (snd p)) ps.
Proof. intros (A & _). induction A as [|s p t ps (L & _) A IH]; constructor; [exact (lseg_length L)|exact IH]. Qed.

Lemma zip_bag (ps : list bkt) : Forall (fun p : bkt => length (fst p) = length (snd p)) ps -> map snd (zip ps) = bag ps.
Proof.
  induction 1 as [|p ps L H IH]; [reflexivity|]. unfold zip. cbn [map concat]. rewrite map_app, bag_cons.
  f_equal; [|exact IH]. destruct p as [al l]. cbn [fst snd] in *. clear -L. revert l L.
  induction al as [|a al IH]; intros [|d l] L; try discriminate; [reflexivity|]. cbn. f_equal. apply IH. now injection L.
Qed.

Lemma KD_zip (z : list (nat * entry)) a a' e : KD (map snd z) -> In (a, e) z -> In (a', e) z -> a = a'.
Proof.
  induction z as [|[b d] z IH]; cbn [map KD snd]; [intros _ []|].
  intros (N & Kz) [I|I] [J|J].
  - congruence.
  - injection I as -> ->. specialize (N e (in_map snd _ _ J)). rewrite krefl in N. discriminate.
  - injection J as -> ->. specialize (N e (in_map snd _ _ I)). rewrite krefl in N. discriminate.
  - exact (IH Kz I J).
Qed.

Lemma in_zip (ps : list bkt) p a e : In p ps -> In (a, e) (combine (fst p) (snd p)) -> In (a, e) (zip ps).
Proof. intros I J. unfold zip. apply in_concat. eexists. split; [apply in_map, I|exact J]. Qed.

Lemma row_unique (ps : list bkt) p p' a : NoDup (foot ps) -> In p ps -> In p' ps -> In a (fst p) -> In a (fst p') -> p = p'.
Proof.
  assert (IF : forall (qs : list bkt) q b, In q qs -> In b (fst q) -> In b (foot qs)).
  { intros qs q b I J. unfold foot. apply in_concat. exists (fst q). split; [now apply in_map|exact J]. }
  induction ps as [|q ps IH]; [intros _ []|]. rewrite foot_cons. intros ND [->|I] [->|J] A B; auto.
  - exfalso. exact (NoDup_app_disj ND A (IF _ _ _ J B)).
  - exfalso. exact (NoDup_app_disj ND B (IF _ _ _ I A)).
  - apply IH; auto. exact (NoDup_app_r ND).
Qed.

(** A row of [ps] and what becomes of it in [ps']. *)
Lemma rows_perm_in (ps : list bkt) ps' p : rows_perm ps ps' -> In p ps ->
  exists p', In p' ps' /\ Permutation (snd p) (snd p') /\ Permutation (combine (fst p) (snd p)) (combine (fst p') (snd p')).
Proof.
  induction 1 as [|x y ps ps' (A & B) H IH]; [intros []|]. intros [->|I].
  - exists y. split; [now left|auto].
  - destruct (IH I) as (p' & J & R). exists p'. split; [now right|exact R].
Qed.

(** Visiting a node: it is moved to the head of its row. *)
Lemma visit_self hk fuel h t m ps p a e : mrep h t m ps -> hash_ok hk -> length (bag ps) < fuel ->
  In p ps -> In (a, e) (combine (fst p) (snd p)) ->
  exists h' t' ps' al' l', m_cget keqb dflt unst hk fuel h t (fst e) = Done (h', t', snd e) /\
    mrep h' t' m ps' /\ rows_perm ps ps' /\ In (a :: al', e :: l') ps' /\ length (snd p) = S (length l') /\
    exists nx, cell h' a = Some (e, nx) /\ nx = hd None (map (@Some nat) al') /\ length al' = length l'.
Proof.
  intros M HO Hf Ip Ia.
  destruct (@m_cget_spec hk fuel h t (fst e) m ps M HO Hf) as (h' & t' & v & ps' & E & MR & Ev & RP & F & G).
  assert (Ie : In e (bag ps)).
  { unfold bag. apply in_concat. exists (snd p). split; [now apply in_map|]. exact (in_combine_r _ _ _ _ Ia). }
  destruct (G e Ie (krefl (fst e))) as (-> & q1 & a' & al' & l' & q2 & Ep).
  destruct (rows_perm_in RP Ip) as (p' & Ip' & P1 & P2).
  assert (Ia' : In (a, e) (combine (fst p') (snd p'))) by (apply (Permutation_in _ P2 Ia)).
  assert (Ir : In (a' :: al', e :: l') ps') by (rewrite Ep; apply in_or_app; right; now left).
  pose proof (mr_rep MR) as R'. 
  assert (a = a') as <-.
  { apply (@KD_zip (zip ps') a a' e).
    - rewrite (zip_bag (rows_len_eq R')). apply (mr_holds MR).
    - exact (in_zip Ip' Ia').
    - apply (in_zip Ir). now left. }
  assert (p' = (a :: al', e :: l')) as ->.
  { apply (@row_unique ps' p' (a :: al', e :: l') a); auto.
    - apply R'.
    - exact (in_combine_l _ _ _ _ Ia').
    - now left. }
  exists h', t', ps', al', l'. split; [exact E|]. split; [exact MR|]. split; [exact RP|]. split; [exact Ir|].
  split; [apply Permutation_length in P1; exact P1|].
  destruct R' as (RA & _). apply in_split in Ir. destruct Ir as (r1 & r2 & Er). rewrite Er in RA.
  apply Forall2_app_inv_r in RA. destruct RA as (s1 & s2 & _ & RA & _). inversion RA as [|s ? ? ? (L & _) _]; subst.
  cbn [fst snd lseg] in L. destruct L as (_ & nx & C & L). exists nx. split; [exact C|].
  split; [|exact (lseg_length L)].
  destruct al' as [|b al'], l'; cbn in L; easy.
Qed.

Lemma self_bucket_spins hk fuel j m : hash_ok hk -> forall n w ps p a e,
  mrep (wh w) (wt w j) m ps -> length (bag ps) < fuel -> In p ps -> In (a, e) (combine (fst p) (snd p)) ->
  2 <= length (snd p) ->
  eq_bucket keqb veqb dflt unst hk n fuel w j (Some a) = Spin.
Proof.
  intros HO. induction n as [|n IH]; intros w ps p a e M Hf Ip Ia L2; [reflexivity|].
  cbn [eq_bucket].
  assert (exists nx, cell (wh w) a = Some (e, nx)) as (nx & C).
  { destruct (mr_rep M) as (RA & _). apply in_split in Ip. destruct Ip as (r1 & r2 & ->).
    apply Forall2_app_inv_r in RA. destruct RA as (s1 & s2 & _ & RA & _). inversion RA as [|s ? ? ? (L & _) _]; subst.
    exact (lseg_in L Ia). }
  rewrite C.
  destruct (visit_self M HO Hf Ip Ia) as (h' & t' & ps' & al' & l' & E & M' & RP & I' & LL & nx' & C' & Enx & LA).
  destruct e as [k v]. cbn [fst snd] in E. rewrite E. cbn [bnd]. rewrite vrefl, C'.
  destruct al' as [|b al']; destruct l' as [|d l']; try discriminate; [cbn in LL; lia|].
  cbn in Enx. subst nx'.
  apply IH with (ps := ps') (p := (a :: b :: al', (k, v) :: d :: l')) (e := d); auto.
  - cbn [wh wt]. unfold setT. now rewrite Nat.eqb_refl.
  - now rewrite <- (Permutation_length (rows_perm_bag RP)).
  - cbn. auto.
  - cbn. lia.
Qed.

Lemma rows_perm_nth (ps : list bkt) ps' i : rows_perm ps ps' -> length (snd (nth i ps' ([], []))) = length (snd (nth i ps ([], []))).
Proof.
  intros H. revert i. induction H as [|x y ps ps' (A & B) H IH]; intros i; [now destruct i|].
  destruct i as [|i]; cbn [nth]; [symmetry; now apply Permutation_length|apply IH].
Qed.

Lemma self_buckets_spin hk fuel j m : hash_ok hk -> forall c w ps b i,
  mrep (wh w) (wt w j) m ps -> S (length (bag ps)) < fuel -> b + c = length (wt w j) ->
  b <= i -> 2 <= length (snd (nth i ps ([], []))) ->
  eq_buckets keqb veqb dflt unst hk fuel fuel w j j b c = Spin.
Proof.
  intros HO. induction c as [|c IH]; intros w ps b i M Hf Hb Hi L2; cbn [eq_buckets].
  - rewrite (Trep_length (mr_rep M)) in Hb. rewrite nth_overflow in L2 by lia. cbn in L2. lia.
  - destruct (bucket_split (i := b) (mr_rep M)) as (t1 & s & t2 & q1 & al & l & q2 & Et & Ep & L1 & L3 & EB & Rb & ND & BD); [lia|].
    rewrite EB. cbn [bnd].
    assert (NB : nth b ps ([], []) = (al, l)).
    { rewrite Ep, app_nth2 by lia. replace (b - length q1) with 0 by lia. reflexivity. }
    assert (Ir : In (al, l) ps) by (rewrite Ep; apply in_or_app; right; now left).
    destruct Rb as (L & Z). cbn [fst snd] in L.
    destruct al as [|a al]; destruct l as [|e l]; cbn [lseg] in L; try easy.
    + rewrite L. destruct fuel as [|f] eqn:Ef; [lia|]. rewrite <- Ef in *. rewrite Ef at 1. cbn [eq_bucket bnd].
      apply IH with (ps := ps) (i := i); auto; [lia|].
      destruct (Nat.eq_dec b i) as [<-|]; [rewrite NB in L2; cbn in L2; lia|lia].
    + destruct L as (Ets & nx & C & L). rewrite Ets.
      assert (Ia : In (a, e) (combine (a :: al) (e :: l))) by now left.
      destruct l as [|d l].
      * destruct fuel as [|[|f]] eqn:Ef; [lia|lia|]. rewrite <- Ef in *. rewrite Ef at 1. cbn [eq_bucket]. rewrite C.
        destruct (@visit_self hk fuel _ _ _ _ (a :: al, [e]) a e M HO ltac:(lia) Ir Ia)
          as (h' & t' & ps' & al' & l' & E & M' & RP & I' & LL & nx' & C' & Enx & LA).
        destruct e as [k v]. cbn [fst snd] in E. rewrite E. cbn [bnd]. rewrite vrefl, C'.
        cbn in LL. destruct l'; [|discriminate]. destruct al'; [|discriminate]. cbn in Enx. subst nx'.
        cbn [bnd].
        apply IH with (ps := ps') (i := i).
        -- cbn [wh wt]. unfold setT. now rewrite Nat.eqb_refl.
        -- now rewrite <- (Permutation_length (rows_perm_bag RP)).
        -- cbn [wt]. unfold setT. rewrite Nat.eqb_refl.
           rewrite (Trep_length (mr_rep M')), <- (Forall2_length RP), <- (Trep_length (mr_rep M)). lia.
        -- destruct (Nat.eq_dec b i) as [<-|]; [rewrite NB in L2; cbn in L2; lia|lia].
        -- now rewrite (rows_perm_nth i RP).
      * rewrite (@self_bucket_spins hk fuel j m HO fuel w ps (a :: al, e :: d :: l) a e M); auto; [lia|cbn; lia].
Qed.
Lemma two_in_row (ps : list bkt) (m : K -> V) k1 k2 :
  placed (ehash hk0) ps -> holds (bag ps) m -> (forall x y, keqb x y = true -> hk0 x = hk0 y) ->
  keqb k1 k2 = false -> veqb dflt (m k1) = false -> veqb dflt (m k2) = false ->
  bidx (hk0 k1) (length ps) = bidx (hk0 k2) (length ps) ->
  2 <= length (snd (nth (bidx (hk0 k1) (length ps)) ps ([], []))).
Proof.
  intros PL (KDb & _ & HD & _) C NE V1 V2 EB.
  assert (FE : forall k, veqb dflt (m k) = false -> exists e, In e (bag ps) /\ keqb (fst e) k = true).
  { intros k Vk. destruct (existsb (fun e : entry => keqb (fst e) k) (bag ps)) eqn:X.
    - apply existsb_exists in X. exact X.
    - rewrite HD in Vk; [discriminate|]. intros e I. destruct (keqb (fst e) k) eqn:Y; [|reflexivity].
      rewrite <- X. symmetry. apply existsb_exists. eauto. }
  assert (FR : forall k, veqb dflt (m k) = false ->
     exists e, In e (snd (nth (bidx (hk0 k) (length ps)) ps ([], []))) /\ keqb (fst e) k = true).
  { intros k Vk. destruct (FE k Vk) as (e & I & Ke). exists e. split; [|exact Ke].
    unfold bag in I. apply in_concat in I. destruct I as (l & Il & Ie). apply in_map_iff in Il.
    destruct Il as ([al l'] & <- & Ip). cbn [snd] in Ie. apply In_nth_error in Ip. destruct Ip as (n & En).
    pose proof (PL n al l' e En Ie) as B. unfold ehash in B. rewrite (C _ _ Ke) in B. rewrite B.
    rewrite (nth_error_nth _ _ _ En). exact Ie. }
  destruct (FR k1 V1) as (e1 & I1 & K1). destruct (FR k2 V2) as (e2 & I2 & K2). rewrite <- EB in I2.
  remember (snd (nth (bidx (hk0 k1) (length ps)) ps ([], []))) as l eqn:El. clear El.
  assert (e1 <> e2).
  { intros <-. destruct HK as (_ & S & T). rewrite (T k1 (fst e1) k2) in NE; [discriminate| |exact K2]. now rewrite S. }
  destruct l as [|x [|y l]]; cbn in I1, I2 |- *; [easy| |lia].
  destruct I1 as [<-|[]], I2 as [<-|[]]. congruence.
Qed.

Lemma m_run_app fuel : forall os1 os2 w,
  m_run keqb veqb dflt gold mx unst fuel w (os1 ++ os2) =
  bnd (m_run keqb veqb dflt gold mx unst fuel w os1) (fun p : world K V * list (mans V) =>
    bnd (m_run keqb veqb dflt gold mx unst fuel (fst p) os2) (fun q : world K V * list (mans V) => Done (fst q, snd p ++ snd q))).
Proof.
  induction os1 as [|o os1 IH]; intros os2 w; cbn [app m_run bnd fst snd].
  - destruct (m_run _ _ _ _ _ _ _ w os2) as [[w2 l]| |]; reflexivity.
  - destruct (m_op _ _ _ _ _ _ _ w o) as [[w1 a]| |]; cbn [bnd]; auto. rewrite IH.
    destruct (m_run _ _ _ _ _ _ _ w1 os1) as [[w2 l]| |]; cbn [bnd fst snd]; auto.
    destruct (m_run _ _ _ _ _ _ _ w2 os2) as [[w3 l2]| |]; reflexivity.
Qed.

Theorem self_compare_spins fuel os i k1 k2 :
  unst = false -> Forall (usual_op veqb) os -> stable_key_hashes keqb hk0 os ->
  (Z.of_nat (length os) <= mx)%Z -> S (length os) < fuel ->
  keqb k1 k2 = false -> (hk0 k1 mod 5 = hk0 k2 mod 5)%Z ->
  veqb dflt (fst (fold_left (effect keqb veqb dflt) os (start K dflt)) i k1) = false ->
  veqb dflt (fst (fold_left (effect keqb veqb dflt) os (start K dflt)) i k2) = false ->
  m_run keqb veqb dflt gold mx unst fuel (world0 K V) (os ++ [MEq V hk0 i i]) = Spin.
Proof.
  intros U NS SH LM Hf NE EM V1 V2.
  destruct (@m_run_spec fuel os 0 (world0 K V) (start K dflt) (fun _ => repeat (([], []) : bkt) 5)) as (w & l & PS & E & _ & W & _ & LB & LN).
  { apply wrep0. } { apply sees0. } { apply hashes_ok. now right. } { exact NS. } { intros j. rewrite bag_new. cbn. lia. } { lia. }
  rewrite m_run_app, E. cbn [bnd fst snd m_run m_op].
  remember (fst (fold_left (effect keqb veqb dflt) os (start K dflt))) as m eqn:Em. clear Em.
  assert (HO : hash_ok hk0) by (right; split; [reflexivity|apply SH]).
  pose proof (LB i) as LBi. cbn in LBi.
  destruct (@wrep_shrink fuel w m PS i W ltac:(lia)) as (h1 & t1 & p1 & E1 & W1 & L1 & B1 & N1 & _).
  unfold m_eq. rewrite E1. cbn [bnd].
  assert (P1 : setP PS i p1 i = p1) by (unfold setP; now rewrite Nat.eqb_refl).
  destruct (@wrep_shrink fuel _ m _ i W1) as (h2 & t2 & p2 & E2 & W2 & L2 & B2 & N2 & _); [rewrite P1; lia|].
  rewrite E2. cbn [bnd]. rewrite Z.eqb_refl. rewrite P1 in L2, N2.
  pose proof (wr_each W2 i) as M2. unfold setP in M2. rewrite Nat.eqb_refl in M2.
  assert (N5 : length p2 = 5) by (rewrite N2, N1, LN; [reflexivity|cbn; lia|intros x; reflexivity]).
  rewrite (@self_buckets_spin hk0 fuel i (m i) HO _ _ p2 0 (bidx (hk0 k1) (length p2)) M2); auto; [lia|lia|].
  apply two_in_row with (m := m i) (k2 := k2); auto.
  - exact (mr_placed M2 U).
  - exact (mr_holds M2).
  - apply SH.
  - unfold bidx. rewrite N5. change (Z.of_nat 5) with 5%Z. now rewrite EM.
Qed.
End Map.
