(** What the history theorems say about single observations at the end of a
    program. *)
From Verif Require Import Base Bits_Spec Ref_Model List_Model Str_Model Str_Api_Model Str_Spec Str_Guard Str_Api_Proofs Str_Class Str_View.
Local Open Scope nat_scope.

Lemma sruns_app : forall xs ys l l1 os, sruns l xs = Some (l1, os) ->
  sruns l (xs ++ ys) = sbind (sruns l1 ys) (fun '(l2, ps) => Some (l2, os ++ ps)).
Proof.
  induction xs as [|x t IH]; intros ys l l1 os E; cbn [sruns app] in *.
  - injection E as <- <-. destruct (sruns l ys) as [[l2 ps]|]; auto.
  - destruct (sstep l x) as [[l0 o]|]; [|discriminate]. cbn [sbind] in *.
    destruct (sruns l0 t) as [[l2 ps]|] eqn:E2; [|discriminate]. cbn [sbind] in *. injection E as <- <-.
    rewrite (IH ys _ _ _ E2). destruct (sruns l2 ys) as [[l3 qs]|]; auto.
Qed.

Section Final.
Variable hd : Z.
Variable hc : Z -> Z.
(** Programs made of permitted operations behave as the specification says. *)
Variable P : op -> Prop.
Hypothesis prog : forall xs l' os, sruns [] (map snd xs) = Some (l', os) -> Forall (fun x => Sound (fst x)) xs -> Forall (fun x => P (snd x)) xs ->
  exists f0 s' outs, (forall f, f0 <= f -> run hd hc f st0 xs = Ok (s', outs)) /\ Forall2 (out_ok hd hc) os outs.
Variable xs : list (orc * op).
Variable l : sst.
Variable os : list sout.
Hypothesis E : sruns [] (map snd xs) = Some (l, os).
Hypothesis So : Forall (fun x => Sound (fst x)) xs.
Hypothesis Cl : Forall (fun x => P (snd x)) xs.

Lemma tail_run : forall ys l2 ps, sruns l (map snd ys) = Some (l2, ps) -> Forall (fun x => Sound (fst x)) ys -> Forall (fun x => P (snd x)) ys ->
  exists f0 s' r1 r2, (forall f, f0 <= f -> run hd hc f st0 (xs ++ ys) = Ok (s', r1 ++ r2)) /\
    Forall2 (out_ok hd hc) os r1 /\ Forall2 (out_ok hd hc) ps r2.
Proof.
  intros ys l2 ps E2 S2 C2.
  destruct (@prog (xs ++ ys) l2 (os ++ ps)) as (f0 & s' & outs & R & O); auto.
  - rewrite map_app, (sruns_app (map snd ys) E), E2. reflexivity.
  - apply Forall_app; auto.
  - apply Forall_app; auto.
  - apply Forall2_app_inv_l in O. destruct O as (r1 & r2 & O1 & O2 & ->). exists f0, s', r1, r2. auto.
Qed.
Lemma one : forall g x l2 p, sstep l x = Some (l2, p) -> Sound g -> P x ->
  exists f0 s' r1 r, (forall f, f0 <= f -> run hd hc f st0 (xs ++ [(g, x)]) = Ok (s', r1 ++ [r])) /\ out_ok hd hc p r.
Proof.
  intros g x l2 p E2 S2 C2. destruct (@tail_run [(g, x)] l2 [p]) as (f0 & s' & r1 & r2 & R & _ & O); auto.
  - cbn [map snd sruns]. rewrite E2. reflexivity.
  - inversion O as [|? r ? t O1 O2]; subst. inversion O2; subst. exists f0, s', r1, r. auto.
Qed.
Lemma equal_end : forall g i j v w, Sound g -> P (OCmp true i j) -> sget l i = Some v -> sget l j = Some w ->
  exists f0 s' r1 b, (forall f, f0 <= f -> run hd hc f st0 (xs ++ [(g, OCmp true i j)]) = Ok (s', r1 ++ [RBool b])) /\ (b = true <-> v = w).
Proof.
  intros g i j v w S Oa Ei Ej. destruct (@one g (OCmp true i j) l (SEq v w)) as (f0 & s' & r1 & r & R & O); auto.
  - cbn [sstep]. rewrite Ei, Ej. reflexivity.
  - destruct r; try contradiction. exists f0, s', r1, b. auto.
Qed.
Lemma order_end : forall g i j v w, Sound g -> P (OCmp false i j) -> sget l i = Some v -> sget l j = Some w ->
  exists f0 s' r1 c, (forall f, f0 <= f -> run hd hc f st0 (xs ++ [(g, OCmp false i j)]) = Ok (s', r1 ++ [ROrd c])) /\ is_ord v w c.
Proof.
  intros g i j v w S Oa Ei Ej. destruct (@one g (OCmp false i j) l (SOrd v w)) as (f0 & s' & r1 & r & R & O); auto.
  - cbn [sstep]. rewrite Ei, Ej. reflexivity.
  - destruct r; try contradiction. exists f0, s', r1, c. auto.
Qed.
Lemma unchanged_end : forall g g' q i j k v w u, Sound g -> Sound g' -> P (OCmp q i j) -> P (OData k) ->
  sget l i = Some v -> sget l j = Some w -> sget l k = Some u ->
  exists f0 s' r, (forall f, f0 <= f -> run hd hc f st0 (xs ++ [(g, OCmp q i j); (g', OData k)]) = Ok (s', r ++ [RSeq u])).
Proof.
  intros g g' q i j k v w u S S' Oa Ob Ei Ej Ek.
  destruct (@tail_run [(g, OCmp q i j); (g', OData k)] l [if q then SEq v w else SOrd v w; SSeq u]) as (f0 & s' & r1 & r2 & R & _ & O); auto.
  - cbn [map snd sruns sstep]. rewrite Ei, Ej. cbn [sbind]. cbn [sruns sstep]. rewrite Ek. reflexivity.
  - inversion O as [|? c ? t O1 O2]; subst. inversion O2 as [|? r ? t' O3 O4]; subst. inversion O4; subst. destruct r; try contradiction. cbn in O3. subst.
    exists f0, s', (r1 ++ [c]). intros f L. rewrite (R f L), <- app_assoc. reflexivity.
Qed.
Lemma hash_end : forall g i v, Sound g -> P (OHash i) -> sget l i = Some v ->
  exists f0 s' r1 h, (forall f, f0 <= f -> run hd hc f st0 (xs ++ [(g, OHash i)]) = Ok (s', r1 ++ [RHash h])) /\ is_seq_hash hd (map hc v) h.
Proof.
  intros g i v S Me Ei. destruct (@one g (OHash i) l (SHash v)) as (f0 & s' & r1 & r & R & O); auto.
  - cbn [sstep]. rewrite Ei. reflexivity.
  - destruct r; try contradiction. exists f0, s', r1, h. auto.
Qed.
End Final.
(** For the two kinds of programs that need no condition on the representation. *)
Definition free (x : (cl * small) + (bool * bool)) : op -> Prop :=
  match x with inl (a, m) => inclass a m | inr (a, c) => inview a c end.
Lemma free_program : forall hd hc p xs l' os, (0 < hd)%Z -> (hd | 2 ^ hd)%Z -> (forall c, word hd (hc c)) ->
  sruns [] (map snd xs) = Some (l', os) -> Forall (fun x => Sound (fst x)) xs -> Forall (fun x => free p (snd x)) xs ->
  exists f0 s' outs, (forall f, f0 <= f -> run hd hc f st0 xs = Ok (s', outs)) /\ Forall2 (out_ok hd hc) os outs.
Proof. intros hd hc [[a m]|[a c]] xs l' os H1 H2 H3 H4 H5 H6; [eapply class_program|eapply view_program]; eauto. Qed.
Section Free.
Variable hd : Z.
Variable hc : Z -> Z.
Hypothesis pos : (0 < hd)%Z.
Hypothesis dv : (hd | 2 ^ hd)%Z.
Hypothesis wd : forall c, word hd (hc c).
Lemma free_equal : forall p xs g i j l os v w, sruns [] (map snd xs) = Some (l, os) -> Forall (fun x => Sound (fst x)) xs -> Sound g ->
  Forall (free p) (map snd xs ++ [OCmp true i j]) -> sget l i = Some v -> sget l j = Some w ->
  exists f0 s' r b, (forall f, f0 <= f -> run hd hc f st0 (xs ++ [(g, OCmp true i j)]) = Ok (s', r ++ [RBool b])) /\ (b = true <-> v = w).
Proof.
  intros p xs g i j l os v w E S Sg F Ei Ej. apply Forall_app in F. destruct F as [F1 F2]. rewrite Forall_map in F1. inversion F2; subst.
  eapply equal_end with (P := free p); eauto. intros. eapply free_program; eauto.
Qed.
Lemma free_order : forall p xs g i j l os v w, sruns [] (map snd xs) = Some (l, os) -> Forall (fun x => Sound (fst x)) xs -> Sound g ->
  Forall (free p) (map snd xs ++ [OCmp false i j]) -> sget l i = Some v -> sget l j = Some w ->
  exists f0 s' r c, (forall f, f0 <= f -> run hd hc f st0 (xs ++ [(g, OCmp false i j)]) = Ok (s', r ++ [ROrd c])) /\ is_ord v w c.
Proof.
  intros p xs g i j l os v w E S Sg F Ei Ej. apply Forall_app in F. destruct F as [F1 F2]. rewrite Forall_map in F1. inversion F2; subst.
  eapply order_end with (P := free p); eauto. intros. eapply free_program; eauto.
Qed.
Lemma free_unchanged : forall p xs g g' q i j k l os v w u, sruns [] (map snd xs) = Some (l, os) -> Forall (fun x => Sound (fst x)) xs -> Sound g -> Sound g' ->
  Forall (free p) (map snd xs ++ [OCmp q i j; OData k]) -> sget l i = Some v -> sget l j = Some w -> sget l k = Some u ->
  exists f0 s' r, forall f, f0 <= f -> run hd hc f st0 (xs ++ [(g, OCmp q i j); (g', OData k)]) = Ok (s', r ++ [RSeq u]).
Proof.
  intros p xs g g' q i j k l os v w u E S Sg Sg' F Ei Ej Ek. apply Forall_app in F. destruct F as [F1 F2]. rewrite Forall_map in F1. inversion F2 as [|? ? F3 F4]; subst. inversion F4; subst.
  eapply unchanged_end with (P := free p); eauto. intros. eapply free_program; eauto.
Qed.
Lemma free_hash : forall p xs g i l os v, sruns [] (map snd xs) = Some (l, os) -> Forall (fun x => Sound (fst x)) xs -> Sound g ->
  Forall (free p) (map snd xs ++ [OHash i]) -> sget l i = Some v ->
  exists f0 s' r h, (forall f, f0 <= f -> run hd hc f st0 (xs ++ [(g, OHash i)]) = Ok (s', r ++ [RHash h])) /\ is_seq_hash hd (map hc v) h.
Proof.
  intros p xs g i l os v E S Sg F Ei. apply Forall_app in F. destruct F as [F1 F2]. rewrite Forall_map in F1. inversion F2; subst.
  eapply hash_end with (P := free p); eauto. intros. eapply free_program; eauto.
Qed.
End Free.
