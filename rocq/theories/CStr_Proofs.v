(** Proofs for the searches with constant strings. *)
From Verif Require Import Base Range_Model Range_Spec Range_Proofs CStr_Model.
Local Open Scope nat_scope.

Lemma make_search w idx s mem base size :
  c_search idx (make w idx s) mem base size = search_fwd Z.eqb idx mem base size s.
Proof. reflexivity. Qed.

Lemma make_search_rev w idx s mem base size :
  c_search_rev idx (make w idx s) mem base size = search_rev Z.eqb idx mem base size s.
Proof. reflexivity. Qed.

Lemma make_first_of w idx s l : c_first_of w (make w idx s) l = find_first_of w s l.
Proof. unfold c_first_of, find_first_of, make, c_marks, c_text. now destruct (mark w s). Qed.
Lemma make_last_of w idx s l : c_last_of w (make w idx s) l = find_last_of w s l.
Proof. unfold c_last_of, find_last_of, make, c_marks, c_text. now destruct (mark w s). Qed.
Lemma make_first_not_of w idx s l : c_first_not_of w (make w idx s) l = find_first_not_of w s l.
Proof. unfold c_first_not_of, find_first_not_of, make, c_marks, c_text. now destruct (mark w s). Qed.
Lemma make_last_not_of w idx s l : c_last_not_of w (make w idx s) l = find_last_not_of w s l.
Proof. unfold c_last_not_of, find_last_not_of, make, c_marks, c_text. now destruct (mark w s). Qed.

Lemma Zeqb_spec : forall x y : Z, Z.eqb x y = true <-> x = y.
Proof. intros. apply Z.eqb_eq. Qed.

Theorem cstr_first_found w idx s mem base size k :
  s <> [] -> base + size <= length mem -> least (occurs s (part_of mem base size)) k ->
  c_search idx (make w idx s) mem base size = Some (Some (base + k)).
Proof. rewrite make_search. apply (@search_fwd_finds Z Z.eqb idx Zeqb_spec). Qed.

Theorem cstr_search_sound w idx s mem base size r :
  s <> [] -> base + size <= length mem ->
  c_search idx (make w idx s) mem base size = Some r ->
  match r with
  | None => forall k, ~ occurs s (part_of mem base size) k
  | Some p => occurs s mem p /\ base <= p /\
      (least (occurs s (part_of mem base size)) (p - base) \/
       (base + size < p + length s /\ forall k, ~ occurs s (part_of mem base size) k))
  end.
Proof. rewrite make_search. apply (@search_fwd_sound Z Z.eqb idx Zeqb_spec). Qed.

Theorem cstr_rev_sound w idx s mem base size p :
  s <> [] -> c_search_rev idx (make w idx s) mem base size = Some (Some p) ->
  occurs s mem p /\ p + length s <= base + size.
Proof. rewrite make_search_rev. apply (@search_rev_sound Z Z.eqb idx Zeqb_spec). Qed.

Theorem cstr_rev_suffix w idx pre s : s <> [] ->
  c_search_rev idx (make w idx s) (pre ++ s) 0 (length (pre ++ s)) = Some (Some (length pre)).
Proof. rewrite make_search_rev. apply (@search_rev_suffix Z Z.eqb idx Zeqb_spec). Qed.

Section Sets.
Variable w lo : Z.
Hypothesis Hw : (8 <= w)%Z.

Theorem cstr_sets idx s l : Forall (valT w lo) s -> Forall (valT w lo) l ->
  (exists r, c_first_of w (make w idx s) l = Some r /\ first_with (at_pos l (fun x => In x s)) r) /\
  (exists r, c_first_not_of w (make w idx s) l = Some r /\
     first_with (at_pos l (fun x => ~ In x s)) r) /\
  (exists r, c_last_not_of w (make w idx s) l = Some r /\
     last_with (at_pos l (fun x => ~ In x s)) r).
Proof.
  intros Hs Hl. rewrite make_first_of, make_first_not_of, make_last_not_of.
  split; [|split].
  - exact (find_first_of_exact Hw Hs Hl).
  - exact (find_first_not_of_exact Hw Hs Hl).
  - exact (find_last_not_of_exact Hw Hs Hl).
Qed.

Theorem cstr_last_of idx s l : Forall (valT w lo) s -> Forall (valT w lo) l ->
  match c_last_of w (make w idx s) l with
  | Some r => last_with (at_pos l (fun x => In x s)) r
  | None => Forall (fun c => c mod 2 ^ w < 256)%Z s /\ forall k, ~ at_pos l (fun x => In x s) k
  end.
Proof. intros Hs Hl. rewrite make_last_of. exact (find_last_of_cases Hw Hs Hl). Qed.

Theorem cstr_last_of_undefined idx s l : Forall (valT w lo) s -> Forall (valT w lo) l ->
  Forall (fun c => c mod 2 ^ w < 256)%Z s -> (forall k, ~ at_pos l (fun x => In x s) k) ->
  c_last_of w (make w idx s) l = None.
Proof.
  intros Hs Hl F N. rewrite make_last_of. apply (find_last_of_undefined Hw Hs Hl). auto.
Qed.

Lemma unindex_nodup s b : Forall (valT w lo) s -> unindex_mark w s = Some b -> NoDup s.
Proof.
  intros Hs E. pose proof (@umark_loop_spec w lo Hw s 0 (fun _ => None)) as H.
  assert (H0 : forall c : Z, @None nat <> None ->
    exists x, valT w lo x /\ fits w x = true /\ (x mod 256)%Z = c) by congruence.
  specialize (H H0 Hs). unfold unindex_mark in E. rewrite E in H. tauto.
Qed.

Lemma nodup_place {T} (s : list T) i j x :
  NoDup s -> nth_error s i = Some x -> nth_error s j = Some x -> i = j.
Proof.
  intros N A B. apply (proj1 (NoDup_nth_error s) N); [|congruence].
  apply nth_error_Some. congruence.
Qed.

Theorem cstr_place idx s x : Forall (valT w lo) s -> valT w lo x ->
  first_with (fun k => nth_error s k = Some x) (c_place w (make w idx s) x) /\
  last_with (fun k => nth_error s k = Some x) (c_place_rev w (make w idx s) x).
Proof.
  intros Hs Hx. pose proof (@find_val_exact Z Z.eqb Zeqb_spec x s) as G.
  unfold c_place, c_place_rev, make, c_places, c_text.
  destruct (mark w s) as [m|]; [|exact G].
  destruct (unindex_mark w s) as [b|] eqn:E; [|exact G].
  pose proof (unindex_nodup Hs E) as N.
  pose proof (unindex_exact Hw Hs) as U. rewrite E in U. specialize (U x Hx).
  destruct (unindex_get w b x) as [k|]; cbn [first_with last_with].
  - split; split; auto; intros j J; rewrite (nodup_place N U J); lia.
  - split; intros k K; apply U; eapply nth_error_In; eauto.
Qed.

End Sets.
