(** Proofs about the output of pointers. *)
From Verif Require Import Base UBig_Model UBig_Spec BigInt_Model NumRepr_Model NumRepr_Spec NumRepr_Proofs NumRepr_Big NumRepr_Frac PtrOut_Model PtrOut_Spec.

Lemma hex_no_at a h : numeral_of hexadecimal a h -> ~ In 64 h.
Proof.
  intros (ds & -> & D & _) I. pose proof (@chars_valid hexadecimal hexadecimal_ok ds D) as V. unfold all_digits in V.
  rewrite forallb_forall in V. specialize (V 64 I). vm_compute in V. discriminate V.
Qed.
Lemma address_right a : 0 <= a < 2 ^ 64 ->
  exists h, address_text a = Some h /\ numeral_of hexadecimal a h /\ parse_native hexadecimal (2 ^ 64) 0 h = Some a.
Proof. intros H. apply (@native_round_trip hexadecimal 64 a hexadecimal_ok); [lia|exact H]. Qed.

Section P.
Variable name : nat -> list Z.
Variable open_class : nat -> bool.
Variable object : Z -> option nat.
Notation out_pointer := (out_pointer name open_class object).

Lemma pointer_right t a : 0 <= a < 2 ^ 64 -> (open_class t = true -> object a <> None) ->
  exists s, out_pointer t a = Some s /\
    says_at s (name t ++ match object a with
                         | Some d => if open_class t && negb (Nat.eqb d t) then 40 :: name d ++ [41] else []
                         | None => [] end) a.
Proof.
  intros A O. destruct (address_right A) as (h & E & N & _). unfold PtrOut_Model.out_pointer, dynamic_part, says_at. rewrite E.
  destruct (open_class t).
  - destruct (object a) as [d|]; [|now destruct (O eq_refl)]. cbn [andb]. destruct (Nat.eqb d t); cbn [negb].
    + eexists. split; [reflexivity|]. exists h. rewrite app_nil_r. split; [reflexivity|]. split; [now apply (@hex_no_at a)|exact N].
    + eexists. split; [reflexivity|]. exists h. rewrite <- !app_assoc. cbn [app]. rewrite <- !app_assoc. cbn [app].
      split; [reflexivity|]. split; [now apply (@hex_no_at a)|exact N].
  - eexists. split; [reflexivity|]. exists h. cbn [andb app]. replace (match object a with Some _ => [] | None => [] end) with (@nil Z) by now destruct (object a).
    rewrite app_nil_r. split; [reflexivity|]. split; [now apply (@hex_no_at a)|exact N].
Qed.
Lemma function_right f a : 0 <= a < 2 ^ 64 -> exists s, out_function name f a = Some s /\ says_at s (name f) a.
Proof.
  intros A. destruct (address_right A) as (h & E & N & _). unfold out_function, says_at. rewrite E.
  eexists. split; [reflexivity|]. exists h. split; [reflexivity|]. split; [now apply (@hex_no_at a)|exact N].
Qed.
Lemma null_undefined t a : open_class t = true -> object a = None -> out_pointer t a = None.
Proof. intros H N. unfold PtrOut_Model.out_pointer, dynamic_part. now rewrite H, N. Qed.
End P.

(** The last "@" is in one place only. *)
Lemma last_at (l l' h h' : list Z) : l ++ 64 :: h = l' ++ 64 :: h' -> ~ In 64 h -> ~ In 64 h' -> l = l' /\ h = h'.
Proof.
  revert l'. induction l as [|x l IH]; intros l' E N N'.
  - destruct l' as [|y l']; cbn [app] in E; inversion E; [auto|]. exfalso. apply N. subst. apply in_or_app. right. now left.
  - destruct l' as [|y l']; cbn [app] in E; inversion E; subst.
    + exfalso. apply N'. apply in_or_app. right. now left.
    + destruct (IH l' H1 N N') as [-> ->]. auto.
Qed.
Lemma says_unique s l a l' a' : says_at s l a -> says_at s l' a' -> l = l' /\ a = a'.
Proof.
  intros (h & -> & N & D) (h' & E & N' & D'). destruct (@last_at l l' h h' E N N') as [-> <-]. split; [reflexivity|].
  destruct D as (ds & E1 & D1 & P1 & _), D' as (ds' & E2 & D2 & P2 & _). subst.
  assert (X : ds = ds').
  { assert (M : map (get_index hexadecimal) (map (get_char hexadecimal) ds) = map (get_index hexadecimal) (map (get_char hexadecimal) ds')) by now rewrite E2.
    rewrite !map_map in M.
    assert (I : forall l0, digits_in (radix hexadecimal) l0 -> map (fun x => get_index hexadecimal (get_char hexadecimal x)) l0 = l0).
    { intros l0 H. rewrite <- map_id. apply map_ext_in. intros d Id. unfold digits_in in H. rewrite Forall_forall in H.
      pose proof hexadecimal_ok as K. destruct K as (_ & K & _). apply K. now apply H. }
    rewrite (I ds D1), (I ds' D2) in M. exact M. }
  now rewrite X.
Qed.
