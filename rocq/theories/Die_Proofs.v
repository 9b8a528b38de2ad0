(** Proofs about ending the program with a message. *)
From Verif Require Import Base Utf_Model Utf_Spec Utf_Proofs Die_Model Die_Spec.
From Coq Require Import String Ascii.
Local Open Scope Z_scope.
Local Open Scope list_scope.
Local Notation length := List.length.

Lemma c_string_clean : forall l r, Forall (fun c => c <> 0) l -> c_string (l ++ 0 :: r) = Some l.
Proof.
  induction l as [|c l IH]; intros r H; cbn [c_string app]; [reflexivity|].
  inversion H as [|? ? N H']; subst. destruct (Z.eqb_spec c 0); [contradiction|]. rewrite (IH r H'). reflexivity.
Qed.
(** The converter, one code point after another. *)
Lemma conv_pre : forall cs rest fuel n out, clean cs -> (length (cs ++ rest) <= fuel)%nat -> exists us fuel',
  conv_loop decode_utf32 encode_utf16 fuel (cs ++ rest) n out =
  conv_loop decode_utf32 encode_utf16 fuel' rest (n + length cs) (out ++ us) /\ (length rest <= fuel')%nat /\
  text wf16 us cs /\ Forall (fun u => u <> 0) us /\ Z.of_nat (length us) = units_in16 cs.
Proof.
  induction cs as [|c cs IH]; intros rest fuel n out C Hf.
  - exists [], fuel. rewrite app_nil_r, Nat.add_0_r. cbn [app]. repeat split; [exact Hf|constructor|constructor].
  - inversion C as [|? ? [[S1 S2] N] C']; subst. destruct fuel as [|fuel]; [cbn in Hf; lia|].
    cbn [app length] in Hf. unfold code_point, surrogate in *.
    assert (E : exists u, encode_utf16 c = Some u /\ wf16 u c /\ Forall (fun x => x <> 0) u /\
      Z.of_nat (length u) = if c <? 0x10000 then 1 else 2).
    { unfold encode_utf16. destruct (Z.ltb_spec c 0x10000) as [L|L].
      - exists [c mod 65536]. split; [reflexivity|]. rewrite Z.mod_small by lia.
        split; [split; [constructor; lia|unfold surrogate; lia]|]. split; [repeat constructor; exact N|reflexivity].
      - destruct (Z.ltb_spec c 0x110000) as [L2|L2]; [|lia]. eexists. split; [reflexivity|].
        assert (Q1 : Z.shiftr c 10 = c / 2 ^ 10) by (rewrite Z.shiftr_div_pow2 by lia; reflexivity).
        assert (Q2 : Z.land c 0x3FF = c mod 2 ^ 10) by (change 0x3FF with (Z.ones 10); rewrite Z.land_ones by lia; reflexivity).
        rewrite Q1, Q2.
        pose proof (Z.div_mod c (2 ^ 10) ltac:(lia)) as D. pose proof (Z.mod_pos_bound c (2 ^ 10) ltac:(lia)) as B.
        set (q := c / 2 ^ 10) in *. set (r := c mod 2 ^ 10) in *. change (2 ^ 10) with 1024 in *.
        assert (Hq : 64 <= q < 1088) by lia.
        rewrite (Z.mod_small (q + 55232) 65536) by lia. rewrite (Z.mod_small (r + 56320) 65536) by lia.
        split; [split; [|unfold surrogate; lia]|].
        + replace (q + 55232) with (55296 + (q - 64)) by lia. rewrite (Z.add_comm r). constructor; change (2 ^ 10) with 1024; lia.
        + split; [repeat constructor; lia|reflexivity]. }
    destruct E as (u & E & Wf & Nz & Len).
    destruct (IH rest fuel (n + 1)%nat (out ++ u) C' ltac:(lia)) as (us & fuel' & E2 & F2 & T2 & N2 & L2).
    exists (u ++ us), fuel'. split.
    + cbn [app conv_loop]. change (decode_utf32 (c :: cs ++ rest) (length (c :: cs ++ rest))) with (DOk c 1).
      cbn iota beta. rewrite E. cbn [skipn]. rewrite E2. f_equal; [cbn [length]; lia|rewrite app_assoc; reflexivity].
    + split; [exact F2|]. split; [constructor; assumption|]. split; [apply Forall_app; split; assumption|].
      rewrite app_length, Nat2Z.inj_add, Len, L2. reflexivity.
Qed.
Lemma conv_stop : forall cs rest, clean cs -> (rest = [] \/ exists b r, rest = b :: r /\ 0x10FFFF < b) -> exists ok k us,
  utf32_to_utf16 (cs ++ rest) = Some (ok, k, us) /\ text wf16 us cs /\ Forall (fun u => u <> 0) us /\
  Z.of_nat (length us) = units_in16 cs.
Proof.
  intros cs rest C H. destruct (@conv_pre cs rest (length (cs ++ rest)) 0 [] C (Nat.le_refl _)) as (us & f & E & F & T & N & L).
  destruct H as [->|(b & r & -> & Hb)].
  - exists true, (0 + length cs)%nat, us. split; [|auto]. unfold utf32_to_utf16, conv. rewrite E. destruct f; reflexivity.
  - exists false, (0 + length cs)%nat, us. split; [|auto]. unfold utf32_to_utf16, conv. rewrite E.
    destruct f as [|f]; [cbn in F; lia|]. cbn [conv_loop].
    change (decode_utf32 (b :: r) (length (b :: r))) with (DOk b 1). cbn iota beta. unfold encode_utf16.
    destruct (Z.ltb_spec b 0x10000); [lia|]. destruct (Z.ltb_spec b 0x110000); [lia|]. reflexivity.
Qed.
Theorem win_shown : forall cs rest after, clean cs -> (rest = [] \/ exists b r, rest = b :: r /\ 0x10FFFF < b) ->
  if units_in16 cs <? 2048 then exists us, text wf16 us cs /\
    win_die_with (mkM false (cs ++ rest) after) =
    Aborted [DRed; DWide (10 :: txt "elc died because:" ++ [10]); DWide us; DWide [10]; DBack]
  else win_die_with (mkM false (cs ++ rest) after) = DWild.
Proof.
  intros cs rest after C H. destruct (@conv_stop cs rest C H) as (ok & k & us & E & T & N & L).
  unfold win_die_with. cbn [m_null m_text]. rewrite E, L.
  destruct (Z.ltb_spec (units_in16 cs) 2048), (Z.leb_spec 2048 (units_in16 cs)); try lia; [|reflexivity].
  exists us. split; [exact T|]. rewrite (c_string_clean [] N). reflexivity.
Qed.
Lemma because_string : c_string (10 :: txt "elc died because:" ++ [10; 0]) = Some (10 :: txt "elc died because:" ++ [10]).
Proof. reflexivity. Qed.
Theorem lin_lost : forall o m, m_null m = false -> o <> Wide ->
  lin_die_with true o m = Aborted [DBytes red; DBytes back] /\ lin_die_with false o m = DWild.
Proof. intros [| |] m N O; unfold lin_die_with; rewrite N; try congruence; split; reflexivity. Qed.
Theorem lin_wide : forall m, m_null m = false ->
  lin_die_with false Wide m = DWild /\
  lin_die_with true Wide m = match c_string (m_text m ++ m_after m) with
    | None => DWild
    | Some s => Aborted [DWide (10 :: txt "elc died because:" ++ [10]); DWide s; DWide [10]]
    end.
Proof.
  intros m N. unfold lin_die_with. rewrite N. split; [reflexivity|].
  cbn [fputs]. unfold fputws at 3. rewrite because_string. unfold fputws at 2.
  destruct (c_string (m_text m ++ m_after m)) as [s|]; reflexivity.
Qed.
