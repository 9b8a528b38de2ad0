(** Property theorems C119: ending the program with a message.  [o] is how stderr was
    used before; [true] stands for a C library that refuses to write characters of
    the other kind, [false] for one where that is undefined, as in the C standard
    (Die_Model.v). *)
From Verif Require Import Base Utf_Model Utf_Spec Die_Model Die_Spec Die_Proofs.
From Coq Require Import String.
Local Open Scope Z_scope.
Local Open Scope list_scope.

(** ** C119 *)
(** On Windows the whole message is shown in red, in UTF-16, if it takes fewer than
    2048 units; a longer one is written past the end of an array. *)
Theorem C119_shown_partial : forall cs after, clean cs ->
  if units_in16 cs <? 2048 then exists us, text wf16 us cs /\
    win_die_with (mkM false cs after) =
    Aborted [DRed; DWide (10 :: txt "elc died because:" ++ [10]); DWide us; DWide [10]; DBack]
  else win_die_with (mkM false cs after) = DWild.
Proof.
  intros cs after C. pose proof (@win_shown cs [] after C (or_introl eq_refl)) as H. rewrite app_nil_r in H. exact H.
Qed.
Print Assumptions C119_shown_partial.
(** Nothing of a message is shown from its first code beyond Unicode on. *)
Theorem C119_invalid_wrong : forall cs b rest after, clean cs -> 0x10FFFF < b -> units_in16 cs < 2048 ->
  exists us, text wf16 us cs /\ win_die_with (mkM false (cs ++ b :: rest) after) =
    Aborted [DRed; DWide (10 :: txt "elc died because:" ++ [10]); DWide us; DWide [10]; DBack].
Proof.
  intros cs b rest after C Hb U.
  pose proof (@win_shown cs (b :: rest) after C (or_intror (ex_intro _ b (ex_intro _ rest (conj eq_refl Hb))))) as H.
  destruct (Z.ltb_spec (units_in16 cs) 2048); [exact H|lia].
Qed.
Print Assumptions C119_invalid_wrong.
(** Without a message, both systems show that the program died. *)
Theorem C119_no_message : forall refuses o cs after, o <> Wide ->
  win_die_with (mkM true cs after) = Aborted [DRed; DBytes (10 :: txt "elc died." ++ [10]); DBack] /\
  lin_die_with refuses o (mkM true cs after) = Aborted [DBytes red; DBytes (10 :: txt "elc died." ++ [10]); DBytes back].
Proof. intros refuses [| |] cs after O; try congruence; split; reflexivity. Qed.
Print Assumptions C119_no_message.
Example C119_case :
  clean (txt "out of memory" ++ [0x6B7B; 0x1F480]) /\ units_in16 (txt "out of memory" ++ [0x6B7B; 0x1F480]) = 16 /\
  win_die_with (mkM false (txt "out of memory" ++ [0x6B7B; 0x1F480]) []) =
    Aborted [DRed; DWide (10 :: txt "elc died because:" ++ [10]);
             DWide (txt "out of memory" ++ [0x6B7B; 0xD83D; 0xDC80]); DWide [10]; DBack] /\
  win_die_with (mkM false (repeat 65 2048) []) = DWild.
Proof.
  split; [|vm_compute; repeat split].
  repeat (constructor; [split; [split; [unfold code_point|unfold surrogate]|]; vm_compute; intuition congruence|]). constructor.
Qed.

(** On Linux no message is ever shown if stderr was not used, or used for bytes: the
    colour is written as bytes, and the message as wide characters. *)
Theorem C119_message_lost : forall o m, m_null m = false -> o <> Wide ->
  lin_die_with true o m = Aborted [DBytes red; DBytes back] /\ lin_die_with false o m = DWild.
Proof. exact lin_lost. Qed.
Print Assumptions C119_message_lost.
(** If stderr was used for wide characters then the message is shown without colour,
    with what follows it in memory up to a zero, and undefined if there is none. *)
Theorem C119_overrun_wrong : forall m, m_null m = false ->
  lin_die_with false Wide m = DWild /\
  (forall s, c_string (m_text m ++ m_after m) = Some s ->
    lin_die_with true Wide m = Aborted [DWide (10 :: txt "elc died because:" ++ [10]); DWide s; DWide [10]]) /\
  (c_string (m_text m ++ m_after m) = None -> lin_die_with true Wide m = DWild).
Proof.
  intros m N. destruct (@lin_wide m N) as [A B]. split; [exact A|]. rewrite B.
  split; [intros s ->; reflexivity|intros ->; reflexivity].
Qed.
Print Assumptions C119_overrun_wrong.
Example C119_wrong_case :
  let m := mkM false (txt "no memory") (txt ", secret" ++ [0]) in
  lin_die_with true Unset m = Aborted [DBytes [27; 91; 51; 49; 109]; DBytes [27; 91; 48; 109]] /\
  lin_die_with true Wide m = Aborted [DWide (10 :: txt "elc died because:" ++ [10]); DWide (txt "no memory, secret"); DWide [10]] /\
  lin_die_with true Wide (mkM false (txt "no memory") []) = DWild /\
  win_die_with (mkM false (65 :: 0x110000 :: [66]) []) = Aborted [DRed; DWide (10 :: txt "elc died because:" ++ [10]); DWide [65]; DWide [10]; DBack].
Proof. vm_compute. repeat split. Qed.
