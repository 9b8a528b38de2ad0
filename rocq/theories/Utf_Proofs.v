(** Proofs about the UTF conversions. *)
From Verif Require Import Base Utf_Model Utf_Spec.
Local Open Scope Z_scope.

Local Opaque Z.add.
Ltac pows :=
  unfold unit8, unit16, unit32 in *;
  change (2 ^ 3) with 8 in *; change (2 ^ 4) with 16 in *; change (2 ^ 5) with 32 in *;
  change (2 ^ 6) with 64 in *; change (2 ^ 8) with 256 in *; change (2 ^ 10) with 1024 in *;
  change (2 ^ 12) with 4096 in *; change (2 ^ 16) with 65536 in *; change (2 ^ 18) with 262144 in *.

(** ** Single characters *)
Lemma range_check (f g : Z -> bool) (n : nat) :
  forallb (fun i => Bool.eqb (f (Z.of_nat i)) (g (Z.of_nat i))) (seq 0 n) = true ->
  forall x, 0 <= x < Z.of_nat n -> f x = g x.
Proof.
  intros H x Hx. rewrite forallb_forall in H.
  specialize (H (Z.to_nat x)). rewrite in_seq in H. rewrite Z2Nat.id in H by lia.
  apply Bool.eqb_prop. apply H. lia.
Qed.
Lemma land_c0 x : 0 <= x < 256 -> (Z.land x 0xC0 =? 0x80) = (0x80 <=? x) && (x <? 0xC0).
Proof. apply (@range_check (fun x => Z.land x 0xC0 =? 0x80) (fun x => (0x80 <=? x) && (x <? 0xC0)) 256%nat). vm_compute. reflexivity. Qed.

(** Case analysis on the comparisons of a decoder. *)
Ltac bcase :=
  match goal with
  | |- context [Z.ltb ?a ?b] => destruct (Z.ltb_spec a b)
  | |- context [Z.leb ?a ?b] => destruct (Z.leb_spec a b)
  | |- context [Z.eqb ?a ?b] => destruct (Z.eqb_spec a b)
  end.

(** Every encoding form starts with a unit that fixes its length. *)
Lemma seq8_lead b c : seq8 b c -> exists x r, b = x :: r /\
  ((0 <= x < 0x80 /\ r = []) \/ (0xC2 <= x < 0xE0 /\ length r = 1%nat) \/
   (0xE0 <= x < 0xF0 /\ length r = 2%nat) \/ (0xF0 <= x < 0xF5 /\ length r = 3%nat)).
Proof.
  intros H. inversion H; subst; pows; (do 2 eexists; split; [reflexivity|]); cbn [length].
  - left. split; [lia|reflexivity].
  - right; left. split; [lia|reflexivity].
  - right; right; left. split; [lia|reflexivity].
  - right; right; right. split; [lia|reflexivity].
Qed.

Ltac inj_all :=
  repeat match goal with
  | H : _ :: _ = _ :: _ |- _ => injection H; clear H; intros; subst
  | H : [] = _ :: _ |- _ => discriminate H
  | H : _ :: _ = [] |- _ => discriminate H
  end.

Lemma seq8_fun b c c' : seq8 b c -> seq8 b c' -> c = c'.
Proof.
  intros H1 H2. inversion H1; subst; inversion H2; subst; pows; try reflexivity; lia.
Qed.
Lemma seq8_inj b b' c : seq8 b c -> seq8 b' c -> b = b'.
Proof.
  intros H1 H2. inversion H1; subst; inversion H2; subst; pows; try reflexivity; try lia.
  - assert (x = x0 /\ y = y0) as [-> ->] by lia. reflexivity.
  - assert (x = x0 /\ y = y0 /\ z = z0) as (-> & -> & ->) by lia. reflexivity.
  - assert (x = x0 /\ y = y0 /\ z = z0 /\ u = u0) as (-> & -> & -> & ->) by lia. reflexivity.
Qed.
Lemma seq16_inj b b' c : seq16 b c -> seq16 b' c -> b = b'.
Proof.
  intros H1 H2. inversion H1; subst; inversion H2; subst; pows; try reflexivity; try lia.
  assert (x = x0 /\ y = y0) as [-> ->] by lia. reflexivity.
Qed.

(** What the UTF-16 decoder accepts: it does not check a single unit for being a
    low surrogate. *)
Definition dec16 (b : list Z) (c : Z) : Prop :=
  seq16 b c /\ ~ (length b = 1%nat /\ 0xD800 <= c < 0xDC00).

Definition dec_ok (unit : Z -> Prop) (dec : list Z -> nat -> dres) (R : list Z -> Z -> Prop) : Prop :=
  forall inp, Forall unit inp -> inp <> [] ->
  match dec inp (length inp) with
  | DUB => False
  | DFail => forall b c rest, inp = b ++ rest -> ~ R b c
  | DOk c sz => exists b rest, inp = b ++ rest /\ length b = sz /\ R b c
  end.
(** Decoding is deterministic: at most one prefix is an encoding. *)
Definition prefix_free (R : list Z -> Z -> Prop) : Prop :=
  (forall b c, R b c -> b <> []) /\
  forall b c b' c' r r', R b c -> R b' c' -> b ++ r = b' ++ r' -> b = b' /\ c = c' /\ r = r'.
Definition enc_ok (enc : Z -> option (list Z)) (R : list Z -> Z -> Prop) (ok : Z -> Prop) : Prop :=
  forall c, ok c -> match enc c with Some u => R u c | None => forall u, ~ R u c end.

Lemma decode_utf8_ok : dec_ok unit8 decode_utf8 seq8.
Proof.
  intros inp Hu Hne. destruct inp as [|a r]; [contradiction|]. clear Hne.
  inversion Hu as [|? ? Ha Hr]; subst. unfold decode_utf8, rd. cbn [nth_error length].
  assert (Hfail : forall (lim : nat), (length r < lim)%nat ->
    (0xC2 <= a -> a < 0x100) -> (0xC2 <= a < 0xE0 /\ lim = 1%nat \/ 0xE0 <= a < 0xF0 /\ lim = 2%nat \/ 0xF0 <= a < 0xF5 /\ lim = 3%nat) ->
    forall b c rest, a :: r = b ++ rest -> ~ seq8 b c).
  { intros lim Hlim _ Hl b c rest E Hs. destruct (seq8_lead Hs) as (x & t & -> & Hx). cbn [app] in E.
    injection E as -> ->. rewrite app_length in Hlim. lia. }
  pows.
  destruct (Z.ltb_spec a 0x80) as [L1|L1].
  { exists [a], r. split; [reflexivity|]. split; [reflexivity|]. constructor. lia. }
  destruct (Z.ltb_spec a 0xC2) as [L2|L2].
  { intros b c rest E Hs. destruct (seq8_lead Hs) as (x & t & -> & Hx). cbn [app] in E. injection E as -> ->. lia. }
  destruct (Z.ltb_spec a 0xE0) as [L3|L3].
  { destruct r as [|a2 r].
    { cbn [length Nat.ltb Nat.leb]. apply (Hfail 1%nat); cbn [length]; lia. }
    clear Hfail. cbn [length Nat.ltb Nat.leb nth_error].
    inversion Hr as [|? ? Ha2 Hr2]; subst. rewrite land_c0 by auto. rewrite Z.shiftl_mul_pow2 by lia. pows.
    destruct (Z.leb_spec 0x80 a2), (Z.ltb_spec a2 0xC0); cbn [andb negb];
      try (intros b c rest E Hs; inversion Hs; subst; cbn [app] in E; inj_all; lia).
    exists [a; a2], r. split; [reflexivity|]. split; [reflexivity|].
    replace a with (0xC0 + (a - 0xC0)) at 1 by ring. replace a2 with (0x80 + (a2 - 0x80)) at 1 by ring.
    constructor; pows; lia. }
  destruct (Z.ltb_spec a 0xF0) as [L4|L4].
  { destruct r as [|a2 r].
    { cbn [length Nat.ltb Nat.leb]. apply (Hfail 2%nat); cbn [length]; lia. }
    destruct r as [|a3 r].
    { cbn [length Nat.ltb Nat.leb]. apply (Hfail 2%nat); cbn [length]; lia. }
    clear Hfail. cbn [length Nat.ltb Nat.leb nth_error].
    inversion Hr as [|? ? Ha2 Hr2]; subst. inversion Hr2 as [|? ? Ha3 Hr3]; subst.
    rewrite !land_c0 by auto. rewrite !Z.shiftl_mul_pow2 by lia. pows.
    destruct (Z.leb_spec 0x80 a2), (Z.ltb_spec a2 0xC0); cbn [andb negb];
      try (intros b c rest E Hs; inversion Hs; subst; cbn [app] in E; inj_all; lia).
    destruct (Z.eqb_spec a 0xE0), (Z.ltb_spec a2 0xA0); cbn [andb];
      try (intros b c rest E Hs; inversion Hs; subst; cbn [app] in E; inj_all; pows; lia);
    (destruct (Z.leb_spec 0x80 a3), (Z.ltb_spec a3 0xC0); cbn [andb negb];
      [|intros b c rest E Hs; inversion Hs; subst; cbn [app] in E; inj_all; pows; lia..];
     exists [a; a2; a3], r; split; [reflexivity|]; split; [reflexivity|];
     replace a with (0xE0 + (a - 0xE0)) at 1 by ring; replace a2 with (0x80 + (a2 - 0x80)) at 1 by ring;
     replace a3 with (0x80 + (a3 - 0x80)) at 1 by ring;
     constructor; pows; lia). }
  destruct (Z.ltb_spec a 0xF5) as [L5|L5].
  { destruct r as [|a2 r].
    { cbn [length Nat.ltb Nat.leb]. apply (Hfail 3%nat); cbn [length]; lia. }
    destruct r as [|a3 r].
    { cbn [length Nat.ltb Nat.leb]. apply (Hfail 3%nat); cbn [length]; lia. }
    destruct r as [|a4 r].
    { cbn [length Nat.ltb Nat.leb]. apply (Hfail 3%nat); cbn [length]; lia. }
    clear Hfail. cbn [length Nat.ltb Nat.leb nth_error].
    inversion Hr as [|? ? Ha2 Hr2]; subst. inversion Hr2 as [|? ? Ha3 Hr3]; subst.
    inversion Hr3 as [|? ? Ha4 Hr4]; subst.
    rewrite !land_c0 by auto. rewrite !Z.shiftl_mul_pow2 by lia. pows.
    assert (Hno : forall (P : Prop), (forall x y z u c, 0 <= x < 8 -> 0 <= y < 64 -> 0 <= z < 64 -> 0 <= u < 64 ->
        c = ((x * 64 + y) * 64 + z) * 64 + u -> 0x10000 <= c <= 0x10FFFF -> a = 0xF0 + x -> a2 = 0x80 + y ->
        a3 = 0x80 + z -> a4 = 0x80 + u -> False) ->
        forall b c rest, a :: a2 :: a3 :: a4 :: r = b ++ rest -> ~ seq8 b c).
    { intros _ HF b c rest E Hs. inversion Hs; subst; cbn [app] in E; inj_all; pows; try lia.
      eapply HF with (x := x) (y := y) (z := z) (u := u); eauto. }
    destruct (Z.leb_spec 0x80 a2), (Z.ltb_spec a2 0xC0); cbn [andb negb];
      try (apply (Hno True); intros; lia).
    destruct (Z.eqb_spec a 0xF0), (Z.ltb_spec a2 0x90); cbn [andb];
      try (apply (Hno True); intros; lia);
    (destruct (Z.eqb_spec a 0xF4), (Z.leb_spec 0x90 a2); cbn [andb];
      try (apply (Hno True); intros; lia));
    (destruct (Z.leb_spec 0x80 a3), (Z.ltb_spec a3 0xC0); cbn [andb negb];
      try (apply (Hno True); intros; lia));
    (destruct (Z.leb_spec 0x80 a4), (Z.ltb_spec a4 0xC0); cbn [andb negb];
      try (apply (Hno True); intros; lia));
    (exists [a; a2; a3; a4], r; split; [reflexivity|]; split; [reflexivity|];
     clear Hno Hr Hr2 Hr3 Hr4 Hu;
     replace a with (0xF0 + (a - 0xF0)) at 1 by ring; replace a2 with (0x80 + (a2 - 0x80)) at 1 by ring;
     replace a3 with (0x80 + (a3 - 0x80)) at 1 by ring; replace a4 with (0x80 + (a4 - 0x80)) at 1 by ring;
     constructor; pows; lia). }
  intros b c rest E Hs. destruct (seq8_lead Hs) as (x & t & -> & Hx). cbn [app] in E. injection E as -> ->. lia.
Qed.

Lemma app_eq_len (A : Type) (b b' r r' : list A) : length b = length b' -> b ++ r = b' ++ r' -> b = b' /\ r = r'.
Proof.
  revert b'. induction b as [|x b IH]; intros [|x' b'] Hl E; cbn in *; try lia; [auto|].
  injection E as -> E. destruct (IH b') as [-> ->]; auto.
Qed.

Lemma seq8_prefix_free : prefix_free seq8.
Proof.
  split.
  - intros b c H. destruct (seq8_lead H) as (x & t & -> & _). discriminate.
  - intros b c b' c' r r' H H' E.
    assert (b = b' /\ r = r') as [<- <-].
    { destruct (seq8_lead H) as (x & t & -> & Hx), (seq8_lead H') as (x' & t' & -> & Hx'). cbn [app] in E.
      injection E as <- E. assert (length t = length t').
      { destruct Hx as [[? ->]|[[? ?]|[[? ?]|[? ?]]]], Hx' as [[? ->]|[[? ?]|[[? ?]|[? ?]]]]; cbn [length]; lia. }
      destruct (app_eq_len H0 E) as [-> ->]. auto. }
    split; [reflexivity|]. split; [eapply seq8_fun; eauto|reflexivity].
Qed.

Lemma decode_utf16_ok : dec_ok unit16 decode_utf16 dec16.
Proof.
  intros inp Hu Hne. destruct inp as [|a r]; [contradiction|]. clear Hne.
  inversion Hu as [|? ? Ha Hr]; subst. unfold decode_utf16, rd. cbn [nth_error length]. pows.
  destruct (Z.leb_spec 0xD800 a) as [L1|L1], (Z.ltb_spec a 0xDC00) as [L2|L2]; cbn [andb];
    try (exists [a], r; split; [reflexivity|]; split; [reflexivity|]; split; [constructor; lia|intros [_ ?]; lia]).
  destruct r as [|a2 r].
  { cbn [length Nat.ltb Nat.leb]. intros b c rest E [Hs Hn]. inversion Hs; subst; cbn [app] in E; inj_all.
    apply Hn. split; [reflexivity|lia]. }
  cbn [length Nat.ltb Nat.leb nth_error]. inversion Hr as [|? ? Ha2 Hr2]; subst. rewrite Z.shiftl_mul_pow2 by lia. pows.
  destruct (Z.leb_spec 0xDC00 a2) as [L3|L3], (Z.ltb_spec a2 0xE000) as [L4|L4]; cbn [andb];
    try (intros b c rest E [Hs Hn]; inversion Hs; subst; cbn [app] in E; inj_all; pows;
         [apply Hn; split; [reflexivity|lia]|lia]).
  exists [a; a2], r. split; [reflexivity|]. split; [reflexivity|]. split; [|intros [Hl _]; discriminate].
  replace a with (0xD800 + (a - 0xD800)) at 1 by ring. replace a2 with (0xDC00 + (a2 - 0xDC00)) at 1 by ring.
  constructor; pows; lia.
Qed.

Lemma dec16_prefix_free : prefix_free dec16.
Proof.
  split.
  - intros b c [H _]. inversion H; discriminate.
  - intros b c b' c' r r' [H Hn] [H' Hn'] E.
    inversion H; subst; inversion H'; subst; cbn [app] in E; inj_all; pows; try (split; [|split]; reflexivity).
    + exfalso. apply Hn. split; [reflexivity|]. lia.
    + exfalso. apply Hn'. split; [reflexivity|]. lia.
    + assert (x = x0 /\ y = y0) as [-> ->] by lia. split; [|split]; reflexivity.
Qed.

Lemma decode_utf32_ok unit : dec_ok unit decode_utf32 seq32.
Proof.
  intros inp Hu Hne. destruct inp as [|a r]; [contradiction|]. unfold decode_utf32, rd. cbn [nth_error].
  exists [a], r. split; [reflexivity|]. split; [reflexivity|constructor].
Qed.
Lemma seq32_prefix_free : prefix_free seq32.
Proof.
  split.
  - intros b c H. inversion H. discriminate.
  - intros b c b' c' r r' H H' E. inversion H; subst; inversion H'; subst. cbn [app] in E. inj_all.
    split; [|split]; reflexivity.
Qed.

Lemma land_3f c : Z.land c 0x3F = c mod 64.
Proof. change 0x3F with (Z.ones 6). rewrite Z.land_ones by lia. reflexivity. Qed.
Lemma land_3ff c : Z.land c 0x3FF = c mod 1024.
Proof. change 0x3FF with (Z.ones 10). rewrite Z.land_ones by lia. reflexivity. Qed.

Ltac dm a b := pose proof (Z.div_mod a b ltac:(lia)); pose proof (Z.mod_pos_bound a b ltac:(lia)).

Lemma encode_utf8_ok : enc_ok encode_utf8 seq8 (fun c => 0 <= c).
Proof.
  intros c Hc. unfold encode_utf8. rewrite !land_3f, !Z.shiftr_div_pow2 by lia. pows.
  destruct (Z.ltb_spec c 0x80).
  { rewrite Z.mod_small by lia. constructor. lia. }
  destruct (Z.ltb_spec c 0x800).
  { dm c 64. rewrite (Z.mod_small (c / 64 + _)), (Z.mod_small (c mod 64 + _)) by lia.
    rewrite (Z.add_comm (c / 64)), (Z.add_comm (c mod 64)). constructor; pows; lia. }
  destruct (Z.ltb_spec c 0x10000).
  { dm c 64. dm (c / 64) 64. assert (E : c / 4096 = c / 64 / 64) by (rewrite Z.div_div by lia; reflexivity).
    rewrite E. rewrite (Z.mod_small (c / 64 / 64 + _)), (Z.mod_small (c mod 64 + _)), (Z.mod_small ((c / 64) mod 64 + _)) by lia.
    rewrite (Z.add_comm (c / 64 / 64)), (Z.add_comm (c mod 64)), (Z.add_comm ((c / 64) mod 64)). constructor; pows; lia. }
  destruct (Z.ltb_spec c 0x110000).
  { dm c 64. dm (c / 64) 64. dm (c / 64 / 64) 64.
    assert (E : c / 4096 = c / 64 / 64) by (rewrite Z.div_div by lia; reflexivity).
    assert (E2 : c / 262144 = c / 64 / 64 / 64) by (rewrite !Z.div_div by lia; reflexivity).
    rewrite E2, E.
    rewrite (Z.mod_small (c / 64 / 64 / 64 + _)), (Z.mod_small (c mod 64 + _)), (Z.mod_small ((c / 64) mod 64 + _)),
      (Z.mod_small ((c / 64 / 64) mod 64 + _)) by lia.
    rewrite (Z.add_comm (c / 64 / 64 / 64)), (Z.add_comm (c mod 64)), (Z.add_comm ((c / 64) mod 64)),
      (Z.add_comm ((c / 64 / 64) mod 64)). constructor; pows; lia. }
  intros u Hs. inversion Hs; subst; pows; lia.
Qed.
Lemma encode_utf16_ok : enc_ok encode_utf16 seq16 (fun c => 0 <= c).
Proof.
  intros c Hc. unfold encode_utf16. rewrite !land_3ff, !Z.shiftr_div_pow2 by lia. pows.
  destruct (Z.ltb_spec c 0x10000).
  { rewrite Z.mod_small by lia. constructor. lia. }
  destruct (Z.ltb_spec c 0x110000).
  { dm c 1024. rewrite (Z.mod_small (c / 1024 + _)), (Z.mod_small (c mod 1024 + _)) by lia.
    replace (c / 1024 + 0xD7C0) with (0xD800 + (c / 1024 - 0x40)) by ring.
    rewrite (Z.add_comm (c mod 1024)). constructor; pows; lia. }
  intros u Hs. inversion Hs; subst; pows; lia.
Qed.
Lemma encode_utf32_ok : enc_ok encode_utf32 seq32 (fun _ => True).
Proof. intros c _. constructor. Qed.

(** ** Texts *)
Section Conv.
Variable unit : Z -> Prop.
Variable dec : list Z -> nat -> dres.
Variable enc : Z -> option (list Z).
Variables Rin Rout : list Z -> Z -> Prop.
Variable okc : Z -> Prop.
Hypothesis Hdec : dec_ok unit dec Rin.
Hypothesis Hpf : prefix_free Rin.
Hypothesis Henc : enc_ok enc Rout okc.
Hypothesis Hokc : forall b c, Forall unit b -> Rin b c -> okc c.
Hypothesis Hfun : forall u u' c, Rout u c -> Rout u' c -> u = u'.

Lemma text_app (R : list Z -> Z -> Prop) a b ca cb : text R a ca -> text R b cb -> text R (a ++ b) (ca ++ cb).
Proof.
  induction 1 as [|b0 c bs cs H1 H2 IH]; intros H; [exact H|]. rewrite <- app_assoc. cbn [app].
  constructor; auto.
Qed.
Lemma text_one (R : list Z -> Z -> Prop) b c : R b c -> text R b [c].
Proof. intros H. rewrite <- (app_nil_r b). constructor; [exact H|constructor]. Qed.

(** The unprocessed rest does not start with a convertible character. *)
Definition stuck (rest : list Z) : Prop :=
  rest <> [] /\ forall b c u r, rest = b ++ r -> Rin b c -> ~ Rout u c.

Lemma conv_loop_ok : forall fuel inp n out, Forall unit inp -> (length inp <= fuel)%nat ->
  exists good rest o cs, inp = good ++ rest /\ text Rin good cs /\ text Rout o cs /\
    ((rest = [] /\ conv_loop dec enc fuel inp n out = Some (true, n + length inp, out ++ o)%nat) \/
     (stuck rest /\ conv_loop dec enc fuel inp n out = Some (false, n + length good, out ++ o)%nat)).
Proof.
  induction fuel as [|fuel IH]; intros inp n out Hu Hl.
  - destruct inp; [|cbn in Hl; lia]. exists [], [], [], []. cbn [conv_loop length app].
    rewrite app_nil_r, Nat.add_0_r. split; [reflexivity|]. split; [constructor|]. split; [constructor|]. left. auto.
  - destruct inp as [|a r].
    { exists [], [], [], []. cbn [conv_loop length app]. rewrite app_nil_r, Nat.add_0_r.
      split; [reflexivity|]. split; [constructor|]. split; [constructor|]. left. auto. }
    set (inp := a :: r) in *. assert (Hne : inp <> []) by discriminate.
    change (conv_loop dec enc (S fuel) inp n out) with
      (match dec inp (length inp) with
       | DUB => None | DFail => Some (false, n, out)
       | DOk c sz => match enc c with None => Some (false, n, out)
                     | Some u => conv_loop dec enc fuel (skipn sz inp) (n + sz) (out ++ u) end end).
    pose proof (Hdec Hu Hne) as HD. destruct (dec inp (length inp)) as [| |c sz]; [contradiction| |].
    + exists [], inp, [], []. split; [reflexivity|]. split; [constructor|]. split; [constructor|]. right.
      split; [split; [exact Hne|]|cbn [length]; rewrite app_nil_r, Nat.add_0_r; reflexivity].
      intros b c u r0 E HR. exfalso. exact (HD b c r0 E HR).
    + destruct HD as (b & rest & E & Hsz & HR).
      assert (Hub : Forall unit b /\ Forall unit rest) by (apply Forall_app; rewrite <- E; exact Hu).
      destruct Hub as [Hub Hur].
      pose proof (Henc (Hokc Hub HR)) as HE.
      assert (Hbne : b <> []) by (apply (proj1 Hpf) with (c := c); exact HR).
      destruct (enc c) as [u|].
      * assert (Esk : skipn sz inp = rest).
        { rewrite E, <- Hsz, skipn_app, Nat.sub_diag. rewrite skipn_all. reflexivity. }
        rewrite Esk. destruct (IH rest (n + sz)%nat (out ++ u) Hur) as (g & rs & o & cs & E1 & T1 & T2 & H).
        { apply (f_equal (@length Z)) in E. rewrite app_length in E.
          destruct b; [contradiction|]. cbn [length] in E. lia. }
        exists (b ++ g), rs, (u ++ o), (c :: cs).
        split; [rewrite <- app_assoc, <- E1; exact E|]. split; [constructor; auto|]. split; [constructor; auto|].
        destruct H as [[Hrs ->]|[Hst ->]]; [left|right]; (split; [auto|]);
          rewrite app_assoc; do 3 f_equal; rewrite ?E, ?app_length, <- ?Hsz; lia.
      * exists [], inp, [], []. split; [reflexivity|]. split; [constructor|]. split; [constructor|]. right.
        split; [split; [exact Hne|]|cbn [length]; rewrite app_nil_r, Nat.add_0_r; reflexivity].
        intros b' c' u r0 E' HR'. rewrite E in E'.
        destruct (proj2 Hpf _ _ _ _ _ _ HR HR' E') as (_ & <- & _). apply HE.
Qed.

Lemma text_cons_inv (R : list Z -> Z -> Prop) bs c cs : text R bs (c :: cs) ->
  exists b r, bs = b ++ r /\ R b c /\ text R r cs.
Proof. intros H. inversion H; subst. eauto. Qed.

Lemma text_unique a cs cs' : text Rin a cs -> text Rin a cs' -> cs = cs'.
Proof.
  intros H. revert cs'. induction H as [|b c bs cs HR HT IH]; intros cs' H'.
  - inversion H' as [|b c bs cs HR HT E1 E2]; [reflexivity|]. exfalso.
    apply (proj1 Hpf _ _ HR). destruct b; [reflexivity|discriminate].
  - inversion H' as [E1|b' c' bs' cs1 HR' HT' E1 E2].
    + exfalso. apply (proj1 Hpf _ _ HR). destruct b; [reflexivity|discriminate].
    + destruct (proj2 Hpf _ _ _ _ _ _ HR' HR E1) as (_ & -> & ->). f_equal. apply IH. exact HT'.
Qed.
Lemma text_out_unique o o' cs : text Rout o cs -> text Rout o' cs -> o = o'.
Proof.
  intros H. revert o'. induction H as [|b c bs cs HR HT IH]; intros o' H'.
  - inversion H'. reflexivity.
  - destruct (text_cons_inv H') as (b' & r' & -> & HR' & HT').
    rewrite (Hfun HR HR'). f_equal. apply IH. exact HT'.
Qed.

(** A text cannot be split into a text and a stuck rest. *)
Lemma text_not_stuck : forall good rest cs1 cs o, text Rin good cs1 -> stuck rest ->
  text Rin (good ++ rest) cs -> text Rout o cs -> False.
Proof.
  intros good rest cs1 cs o H. revert cs o. induction H as [|b c bs cs1 HR HT IH]; intros cs o Hst HT2 HO.
  - cbn [app] in HT2. destruct Hst as [Hne Hst]. inversion HT2 as [E1|b c bs cs2 HR HT3 E1 E2]; subst.
    + apply Hne. reflexivity.
    + destruct (text_cons_inv HO) as (u & r & _ & HR2 & _).
      exact (Hst b c u bs eq_refl HR HR2).
  - rewrite <- app_assoc in HT2. inversion HT2 as [E1|b' c' bs' cs2 HR' HT3 E1 E2]; subst.
    + apply (proj1 Hpf _ _ HR). destruct b; [reflexivity|discriminate].
    + destruct (proj2 Hpf _ _ _ _ _ _ HR' HR E1) as (_ & -> & ->).
      destruct (text_cons_inv HO) as (u & r & -> & HR2 & HO2). eapply IH; eauto.
Qed.

Lemma conv_success inp out : Forall unit inp ->
  (conv dec enc inp = Some (true, length inp, out) <-> exists cs, text Rin inp cs /\ text Rout out cs).
Proof.
  intros Hu. unfold conv. destruct (@conv_loop_ok (length inp) inp 0%nat [] Hu (Nat.le_refl _))
    as (g & rs & o & cs & E & T1 & T2 & H). cbn [app Nat.add] in H. split.
  - intros HC. destruct H as [[Hrs H]|[Hst H]]; rewrite H in HC; [|discriminate].
    injection HC as <-. subst rs. rewrite app_nil_r in E. subst g. exists cs. auto.
  - intros (cs' & T1' & T2'). destruct H as [[Hrs H]|[Hst H]].
    + rewrite H. subst rs. rewrite app_nil_r in E. subst g.
      rewrite (text_unique T1' T1) in T2'. rewrite (text_out_unique T2' T2). reflexivity.
    + exfalso. rewrite E in T1'. exact (text_not_stuck T1 Hst T1' T2').
Qed.
Lemma conv_total inp : Forall unit inp -> exists ok n out, conv dec enc inp = Some (ok, n, out) /\
  (exists cs, text Rin (firstn n inp) cs /\ text Rout out cs) /\
  (if ok then n = length inp else stuck (skipn n inp)).
Proof.
  intros Hu. unfold conv. destruct (@conv_loop_ok (length inp) inp 0%nat [] Hu (Nat.le_refl _))
    as (g & rs & o & cs & E & T1 & T2 & H). cbn [app Nat.add] in H.
  destruct H as [[Hrs H]|[Hst H]]; rewrite H; (do 3 eexists); (split; [reflexivity|]).
  - subst rs. rewrite app_nil_r in E. subst g. rewrite firstn_all. split; [eauto|reflexivity].
  - rewrite E, firstn_app, Nat.sub_diag, firstn_all, skipn_app, Nat.sub_diag, skipn_all. cbn [firstn skipn app].
    rewrite app_nil_r. eauto.
Qed.

(** ** Sizes *)
Variable encsize : Z -> option nat.
Hypothesis Hsize : forall c, okc c -> encsize c = option_map (@length Z) (enc c).

Lemma size_loop_spec fin : forall fuel inp n acc out k, Forall unit inp -> (length inp <= fuel)%nat ->
  length out = k ->
  size_loop dec encsize fin fuel inp (acc + k)%nat =
  match conv_loop dec enc fuel inp n out with
  | Some (true, _, o) => fin (acc + length o)%nat
  | Some (false, _, _) => SNpos
  | None => SUB
  end.
Proof.
  induction fuel as [|fuel IH]; intros inp n acc out k Hu Hl Hk.
  - destruct inp; [|cbn in Hl; lia]. cbn [size_loop conv_loop]. subst k. reflexivity.
  - destruct inp as [|a r]; [cbn [size_loop conv_loop]; subst k; reflexivity|].
    cbn [size_loop conv_loop]. set (inp := a :: r) in *. assert (Hne : inp <> []) by discriminate.
    pose proof (Hdec Hu Hne) as HD. destruct (dec inp (length inp)) as [| |c sz]; [reflexivity..|].
    destruct HD as (b & rest & E & Hsz & HR).
    assert (Hub : Forall unit b /\ Forall unit rest) by (apply Forall_app; rewrite <- E; exact Hu).
    destruct Hub as [Hub Hur]. rewrite (Hsize (Hokc Hub HR)).
    destruct (enc c) as [u|]; cbn [option_map]; [|reflexivity].
    assert (Esk : skipn sz inp = rest).
    { rewrite E, <- Hsz, skipn_app, Nat.sub_diag. rewrite skipn_all. reflexivity. }
    rewrite Esk. replace (acc + k + length u)%nat with (acc + (k + length u))%nat by lia.
    apply IH; auto.
    + assert (Hbne : b <> []) by (apply (proj1 Hpf) with (c := c); exact HR).
      apply (f_equal (@length Z)) in E. rewrite app_length in E. destruct b; [contradiction|]. cbn [length] in E. lia.
    + rewrite app_length. lia.
Qed.

Lemma size_spec fin inp : Forall unit inp ->
  size_loop dec encsize fin (length inp) inp 0 =
  match conv dec enc inp with
  | Some (true, _, o) => fin (length o)
  | Some (false, _, _) => SNpos
  | None => SUB
  end.
Proof.
  intros Hu. unfold conv. exact (@size_loop_spec fin (length inp) inp 0%nat 0%nat [] 0%nat Hu (Nat.le_refl _) eq_refl).
Qed.
End Conv.

(** ** Instances *)
Lemma seq8_nonneg b c : Forall unit8 b -> seq8 b c -> 0 <= c.
Proof. intros _ H. inversion H; subst; pows; lia. Qed.
Lemma dec16_nonneg b c : Forall unit16 b -> dec16 b c -> 0 <= c.
Proof. intros _ [H _]. inversion H; subst; pows; lia. Qed.
Lemma seq32_nonneg b c : Forall unit32 b -> seq32 b c -> 0 <= c.
Proof. intros Hb H. inversion H; subst. inversion Hb; subst. pows. lia. Qed.
Lemma seq32_inj b b' c : seq32 b c -> seq32 b' c -> b = b'.
Proof. intros H H'. inversion H; inversion H'; subst. reflexivity. Qed.

(** The six conversions: success means exactly that the input is a text of the
    source form and the output the text of the target form. *)
Lemma u8_u32 inp out : Forall unit8 inp ->
  (utf8_to_utf32 inp = Some (true, length inp, out) <-> exists cs, text seq8 inp cs /\ text seq32 out cs).
Proof.
  apply (conv_success decode_utf8_ok seq8_prefix_free encode_utf32_ok); [intros; exact I|apply seq32_inj].
Qed.
Lemma u8_u16 inp out : Forall unit8 inp ->
  (utf8_to_utf16 inp = Some (true, length inp, out) <-> exists cs, text seq8 inp cs /\ text seq16 out cs).
Proof. exact (conv_success decode_utf8_ok seq8_prefix_free encode_utf16_ok seq8_nonneg seq16_inj out (inp := inp)). Qed.
Lemma u16_u8 inp out : Forall unit16 inp ->
  (utf16_to_utf8 inp = Some (true, length inp, out) <-> exists cs, text dec16 inp cs /\ text seq8 out cs).
Proof. exact (conv_success decode_utf16_ok dec16_prefix_free encode_utf8_ok dec16_nonneg seq8_inj out (inp := inp)). Qed.
Lemma u16_u32 inp out : Forall unit16 inp ->
  (utf16_to_utf32 inp = Some (true, length inp, out) <-> exists cs, text dec16 inp cs /\ text seq32 out cs).
Proof.
  apply (conv_success decode_utf16_ok dec16_prefix_free encode_utf32_ok); [intros; exact I|apply seq32_inj].
Qed.
Lemma u32_u8 inp out : Forall unit32 inp ->
  (utf32_to_utf8 inp = Some (true, length inp, out) <-> exists cs, text seq32 inp cs /\ text seq8 out cs).
Proof. exact (conv_success (@decode_utf32_ok unit32) seq32_prefix_free encode_utf8_ok seq32_nonneg seq8_inj out (inp := inp)). Qed.
Lemma u32_u16 inp out : Forall unit32 inp ->
  (utf32_to_utf16 inp = Some (true, length inp, out) <-> exists cs, text seq32 inp cs /\ text seq16 out cs).
Proof. exact (conv_success (@decode_utf32_ok unit32) seq32_prefix_free encode_utf16_ok seq32_nonneg seq16_inj out (inp := inp)). Qed.

Lemma text32_id a cs : text seq32 a cs <-> a = cs.
Proof.
  split.
  - induction 1 as [|b c bs cs HR HT IH]; [reflexivity|]. inversion HR; subst. reflexivity.
  - intros ->. induction cs as [|c cs IH]; [constructor|]. apply (text_cons (b := [c])); [constructor|exact IH].
Qed.

Lemma u8_u32' inp cs : Forall unit8 inp ->
  (utf8_to_utf32 inp = Some (true, length inp, cs) <-> text seq8 inp cs).
Proof.
  intros Hu. rewrite (u8_u32 cs Hu). split.
  - intros (cs' & H1 & H2). apply text32_id in H2. subst. exact H1.
  - intros H. exists cs. split; [exact H|]. apply text32_id. reflexivity.
Qed.
Lemma u32_u8' cs out : Forall unit32 cs ->
  (utf32_to_utf8 cs = Some (true, length cs, out) <-> text seq8 out cs).
Proof.
  intros Hu. rewrite (u32_u8 out Hu). split.
  - intros (cs' & H1 & H2). apply text32_id in H1. subst. exact H2.
  - intros H. exists cs. split; [|exact H]. apply text32_id. reflexivity.
Qed.
Lemma u16_u32' inp cs : Forall unit16 inp ->
  (utf16_to_utf32 inp = Some (true, length inp, cs) <-> text dec16 inp cs).
Proof.
  intros Hu. rewrite (u16_u32 cs Hu). split.
  - intros (cs' & H1 & H2). apply text32_id in H2. subst. exact H1.
  - intros H. exists cs. split; [exact H|]. apply text32_id. reflexivity.
Qed.
Lemma u32_u16' cs out : Forall unit32 cs ->
  (utf32_to_utf16 cs = Some (true, length cs, out) <-> text seq16 out cs).
Proof.
  intros Hu. rewrite (u32_u16 out Hu). split.
  - intros (cs' & H1 & H2). apply text32_id in H1. subst. exact H2.
  - intros H. exists cs. split; [|exact H]. apply text32_id. reflexivity.
Qed.

Lemma cp_unit32 c : code_point c -> unit32 c.
Proof. unfold code_point, unit32. change (2 ^ 32) with 4294967296. lia. Qed.

Lemma seq8_units b c : seq8 b c -> Forall unit8 b /\ code_point c.
Proof.
  unfold code_point. intros H. inversion H; subst; pows; (split; [|lia]);
    repeat (apply Forall_cons; [lia|]); apply Forall_nil.
Qed.
Lemma seq16_units b c : seq16 b c -> Forall unit16 b /\ code_point c.
Proof.
  unfold code_point. intros H. inversion H; subst; pows; (split; [|lia]);
    repeat (apply Forall_cons; [lia|]); apply Forall_nil.
Qed.
Lemma text_units (R : list Z -> Z -> Prop) (P Q : Z -> Prop) :
  (forall b c, R b c -> Forall P b /\ Q c) -> forall a cs, text R a cs -> Forall P a /\ Forall Q cs.
Proof.
  intros H a cs. induction 1 as [|b c bs cs HR HT [IH1 IH2]]; [split; constructor|].
  destruct (H b c HR). split; [apply Forall_app; auto|constructor; auto].
Qed.
Lemma seq8_exists c : code_point c -> exists b, seq8 b c.
Proof.
  unfold code_point. intros Hc. assert (Hc0 : 0 <= c) by lia. pose proof (@encode_utf8_ok c Hc0) as H.
  unfold encode_utf8 in *.
  destruct (c <? 0x80); [eauto|]. destruct (c <? 0x800); [eauto|]. destruct (c <? 0x10000); [eauto|].
  destruct (Z.ltb_spec c 0x110000); [eauto|lia].
Qed.
Lemma seq16_exists c : code_point c -> exists b, seq16 b c.
Proof.
  unfold code_point. intros Hc. assert (Hc0 : 0 <= c) by lia. pose proof (@encode_utf16_ok c Hc0) as H.
  unfold encode_utf16 in *.
  destruct (c <? 0x10000); [eauto|]. destruct (Z.ltb_spec c 0x110000); [eauto|lia].
Qed.
Lemma text_exists (R : list Z -> Z -> Prop) (Q : Z -> Prop) :
  (forall c, Q c -> exists b, R b c) -> forall cs, Forall Q cs -> exists a, text R a cs.
Proof.
  intros H cs. induction 1 as [|c cs Hc _ [a Ha]]; [exists []; constructor|].
  destruct (H c Hc) as [b Hb]. exists (b ++ a). constructor; auto.
Qed.
Lemma text_mono (R R' : list Z -> Z -> Prop) : (forall b c, R b c -> R' b c) ->
  forall a cs, text R a cs -> text R' a cs.
Proof. intros H a cs. induction 1; constructor; auto. Qed.
Lemma text_and (R : list Z -> Z -> Prop) (Q : Z -> Prop) a cs : text R a cs -> Forall Q cs ->
  text (fun b c => R b c /\ Q c) a cs.
Proof.
  induction 1 as [|b c bs cs HR HT IH]; intros HF; [constructor|]. inversion HF; subst. constructor; auto.
Qed.
Lemma text_and_inv (R : list Z -> Z -> Prop) (Q : Z -> Prop) a cs :
  text (fun b c => R b c /\ Q c) a cs -> text R a cs /\ Forall Q cs.
Proof.
  induction 1 as [|b c bs cs [HR HQ] HT [IH1 IH2]]; [split; constructor|]. split; constructor; auto.
Qed.

(** Round trip over all code points (surrogates included, as the code treats
    them like any other three-byte code). *)
Lemma utf8_round_trip cs : Forall code_point cs ->
  exists bs, utf32_to_utf8 cs = Some (true, length cs, bs) /\ Forall unit8 bs /\ text seq8 bs cs /\
             utf8_to_utf32 bs = Some (true, length bs, cs).
Proof.
  intros H. destruct (text_exists seq8_exists H) as [bs Hb]. exists bs.
  destruct (text_units seq8_units Hb) as [Hu _].
  assert (H32 : Forall unit32 cs) by (eapply Forall_impl; [apply cp_unit32|exact H]).
  split; [apply u32_u8'; auto|]. split; [exact Hu|]. split; [exact Hb|]. apply u8_u32'; auto.
Qed.
Lemma utf8_decode_encode bs cs : Forall unit8 bs -> utf8_to_utf32 bs = Some (true, length bs, cs) ->
  utf32_to_utf8 cs = Some (true, length cs, bs).
Proof.
  intros Hu H. apply u8_u32' in H; auto. destruct (text_units seq8_units H) as [_ Hc].
  apply u32_u8'; auto. eapply Forall_impl; [apply cp_unit32|exact Hc].
Qed.

(** Accepted iff well-formed, apart from surrogates. *)
Lemma utf8_accepts bs cs : Forall unit8 bs -> Forall (fun c => ~ surrogate c) cs ->
  (utf8_to_utf32 bs = Some (true, length bs, cs) <-> text wf8 bs cs).
Proof.
  intros Hu Hs. rewrite (u8_u32' cs Hu). split.
  - intros H. apply text_and; auto.
  - intros H. apply text_and_inv in H. apply H.
Qed.
Lemma utf8_total bs : Forall unit8 bs -> exists ok n cs,
  utf8_to_utf32 bs = Some (ok, n, cs) /\ text seq8 (firstn n bs) cs /\
  (if ok then n = length bs
   else skipn n bs <> [] /\ forall b c r, skipn n bs = b ++ r -> ~ seq8 b c).
Proof.
  intros Hu. destruct (conv_total decode_utf8_ok seq8_prefix_free encode_utf32_ok
    (fun _ _ _ _ => I) seq32_inj Hu) as (ok & n & out & H1 & (cs & H2 & H3) & H4).
  exists ok, n, out. split; [exact H1|]. apply text32_id in H3. subst out. split; [exact H2|].
  destruct ok; [exact H4|]. destruct H4 as [Hne H4]. split; [exact Hne|].
  intros b c r E Hs. exact (H4 b c [c] r E Hs (seq32_1 c)).
Qed.

(** UTF-16. *)
Lemma wf16_dec16 b c : wf16 b c -> dec16 b c.
Proof. intros [H Hs]. split; [exact H|]. intros [_ ?]. apply Hs. unfold surrogate. lia. Qed.
Lemma utf16_round_trip cs : Forall scalar cs ->
  exists us, utf32_to_utf16 cs = Some (true, length cs, us) /\ Forall unit16 us /\ text wf16 us cs /\
             utf16_to_utf32 us = Some (true, length us, cs).
Proof.
  intros H.
  assert (Hcp : Forall code_point cs) by (revert H; apply Forall_impl; intros c [Hc _]; exact Hc).
  assert (Hns : Forall (fun c => ~ surrogate c) cs) by (revert H; apply Forall_impl; intros c [_ Hc]; exact Hc).
  destruct (text_exists seq16_exists Hcp) as [us Hb]. exists us.
  destruct (text_units seq16_units Hb) as [Hu _].
  assert (H32 : Forall unit32 cs) by (eapply Forall_impl; [apply cp_unit32|exact Hcp]).
  pose proof (text_and Hb Hns) as Hw.
  split; [apply u32_u16'; auto|]. split; [exact Hu|]. split; [exact Hw|]. apply u16_u32'; auto.
  eapply text_mono; [|exact Hw]. apply wf16_dec16.
Qed.
Lemma utf16_decode_encode us cs : Forall unit16 us -> utf16_to_utf32 us = Some (true, length us, cs) ->
  utf32_to_utf16 cs = Some (true, length cs, us).
Proof.
  intros Hu H. apply u16_u32' in H; auto.
  assert (H' : text seq16 us cs) by (eapply text_mono; [|exact H]; intros b c [Hs _]; exact Hs).
  destruct (text_units seq16_units H') as [_ Hc].
  apply u32_u16'; auto. eapply Forall_impl; [apply cp_unit32|exact Hc].
Qed.
(** Every input made of well-formed characters decodes to its code points. *)
Lemma utf16_accepts us cs : Forall unit16 us -> Forall (fun c => ~ surrogate c) cs ->
  (utf16_to_utf32 us = Some (true, length us, cs) <-> text wf16 us cs).
Proof.
  intros Hu Hs. rewrite (u16_u32' cs Hu). split.
  - intros H. apply text_and; auto. eapply text_mono; [|exact H]. intros b c [HR _]. exact HR.
  - intros H. eapply text_mono; [|exact H]. apply wf16_dec16.
Qed.
(** A high surrogate not followed by a low one is never accepted. *)
Lemma utf16_high_rejected us cs pre h rest : Forall unit16 us ->
  us = pre ++ h :: rest -> 0xD800 <= h < 0xDC00 ->
  (forall l t, rest = l :: t -> ~ (0xDC00 <= l < 0xE000)) ->
  utf16_to_utf32 us <> Some (true, length us, cs).
Proof.
  intros Hu E Hh Hl H. apply u16_u32' in H; auto.
  assert (G : forall us cs, text dec16 us cs -> forall pre, us = pre ++ h :: rest -> False); [|eapply G; eauto].
  clear us cs pre Hu E H.
  intros us cs. induction 1 as [|b c bs cs [HR Hn] HT IH]; intros pre E.
  - destruct pre; discriminate.
  - inversion HR; subst; cbn [app] in E; pows.
    + destruct pre as [|p pre]; cbn [app] in E; injection E; intros; subst.
      * apply Hn. split; [reflexivity|lia].
      * eapply IH. reflexivity.
    + destruct pre as [|p pre]; [|destruct pre as [|p2 pre]]; cbn [app] in E; injection E; intros; subst.
      * eapply Hl; [reflexivity|lia].
      * lia.
      * eapply IH. reflexivity.
Qed.

(** Direct conversions agree with going through code points. *)
Lemma utf8_utf16_via32 bs us : Forall unit8 bs ->
  (utf8_to_utf16 bs = Some (true, length bs, us) <->
   exists cs, utf8_to_utf32 bs = Some (true, length bs, cs) /\ utf32_to_utf16 cs = Some (true, length cs, us)).
Proof.
  intros Hu. rewrite (u8_u16 us Hu). split.
  - intros (cs & H1 & H2). exists cs. split; [apply u8_u32'; auto|]. apply u32_u16'; auto.
    destruct (text_units seq16_units H2) as [_ Hc]. eapply Forall_impl; [apply cp_unit32|exact Hc].
  - intros (cs & H1 & H2). apply u8_u32' in H1; auto. exists cs. split; [exact H1|].
    destruct (text_units seq8_units H1) as [_ Hc].
    apply u32_u16' in H2; auto. eapply Forall_impl; [apply cp_unit32|exact Hc].
Qed.
Lemma utf16_utf8_via32 us bs : Forall unit16 us ->
  (utf16_to_utf8 us = Some (true, length us, bs) <->
   exists cs, utf16_to_utf32 us = Some (true, length us, cs) /\ utf32_to_utf8 cs = Some (true, length cs, bs)).
Proof.
  intros Hu. rewrite (u16_u8 bs Hu). split.
  - intros (cs & H1 & H2). exists cs. split; [apply u16_u32'; auto|]. apply u32_u8'; auto.
    destruct (text_units seq8_units H2) as [_ Hc]. eapply Forall_impl; [apply cp_unit32|exact Hc].
  - intros (cs & H1 & H2). apply u16_u32' in H1; auto. exists cs. split; [exact H1|].
    assert (H' : text seq16 us cs) by (eapply text_mono; [|exact H1]; intros b c [Hs _]; exact Hs).
    destruct (text_units seq16_units H') as [_ Hc].
    apply u32_u8' in H2; auto. eapply Forall_impl; [apply cp_unit32|exact Hc].
Qed.

(** Sizes *)
Definition size_of_conv (r : option (bool * nat * list Z)) : sres :=
  match r with
  | Some (true, _, o) => SLen (length o)
  | Some (false, _, _) => SNpos
  | None => SUB
  end.
Lemma enc8_size c : 0 <= c -> get_encode_utf8_size c = option_map (@length Z) (encode_utf8 c).
Proof.
  intros _. unfold get_encode_utf8_size, encode_utf8.
  destruct (c <? 0x80); [reflexivity|]. destruct (c <? 0x800); [reflexivity|].
  destruct (c <? 0x10000); [reflexivity|]. destruct (c <? 0x110000); reflexivity.
Qed.
Lemma enc16_size c : 0 <= c -> get_encode_utf16_size c = option_map (@length Z) (encode_utf16 c).
Proof.
  intros _. unfold get_encode_utf16_size, encode_utf16.
  destruct (c <? 0x10000); [reflexivity|]. destruct (c <? 0x110000); reflexivity.
Qed.
Lemma size_16_8 us : Forall unit16 us -> get_utf16_to_utf8_size us = size_of_conv (utf16_to_utf8 us).
Proof. intros Hu. exact (size_spec decode_utf16_ok dec16_prefix_free dec16_nonneg seq8_inj enc8_size SLen Hu). Qed.
Lemma size_32_8 cs : Forall unit32 cs -> get_utf32_to_utf8_size cs = size_of_conv (utf32_to_utf8 cs).
Proof. intros Hu. exact (size_spec (@decode_utf32_ok unit32) seq32_prefix_free seq32_nonneg seq8_inj enc8_size SLen Hu). Qed.
Lemma size_32_16 cs : Forall unit32 cs -> get_utf32_to_utf16_size cs = size_of_conv (utf32_to_utf16 cs).
Proof. intros Hu. exact (size_spec (@decode_utf32_ok unit32) seq32_prefix_free seq32_nonneg seq16_inj enc16_size SLen Hu). Qed.
Lemma size_16_32 us : Forall unit16 us -> get_utf16_to_utf32_size us = size_of_conv (utf16_to_utf32 us).
Proof.
  intros Hu. exact (size_spec (enc := encode_utf32) (okc := fun _ => True) decode_utf16_ok dec16_prefix_free (fun _ _ _ _ => I)
    seq32_inj (fun _ _ => eq_refl) SLen Hu).
Qed.
(** 8 to 16: never returns on valid input. *)
Lemma size_8_16 bs : Forall unit8 bs ->
  get_utf8_to_utf16_size bs = match utf8_to_utf16 bs with Some (false, _, _) => SNpos | _ => SUB end.
Proof.
  intros Hu. unfold get_utf8_to_utf16_size.
  rewrite (size_spec decode_utf8_ok seq8_prefix_free seq8_nonneg seq16_inj enc16_size (fun _ => SUB) Hu).
  unfold utf8_to_utf16. destruct (conv decode_utf8 encode_utf16 bs) as [[[[] n] o]|]; reflexivity.
Qed.
(** 8 to 32: right on every input that decodes. *)
Lemma lead_size b c x r : seq8 b c -> b = x :: r -> get_decode_utf8_size x = Some (length b).
Proof.
  intros H ->. destruct (seq8_lead H) as (x' & r' & E & Hx). injection E as <- <-. unfold get_decode_utf8_size.
  cbn [length].
  destruct Hx as [[? ->]|[[? ->]|[[? ->]|[? ->]]]];
    repeat match goal with |- context [?a <? ?b] => destruct (Z.ltb_spec a b); try lia end; reflexivity.
Qed.
Lemma lead_loop_spec : forall fuel bs cs k, text seq8 bs cs -> (length bs <= fuel)%nat ->
  utf8_lead_loop fuel bs k = SLen (k + length cs).
Proof.
  induction fuel as [|fuel IH]; intros bs cs k HT Hl.
  - destruct bs; [|cbn in Hl; lia]. inversion HT as [E1 E2|b c bs' cs' HR HT' E1 E2].
    + cbn. rewrite Nat.add_0_r. reflexivity.
    + destruct (seq8_lead HR) as (x & t & -> & _). discriminate.
  - inversion HT as [E1 E2|b c bs' cs' HR HT' E1 E2].
    + cbn. rewrite Nat.add_0_r. reflexivity.
    + destruct (seq8_lead HR) as (x & t & E & _). rewrite E. cbn [app utf8_lead_loop].
      rewrite (lead_size HR E). rewrite E.
      change (skipn (length (x :: t)) (x :: t ++ bs')) with (skipn (length (x :: t)) ((x :: t) ++ bs')).
      rewrite skipn_app, Nat.sub_diag, skipn_all. cbn [skipn app length].
      rewrite (IH bs' cs' (k + 1)%nat HT').
      * f_equal. lia.
      * rewrite <- E1, E, app_length in Hl. cbn [length] in Hl. lia.
Qed.
Lemma size_8_32 bs cs : Forall unit8 bs -> utf8_to_utf32 bs = Some (true, length bs, cs) ->
  get_utf8_to_utf32_size bs = SLen (length cs).
Proof.
  intros Hu H. apply u8_u32' in H; auto. unfold get_utf8_to_utf32_size.
  rewrite (lead_loop_spec 0%nat H (Nat.le_refl _)). reflexivity.
Qed.
Lemma size_8_16_ub bs us : Forall unit8 bs ->
  utf8_to_utf16 bs = Some (true, length bs, us) -> get_utf8_to_utf16_size bs = SUB.
Proof. intros Hu H. rewrite size_8_16, H by auto. reflexivity. Qed.

Lemma utf32_copy_loop : forall inp n out, utf32_to_utf32_loop inp n out = (true, (n + length inp)%nat, out ++ inp).
Proof.
  induction inp as [|c r IH]; intros n out; cbn [utf32_to_utf32_loop length].
  - now rewrite Nat.add_0_r, app_nil_r.
  - rewrite IH, <- app_assoc. cbn [app]. replace (n + 1 + length r)%nat with (n + S (length r))%nat by lia. reflexivity.
Qed.
Lemma utf32_copy : forall cs, utf32_to_utf32 cs = Some (true, length cs, cs).
Proof. intros cs. unfold utf32_to_utf32. now rewrite utf32_copy_loop. Qed.
