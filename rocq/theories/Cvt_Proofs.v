(** Lemmas on reading and writing characters through a code conversion. *)
From Verif Require Import Base Utf_Model Utf_Spec Utf_Proofs Stream_Model Stream_Spec Stream_Proofs.
Local Open Scope nat_scope.

Lemma text_len_pos (R : list Z -> Z -> Prop) u cs : text R u cs -> u <> [] -> cs <> [].
Proof. intros [|b c bs cs' H T] N; [congruence|discriminate]. Qed.
Lemma Forall_firstn (A : Type) (P : A -> Prop) n l : Forall P l -> Forall P (firstn n l).
Proof.
  intros H. apply Forall_forall. intros x Hx. rewrite Forall_forall in H. apply H.
  rewrite <- (firstn_skipn n l). apply in_or_app. now left.
Qed.

Section Cvt.
Context {B : Type} (i : istream B) (good : B -> Prop) (coming : B -> list Z) (room : B -> nat).
Hypothesis O : obeys i good coming room.
Variables (K : nat) (dec : list Z -> option (bool * nat * list Z)) (R : list Z -> Z -> Prop)
  (unit : Z -> Prop).
Hypothesis HK : 1 <= K.
Hypothesis Hdec : forall u, Forall unit u -> exists ok n cs, dec u = Some (ok, n, cs) /\
  (ok = true -> n = length u /\ text R u cs).

Lemma cvt_sound : forall fuel size readed st, good st -> Forall unit (coming st) ->
  length readed <= size -> size - length readed <= fuel ->
  cvt_loop i K dec fuel size readed st <> Endless /\
  forall got st', cvt_loop i K dec fuel size readed st = Fine (got, st') ->
  exists u cs, got = readed ++ cs /\ good st' /\ coming st = u ++ coming st' /\ text R u cs /\
    length got <= size /\ (length got < size -> coming st' = []).
Proof.
  induction fuel as [|fuel IH]; intros size readed st G U L F; cbn [cvt_loop].
  - destruct (Nat.leb_spec size (length readed)); [|lia]. split; [discriminate|].
    intros got st' [= <- <-]. exists [], []. rewrite app_nil_r.
    refine (conj eq_refl (conj G (conj eq_refl (conj (text_nil _) (conj L _))))). lia.
  - destruct (Nat.leb_spec size (length readed)) as [M|M].
    { split; [discriminate|]. intros got st' [= <- <-]. exists [], []. rewrite app_nil_r.
      refine (conj eq_refl (conj G (conj eq_refl (conj (text_nil _) (conj L _))))). lia. }
    destruct (@ob_read _ _ _ _ _ O K st G) as (units & st1 & Hr & G1 & C & Lu & Z0 & _ & Hroom).
    rewrite Hr. cbn [sbind].
    destruct units as [|x units].
    + split; [discriminate|]. intros got st' [= <- <-]. exists [], []. rewrite app_nil_r.
      cbn [app] in C. refine (conj eq_refl (conj G1 (conj C (conj (text_nil _) (conj L _))))).
      intros _. destruct (Z0 eq_refl) as [|E]; [lia|]. now rewrite <- C.
    + remember (x :: units) as us eqn:Eus.
      assert (Ub : Forall unit us /\ Forall unit (coming st1)).
      { rewrite C in U. apply Forall_app in U. exact U. }
      destruct Ub as [U1 U2]. destruct (Hdec U1) as (ok & n & cs & Hd & Hok). rewrite Hd.
      destruct (Nat.ltb_spec size (length readed + length cs)) as [M2|M2].
      { split; [discriminate|]. intros; discriminate. }
      destruct ok; cbn [negb]; [|split; [discriminate|intros; discriminate]].
      destruct (Hok eq_refl) as [-> T]. rewrite skipn_all.
      destruct (@ob_unread _ _ _ _ _ O [] st1 G1 (Nat.le_0_l _)) as (st2 & Hu & G2 & C2 & _).
      rewrite Hu. cbn [sbind]. cbn [app] in C2.
      assert (Ncs : cs <> []). { apply (text_len_pos T). rewrite Eus. discriminate. }
      assert (Lcs : 1 <= length cs) by (destruct cs; [congruence|cbn; lia]).
      destruct (IH size (readed ++ cs) st2 G2) as [IH1 IH2];
        [rewrite C2; exact U2|rewrite app_length; lia|rewrite app_length; lia|].
      split; [exact IH1|]. intros got st' H. destruct (IH2 got st' H) as (u & cs' & -> & G' & C' & T' & L' & X).
      exists (us ++ u), (cs ++ cs'). rewrite !app_assoc in *.
      refine (conj eq_refl (conj G' (conj _ (conj (text_app T T') (conj L' X))))).
      rewrite C, <- C2, C', app_assoc. reflexivity.
Qed.

(** Whole blocks. *)
Hypothesis Hp : prompt i good coming.
Hypothesis Hdec2 : forall u cs, Forall unit u -> text R u cs -> dec u = Some (true, length u, cs).
Lemma cvt_blocks : forall blocks css fuel readed tail st, good st -> Forall unit (coming st) ->
  Forall2 (fun u cs => length u = K /\ text R u cs) blocks css ->
  coming st = concat blocks ++ tail -> length (concat css) <= fuel ->
  exists st', cvt_loop i K dec fuel (length readed + length (concat css)) readed st =
    Fine (readed ++ concat css, st') /\ good st' /\ coming st' = tail.
Proof.
  induction blocks as [|u blocks IH]; intros css fuel readed tail st G U F2 C L;
    inversion F2 as [|? cs ? css' [Lu T] F2' E1 E2]; subst; cbn [concat app length] in *.
  - exists st. rewrite Nat.add_0_r, app_nil_r. split; [|auto].
    destruct fuel; cbn [cvt_loop]; now rewrite Nat.leb_refl.
  - assert (Nu : u <> []) by (intros ->; cbn in HK; lia).
    assert (Lcs : 1 <= length cs). { pose proof (text_len_pos T Nu). destruct cs; [congruence|cbn; lia]. }
    rewrite app_length in *. destruct fuel as [|fuel]; [lia|]. cbn [cvt_loop].
    destruct (Nat.leb_spec (length readed + (length cs + length (concat css'))) (length readed)); [lia|].
    destruct (@ob_read _ _ _ _ _ O (length u) st G) as (units & st1 & Hr & G1 & C1 & _ & _ & _ & _).
    pose proof (Hp G Hr) as E. rewrite C, <- app_assoc in E. rewrite firstn_app_ge in E by lia.
    rewrite firstn_all in E. subst units. rewrite Hr. cbn [sbind].
    rewrite C, <- app_assoc in C1. apply app_inv_head in C1.
    rewrite C in U. rewrite !Forall_app in U. destruct U as [[U1 U2] U3].
    rewrite (Hdec2 U1 T). destruct u as [|x u]; [congruence|]. remember (x :: u) as us.
    destruct (Nat.ltb_spec (length readed + (length cs + length (concat css'))) (length readed + length cs)); [lia|].
    cbn [negb]. rewrite skipn_all.
    destruct (@ob_unread _ _ _ _ _ O [] st1 G1 (Nat.le_0_l _)) as (st2 & Hu & G2 & C2 & _).
    rewrite Hu. cbn [sbind]. cbn [app] in C2.
    destruct (IH css' fuel (readed ++ cs) tail st2 G2) as (st' & Hl & G' & C'); auto.
    + rewrite C2, <- C1. apply Forall_app. auto.
    + rewrite C2. auto.
    + lia.
    + exists st'. rewrite app_length in Hl. rewrite Nat.add_assoc. rewrite Hl, app_assoc. auto.
Qed.
End Cvt.

(** ** Files and terminals. *)
Definition inner_ok (P : src -> Prop) (st : wst src) : Prop :=
  exists p r, holds P rest default_buffer_size st p r.
Definition inner_left (st : wst src) : list Z := skipn (wpos st) (wbuf st) ++ rest (wbase st).
Lemma inner_obeys P : delivers src_base P rest ->
  obeys (wrap src_base) (inner_ok P) inner_left (@wpos src).
Proof. intros D. exact (wrap_obeys D cap_pos). Qed.
Lemma inner_new (P : src -> Prop) units sch : P (mksrc units 0 sch false) ->
  inner_ok P (wnew (mksrc units 0 sch false)).
Proof. intros H. exists [], units. exact (@holds_new _ P rest (mksrc units 0 sch false) H). Qed.
Lemma inner_new_left units sch : inner_left (wnew (mksrc units 0 sch false)) = units.
Proof.
  unfold inner_left, wnew. cbn [wbuf wpos wbase].
  rewrite skipn_all2 by (rewrite repeat_length; lia). reflexivity.
Qed.
Lemma inner_prompt : prompt (wrap src_base) (inner_ok (fun s => sched s = [])) inner_left.
Proof.
  intros n st got st' (p & r & Hh) Hr. cbn [wrap s_read] in Hr. rewrite (wrap_prompt Hh Hr).
  destruct Hh as (_ & _ & _ & -> & _ & ->). reflexivity.
Qed.

(** The first read of an outer stream goes to the conversion. *)
Lemma outer_read {B : Type} (b : base B) n st : 1 <= n ->
  s_read (wrap b) n (wnew st) = sbind (b_read b n st) (fun r => Fine (fst r, wnew (snd r))).
Proof.
  intros Hn. cbn [wrap s_read]. unfold wread, wnew. cbn [wpos wusing wbuf wbase].
  destruct (Nat.eqb_spec n 0); [lia|]. rewrite Nat.eqb_refl. reflexivity.
Qed.
Lemma outer_read0 {B : Type} (b : base B) st : s_read (wrap b) 0 (wnew st) = Fine ([], wnew st).
Proof. reflexivity. Qed.

Lemma dec8_total u : Forall unit8 u -> exists ok n cs, utf8_to_utf32 u = Some (ok, n, cs) /\
  (ok = true -> n = length u /\ text seq8 u cs).
Proof.
  intros U. destruct (utf8_total U) as (ok & n & cs & H & T & X). exists ok, n, cs. split; [exact H|].
  intros ->. subst n. now rewrite firstn_all in T.
Qed.
Lemma dec16_total' u : Forall unit16 u -> exists ok n cs, utf16_to_utf32 u = Some (ok, n, cs) /\
  (ok = true -> n = length u /\ text dec16 u cs).
Proof.
  intros Hu. destruct (conv_total decode_utf16_ok dec16_prefix_free encode_utf32_ok
    (fun _ _ _ _ => I) seq32_inj Hu) as (ok & n & out & H1 & (cs & H2 & H3) & H4).
  exists ok, n, out. split; [exact H1|]. apply text32_id in H3. subst out. intros ->. subst n.
  split; [reflexivity|]. now rewrite firstn_all in H2.
Qed.
Lemma dec16_total u : Forall unit16 u -> exists ok n cs, utf16_to_utf32 u = Some (ok, n, cs) /\
  (ok = true -> n = length u /\ text seq16 u cs).
Proof.
  intros Hu. destruct (dec16_total' Hu) as (ok & n & cs & H & X). exists ok, n, cs. split; [exact H|].
  intros E. destruct (X E) as [Hn T]. split; [exact Hn|]. revert T. apply text_mono.
  intros b c Hbc. apply Hbc.
Qed.

Section Reading.
Variables (K : nat) (dec : list Z -> option (bool * nat * list Z)) (R : list Z -> Z -> Prop)
  (unit : Z -> Prop).
Hypothesis HK : 1 <= K.
Hypothesis Hdec : forall u, Forall unit u -> exists ok n cs, dec u = Some (ok, n, cs) /\
  (ok = true -> n = length u /\ text R u cs).
Lemma reading_sound units sch n : Forall unit units ->
  s_read (wrap (cvt_base (wrap src_base) K dec)) n (open_in units sch) <> Endless /\
  forall got st, s_read (wrap (cvt_base (wrap src_base) K dec)) n (open_in units sch) = Fine (got, st) ->
  exists u r, units = u ++ r /\ text R u got /\ length got <= n /\ (length got < n -> r = []).
Proof.
  intros U. unfold open_in. destruct n as [|n].
  - rewrite outer_read0. split; [discriminate|]. intros got st [= <- <-]. exists [], units.
    repeat split; [constructor|cbn; lia|cbn; lia].
  - rewrite outer_read by lia. cbn [cvt_base b_read]. unfold cvt_read.
    destruct (@cvt_sound _ _ _ _ _ (inner_obeys src_delivers) K dec R unit HK Hdec (S n) (S n) []
      (wnew (mksrc units 0 sch false)) (@inner_new (fun _ => True) units sch I)) as [H1 H2];
      [rewrite inner_new_left; exact U|cbn; lia|cbn; lia|].
    rewrite inner_new_left in H2.
    destruct (cvt_loop (wrap src_base) K dec (S n) (S n) [] (wnew (mksrc units 0 sch false)))
      as [[got st]| | |] eqn:E; cbn [sbind fst snd].
    + split; [discriminate|]. intros got' st' [= <- <-].
      destruct (H2 got st eq_refl) as (u & cs & -> & _ & C & T & L & X). cbn [app] in *.
      exists u, (inner_left st). auto.
    + split; [discriminate|]. intros; discriminate.
    + split; [discriminate|]. intros; discriminate.
    + congruence.
Qed.
End Reading.
Section Blocks.
Variables (K : nat) (dec : list Z -> option (bool * nat * list Z)) (R : list Z -> Z -> Prop)
  (unit : Z -> Prop).
Hypothesis HK : 1 <= K.
Hypothesis Hdec : forall u, Forall unit u -> exists ok n cs, dec u = Some (ok, n, cs) /\
  (ok = true -> n = length u /\ text R u cs).
Hypothesis Hdec2 : forall u cs, Forall unit u -> text R u cs -> dec u = Some (true, length u, cs).
Lemma reading_blocks blocks css tail : Forall unit (concat blocks ++ tail) ->
  Forall2 (fun u cs => length u = K /\ text R u cs) blocks css ->
  exists st, s_read (wrap (cvt_base (wrap src_base) K dec)) (length (concat css))
    (open_in (concat blocks ++ tail) []) = Fine (concat css, st).
Proof.
  intros U F. unfold open_in. destruct (length (concat css)) as [|n] eqn:El.
  - rewrite outer_read0. destruct (concat css); [|discriminate]. eauto.
  - rewrite outer_read by lia. rewrite <- El. cbn [cvt_base b_read]. unfold cvt_read.
    set (i := wrap src_base).
    destruct (@cvt_blocks _ i _ _ _ (inner_obeys src_delivers_prompt) K dec R unit HK Hdec inner_prompt Hdec2
      blocks css (length (concat css)) [] tail (wnew (mksrc (concat blocks ++ tail) 0 [] false)))
      as (st & Hl & _).
    + apply inner_new. reflexivity.
    + rewrite inner_new_left. exact U.
    + exact F.
    + apply inner_new_left.
    + exact (le_n _).
    + cbn [length Nat.add app] in Hl. rewrite Hl. cbn [sbind fst snd]. eauto.
Qed.

End Blocks.
(** A block with more characters than asked for, or one that cannot be converted. *)
Section First.
Variables (K : nat) (dec : list Z -> option (bool * nat * list Z)).
Hypothesis HK : 1 <= K.
Lemma reading_first n units : 1 <= n -> units <> [] ->
  (forall ok k o, dec (firstn K units) = Some (ok, k, o) -> n < length o ->
    s_read (wrap (cvt_base (wrap src_base) K dec)) n (open_in units []) = Wild) /\
  (forall k o, dec (firstn K units) = Some (false, k, o) -> length o <= n ->
    s_read (wrap (cvt_base (wrap src_base) K dec)) n (open_in units []) = Dies).
Proof.
  intros Hn Hne.
  assert (E : exists st1, s_read (wrap src_base) K (wnew (mksrc units 0 [] false)) =
    Fine (firstn K units, st1)).
  { destruct (@ob_read _ _ _ _ _ (inner_obeys src_delivers_prompt) K (wnew (mksrc units 0 [] false))
      (@inner_new (fun s => sched s = []) units [] eq_refl)) as (got & st1 & Hr & _).
    exists st1. rewrite Hr. f_equal. f_equal.
    rewrite (inner_prompt (@inner_new (fun s => sched s = []) units [] eq_refl) Hr), inner_new_left. reflexivity. }
  destruct E as [st1 E].
  assert (Hf : firstn K units <> []).
  { destruct units; [congruence|]. destruct K; [lia|discriminate]. }
  split; intros.
  - unfold open_in. rewrite outer_read by exact Hn. cbn [cvt_base b_read]. unfold cvt_read.
    destruct n as [|n]; [lia|]. cbn [cvt_loop length Nat.leb]. rewrite E. cbn [sbind].
    destruct (firstn K units) as [|x l] eqn:Ef; [congruence|]. rewrite H. cbn [length Nat.add].
    destruct (Nat.ltb_spec (S n) (length o)); [reflexivity|lia].
  - unfold open_in. rewrite outer_read by exact Hn. cbn [cvt_base b_read]. unfold cvt_read.
    destruct n as [|n]; [lia|]. cbn [cvt_loop length Nat.leb]. rewrite E. cbn [sbind].
    destruct (firstn K units) as [|x l] eqn:Ef; [congruence|]. rewrite H. cbn [length Nat.add].
    destruct (Nat.ltb_spec (S n) (length o)); [lia|reflexivity].
Qed.
End First.

Lemma file_sound units sch n : Forall unit8 units ->
  s_read file_in n (open_in units sch) <> Endless /\
  forall got st, s_read file_in n (open_in units sch) = Fine (got, st) ->
  exists u r, units = u ++ r /\ text seq8 u got /\ length got <= n /\ (length got < n -> r = []).
Proof. apply reading_sound; [unfold code_size8; lia|exact dec8_total]. Qed.
Lemma terminal_sound units sch n : Forall unit16 units ->
  s_read terminal_in n (open_in units sch) <> Endless /\
  forall got st, s_read terminal_in n (open_in units sch) = Fine (got, st) ->
  exists u r, units = u ++ r /\ text seq16 u got /\ length got <= n /\ (length got < n -> r = []).
Proof. apply reading_sound; [unfold code_size16; lia|exact dec16_total]. Qed.
Lemma file_blocks blocks css tail : Forall unit8 (concat blocks ++ tail) ->
  Forall2 (fun u cs => length u = 4 /\ text seq8 u cs) blocks css ->
  exists st, s_read file_in (length (concat css)) (open_in (concat blocks ++ tail) []) =
    Fine (concat css, st).
Proof.
  apply (@reading_blocks code_size8 utf8_to_utf32 seq8 unit8); [unfold code_size8; lia|exact dec8_total|].
  intros u cs U T. now apply u8_u32'.
Qed.
Lemma terminal_blocks blocks css tail : Forall unit16 (concat blocks ++ tail) ->
  Forall2 (fun u cs => length u = 2 /\ text wf16 u cs) blocks css ->
  exists st, s_read terminal_in (length (concat css)) (open_in (concat blocks ++ tail) []) =
    Fine (concat css, st).
Proof.
  intros U F. refine (@reading_blocks code_size16 utf16_to_utf32 dec16 unit16 _ dec16_total' _ blocks css tail U _);
    [unfold code_size16; lia| |].
  - intros u cs Uu T. now apply u16_u32'.
  - clear U. induction F as [|u cs us css' [L T] F IH]; constructor; [|exact IH].
    split; [exact L|]. revert T. apply text_mono. apply wf16_dec16.
Qed.

Lemma conv_loop_app dec enc : forall fuel inp n out ok k o,
  conv_loop dec enc fuel inp n out = Some (ok, k, o) -> exists o', o = out ++ o'.
Proof.
  induction fuel as [|f IH]; intros inp n out ok k o; cbn [conv_loop]; destruct inp as [|x inp].
  - intros [= <- <- <-]. exists []. now rewrite app_nil_r.
  - discriminate.
  - intros [= <- <- <-]. exists []. now rewrite app_nil_r.
  - destruct (dec (x :: inp) (length (x :: inp))) as [| |c sz]; [discriminate| |].
    + intros [= <- <- <-]. exists []. now rewrite app_nil_r.
    + destruct (enc c) as [u|].
      * intros H. apply IH in H as (o' & ->). exists (u ++ o'). now rewrite app_assoc.
      * intros [= <- <- <-]. exists []. now rewrite app_nil_r.
Qed.
Lemma decode_ascii c l : (0 <= c < 128)%Z -> decode_utf8 (c :: l) (length (c :: l)) = DOk c 1.
Proof. intros H. unfold decode_utf8, rd. cbn [nth_error]. destruct (Z.ltb_spec c 0x80); [reflexivity|lia]. Qed.
Lemma ascii_two c1 c2 l ok k o : (0 <= c1 < 128)%Z -> (0 <= c2 < 128)%Z ->
  utf8_to_utf32 (c1 :: c2 :: l) = Some (ok, k, o) -> 2 <= length o.
Proof.
  intros H1 H2. unfold utf8_to_utf32, conv. cbn [length]. cbn [conv_loop].
  rewrite (@decode_ascii c1 (c2 :: l) H1). cbn [encode_utf32 skipn].
  rewrite (@decode_ascii c2 l H2). cbn [encode_utf32 skipn].
  intros H. apply conv_loop_app in H as (o' & ->). rewrite !app_length. cbn. lia.
Qed.
Lemma file_one c1 c2 t : Forall unit8 t -> (0 <= c1 < 128)%Z -> (0 <= c2 < 128)%Z ->
  sget file_in (open_in (c1 :: c2 :: t) []) = Wild /\ speek file_in (open_in (c1 :: c2 :: t) []) = Wild.
Proof.
  intros U H1 H2.
  assert (Hr : s_read file_in 1 (open_in (c1 :: c2 :: t) []) = Wild).
  { assert (Uu : Forall unit8 (firstn 4 (c1 :: c2 :: t))).
    { apply Forall_firstn. constructor; [unfold unit8; lia|]. constructor; [unfold unit8; lia|].
      exact U. }
    destruct (dec8_total Uu) as (ok & k & o & Hd & _).
    refine (proj1 (@reading_first code_size8 utf8_to_utf32 _ 1 (c1 :: c2 :: t) (le_n 1) _) ok k o Hd _);
      [unfold code_size8; lia|discriminate|].
    cbn [firstn] in Hd. apply ascii_two in Hd; [lia|exact H1|exact H2]. }
  unfold sget, speek. rewrite Hr. auto.
Qed.
Lemma file_dies a b c x t n : (0 <= a < 128)%Z -> (0 <= b < 128)%Z -> (0 <= c < 128)%Z ->
  (128 <= x < 256)%Z -> 3 <= n -> s_read file_in n (open_in (a :: b :: c :: x :: t) []) = Dies.
Proof.
  intros Ha Hb Hc Hx Hn.
  refine (proj2 (@reading_first code_size8 utf8_to_utf32 _ n (a :: b :: c :: x :: t) _ _) 3 [a; b; c] _ Hn);
    [unfold code_size8; lia|lia|discriminate|].
  unfold code_size8. cbn [firstn]. unfold utf8_to_utf32, conv. cbn [length].
  cbn [conv_loop]. rewrite (@decode_ascii a [b; c; x] Ha). cbn [encode_utf32 skipn].
  rewrite (@decode_ascii b [c; x] Hb). cbn [encode_utf32 skipn].
  rewrite (@decode_ascii c [x] Hc). cbn [encode_utf32 skipn].
  replace (decode_utf8 [x] (length [x])) with DFail; [reflexivity|].
  unfold decode_utf8, rd. cbn [nth_error length].
  destruct (Z.ltb_spec x 0x80); [lia|]. destruct (Z.ltb_spec x 0xC2); [reflexivity|].
  destruct (Z.ltb_spec x 0xE0); [reflexivity|]. destruct (Z.ltb_spec x 0xF0); [reflexivity|].
  destruct (Z.ltb_spec x 0xF5); reflexivity.
Qed.
(** UTF-16: two units outside the high surrogates. *)
Lemma terminal_one u1 u2 t : (0 <= u1 < 0xD800 \/ 0xDC00 <= u1 < 0x10000)%Z ->
  (0 <= u2 < 0xD800 \/ 0xDC00 <= u2 < 0x10000)%Z ->
  sget terminal_in (open_in (u1 :: u2 :: t) []) = Wild /\
  speek terminal_in (open_in (u1 :: u2 :: t) []) = Wild.
Proof.
  intros H1 H2.
  assert (D : forall u l, (0 <= u < 0xD800 \/ 0xDC00 <= u < 0x10000)%Z ->
    decode_utf16 (u :: l) (length (u :: l)) = DOk u 1).
  { intros u l H. unfold decode_utf16, rd. cbn [nth_error].
    destruct (Z.leb_spec 0xD800 u); destruct (Z.ltb_spec u 0xDC00); try reflexivity. lia. }
  assert (Hr : s_read terminal_in 1 (open_in (u1 :: u2 :: t) []) = Wild).
  { refine (proj1 (@reading_first code_size16 utf16_to_utf32 _ 1 (u1 :: u2 :: t) (le_n 1) _) true 2 [u1; u2] _ _);
      [unfold code_size16; lia|discriminate| |cbn; lia].
    unfold code_size16. cbn [firstn]. unfold utf16_to_utf32, conv. cbn [length].
    cbn [conv_loop]. rewrite (D u1 [u2] H1). cbn [encode_utf32 skipn]. rewrite (D u2 [] H2). reflexivity. }
  unfold sget, speek. rewrite Hr. auto.
Qed.

(** ** Writing. *)
Section Writing.
Variables (K : nat) (enc : list Z -> option (bool * nat * list Z)) (R : list Z -> Z -> Prop).
Hypothesis He : forall c, code_point c -> exists b, enc [c] = Some (true, 1, b) /\ R b c /\ length b <= K.
Lemma writing_all : forall cs h, Forall code_point cs ->
  exists bs, cvt_write K enc cs (mksnk h []) = Some (true, mksnk (h ++ bs) []) /\ text R bs cs.
Proof.
  induction cs as [|c cs IH]; intros h F.
  - exists []. rewrite app_nil_r. split; [reflexivity|constructor].
  - inversion F as [|? ? Hc F']; subst. destruct (He Hc) as (b & Hb & HR & L).
    cbn [cvt_write]. rewrite Hb. destruct (Nat.ltb_spec K (length b)); [lia|]. cbn [negb snk_write takes held].
    destruct (IH (h ++ b) F') as (bs & Hw & T). exists (b ++ bs). rewrite app_assoc.
    split; [exact Hw|]. now constructor.
Qed.
Lemma writing_dies pre c post h : Forall code_point pre -> enc [c] = Some (false, 0, []) ->
  exists bs, cvt_write K enc (pre ++ c :: post) (mksnk h []) = Some (false, mksnk (h ++ bs) []) /\
    text R bs pre.
Proof.
  intros F Hc. revert h. induction pre as [|d pre IH]; intros h; cbn [app cvt_write].
  - rewrite Hc. cbn [length negb]. destruct (Nat.ltb_spec K 0); [lia|]. exists [].
    rewrite app_nil_r. split; [reflexivity|constructor].
  - inversion F as [|? ? Hd F']; subst. destruct (He Hd) as (b & Hb & HR & L).
    rewrite Hb. destruct (Nat.ltb_spec K (length b)); [lia|]. cbn [negb snk_write takes held].
    destruct (IH F' (h ++ b)) as (bs & Hw & T). exists (b ++ bs). rewrite app_assoc.
    split; [exact Hw|]. now constructor.
Qed.
Lemma writing_short c h k ks : code_point c ->
  exists b, R b c /\ cvt_write K enc [c] (mksnk h (k :: ks)) = Some (true, mksnk (h ++ firstn k b) ks).
Proof.
  intros Hc. destruct (He Hc) as (b & Hb & HR & L). exists b. split; [exact HR|].
  cbn [cvt_write]. rewrite Hb. destruct (Nat.ltb_spec K (length b)); [lia|]. reflexivity.
Qed.
End Writing.

Lemma seq8_len b c : seq8 b c -> length b <= 4.
Proof. intros []; cbn; lia. Qed.
Lemma enc8_ok c : code_point c -> exists b, utf32_to_utf8 [c] = Some (true, 1, b) /\ seq8 b c /\ length b <= 4.
Proof.
  intros Hc. destruct (@utf8_round_trip [c]) as (b & Hb & _ & T & _); [constructor; auto|].
  exists b. split; [exact Hb|]. inversion T as [|b' c' bs' cs' H T']; subst. inversion T'; subst.
  rewrite app_nil_r. split; [assumption|]. eapply seq8_len. eassumption.
Qed.
Lemma enc16_ok c : code_point c -> exists b, utf32_to_utf16 [c] = Some (true, 1, b) /\ seq16 b c /\ length b <= 2.
Proof.
  intros Hc. destruct (seq16_exists Hc) as [b Hb]. exists b. split; [|split; [exact Hb|]].
  - apply (@u32_u16' [c] b); [constructor; [now apply cp_unit32|constructor]|]. now apply text_one.
  - destruct Hb; cbn; lia.
Qed.
Lemma enc8_bad c : (0x110000 <= c < 2 ^ 32)%Z -> utf32_to_utf8 [c] = Some (false, 0, []).
Proof.
  intros H. unfold utf32_to_utf8, conv. cbn [length conv_loop]. unfold decode_utf32, rd. cbn [nth_error].
  unfold encode_utf8. destruct (Z.ltb_spec c 0x80); [lia|]. destruct (Z.ltb_spec c 0x800); [lia|].
  destruct (Z.ltb_spec c 0x10000); [lia|]. destruct (Z.ltb_spec c 0x110000); [lia|]. reflexivity.
Qed.
Lemma file_out_all cs h : Forall code_point cs ->
  exists bs, file_out cs (mksnk h []) = Some (true, mksnk (h ++ bs) []) /\ text seq8 bs cs /\
    utf8_to_utf32 bs = Some (true, length bs, cs).
Proof.
  intros F. destruct (writing_all (K := code_size8) enc8_ok h F) as (bs & Hw & T).
  exists bs. split; [exact Hw|]. split; [exact T|]. apply u8_u32'; [|exact T].
  exact (proj1 (text_units (R := seq8) (P := unit8) (Q := code_point) seq8_units T)).
Qed.
Lemma terminal_out_all cs h : Forall code_point cs ->
  exists us, terminal_out cs (mksnk h []) = Some (true, mksnk (h ++ us) []) /\ text seq16 us cs.
Proof. intros F. exact (writing_all (K := code_size16) enc16_ok h F). Qed.
Lemma file_out_dies pre c post h : Forall code_point pre -> (0x110000 <= c < 2 ^ 32)%Z ->
  exists bs, file_out (pre ++ c :: post) (mksnk h []) = Some (false, mksnk (h ++ bs) []) /\ text seq8 bs pre.
Proof. intros F Hc. exact (writing_dies (K := code_size8) enc8_ok post h F (enc8_bad Hc)). Qed.
Lemma file_out_short c h k ks : code_point c -> exists b, seq8 b c /\
  file_out [c] (mksnk h (k :: ks)) = Some (true, mksnk (h ++ firstn k b) ks).
Proof. intros Hc. exact (writing_short (K := code_size8) enc8_ok h k ks Hc). Qed.
Lemma file_out_surrogate c h : surrogate c ->
  exists bs, file_out [c] (mksnk h []) = Some (true, mksnk (h ++ bs) []) /\ forall cs, ~ text wf8 bs cs.
Proof.
  intros Hc. assert (code_point c) as P by (unfold surrogate, code_point in *; lia).
  destruct (@file_out_all [c] h) as [bs [W [T D]]]; [repeat constructor; apply P|].
  exists bs. split; [exact W|]. intros cs Tw.
  assert (text seq8 bs cs /\ Forall (fun c => ~ surrogate c) cs) as [Ts Fs].
  { clear - Tw. induction Tw as [|b c bs cs [R N] _ [IH1 IH2]]; split; constructor; assumption. }
  assert (Forall unit8 bs) as U by
    exact (proj1 (text_units (R := seq8) (P := unit8) (Q := code_point) seq8_units T)).
  pose proof (proj2 (u8_u32' _ U) Ts) as D2. rewrite D in D2. injection D2 as <-.
  inversion Fs; subst. contradiction.
Qed.
