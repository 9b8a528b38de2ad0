(** Lemmas on skipping to the end of a line. *)
From Verif Require Import Base Stream_Model Stream_Spec Stream_Proofs.
Local Open Scope nat_scope.

Lemma shift_delivers {B : Type} (i : istream B) good coming ch st :
  delivers (mkbase (s_read i) (s_end i) (s_wait i)) good coming -> good st ->
  match coming st with
  | [] => exists st', sshift i ch st = Fine (ch, st') /\ good st' /\ coming st' = []
  | c :: t => exists st', s_read i 1 st = Fine ([c], st') /\ sshift i ch st = Fine (Some c, st') /\
                good st' /\ coming st' = t
  end.
Proof.
  intros D G. destruct (@del_read _ _ _ _ D 1 st G) as (got & st' & Hr & G' & C & L & Z0).
  cbn [b_read] in Hr. unfold sshift. rewrite Hr. cbn [sbind fst snd].
  destruct got as [|c [|? ?]]; [| |cbn in L; lia].
  - destruct (Z0 eq_refl) as [|E]; [lia|]. rewrite E in *. cbn [app] in C.
    exists st'. auto.
  - rewrite C. cbn [app]. exists st'. auto.
Qed.
Lemma obeys_delivers {B : Type} (i : istream B) good coming room : obeys i good coming room ->
  delivers (mkbase (s_read i) (s_end i) (s_wait i)) good coming.
Proof.
  intros O. split.
  - intros n st G. destruct (@ob_read _ _ _ _ _ O n st G) as (got & st' & Hr & G' & C & L & Z0 & _).
    exists got, st'. auto.
  - intros st G. exact (@ob_end _ _ _ _ _ O st G).
Qed.

(** What [endline] leaves of a text. *)
Fixpoint line_left (t : list Z) : list Z :=
  match t with
  | [] => []
  | c :: r =>
      if (c =? 10)%Z then r
      else if (c =? 13)%Z then
        match r with
        | [] => []
        | d :: r' => match r' with [] => [] | _ => if (d =? 10)%Z then r' else r end
        end
      else line_left r
  end.

Section Line.
Context {B : Type} (i : istream B) (good : B -> Prop) (coming : B -> list Z) (room : B -> nat).
Hypothesis O : obeys i good coming room.
Hypothesis W : forall st, good st -> s_wait i st = false.

Lemma shift_room ch st : good st -> match coming st with
  | [] => True
  | c :: t => exists st', sshift i ch st = Fine (Some c, st') /\ good st' /\ coming st' = t /\ 1 <= room st'
  end.
Proof.
  intros G. destruct (@ob_read _ _ _ _ _ O 1 st G) as (got & st' & Hr & G' & C & L & Z0 & _ & R).
  unfold sshift. rewrite Hr. cbn [sbind fst snd].
  destruct got as [|c [|? ?]]; [| |cbn in L; lia].
  - destruct (Z0 eq_refl) as [|E]; [lia|]. now rewrite E.
  - rewrite C. cbn [app]. exists st'. refine (conj eq_refl (conj G' (conj eq_refl _))).
    apply R. discriminate.
Qed.
Lemma end_coming st : good st -> s_end i st = match coming st with [] => true | _ => false end.
Proof.
  intros G. pose proof (@ob_end _ _ _ _ _ O st G) as E. destruct (coming st) as [|c t].
  - now apply E.
  - destruct (s_end i st); [|reflexivity]. discriminate (proj1 E eq_refl).
Qed.

Lemma endline_left : forall t fuel ch st, good st -> coming st = t -> length t < fuel ->
  exists st', endline_loop i fuel ch st = Fine st' /\ good st' /\ coming st' = line_left t.
Proof.
  induction t as [|c t IH]; intros fuel ch st G C L; (destruct fuel as [|fuel]; [cbn in L; lia|]);
    cbn [endline_loop].
  - pose proof (@shift_delivers _ i good coming ch st (obeys_delivers O) G) as H.
    rewrite C in H. destruct H as (st' & Hs & G' & C'). rewrite Hs. cbn [sbind].
    rewrite (end_coming G'), C'. exists st'. auto.
  - pose proof (shift_room ch G) as H. rewrite C in H. destruct H as (st' & Hs & G' & C' & R').
    rewrite Hs. cbn [sbind]. rewrite (end_coming G'), C'. cbn [line_left].
    destruct t as [|d t].
    + exists st'. refine (conj eq_refl (conj G' _)). rewrite C'.
      destruct (c =? 10)%Z; [reflexivity|]. destruct (c =? 13)%Z; reflexivity.
    + destruct (c =? 10)%Z. { exists st'. auto. }
      destruct (c =? 13)%Z.
      * rewrite (W G'). pose proof (shift_room (Some c) G') as H. rewrite C' in H.
        destruct H as (st2 & Hs2 & G2 & C2 & R2). rewrite Hs2. cbn [sbind].
        rewrite (end_coming G2), C2. destruct t as [|e t]. { exists st2. auto. }
        destruct (d =? 10)%Z. { exists st2. auto. }
        destruct (@ob_unread _ _ _ _ _ O [d] st2 G2 R2) as (st3 & Hu & G3 & C3 & _).
        exists st3. rewrite C3, C2. auto.
      * apply IH; auto. cbn in L |- *. lia.
Qed.
Lemma endline_after st fuel : good st -> length (coming st) < fuel ->
  (forall pre x, no_ending pre -> x <> 10%Z -> coming st <> pre ++ [13%Z; x]) ->
  exists st', endline i fuel st = Fine st' /\ good st' /\ coming st' = after_line (coming st).
Proof.
  intros G L N. destruct (@endline_left (coming st) fuel None st G eq_refl L) as (st' & He & G' & C').
  exists st'. refine (conj He (conj G' _)). rewrite C'. clear - N.
  induction (coming st) as [|c t IH]; [reflexivity|]. cbn [line_left after_line].
  destruct (Z.eqb_spec c 10); [reflexivity|]. destruct (Z.eqb_spec c 13) as [->|].
  - destruct t as [|d [|e t]]; try reflexivity. destruct (Z.eqb_spec d 10); [reflexivity|].
    exfalso. apply (N [] d); [constructor|assumption|reflexivity].
  - apply IH. intros pre x Hp Hx E. apply (N (c :: pre) x); [constructor; auto|exact Hx|].
    cbn [app]. now rewrite E.
Qed.
Lemma endline_lost st fuel pre x : good st -> length (coming st) < fuel ->
  coming st = pre ++ [13%Z; x] -> no_ending pre -> x <> 10%Z ->
  after_line (coming st) = [x] /\
  exists st', endline i fuel st = Fine st' /\ good st' /\ coming st' = [].
Proof.
  intros G L E Hp Hx. split.
  - rewrite E. clear - Hp Hx. induction Hp as [|c pre [H1 H2] Hp IH]; cbn [app after_line].
    + cbn. destruct (Z.eqb_spec x 10); congruence.
    + destruct (Z.eqb_spec c 10); [congruence|]. destruct (Z.eqb_spec c 13); [congruence|exact IH].
  - destruct (@endline_left (coming st) fuel None st G eq_refl L) as (st' & He & G' & C').
    exists st'. refine (conj He (conj G' _)). rewrite C', E. clear - Hp Hx.
    induction Hp as [|c pre [H1 H2] Hp IH]; cbn [app line_left].
    + reflexivity.
    + destruct (Z.eqb_spec c 10); [congruence|]. destruct (Z.eqb_spec c 13); [congruence|exact IH].
Qed.
End Line.

(** A stream that waits for more. *)
Lemma endline_wait_left {B : Type} (i : istream B) good coming :
  delivers (mkbase (s_read i) (s_end i) (s_wait i)) good coming ->
  (forall st, good st -> s_wait i st = true) ->
  forall pre r fuel ch st, good st -> no_ending pre -> coming st = pre ++ 13%Z :: 10%Z :: r ->
  length (coming st) < fuel ->
  exists st', endline_loop i fuel ch st = Fine st' /\ good st' /\ coming st' = 10%Z :: r.
Proof.
  intros D W. induction pre as [|c pre IH]; intros r fuel ch st G Hp C L;
    (destruct fuel as [|fuel]; [lia|]); cbn [endline_loop];
    pose proof (@shift_delivers _ i good coming ch st D G) as H; rewrite C in H; cbn [app] in H;
    destruct H as (st' & _ & Hs & G' & C'); rewrite Hs; cbn [sbind].
  - replace (s_end i st') with false.
    2:{ symmetry. destruct (s_end i st') eqn:E; [|reflexivity].
        apply (@del_end _ _ _ _ D st' G') in E. congruence. }
    cbn. rewrite (W _ G'). exists st'. auto.
  - replace (s_end i st') with false.
    2:{ symmetry. destruct (s_end i st') eqn:E; [|reflexivity].
        apply (@del_end _ _ _ _ D st' G') in E. rewrite E in C'. destruct pre; discriminate. }
    inversion Hp as [|? ? [H1 H2] Hp']; subst.
    destruct (Z.eqb_spec c 10); [congruence|]. destruct (Z.eqb_spec c 13); [congruence|].
    apply IH; auto. rewrite C'. rewrite C in L. cbn in L. lia.
Qed.

(** The streams of the library: a file whose reads do not fall short. *)
Definition on_file (w : bool) (s : src) : Prop := sched s = [] /\ waiting s = w.
Lemma file_delivers w : delivers src_base (on_file w) rest.
Proof.
  pose proof src_delivers as D. split.
  - intros n st G. destruct (@del_read _ _ _ _ D n st I) as (got & st' & Hr & _ & X).
    exists got, st'. split; [exact Hr|]. split; [|exact X]. destruct G as [G1 G2].
    split; [exact (proj2 (@src_prompt _ _ _ _ G1 Hr))|]. rewrite <- G2.
    cbn [src_base b_read] in Hr. unfold src_read in Hr. destruct (n =? 0); injection Hr as _ <-; reflexivity.
  - intros st _. apply (@del_end _ _ _ _ D). exact I.
Qed.
Definition fresh (t : list Z) (w : bool) : wst src := wnew (mksrc t 0 [] w).
Definition ready (w : bool) (st : wst src) : Prop :=
  exists p r, holds (on_file w) rest default_buffer_size st p r.
Definition left_of (st : wst src) : list Z := skipn (wpos st) (wbuf st) ++ rest (wbase st).

Lemma fresh_ready t w : ready w (fresh t w).
Proof.
  exists [], t. apply (@holds_new _ (on_file w) rest (mksrc t 0 [] w)). split; reflexivity.
Qed.
Lemma fresh_left t w : left_of (fresh t w) = t.
Proof.
  unfold left_of, fresh, wnew. cbn [wbuf wpos wbase].
  rewrite skipn_all2 by (rewrite repeat_length; lia). reflexivity.
Qed.
Lemma ready_read w st n : ready w st -> exists st', s_read (wrap src_base) n st = Fine (firstn n (left_of st), st').
Proof.
  intros (p & r & Hh). destruct (holds_read (file_delivers w) n Hh) as (more & r' & st' & Hr & _).
  exists st'. cbn [wrap s_read]. rewrite Hr. f_equal. f_equal.
  assert (Hh' : holds (fun s => sched s = []) rest default_buffer_size st p r).
  { destruct Hh as (H1 & H2 & H3 & H4 & [H5 _] & H6). unfold holds. auto 10. }
  rewrite (wrap_prompt Hh' Hr). destruct Hh as (_ & _ & _ & -> & _ & ->). reflexivity.
Qed.
Lemma file_obeys w : obeys (wrap src_base) (ready w) left_of (@wpos src).
Proof. exact (wrap_obeys (file_delivers w) cap_pos). Qed.
Lemma ready_wait st : ready false st -> s_wait (wrap src_base) st = false.
Proof.
  intros (p & r & Hh). cbn [wrap s_wait]. unfold wwait. cbn [src_base b_wait]. unfold src_wait.
  destruct Hh as (_ & _ & _ & _ & [_ G] & _). rewrite G. apply andb_false_r.
Qed.

Lemma file_endline t n :
  (forall pre x, no_ending pre -> x <> 10%Z -> t <> pre ++ [13%Z; x]) ->
  exists st st', endline (wrap src_base) (S (length t)) (wnew (mksrc t 0 [] false)) = Fine st /\
    s_read (wrap src_base) n st = Fine (firstn n (after_line t), st').
Proof.
  intros N. fold (fresh t false).
  destruct (endline_after (file_obeys false) ready_wait (fuel := S (length t)) (fresh_ready t false))
    as (st & He & G & C).
  - rewrite fresh_left. lia.
  - rewrite fresh_left. exact N.
  - destruct (ready_read n G) as (st' & Hr). exists st, st'. split; [exact He|].
    rewrite Hr, C, fresh_left. reflexivity.
Qed.
Lemma file_endline_lost pre x n : no_ending pre -> x <> 10%Z ->
  after_line (pre ++ [13%Z; x]) = [x] /\
  exists st st', endline (wrap src_base) (S (length (pre ++ [13%Z; x])))
      (wnew (mksrc (pre ++ [13%Z; x]) 0 [] false)) = Fine st /\
    s_read (wrap src_base) n st = Fine ([], st').
Proof.
  intros Hp Hx. set (t := pre ++ [13%Z; x]). fold (fresh t false).
  destruct (endline_lost (file_obeys false) ready_wait (fuel := S (length t)) (pre := pre) (x := x)
    (fresh_ready t false)) as (Ha & st & He & G & C).
  - rewrite fresh_left. lia.
  - apply fresh_left.
  - exact Hp.
  - exact Hx.
  - rewrite fresh_left in Ha. split; [exact Ha|].
    destruct (ready_read n G) as (st' & Hr). exists st, st'. split; [exact He|].
    rewrite Hr, C, firstn_nil. reflexivity.
Qed.
(** Nothing given back, more awaited. *)
Lemma waiting_delivers : delivers (mkbase (wread src_base) (wend src_base) (wwait src_base))
  (fun st => exists r, holds (on_file true) rest default_buffer_size st [] r) left_of.
Proof.
  split.
  - intros n st (r & Hh). cbn [b_read].
    destruct (@ob_read _ _ _ _ _ (file_obeys true) n st ltac:(exists [], r; exact Hh))
      as (got & st' & Hr & _ & C & L & Z0 & _).
    destruct (holds_read (file_delivers true) n Hh) as (more & r' & st2 & Hr2 & _ & _ & _ & Hh2).
    cbn [wrap s_read] in Hr. rewrite Hr in Hr2. injection Hr2 as _ <-. rewrite skipn_nil in Hh2.
    exists got, st'. split; [exact Hr|]. split; [exists r'; exact Hh2|]. auto.
  - intros st (r & Hh). exact (@ob_end _ _ _ _ _ (file_obeys true) st ltac:(exists [], r; exact Hh)).
Qed.
Lemma file_endline_wait pre r n : no_ending pre ->
  exists st st', endline (wrap src_base) (S (length (pre ++ 13%Z :: 10%Z :: r)))
      (wnew (mksrc (pre ++ 13%Z :: 10%Z :: r) 0 [] true)) = Fine st /\
    s_read (wrap src_base) n st = Fine (firstn n (10%Z :: r), st').
Proof.
  intros Hp. set (t := pre ++ 13%Z :: 10%Z :: r). fold (fresh t true).
  assert (G0 : exists r0, holds (on_file true) rest default_buffer_size (fresh t true) [] r0).
  { exists t. apply (@holds_new _ (on_file true) rest (mksrc t 0 [] true)). split; reflexivity. }
  destruct (@endline_wait_left _ (wrap src_base) _ _ waiting_delivers) with
    (pre := pre) (r := r) (fuel := S (length t)) (ch := @None Z) (st := fresh t true)
    as (st & He & (r0 & Hh) & C).
  - intros st (r0 & Hh). cbn [wrap s_wait]. unfold wwait. cbn [src_base b_wait]. unfold src_wait.
    pose proof (holds_len Hh) as Lp. cbn [length] in Lp.
    destruct Hh as (_ & U & P & _ & [_ G] & _). rewrite G, U, andb_true_r. apply Nat.eqb_eq. lia.
  - exact G0.
  - exact Hp.
  - apply fresh_left.
  - rewrite fresh_left. lia.
  - destruct (@ready_read true st n ltac:(exists [], r0; exact Hh)) as (st' & Hr).
    exists st, st'. split; [exact He|]. rewrite Hr, C. reflexivity.
Qed.
Lemma null_endline fuel : endline null_stream (S fuel) tt = Wild.
Proof. reflexivity. Qed.
