(** The table holds Unicode's categories: the trie is read block by block. *)
From Coq Require Import FMapPositive.
From Verif Require Import Base Char_Data Char_Unicode Char_Spec Char_Model.
Local Open Scope Z_scope.

(** ** The table as a tree, for computation. *)
Fixpoint build (l : list Z) (p : positive) (m : PositiveMap.t Z) : PositiveMap.t Z :=
  match l with [] => m | x :: r => build r (Pos.succ p) (PositiveMap.add p x m) end.
Definition tree : PositiveMap.t Z := Eval vm_compute in build props_index 1 (PositiveMap.empty Z).
Lemma tree_eq : tree = build props_index 1 (PositiveMap.empty Z).
Proof. vm_compute. reflexivity. Qed.
Lemma build_find l : forall p m q, PositiveMap.find q (build l p m) =
  if (q <? p)%positive then PositiveMap.find q m
  else match nth_error l (Pos.to_nat q - Pos.to_nat p) with
       | Some x => Some x | None => PositiveMap.find q m end.
Proof.
  induction l as [|x l IH]; intros p m q; cbn [build].
  - destruct (q <? p)%positive; [reflexivity|]. now destruct (Pos.to_nat q - Pos.to_nat p)%nat.
  - rewrite IH. destruct (Pos.ltb_spec q p) as [L|L].
    + assert (q <? Pos.succ p = true)%positive as -> by (apply Pos.ltb_lt; lia).
      apply PositiveMap.gso. lia.
    + destruct (Pos.eq_dec q p) as [->|N].
      * assert (p <? Pos.succ p = true)%positive as -> by (apply Pos.ltb_lt; lia).
        rewrite Nat.sub_diag. cbn [nth_error]. apply PositiveMap.gss.
      * assert (q <? Pos.succ p = false)%positive as -> by (apply Pos.ltb_ge; lia).
        assert (Pos.to_nat q - Pos.to_nat p = S (Pos.to_nat q - Pos.to_nat (Pos.succ p)))%nat as -> by lia.
        cbn [nth_error]. destruct (nth_error l _); [reflexivity|]. apply PositiveMap.gso. exact N.
Qed.
Definition fentry (i : Z) : option Z :=
  match i with
  | Z0 => PositiveMap.find 1%positive tree
  | Zpos p => PositiveMap.find (Pos.succ p) tree
  | Zneg _ => None
  end.
Lemma entry_fast i : entry i = fentry i.
Proof.
  unfold entry, fentry. destruct i as [|p|p]; [| |reflexivity].
  - rewrite tree_eq, build_find. cbn [Z.ltb Z.compare Z.to_nat Pos.ltb Pos.compare Pos.compare_cont].
    rewrite Nat.sub_diag, PositiveMap.gempty. now destruct (nth_error props_index 0).
  - assert (Zpos p <? 0 = false) as -> by (apply Z.ltb_ge; lia).
    rewrite tree_eq, build_find, PositiveMap.gempty.
    assert (Pos.succ p <? 1 = false)%positive as -> by (apply Pos.ltb_ge; lia).
    replace (Pos.to_nat (Pos.succ p) - Pos.to_nat 1)%nat with (Z.to_nat (Zpos p)) by lia.
    now destruct (nth_error props_index _).
Qed.

(** ** Blocks of 32 characters. *)
Definition blk (c : Z) : option Z :=
  if c <? 55296 then option_map (fun x => Z.shiftl x 2) (fentry (Z.shiftr c 5))
  else if c <=? 65535 then option_map (fun x => Z.shiftl x 2) (fentry ((if c <=? 56319 then 320 else 0) + Z.shiftr c 5))
  else match fentry (2080 + Z.shiftr c 11) with
       | Some x => option_map (fun y => Z.shiftl y 2) (fentry (x + Z.land (Z.shiftr c 5) 63))
       | None => None
       end.
Lemma props_blk c : c <= 1114111 ->
  get_props c = match blk c with Some d => fentry (d + Z.land c 31) | None => None end.
Proof.
  intros H. unfold get_props, index_from_cp, blk.
  destruct (c <? 55296).
  - unfold index_raw. rewrite entry_fast. change (0 + Z.shiftr c SHIFT_2) with (Z.shiftr c 5).
    destruct (fentry (Z.shiftr c 5)) as [x|]; cbn [obind option_map]; [|reflexivity]. apply entry_fast.
  - destruct (c <=? 65535).
    + unfold index_raw. change (LSCP_INDEX_2_OFFSET - Z.shiftr 55296 SHIFT_2) with 320.
      change SHIFT_2 with 5. rewrite entry_fast.
      destruct (fentry ((if c <=? 56319 then 320 else 0) + Z.shiftr c 5)) as [x|]; cbn [obind option_map]; [|reflexivity].
      apply entry_fast.
    + assert (c >? 1114111 = false) as -> by lia. unfold highStart. assert (c >=? 1114112 = false) as -> by lia.
      unfold index_from_supp. change (INDEX_1_OFFSET - OMITTED_BMP_INDEX_1_LENGTH) with 2080.
      change SHIFT_1 with 11. change SHIFT_2 with 5. change INDEX_2_MASK with 63. rewrite entry_fast.
      destruct (fentry (2080 + Z.shiftr c 11)) as [x|]; cbn [obind]; [|reflexivity]. rewrite entry_fast.
      destruct (fentry (x + Z.land (Z.shiftr c 5) 63)) as [y|]; cbn [obind option_map]; [|reflexivity]. apply entry_fast.
Qed.
Lemma land31 c : Z.land c 31 = c mod 32.
Proof. change 31 with (Z.ones 5). now rewrite Z.land_ones by lia. Qed.
Lemma shr5 c : Z.shiftr c 5 = c / 32.
Proof. rewrite Z.shiftr_div_pow2 by lia. reflexivity. Qed.
Lemma shr11 c : Z.shiftr c 11 = c / 2048.
Proof. rewrite Z.shiftr_div_pow2 by lia. reflexivity. Qed.
Lemma same_block b c : 0 <= b -> b mod 32 = 0 -> b <= c <= b + 31 -> blk c = blk b.
Proof.
  intros B M H. assert (E5 : c / 32 = b / 32) by (Z.div_mod_to_equations; lia).
  assert (E11 : c / 2048 = b / 2048) by (Z.div_mod_to_equations; lia).
  unfold blk. rewrite !shr5, !shr11, E5, E11.
  assert ((c <? 55296) = (b <? 55296)) as -> by (Z.div_mod_to_equations; lia).
  assert ((c <=? 65535) = (b <=? 65535)) as -> by (Z.div_mod_to_equations; lia).
  assert ((c <=? 56319) = (b <=? 56319)) as -> by (Z.div_mod_to_equations; lia).
  reflexivity.
Qed.
(** The category at a place of the table. *)
Definition cat_is (k i : Z) : bool := match fentry i with Some x => Z.land x 31 =? k | None => false end.
Fixpoint block_ok (n : nat) (d k : Z) : bool :=
  match n with O => true | S m => cat_is k d && block_ok m (d + 1) k end.
Lemma block_ok_at n : forall d k, block_ok n d k = true -> forall i, 0 <= i < Z.of_nat n -> cat_is k (d + i) = true.
Proof.
  induction n as [|n IH]; intros d k H i Hi; [lia|]. cbn [block_ok] in H. apply andb_true_iff in H. destruct H as [H1 H2].
  destruct (Z.eq_dec i 0) as [->|N]; [now rewrite Z.add_0_r|].
  replace (d + i) with (d + 1 + (i - 1)) by lia. apply IH; [exact H2|lia].
Qed.
Definition known (last : option Z) (d : Z) : bool := match last with Some l => d =? l | None => false end.
Fixpoint check (fuel : nat) (c hi k : Z) (last : option Z) : bool :=
  if c >? hi then true else
  match fuel with
  | O => false
  | S f =>
      match blk c with
      | None => false
      | Some d =>
          if (Z.land c 31 =? 0) && (c + 31 <=? hi) then
            if known last d then check f (c + 32) hi k last
            else if block_ok 32 d k then check f (c + 32) hi k (Some d) else false
          else if cat_is k (d + Z.land c 31) then check f (c + 1) hi k last else false
      end
  end.
Definition right_at (c k : Z) : Prop := exists p, get_props c = Some p /\ get_category p = k.
Lemma cat_right c d k : c <= 1114111 -> blk c = Some d -> cat_is k (d + Z.land c 31) = true -> right_at c k.
Proof.
  intros H E K. unfold right_at. rewrite props_blk, E by exact H. unfold cat_is in K.
  destruct (fentry (d + Z.land c 31)) as [x|]; [|discriminate]. exists x. split; [reflexivity|].
  apply Z.eqb_eq. exact K.
Qed.
Lemma check_sound fuel : forall c hi k last, 0 <= c -> hi <= 1114111 ->
  (forall l, last = Some l -> block_ok 32 l k = true) -> check fuel c hi k last = true ->
  forall x, c <= x <= hi -> right_at x k.
Proof.
  induction fuel as [|f IH]; intros c hi k last C Hh L H x X.
  - cbn [check] in H. assert (c >? hi = false) as E by lia. rewrite E in H. discriminate.
  - cbn [check] in H. assert (c >? hi = false) as E by lia. rewrite E in H.
    destruct (blk c) as [d|] eqn:Eb; [|discriminate].
    destruct ((Z.land c 31 =? 0) && (c + 31 <=? hi)) eqn:B.
    + apply andb_true_iff in B. destruct B as [B1 B2]. apply Z.eqb_eq in B1. apply Z.leb_le in B2.
      assert (Kd : block_ok 32 d k = true /\
        exists last', check f (c + 32) hi k last' = true /\ (forall l, last' = Some l -> block_ok 32 l k = true)).
      { destruct (known last d) eqn:Kn.
        - unfold known in Kn. destruct last as [l|]; [|discriminate]. apply Z.eqb_eq in Kn. subst d. eauto.
        - destruct (block_ok 32 d k) eqn:Ok; [|discriminate]. split; [reflexivity|]. exists (Some d).
          split; [exact H|]. now intros l [= <-]. }
      destruct Kd as (Kd & last' & H' & L').
      destruct (Z_le_gt_dec x (c + 31)) as [Y|Y]; [|apply (IH (c + 32) hi k last'); auto; lia].
      rewrite land31 in B1. assert (Ex : blk x = Some d) by (rewrite (@same_block c x); auto; lia).
      apply (@cat_right x d); [lia|exact Ex|]. rewrite land31.
      apply (@block_ok_at 32 d k Kd). Z.div_mod_to_equations; lia.
    + destruct (cat_is k (d + Z.land c 31)) eqn:Kc; [|discriminate].
      destruct (Z.eq_dec x c) as [->|N]; [apply (@cat_right c d); auto; lia|].
      apply (IH (c + 1) hi k last); auto; lia.
Qed.

(** ** All rows. *)
Definition code (g : gc) : Z :=
  match g with
  | Cn => 0 | Lu => 1 | Ll => 2 | Lt => 3 | Lm => 4 | Lo => 5 | Mn => 6 | Me => 7 | Mc => 8 | Nd => 9 | Nl => 10 | No => 11
  | Zs => 12 | Zl => 13 | Zp => 14 | Cc => 15 | Cf => 16 | Co => 17 | Cs => 18 | Pd => 19 | Ps => 20 | Pe => 21
  | Pc => 22 | Po => 23 | Sm => 24 | Sc => 25 | Sk => 26 | So => 27 | Pi => 28 | Pf => 29
  end.
Lemma code_inj g h : code g = code h -> g = h.
Proof. destruct g, h; cbn [code]; intros H; try reflexivity; discriminate. Qed.
Definition row_ok (lo hi k : Z) : bool :=
  (0 <=? lo) && (hi <=? 1114111) && check (Z.to_nat (hi - lo + 1)) lo hi k None.
Lemma row_sound lo hi k : row_ok lo hi k = true -> forall x, lo <= x <= hi -> right_at x k.
Proof.
  unfold row_ok. intros H x X. apply andb_true_iff in H. destruct H as [H1 H2].
  apply (@check_sound (Z.to_nat (hi - lo + 1)) lo hi k None); auto; try lia. discriminate.
Qed.
Fixpoint gaps (start : Z) (l : list ((Z * Z) * (gc * version))) : list (Z * Z) :=
  match l with
  | [] => [(start, 1114111)]
  | ((lo, hi), _) :: r => (start, lo - 1) :: gaps (hi + 1) r
  end.
Lemma gaps_cover l : forall start c, start <= c <= 1114111 ->
  (exists lo hi g v, In ((lo, hi), (g, v)) l /\ lo <= c <= hi) \/ (exists lo hi, In (lo, hi) (gaps start l) /\ lo <= c <= hi).
Proof.
  induction l as [|[[lo hi] [g v]] l IH]; intros start c H; cbn [gaps].
  - right. exists start, 1114111. split; [now left|lia].
  - destruct (Z_lt_le_dec c lo) as [X|X]; [right; exists start, (lo - 1); split; [now left|lia]|].
    destruct (Z_le_gt_dec c hi) as [Y|Y]; [left; exists lo, hi, g, v; split; [now left|lia]|].
    destruct (IH (hi + 1) c ltac:(lia)) as [(a & b & g' & v' & I & K)|(a & b & I & K)].
    + left. exists a, b, g', v'. split; [now right|exact K].
    + right. exists a, b. split; [now right|exact K].
Qed.
Lemma rows_ok : forallb (fun r => row_ok (fst (fst r)) (snd (fst r)) (code (fst (snd r)))) unicode = true.
Proof. vm_compute. reflexivity. Qed.
Lemma gaps_ok : forallb (fun r => row_ok (fst r) (snd r) 0) (gaps 0 unicode) = true.
Proof. vm_compute. reflexivity. Qed.
Lemma bad_props : fentry 4820 = Some 0.
Proof. vm_compute. reflexivity. Qed.
Lemma high_props c : 1114111 < c -> get_props c = Some 0.
Proof.
  intros H. unfold get_props, index_from_cp.
  assert (c <? 55296 = false) as -> by lia. assert (c <=? 65535 = false) as -> by lia.
  assert (c >? 1114111 = true) as -> by lia. cbn [obind].
  change (indexLength + BAD_UTF8_DATA_OFFSET) with 4820. rewrite entry_fast. exact bad_props.
Qed.
Lemma in_row c lo hi g v : In ((lo, hi), (g, v)) unicode -> lo <= c <= hi -> right_at c (code g).
Proof.
  intros I X. pose proof rows_ok as H. rewrite forallb_forall in H. exact (row_sound (H _ I) X).
Qed.
Lemma in_gap c lo hi : In (lo, hi) (gaps 0 unicode) -> lo <= c <= hi -> right_at c 0.
Proof.
  intros I X. pose proof gaps_ok as H. rewrite forallb_forall in H. exact (row_sound (H _ I) X).
Qed.
Lemma rows_low : forallb (fun r => snd (fst r) <=? 1114111) unicode = true.
Proof. vm_compute. reflexivity. Qed.
Lemma row_low lo hi g v : In ((lo, hi), (g, v)) unicode -> hi <= 1114111.
Proof. intros I. pose proof rows_low as H. rewrite forallb_forall in H. specialize (H _ I). cbn in H. lia. Qed.

(** ** Every 32-bit value has one category, and the table has it. *)
Lemma category_right c g : char32 c -> category_of c g -> right_at c (code g).
Proof.
  intros [C _] [(lo & hi & v & I & X)|[-> N]]; [exact (in_row I X)|].
  destruct (Z_le_gt_dec c 1114111) as [L|L].
  - destruct (gaps_cover unicode (conj C L)) as [(lo & hi & g & v & I & X)|(lo & hi & I & X)].
    + now destruct (N lo hi g v I).
    + exact (in_gap I X).
  - exists 0. split; [apply high_props; lia|reflexivity].
Qed.
Lemma category_exists c : char32 c -> exists g, category_of c g.
Proof.
  intros [C _].
  destruct (existsb (fun r => (fst (fst r) <=? c) && (c <=? snd (fst r))) unicode) eqn:E.
  - apply existsb_exists in E. destruct E as ([[lo hi] [g v]] & I & X). cbn in X. exists g. left.
    exists lo, hi, v. split; [exact I|lia].
  - exists Cn. right. split; [reflexivity|]. intros lo hi h v I X.
    assert (existsb (fun r => (fst (fst r) <=? c) && (c <=? snd (fst r))) unicode = true); [|congruence].
    apply existsb_exists. exists ((lo, hi), (h, v)). split; [exact I|]. cbn. lia.
Qed.
Lemma category_unique c g h : char32 c -> category_of c g -> category_of c h -> g = h.
Proof.
  intros C G H. destruct (category_right C G) as (p & E & K), (category_right C H) as (q & E' & K').
  apply code_inj. congruence.
Qed.
Lemma props_category c : char32 c -> exists g p, category_of c g /\ get_props c = Some p /\ get_category p = code g.
Proof.
  intros C. destruct (category_exists C) as [g G]. destruct (category_right C G) as (p & E & K). eauto.
Qed.
Definition gc_in (g : gc) (l : list gc) : bool := existsb (fun h => code g =? code h) l.
Lemma gc_in_In g l : gc_in g l = true <-> In g l.
Proof.
  unfold gc_in. rewrite existsb_exists. split.
  - intros (h & I & E). apply Z.eqb_eq in E. apply code_inj in E. now subst.
  - intros I. exists g. split; [exact I|apply Z.eqb_refl].
Qed.
Lemma has_in c g l : char32 c -> category_of c g -> (gc_in g l = true <-> has_category c l).
Proof.
  intros C G. rewrite gc_in_In. split; [intros I; exists g; auto|].
  intros (h & H & I). now rewrite (category_unique C G H).
Qed.
Lemma says_category c k l : (forall g, (code g =? k) = gc_in g l) -> char32 c -> says (is_category c k) (has_category c l).
Proof.
  intros H C. destruct (props_category C) as (g & p & G & E & K). unfold says, is_category. rewrite E. cbn [obind].
  eexists. split; [reflexivity|]. rewrite K, H. now apply has_in.
Qed.
Lemma says_mask c m l : (forall g, negb (Z.land (U_MASK (code g)) m =? 0) = gc_in g l) ->
  char32 c -> says (in_mask c m) (has_category c l).
Proof.
  intros H C. destruct (props_category C) as (g & p & G & E & K). unfold says, in_mask, cat_mask. rewrite E. cbn [obind].
  eexists. split; [reflexivity|]. rewrite K, H. now apply has_in.
Qed.
Lemma says_not_mask c m l : (forall g, negb (Z.land (U_MASK (code g)) m =? 0) = gc_in g l) ->
  char32 c -> says (obind (in_mask c m) (fun b => Some (negb b))) (~ has_category c l).
Proof.
  intros H C. destruct (says_mask H C) as (b & E & K). rewrite E. cbn [obind]. exists (negb b). split; [reflexivity|].
  rewrite <- K. destruct b; cbn; intuition congruence.
Qed.
Ltac by_gc := let g := fresh in intros g; destruct g; vm_compute; reflexivity.
Lemma islower_says c : char32 c -> says (islower c) (has_category c [Ll]).
Proof. apply says_category. by_gc. Qed.
Lemma isupper_says c : char32 c -> says (isupper c) (has_category c [Lu]).
Proof. apply says_category. by_gc. Qed.
Lemma istitle_says c : char32 c -> says (istitle c) (has_category c [Lt]).
Proof. apply says_category. by_gc. Qed.
Lemma isdigit_says c : char32 c -> says (isdigit c) (has_category c [Nd]).
Proof. apply says_category. by_gc. Qed.
Lemma isalpha_says c : char32 c -> says (isalpha c) (has_category c letters).
Proof. apply says_mask. by_gc. Qed.
Lemma isalnum_says c : char32 c -> says (isalnum c) (has_category c (Nd :: letters)).
Proof. apply says_mask. by_gc. Qed.
Lemma isbase_says c : char32 c -> says (isbase c) (has_category c (letters ++ numbers ++ [Mc; Me])).
Proof. apply says_mask. by_gc. Qed.
Lemma iscntrl_says c : char32 c -> says (iscntrl c) (has_category c [Cc; Cf; Zl; Zp]).
Proof. apply says_mask. by_gc. Qed.
Lemma isprint_says c : char32 c -> says (isprint c) (~ has_category c others).
Proof. apply says_not_mask. by_gc. Qed.
Lemma isgraph_says c : char32 c -> says (isgraph c) (~ has_category c (separators ++ [Cc; Cf; Cs; Cn])).
Proof. apply says_not_mask. by_gc. Qed.
Lemma ispunct_says c : char32 c -> says (ispunct c) (has_category c punctuation).
Proof. apply says_mask. by_gc. Qed.
Lemma isdefined_says c : char32 c -> says (isdefined c) (~ has_category c [Cn]).
Proof.
  intros C. destruct (props_category C) as (g & p & G & E & K). unfold says, isdefined. rewrite E. cbn [obind].
  eexists. split; [reflexivity|]. rewrite K, <- (has_in [Cn] C G). destruct g; vm_compute; intuition congruence.
Qed.
Lemma isxdigit_says c : char32 c -> says (isxdigit c) (has_category c [Nd] \/
  65 <= c <= 70 \/ 97 <= c <= 102 \/ 65313 <= c <= 65318 \/ 65345 <= c <= 65350).
Proof.
  intros C. unfold isxdigit. destruct (_ || _) eqn:X.
  - exists true. split; [reflexivity|]. split; [intros _; right; lia|reflexivity].
  - destruct (isdigit_says C) as (b & E & K). unfold isdigit in E. exists b. split; [exact E|]. rewrite K.
    split; [now left|]. intros [H|H]; [exact H|exfalso; lia].
Qed.
Lemma isspace_says c : char32 c -> says (isspace c) (has_category c separators \/ 9 <= c <= 13 \/ 28 <= c <= 31 \/ c = 133).
Proof.
  intros C. unfold isspace.
  assert (H : says (in_mask c U_GC_Z_MASK) (has_category c separators)) by (apply says_mask; [by_gc|exact C]).
  destruct H as (b & E & K). rewrite E. cbn [obind]. eexists. split; [reflexivity|].
  rewrite orb_true_iff, K. unfold control_space. split; (intros [H|H]; [left; exact H|right; lia]).
Qed.
(** Rows that settle the small characters. *)
Lemma row_in lo hi g v : existsb (fun r => (fst (fst r) =? lo) && (snd (fst r) =? hi) && (code (fst (snd r)) =? code g)
    && match v, snd (snd r) with V14, V14 | V15, V15 => true | _, _ => false end) unicode = true ->
  In ((lo, hi), (g, v)) unicode.
Proof.
  intros H. apply existsb_exists in H. destruct H as ([[a b] [h w]] & I & X). cbn in X.
  rewrite !andb_true_iff, !Z.eqb_eq in X. destruct X as [[[-> ->] E] W]. apply code_inj in E. subst h.
  destruct v, w; try discriminate; exact I.
Qed.
Lemma control_row c : 0 <= c <= 31 \/ 127 <= c <= 159 -> category_of c Cc.
Proof.
  intros [H|H]; left; [exists 0, 31, V14|exists 127, 159, V14]; (split; [apply row_in; vm_compute; reflexivity|exact H]).
Qed.
Definition latin_zs : bool := forallb (fun r => (160 <=? fst (fst r)) || (snd (fst r) <=? 31) || (32 =? fst (fst r)) && (snd (fst r) =? 32)
  || negb (code (fst (snd r)) =? 12)) unicode.
Lemma latin_zs_ok : latin_zs = true.
Proof. vm_compute. reflexivity. Qed.
Lemma isblank_says c : char32 c -> says (isblank c) (has_category c [Zs] \/ c = 9).
Proof.
  intros C. unfold isblank. destruct (c <=? 159) eqn:L.
  - eexists. split; [reflexivity|]. split.
    + intros H. assert (c = 9 \/ c = 32) as [->| ->] by lia; [now right|left].
      exists Zs. split; [|now left]. left. exists 32, 32, V14. split; [apply row_in; vm_compute; reflexivity|lia].
    + intros [(g & G & [<-|[]])| ->]; [|reflexivity]. destruct G as [(lo & hi & v & I & X)|[E _]]; [|discriminate].
      pose proof latin_zs_ok as H. unfold latin_zs in H. rewrite forallb_forall in H. specialize (H _ I). cbn in H.
      destruct (Z_le_gt_dec c 31) as [Y|Y]; [|lia].
      destruct C as [C _]. assert (E : Cc = Zs); [|discriminate].
      apply (@category_unique c); [split; lia|apply control_row; lia|left; exists lo, hi, v; auto].
  - assert (H : says (is_category c U_SPACE_SEPARATOR) (has_category c [Zs])) by (apply says_category; [by_gc|exact C]).
    destruct H as (b & E & K). exists b. split; [exact E|]. rewrite K. split; [now left|]. intros [H| ->]; [exact H|discriminate].
Qed.
Lemma isISO_says c : char32 c -> (isISOControl c = true <-> has_category c [Cc]).
Proof.
  intros C. unfold isISOControl. split.
  - intros H. exists Cc. split; [|now left]. apply control_row. destruct C. lia.
  - intros (g & G & [<-|[]]). destruct G as [(lo & hi & v & I & X)|[E _]]; [|discriminate].
    assert (H : forallb (fun r => negb (code (fst (snd r)) =? 15) || (snd (fst r) <=? 31) || (127 <=? fst (fst r)) && (snd (fst r) <=? 159))
      unicode = true) by (vm_compute; reflexivity).
    rewrite forallb_forall in H. specialize (H _ I). cbn in H. lia.
Qed.

(** ** How the classes fit together. *)
Lemma says_true o P : says o P -> (o = Some true <-> P).
Proof. intros (b & -> & K). rewrite <- K. split; congruence. Qed.
Lemma has_one c g l : char32 c -> category_of c g -> (has_category c l <-> In g l).
Proof. intros C G. rewrite <- (has_in l C G). apply gc_in_In. Qed.
Lemma classes_fit c : char32 c ->
  (islower c = Some true -> isalpha c = Some true) /\ (isupper c = Some true -> isalpha c = Some true) /\
  (istitle c = Some true -> isalpha c = Some true) /\
  (isalnum c = Some true <-> isalpha c = Some true \/ isdigit c = Some true) /\
  (isdigit c = Some true -> isxdigit c = Some true) /\ (isxdigit c = Some true -> isalnum c = Some true) /\
  (isalnum c = Some true -> isgraph c = Some true /\ isprint c = Some true /\ isbase c = Some true) /\
  (ispunct c = Some true -> isgraph c = Some true /\ isprint c = Some true /\ isalnum c = Some false) /\
  (isblank c = Some true -> isspace c = Some true) /\ (isspace c = Some true -> isgraph c = Some false) /\
  (isprint c = Some true -> isgraph c = Some true \/ isspace c = Some true) /\
  (isISOControl c = true -> iscntrl c = Some true) /\
  (isprint c = Some true -> isdefined c = Some true /\ isISOControl c = false) /\
  (isgraph c = Some true -> isprint c = Some true \/ has_category c [Co]) /\
  (iscntrl c = Some true -> isprint c = Some false \/ has_category c [Zl; Zp]).
Proof.
  intros C. destruct (category_exists C) as [g G].
  assert (F : forall o P, says o P -> (o = Some false <-> ~ P)).
  { intros o P (b & -> & K). rewrite <- K. destruct b; split; congruence. }
  assert (FI : isISOControl c = false <-> ~ has_category c [Cc]).
  { rewrite <- (isISO_says C). destruct (isISOControl c); split; congruence. }
  assert (L1 : 65 <= c <= 70 \/ 65313 <= c <= 65318 -> g = Lu).
  { intros H. apply (@category_unique c); [exact C|exact G|]. left.
    destruct H as [H|H]; [exists 65, 90, V14|exists 65313, 65338, V14]; (split; [apply row_in; vm_compute; reflexivity|lia]). }
  assert (L2 : 97 <= c <= 102 \/ 65345 <= c <= 65350 -> g = Ll).
  { intros H. apply (@category_unique c); [exact C|exact G|]. left.
    destruct H as [H|H]; [exists 97, 122, V14|exists 65345, 65370, V14]; (split; [apply row_in; vm_compute; reflexivity|lia]). }
  assert (L3 : 9 <= c <= 13 \/ 28 <= c <= 31 \/ c = 133 -> g = Cc).
  { intros H. apply (@category_unique c); [exact C|exact G|]. apply control_row. lia. }
  assert (L4 : c = 9 -> g = Cc) by (intros H; apply L3; lia).
  rewrite !(F _ _ (isalnum_says C)), !(F _ _ (isgraph_says C)), !(F _ _ (isprint_says C)), FI.
  rewrite !(says_true (islower_says C)), !(says_true (isupper_says C)), !(says_true (istitle_says C)),
    !(says_true (isalpha_says C)), !(says_true (isalnum_says C)), !(says_true (isdigit_says C)),
    !(says_true (isxdigit_says C)), !(says_true (isgraph_says C)), !(says_true (isprint_says C)),
    !(says_true (isbase_says C)), !(says_true (ispunct_says C)), !(says_true (isblank_says C)),
    !(says_true (isspace_says C)), !(says_true (iscntrl_says C)), !(says_true (isdefined_says C)), !(isISO_says C).
  rewrite <- !(has_in _ C G).
  assert (L0 : 65 <= c <= 70 \/ 97 <= c <= 102 \/ 65313 <= c <= 65318 \/ 65345 <= c <= 65350 -> g = Lu \/ g = Ll).
  { intros H. destruct (Z_le_gt_dec 97 c), (Z_le_gt_dec 65345 c), (Z_le_gt_dec c 102); (left; apply L1; lia) || (right; apply L2; lia). }
  assert (L5 : c = 9 -> 9 <= c <= 13 \/ 28 <= c <= 31 \/ c = 133) by lia.
  clear L1 L2 L4 F FI G C. revert L0 L3 L5.
  generalize (65 <= c <= 70 \/ 97 <= c <= 102 \/ 65313 <= c <= 65318 \/ 65345 <= c <= 65350).
  generalize (9 <= c <= 13 \/ 28 <= c <= 31 \/ c = 133). generalize (c = 9).
  assert (FT : (false = true) <-> False) by (split; [discriminate|tauto]).
  assert (TT : (true = true) <-> True) by tauto.
  intros T Y X LX LY LT. destruct g; cbn; rewrite ?FT, ?TT; clear FT TT;
    try (assert (~ X) by (intros W; destruct (LX W); discriminate)); try (assert (~ Y) by (intros W; discriminate (LY W)));
    clear LX LY; tauto.
Qed.
Lemma graph_not_print : isgraph 57344 = Some true /\ isprint 57344 = Some false.
Proof.
  assert (C : char32 57344) by (unfold char32; lia).
  assert (G : category_of 57344 Co) by (left; exists 57344, 63743, V14; split; [apply row_in; vm_compute; reflexivity|lia]).
  split; [apply (says_true (isgraph_says C))|destruct (isprint_says C) as (b & -> & K)].
  - rewrite (has_one _ C G). cbn. intuition congruence.
  - rewrite (has_one _ C G) in K. destruct b; [|reflexivity]. destruct (proj1 K eq_refl). cbn. auto 10.
Qed.
Lemma cntrl_print : iscntrl 8232 = Some true /\ isprint 8232 = Some true.
Proof.
  assert (C : char32 8232) by (unfold char32; lia).
  assert (G : category_of 8232 Zl) by (left; exists 8232, 8232, V14; split; [apply row_in; vm_compute; reflexivity|lia]).
  split; [apply (says_true (iscntrl_says C))|apply (says_true (isprint_says C))]; rewrite (has_one _ C G); cbn; intuition congruence.
Qed.
