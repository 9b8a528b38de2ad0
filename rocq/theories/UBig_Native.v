(** Comparing a big integer with a native one of as many digits. *)
From Verif Require Import Base UBig_Model UBig_Spec UBig_Basics UBig_AddSub UBig_Shift.
Local Open Scope Z_scope.

Lemma cmp_native_loop_spec w a : 0 < w -> digits_ok (base w) a -> forall t, 0 <= t ->
  (cmp_native_loop w a t = Gt <-> t < val (base w) a) /\
  (cmp_native_loop w a t = Lt -> val (base w) a < t) /\
  (t = val (base w) a -> cmp_native_loop w a t = Eq).
Proof.
  intros Hw. pose proof (base_ge2 Hw) as HB. set (B := base w) in *.
  induction a as [|x a IH]; intros Ha t Ht; cbn [cmp_native_loop UBig_Spec.val].
  - destruct (Z.eqb_spec t 0) as [->|N].
    + repeat split; intros; (discriminate || lia || reflexivity).
    + repeat split; intros; (discriminate || lia || reflexivity).
  - apply digits_ok_cons in Ha. destruct Ha as [Hx Ha]. pose proof (val_nonneg HB Ha) as Hv. fold B.
    destruct (Z.ltb_spec t x) as [L|L].
    + split; [split; [intros _; nia|reflexivity]|]. split; [discriminate|nia].
    + pose proof (Z.div_mod (t - x) B ltac:(lia)) as D. pose proof (Z.mod_pos_bound (t - x) B ltac:(lia)) as M.
      assert (Hq : 0 <= (t - x) / B) by (apply Z.div_pos; lia).
      destruct (IH Ha ((t - x) / B) Hq) as (I1 & I2 & I3).
      set (q := (t - x) / B) in *. set (r := (t - x) mod B) in *. set (v := val B a) in *.
      split; [|split].
      * rewrite I1. split; intros H; nia.
      * intros H. specialize (I2 H). nia.
      * intros H. apply I3. nia.
Qed.
Theorem cmp_native_same w nd a t : 0 < w -> canon (base w) a -> length a = nd -> 0 <= t ->
  (cmp_native w nd a t = Gt <-> t < val (base w) a) /\
  (cmp_native w nd a t = Lt -> val (base w) a < t) /\
  (t = val (base w) a -> cmp_native w nd a t = Eq).
Proof.
  intros Hw Ha <- Ht. unfold cmp_native. rewrite Nat.compare_refl. exact (@cmp_native_loop_spec w a Hw (canon_ok Ha) t Ht).
Qed.
(** It never compares less: nothing of the number is left after the last digit. *)
Lemma cmp_native_loop_less w a : 0 < w -> digits_ok (base w) a -> forall t, 0 <= t < base w ^ Z.of_nat (length a) ->
  cmp_native_loop w a t <> Lt.
Proof.
  intros Hw. pose proof (base_ge2 Hw) as HB. set (B := base w) in *.
  induction a as [|x a IH]; intros Ha t Ht; cbn [cmp_native_loop].
  - cbn [length Z.of_nat] in Ht. rewrite Z.pow_0_r in Ht. destruct (Z.eqb_spec t 0); [discriminate|lia].
  - apply digits_ok_cons in Ha. destruct Ha as [Hx Ha]. fold B. destruct (Z.ltb_spec t x) as [L|L]; [discriminate|].
    apply (IH Ha). split; [apply Z.div_pos; lia|]. apply Z.div_lt_upper_bound; [lia|].
    cbn [length] in Ht. rewrite Nat2Z.inj_succ, Z.pow_succ_r in Ht by lia. lia.
Qed.
Theorem cmp_native_never_less w nd a t : 0 < w -> canon (base w) a -> length a = nd ->
  val (base w) a < t < base w ^ Z.of_nat nd -> cmp_native w nd a t = Eq.
Proof.
  intros Hw Ha <- Ht. pose proof (val_nonneg (base_ge2 Hw) (canon_ok Ha)) as Hv.
  destruct (@cmp_native_loop_spec w a Hw (canon_ok Ha) t ltac:(lia)) as (G & _ & _).
  pose proof (@cmp_native_loop_less w a Hw (canon_ok Ha) t ltac:(lia)) as L.
  unfold cmp_native. rewrite Nat.compare_refl. destruct (cmp_native_loop w a t); [reflexivity|congruence|].
  pose proof (proj1 G eq_refl). lia.
Qed.
(** Shifts by whole digits. *)
Lemma ushl_digits_spec w a n : 0 < w -> canon (base w) a -> denotes (base w) (Some (ushl_digits a n)) (val (base w) a * base w ^ Z.of_nat n).
Proof.
  intros Hw Ca. destruct a as [|x a]; unfold ushl_digits.
  - exists []. split; [reflexivity|]. split; [exact Ca|]. reflexivity.
  - exists (repeat 0 n ++ x :: a). split; [reflexivity|]. split; [apply canon_prepend0; auto; discriminate|].
    rewrite val_app, val_repeat0, repeat_length. lia.
Qed.
Lemma ushr_digits_spec w a n : 0 < w -> canon (base w) a -> denotes (base w) (Some (ushr_digits a n)) (val (base w) a / base w ^ Z.of_nat n).
Proof.
  intros Hw Ca. unfold ushr_digits. exists (skipn n a). pose proof (base_ge2 Hw). split.
  - destruct (Nat.leb_spec (length a) n); [|reflexivity]. now rewrite skipn_all2.
  - split; [now apply canon_skipn|]. apply val_skipn_div; [exact Hw|]. now apply canon_ok.
Qed.
