(** Property theorems C118: loops of a number of turns.  [k] and [w] are the kind and
    the width of the type of the number; a body is any function of what it works on,
    the number of the turn and the number of turns, and says whether the loop goes
    on. *)
From Verif Require Import Base Times_Model Times_Spec Times_Proofs.
Local Open Scope Z_scope.

(** ** C118 *)
(** A loop of [n] turns runs its body with 0, 1, ... up to [n] - 1, or fewer times if
    the body ends it, and ends. *)
Theorem C118_turns : forall k w n, 1 < w -> fits k w n -> 0 <= n ->
  forall (St : Type) (body : St -> Z -> Z -> St * bool) st fuel, n <= Z.of_nat fuel ->
  exists p st', times k w body fuel n st = TOk (p, st') /\ turns body n 0 st st' /\
    forall st'', turns body n 0 st st'' -> st'' = st'.
Proof.
  intros k w n W F H St body st fuel Hf.
  destruct (@loop_turns k w W St body fuel n 0 st F ltac:(lia) ltac:(lia)) as (t & st' & E & T).
  exists (mkP t n), st'. split; [exact E|]. split; [exact T|]. intros st'' T2. exact (turns_fun T2 T).
Qed.
Print Assumptions C118_turns.
(** The body sees every number from 0 to [n] - 1 once, in order, with [n]. *)
Theorem C118_numbers : forall k w n, 1 < w -> fits k w n -> 0 <= n -> forall fuel, n <= Z.of_nat fuel ->
  exists p, times k w note fuel n [] = TOk (p, map (fun i => (Z.of_nat i, n)) (seq 0 (Z.to_nat n))).
Proof. intros k w n W F H fuel Hf. eexists. exact (@counted k w W fuel n F H Hf). Qed.
Print Assumptions C118_numbers.
Example C118_case :
  fits KSigned 32 4 /\
  times KSigned 32 note 4 4 [] = TOk (mkP 4 4, [(0, 4); (1, 4); (2, 4); (3, 4)]) /\
  times KUnsigned 64 (fun s i n => (s + i * n, i <? 2)) 100 70 5 = TOk (mkP 2 70, 5 + 0 + 70 + 140) /\
  times KUnsigned 8 note 0 0 [] = TOk (mkP 0 0, []).
Proof. vm_compute. repeat split; discriminate. Qed.

(** A negative number of turns: with a type that is not narrower than [int] every
    loop that is not ended by its body becomes undefined after 2^([w] - 1) turns,
    which the body has run. *)
Theorem C118_negative_undefined : forall w n, 1 < w -> n < 0 ->
  forall (St : Type) (body : St -> Z -> Z -> St * bool) st fuel, endless body ->
  times KSigned w body fuel n st = (if 2 ^ (w - 1) <=? Z.of_nat fuel then TUb else TOut).
Proof.
  intros w n W Hn St body st fuel B. pose proof (@half_pos w W). unfold times.
  rewrite (@negative_signed w W St body B n Hn fuel 0 st ltac:(lia)). rewrite Z.sub_0_r. reflexivity.
Qed.
Print Assumptions C118_negative_undefined.
(** With a narrower type it runs 2^[w] times less the absolute value. *)
Theorem C118_negative_wrong : forall w n, 1 < w -> fits KNarrow w n -> n < 0 -> forall fuel, 2 ^ w + n <= Z.of_nat fuel ->
  exists p st, times KNarrow w note fuel n [] = TOk (p, st) /\ Z.of_nat (length st) = 2 ^ w + n.
Proof.
  intros w n W F Hn fuel Hf. destruct (@negative_narrow w n W (conj (proj1 F) Hn) fuel Hf) as (st & E & L). eauto.
Qed.
Print Assumptions C118_negative_wrong.
(** A provider that a loop ran over to its end gives no turns in a second loop. *)
Theorem C118_again_wrong : forall k w (St St2 : Type) (body : St -> Z -> Z -> St * bool) fuel p st p1 st1,
  endless body -> loop k w body fuel p st = TOk (p1, st1) ->
  forall (body2 : St2 -> Z -> Z -> St2 * bool) fuel2 st2, loop k w body2 fuel2 p1 st2 = TOk (p1, st2).
Proof. intros k w St St2 body fuel p st p1 st1 B E body2 fuel2 st2. apply done_again. exact (again B E). Qed.
Print Assumptions C118_again_wrong.
Example C118_wrong_case :
  times KSigned 4 note 8 (-1) [] = TUb /\
  match times KNarrow 8 note 255 (-1) [] with TOk (_, st) => length st = 255%nat | _ => False end /\
  endless note /\ loop KSigned 32 note 5 (mkP 3 3) [] = TOk (mkP 3 3, []).
Proof. vm_compute. repeat split. Qed.
