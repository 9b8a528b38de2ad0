(** Property theorems C103: random big integers in a range.  [w] is the digit width in
    bits, [raw] the words the generator returns, [words_value] and [cand] read them as
    numbers. *)
From Verif Require Import Base UBig_Model UBig_Spec UBig_Basics UBig_AddSub BigRand_Model BigRand_Spec
  BigRand_Proofs.
Local Open Scope Z_scope.

(** Whatever the generator returns, a value drawn between two bounds in either order is
    a canonical number in the range, the upper bound being excluded by [exclusive]. *)
Theorem C103_range : forall w raw f (excl : bool) a b r, 0 < w -> words_ok w raw ->
  canon (base w) a -> canon (base w) b -> between_big w raw f excl a b = Got r ->
  canon (base w) r /\ Z.min (val (base w) a) (val (base w) b) <= val (base w) r /\
  (if excl then val (base w) r < Z.max (val (base w) a) (val (base w) b)
   else val (base w) r <= Z.max (val (base w) a) (val (base w) b)).
Proof. intros w raw f excl a b r. exact (@between_range w raw f excl a b r). Qed.
Print Assumptions C103_range.
Example C103_range_case : words_ok 8 (fun i => Z.of_nat (i * 37) mod 256) /\
  canon (base 8) [200; 3] /\ canon (base 8) [7; 1] /\
  between_big 8 (fun i => Z.of_nat (i * 37) mod 256) 5 true [200; 3] [7; 1] = Got [7; 2].
Proof.
  split; [intros i; apply Z.mod_pos_bound; reflexivity|].
  split; [apply canonb_ok; vm_compute; reflexivity|].
  split; [apply canonb_ok; vm_compute; reflexivity|]. vm_compute. reflexivity.
Qed.

(** The value is exactly the lower bound plus the first group of random bits, as many
    as the width of the range needs, that falls in the range; the groups are
    consecutive, so no random bit is used twice and none of a group is lost. *)
Theorem C103_first_accepted_partial : forall w raw f (excl : bool) a b r, 0 < w -> words_ok w raw ->
  canon (base w) a -> canon (base w) b ->
  ~ undrawable w (Z.abs (val (base w) a - val (base w) b)) -> canon (base w) r ->
  (between_big w raw f excl a b = Got r <->
   exists m, (m < f)%nat /\
     okc excl (cand w raw (blen (Z.abs (val (base w) a - val (base w) b))) m)
       (Z.abs (val (base w) a - val (base w) b)) /\
     (forall i, (i < m)%nat ->
        ~ okc excl (cand w raw (blen (Z.abs (val (base w) a - val (base w) b))) i)
            (Z.abs (val (base w) a - val (base w) b))) /\
     val (base w) r = Z.min (val (base w) a) (val (base w) b) +
       cand w raw (blen (Z.abs (val (base w) a - val (base w) b))) m).
Proof. intros w raw f excl a b r. exact (@between_iff w raw f excl a b r). Qed.
Print Assumptions C103_first_accepted_partial.
(** The first two groups are too large, the third is taken. *)
Example C103_first_accepted_case :
  ~ undrawable 8 (Z.abs (val (base 8) [0; 5] - val (base 8) [])) /\
  between_big 8 (fun i => nth i [1; 7; 9; 14; 3; 12] 0) 3 false [0; 5] [] = Got [3; 4] /\
  between_big 8 (fun i => nth i [1; 7; 9; 14; 3; 12] 0) 2 false [0; 5] [] = Running.
Proof. split; [intros [H _]; vm_compute in H; congruence|]. vm_compute. auto. Qed.

(** Every number of the range can be drawn, on the first attempt, from some words. *)
Theorem C103_attained_partial : forall w (excl : bool) a b v, 0 < w -> canon (base w) a -> canon (base w) b ->
  ~ undrawable w (Z.abs (val (base w) a - val (base w) b)) -> canon (base w) v ->
  Z.min (val (base w) a) (val (base w) b) <= val (base w) v ->
  (if excl then val (base w) v < Z.max (val (base w) a) (val (base w) b)
   else val (base w) v <= Z.max (val (base w) a) (val (base w) b)) ->
  exists raw, words_ok w raw /\ between_big w raw 1 excl a b = Got v.
Proof. intros w excl a b v. exact (@between_attained w excl a b v). Qed.
Print Assumptions C103_attained_partial.
Example C103_attained_case : canon (base 32) [5; 6] /\ canon (base 32) [] /\ canon (base 32) [4294967295; 5] /\
  ~ undrawable 32 (Z.abs (val (base 32) [5; 6] - val (base 32) [])) /\
  between_big 32 (fun i => nth i [4294967295; 4294967293] 0) 1 true [5; 6] [] = Got [4294967295; 5].
Proof.
  split; [apply canonb_ok; vm_compute; reflexivity|].
  split; [apply canonb_ok; vm_compute; reflexivity|].
  split; [apply canonb_ok; vm_compute; reflexivity|].
  split; [intros [_ [_ H]]; vm_compute in H; discriminate|]. vm_compute. reflexivity.
Qed.

(** A range of one number: [inclusive] returns it at once ... *)
Theorem C103_single : forall w raw f a, 0 < w -> words_ok w raw -> canon (base w) a ->
  between_big w raw (S f) false a a = Got a.
Proof. intros w raw f a. exact (@between_one w raw f a). Qed.
Print Assumptions C103_single.
(** ... and [exclusive] rejects for ever. *)
Theorem C103_empty_range_diverges : forall w raw f a, 0 < w -> words_ok w raw -> canon (base w) a ->
  between_big w raw f true a a = Running.
Proof. intros w raw f a. exact (@between_equal w raw f a). Qed.
Print Assumptions C103_empty_range_diverges.
Example C103_single_case : words_ok 8 (fun i => Z.of_nat i mod 256) /\ canon (base 8) [4; 9] /\
  between_big 8 (fun i => Z.of_nat i mod 256) 3 false [4; 9] [4; 9] = Got [4; 9] /\
  between_big 8 (fun i => Z.of_nat i mod 256) 300 true [4; 9] [4; 9] = Running.
Proof.
  split; [intros i; apply Z.mod_pos_bound; reflexivity|].
  split; [apply canonb_ok; vm_compute; reflexivity|]. vm_compute. auto.
Qed.

(** With digits of 32 bits or more, a range whose width fills whole digits is never
    drawn from: the mask of the top digit is computed by shifting by the width. *)
Theorem C103_whole_digits_undefined : forall w raw f (excl : bool) a b, 0 < w -> words_ok w raw ->
  canon (base w) a -> canon (base w) b ->
  undrawable w (Z.abs (val (base w) a - val (base w) b)) ->
  between_big w raw (S f) excl a b = Undefined.
Proof. intros w raw f excl a b Hw Hr. exact (@between_undefined w Hw raw Hr f excl a b). Qed.
Print Assumptions C103_whole_digits_undefined.
Example C103_whole_digits_case : canon (base 32) [7; 4294967295] /\ canon (base 32) [] /\
  undrawable 32 (Z.abs (val (base 32) [7; 4294967295] - val (base 32) [])) /\
  between_big 32 (fun _ => 12345) 1 false [7; 4294967295] [] = Undefined.
Proof.
  split; [apply canonb_ok; vm_compute; reflexivity|].
  split; [apply canonb_ok; vm_compute; reflexivity|].
  split; [split; [lia|split; vm_compute; reflexivity]|]. vm_compute. reflexivity.
Qed.
(** Not every range can be drawn from. *)
Theorem C103_total_refuted : exists a b, canon (base 32) a /\ canon (base 32) b /\
  between_big 32 (fun _ => 12345) 1 false a b = Undefined.
Proof.
  exists [], [4294967295]. split; [apply canonb_ok; vm_compute; reflexivity|].
  split; [apply canonb_ok; vm_compute; reflexivity|]. vm_compute. reflexivity.
Qed.
Print Assumptions C103_total_refuted.
