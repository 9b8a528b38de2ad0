(** Property theorems C28, C29, C30, C54: searching. *)
From Verif Require Import Base Range_Model Range_Spec Range_Proofs.
Local Open Scope nat_scope.

(** ** C28 *)
(** If the pattern occurs in the range, the search returns the first occurrence,
    for every element type, every hash (any collisions) and any surrounding
    memory; in particular ([length mem = base + size]) without reading outside. *)
Theorem C28_first_occurrence_found :
  forall (T : Type) (eqb : T -> T -> bool) (idx : T -> nat),
  (forall x y, eqb x y = true <-> x = y) ->
  forall mem base size pat k, pat <> [] -> base + size <= length mem ->
  least (occurs pat (part_of mem base size)) k ->
  search_fwd eqb idx mem base size pat = Some (Some (base + k)).
Proof. exact search_fwd_finds. Qed.
Print Assumptions C28_first_occurrence_found.
(** What an answer means: "not found" is always right; a found position is the
    first occurrence, or an occurrence that sticks out of the end of the range
    when the range contains none.  Missing for the full claim: that case, and
    definedness (see below). *)
Theorem C28_answer_partial :
  forall (T : Type) (eqb : T -> T -> bool) (idx : T -> nat),
  (forall x y, eqb x y = true <-> x = y) ->
  forall mem base size pat r, pat <> [] -> base + size <= length mem ->
  search_fwd eqb idx mem base size pat = Some r ->
  match r with
  | None => forall k, ~ occurs pat (part_of mem base size) k
  | Some p => occurs pat mem p /\ base <= p /\
      (least (occurs pat (part_of mem base size)) (p - base) \/
       (base + size < p + length pat /\ forall k, ~ occurs pat (part_of mem base size) k))
  end.
Proof. exact search_fwd_sound. Qed.
Print Assumptions C28_answer_partial.
(** If as many elements as the pattern has are readable behind the range, the
    search is defined and terminates.  Missing: without them. *)
Theorem C28_defined_partial :
  forall (T : Type) (eqb : T -> T -> bool) (idx : T -> nat),
  (forall x y, eqb x y = true <-> x = y) -> forall mem base size pat, pat <> [] -> base + size + length pat <= length mem ->
  search_fwd eqb idx mem base size pat <> None.
Proof. exact search_fwd_defined. Qed.
Print Assumptions C28_defined_partial.
(** A range shorter than the pattern is always read outside. *)
Theorem C28_short_range_undefined :
  forall (T : Type) (eqb : T -> T -> bool) (idx : T -> nat),
  (forall x y, eqb x y = true <-> x = y) -> forall mem pat,
  length mem < length pat -> search_fwd eqb idx mem 0 (length mem) pat = None.
Proof. exact search_fwd_short. Qed.
Print Assumptions C28_short_range_undefined.
(** Neither staying in bounds nor staying in the range holds: searching "bc" in
    "xay" reads behind the end; searching "cd" in the first three elements of
    "abcde" finds it at position 2. *)
Definition zidx (x : Z) : nat := Z.to_nat (x mod 256).
Theorem C28_bounds_refuted :
  (exists mem pat : list Z, pat <> [] /\ length pat <= length mem /\
     search_fwd Z.eqb zidx mem 0 (length mem) pat = None) /\
  (exists (mem pat : list Z) size p, size <= length mem /\
     search_fwd Z.eqb zidx mem 0 size pat = Some (Some p) /\
     forall k, ~ occurs pat (part_of mem 0 size) k).
Proof.
  split.
  - exists [120; 97; 121]%Z, [98; 99]%Z. split; [discriminate|]. split; [cbn; lia|reflexivity].
  - exists [97; 98; 99; 100; 101]%Z, [99; 100]%Z, 3, 2. split; [cbn; lia|]. split; [reflexivity|].
    intros k (a & c & E & L). cbn in E.
    destruct a as [|a1 [|a2 [|a3 [|? ?]]]]; cbn in E; inversion E; subst; try discriminate.
Qed.
Print Assumptions C28_bounds_refuted.
Example C28_case :
  search_fwd Z.eqb zidx [98; 97; 97; 98; 97; 98; 99; 97]%Z 0 8 [97; 98; 99]%Z = Some (Some 4) /\
  search_fwd Z.eqb (fun _ => 0) [98; 97; 97; 98; 97; 98; 99; 97]%Z 1 6 [97; 98]%Z = Some (Some 2) /\
  search_fwd Z.eqb zidx [98; 97; 97; 98; 97; 98; 99; 97; 0; 0; 0]%Z 0 8 [99; 99]%Z = Some None.
Proof. repeat split. Qed.

(** ** C29 *)
(** A found position is an occurrence that ends within the range.  Missing: that
    it is the last one, that an existing occurrence is found, and that nothing
    outside of the range is read — all refuted below. *)
Theorem C29_reverse_answer_partial :
  forall (T : Type) (eqb : T -> T -> bool) (idx : T -> nat),
  (forall x y, eqb x y = true <-> x = y) ->
  forall mem base size pat p, pat <> [] ->
  search_rev eqb idx mem base size pat = Some (Some p) ->
  occurs pat mem p /\ p + length pat <= base + size.
Proof. exact search_rev_sound. Qed.
Print Assumptions C29_reverse_answer_partial.
(** A pattern at the very end of the text is found. *)
Theorem C29_suffix_found_partial :
  forall (T : Type) (eqb : T -> T -> bool) (idx : T -> nat),
  (forall x y, eqb x y = true <-> x = y) ->
  forall pre pat, pat <> [] ->
  search_rev eqb idx (pre ++ pat) 0 (length (pre ++ pat)) pat = Some (Some (length pre)).
Proof. exact search_rev_suffix. Qed.
Print Assumptions C29_suffix_found_partial.
(** If the text does not end with the pattern, an occurrence of the pattern
    [a ++ c :: b] with as many elements behind it as there are in [a] and one more
    is found, provided [c] is not in [b] again (the last of [b] apart): this is how
    far the search goes in one step. *)
Theorem C29_next_found_partial :
  forall (T : Type) (eqb : T -> T -> bool) (idx : T -> nat),
  (forall x y, eqb x y = true <-> x = y) ->
  forall pre a c b z, b <> [] -> length z = S (length a) -> (forall d, In d (removelast b) -> idx d <> idx c) ->
  (forall q, pre ++ (a ++ c :: b) ++ z <> q ++ a ++ c :: b) ->
  search_rev eqb idx (pre ++ (a ++ c :: b) ++ z) 0 (length (pre ++ (a ++ c :: b) ++ z)) (a ++ c :: b) =
    Some (Some (length pre)).
Proof. exact search_rev_skip. Qed.
Print Assumptions C29_next_found_partial.
(** Whatever the pattern, it is searched for before the start of the text if the
    text is the pattern, an element that is not in it, and as many others. *)
Theorem C29_before_start_undefined :
  forall (T : Type) (eqb : T -> T -> bool) (idx : T -> nat),
  (forall x y, eqb x y = true <-> x = y) ->
  forall pat c z, pat <> [] -> length z = length pat -> z <> pat -> (forall d, In d (removelast pat) -> idx d <> idx c) ->
  search_rev eqb idx (pat ++ c :: z) 0 (length (pat ++ c :: z)) pat = None.
Proof. exact search_rev_before. Qed.
Print Assumptions C29_before_start_undefined.
Example C29_skip_case :
  (forall q, [120] ++ ([97] ++ 98 :: [99]) ++ [121; 122] <> q ++ [97] ++ 98 :: [99])%Z /\
  search_rev Z.eqb zidx [120; 97; 98; 99; 121; 122]%Z 0 6 [97; 98; 99]%Z = Some (Some 1) /\
  search_rev Z.eqb zidx [97; 98; 99; 120; 121; 122; 123]%Z 0 7 [97; 98; 99]%Z = None.
Proof.
  split; [|split; reflexivity]. intros q H.
  pose proof (f_equal (fun l => last l 0%Z) H) as X. cbn [app] in X. change (q ++ [97; 98; 99]%Z) with (q ++ [97; 98]%Z ++ [99]%Z) in X.
  rewrite app_assoc, last_last in X. discriminate.
Qed.
(** Three ways to be wrong although the pattern occurs in the text: answering
    "not found" for "a" in "yazy"; an earlier occurrence than the last one for
    "aab" (repeated element) in "aabaaba"; reading before the text for "ab"
    in "abcde". *)
Theorem C29_reverse_refuted :
  (exists mem pat k, occurs pat mem k /\
     search_rev Z.eqb zidx mem 0 (length mem) pat = Some None) /\
  (exists mem pat p k, p < k /\ occurs pat mem k /\
     search_rev Z.eqb zidx mem 0 (length mem) pat = Some (Some p)) /\
  (exists mem pat k, occurs pat mem k /\
     search_rev Z.eqb zidx mem 0 (length mem) pat = None).
Proof.
  split; [|split].
  - exists [121; 97; 122; 121]%Z, [97]%Z, 1. split; [|reflexivity].
    exists [121]%Z, [122; 121]%Z. split; reflexivity.
  - exists [97; 97; 98; 97; 97; 98; 97]%Z, [97; 97; 98]%Z, 0, 3. split; [lia|].
    split; [|reflexivity]. exists [97; 97; 98]%Z, [97]%Z. split; reflexivity.
  - exists [97; 98; 99; 100; 101]%Z, [97; 98]%Z, 0. split; [|reflexivity].
    exists [], [99; 100; 101]%Z. split; reflexivity.
Qed.
Print Assumptions C29_reverse_refuted.
Example C29_case :
  search_rev Z.eqb zidx [97; 98; 97; 98; 120]%Z 0 4 [97; 98]%Z = Some (Some 2) /\
  search_rev Z.eqb zidx [97; 98; 99; 98]%Z 0 4 [97; 98; 99]%Z = Some (Some 0).
Proof. repeat split. Qed.

(** ** C30 *)
(** Elements of any integer type of [w >= 8] bits, signed or not ([lo] is the
    least value of the type); the table shortcut and the plain loops agree with
    set membership. *)
Theorem C30_first_of_exact : forall w lo, (8 <= w)%Z -> forall pat l,
  Forall (valT w lo) pat -> Forall (valT w lo) l ->
  exists r, find_first_of w pat l = Some r /\ first_with (at_pos l (fun x => In x pat)) r.
Proof. exact find_first_of_exact. Qed.
Print Assumptions C30_first_of_exact.
Theorem C30_first_not_of_exact : forall w lo, (8 <= w)%Z -> forall pat l,
  Forall (valT w lo) pat -> Forall (valT w lo) l ->
  exists r, find_first_not_of w pat l = Some r /\ first_with (at_pos l (fun x => ~ In x pat)) r.
Proof. exact find_first_not_of_exact. Qed.
Print Assumptions C30_first_not_of_exact.
Theorem C30_last_not_of_exact : forall w lo, (8 <= w)%Z -> forall pat l,
  Forall (valT w lo) pat -> Forall (valT w lo) l ->
  exists r, find_last_not_of w pat l = Some r /\ last_with (at_pos l (fun x => ~ In x pat)) r.
Proof. exact find_last_not_of_exact. Qed.
Print Assumptions C30_last_not_of_exact.
(** find_last_of answers correctly whenever it is defined.  Missing: definedness
    when nothing is found. *)
Theorem C30_last_of_partial : forall w lo, (8 <= w)%Z -> forall pat l,
  Forall (valT w lo) pat -> Forall (valT w lo) l ->
  match find_last_of w pat l with
  | Some r => last_with (at_pos l (fun x => In x pat)) r
  | None => Forall (fun c => c mod 2 ^ w < 256)%Z pat /\ forall k, ~ at_pos l (fun x => In x pat) k
  end.
Proof. exact find_last_of_cases. Qed.
Print Assumptions C30_last_of_partial.
(** It is undefined exactly when the set fits the table and nothing is found. *)
Theorem C30_last_of_undefined : forall w lo, (8 <= w)%Z -> forall pat l,
  Forall (valT w lo) pat -> Forall (valT w lo) l ->
  find_last_of w pat l = None <->
  (Forall (fun c => c mod 2 ^ w < 256)%Z pat /\ forall k, ~ at_pos l (fun x => In x pat) k).
Proof. exact find_last_of_undefined. Qed.
Print Assumptions C30_last_of_undefined.
Theorem C30_last_of_refuted : exists pat l, Forall (valT 32 0) pat /\ Forall (valT 32 0) l /\
  find_last_of 32 pat l = None.
Proof.
  exists [97]%Z, [98]%Z. split; [|split]; [repeat constructor; unfold valT; lia..|reflexivity].
Qed.
Print Assumptions C30_last_of_refuted.
(** Both paths: a set inside of the table and one outside; signed bytes. *)
Example C30_case :
  find_first_of 32 [97; 98]%Z [120; 353; 98; 97]%Z = Some (Some 2) /\
  find_first_of 32 [97; 20013]%Z [120; 353; 20013; 97]%Z = Some (Some 2) /\
  find_last_not_of 8 [-3; 97]%Z [5; 97; -3]%Z = Some (Some 0) /\
  find_last_of 8 [-3; 97]%Z [5; 97; -3; 4]%Z = Some (Some 2).
Proof. repeat split. Qed.
Example C30_types : Forall (valT 8 (-128)) [-3; 97]%Z /\ Forall (valT 32 0) [97; 20013]%Z.
Proof. split; repeat constructor; unfold valT; lia. Qed.

(** ** C54 *)
(** The reverse index of an alphabet: if it is built, looking up an element gives
    its position in the alphabet, or nothing for elements outside of it; it is
    built exactly when the alphabet has no repetition and fits a byte. *)
Theorem C54_unindex_exact : forall w lo, (8 <= w)%Z -> forall pat, Forall (valT w lo) pat ->
  match unindex_mark w pat with
  | Some b => forall x, valT w lo x ->
      match unindex_get w b x with
      | Some k => nth_error pat k = Some x
      | None => ~ In x pat
      end
  | None => ~ (Forall (fun c => c mod 2 ^ w < 256)%Z pat /\ NoDup pat)
  end.
Proof. exact unindex_exact. Qed.
Print Assumptions C54_unindex_exact.
Theorem C54_unindex_succeeds : forall w lo, (8 <= w)%Z -> forall pat, Forall (valT w lo) pat ->
  Forall (fun c => c mod 2 ^ w < 256)%Z pat -> NoDup pat ->
  exists b, unindex_mark w pat = Some b.
Proof. exact unindex_succeeds. Qed.
Print Assumptions C54_unindex_succeeds.
(** Single elements: first and last position. *)
Theorem C54_single_element_exact : forall (T : Type) (eqb : T -> T -> bool),
  (forall x y, eqb x y = true <-> x = y) -> forall v l,
  first_with (fun k => nth_error l k = Some v) (find_val eqb 0 v l) /\
  last_with (fun k => nth_error l k = Some v) (find_val_back eqb v l).
Proof. exact find_val_exact. Qed.
Print Assumptions C54_single_element_exact.
Example C54_case :
  option_map (fun b => (unindex_get 32 b 50%Z, unindex_get 32 b 306%Z)) (unindex_mark 32 [48; 49; 50; 51]%Z)
    = Some (Some 2, None) /\
  unindex_mark 32 [48; 49; 48]%Z = None /\
  find_val Z.eqb 0 7%Z [3; 7; 1; 7]%Z = Some 1 /\ find_val_back Z.eqb 7%Z [3; 7; 1; 7]%Z = Some 3.
Proof. repeat split. Qed.
