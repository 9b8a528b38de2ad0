(** Properties of strings (C31, C32, C33). *)
From Verif Require Import Base Bits_Spec Ref_Model List_Model Str_Model Str_Cmp_Model Str_Api_Model Str_Spec Str_Guard Str_Class Str_View Str_Api_Proofs Str_Final Str_Cases.
Local Open Scope nat_scope.

(** ** C31 *)

(** Every program of string operations that is permitted on plain character
    sequences ([sruns] gives results [os]) and that stays within one of the lists
    of operations of [free]: it is defined on strings, and all its results are
    those of the plain sequences.  There is no condition on how the strings are
    represented or shared.  [xs] pairs each operation with what the model leaves
    open in it.  Missing for the full claim: programs mixing the lists ([insert]
    at all, [pop] and [remove] after joining, assignment of characters together
    with repeated characters, comparison together with [erase] or [substr]).
    Most of these mixtures are wrong, as shown below. *)
Theorem C31_programs_partial : forall hd hc p xs l' os, (0 < hd)%Z -> (hd | 2 ^ hd)%Z -> (forall c, word hd (hc c)) ->
  sruns [] (map snd xs) = Some (l', os) -> Forall (fun x => Sound (fst x)) xs -> Forall (fun x => free p (snd x)) xs ->
  exists f0 s' outs, (forall f, f0 <= f -> run hd hc f st0 xs = Ok (s', outs)) /\ Forall2 (out_ok hd hc) os outs.
Proof. exact free_program. Qed.
Print Assumptions C31_programs_partial.

(** The same for programs with any of the operations, mixed in any way, as long as
    each operation meets its condition on the representation ([guard]) in the
    state in which it is run. *)
Theorem C31_guarded_partial : forall hd hc, (0 < hd)%Z -> (hd | 2 ^ hd)%Z -> (forall c, word hd (hc c)) ->
  forall xs l' os, sruns [] (map snd xs) = Some (l', os) -> Forall (fun x => Sound (fst x)) xs -> Safe hd hc st0 xs ->
  exists f0 s' outs, (forall f, f0 <= f -> run hd hc f st0 xs = Ok (s', outs)) /\ Forall2 (out_ok hd hc) os outs.
Proof. exact program_run. Qed.
Print Assumptions C31_guarded_partial.

(** Programs meeting the conditions: building and cutting with all sharing kept,
    taking apart, and a mixture with insertion. *)
Example C31_case_build :
  let l := [ONew [A; B]; OCopy 0; OPushV true 0 [C; D]; OPushV false 1 [X]; OPush true 0 1; OPlus 0 1; OErase 2 1 2; OSub 2 1 5; OPushRep false 3 Y 2; OResize 0 3 A;
            OData 0; OData 1; OData 2; OData 3; OSize 2; OAt 3 3; OCStr 3] in
  Forall (free (inl (Cl false false, Empty))) l /\
  expected l = Some [SNone; SNone; SNone; SNone; SNone; SNone; SNone; SNone; SNone; SNone;
    SSeq [A; B; C]; SSeq [X; A; B]; SSeq [A; D; X; A; B; X; A; B]; SSeq [Y; Y; D; X; A; B; X]; SNat 8; SChr X; SSeq [Y; Y; D; X; A; B; X]] /\
  Forall (fun x => Sound (fst x)) (usually l).
Proof. split; [repeat constructor; discriminate|split; [vm_compute; reflexivity|apply usual_sound]]. Qed.
Example C31_case_apart :
  let l := [ONew [A; B; C; D; E; F]; OCopy 0; OSub 0 1 4; ORemove true 2 1; OPop false 0 2; OAssign 2 1 X; OPop true 1 1; ODrop 0; OData 1; OData 2; OData 3; OData 4] in
  Forall (free (inr (true, false))) l /\
  expected l = Some [SNone; SNone; SNone; SNone; SNone; SNone; SNone; SNone;
    SSeq [A; B; C; D; E]; SSeq [B; X; D]; SSeq [A; B]; SSeq [F]].
Proof. split; [repeat constructor|vm_compute; reflexivity]. Qed.
Example C31_case_mixed :
  Safe 64 hc64 st0 (usually mixed) /\
  mixed = [ONew [A; B; C; D]; OInsertV 0 2 [X; Y]; OAt 0 3; ORemove false 0 1; OPop true 0 1; OSize 0; OAt 0 1; OData 1;
           ONew [E; F]; OPlus 0 2; OHash 3; ONew [E; F]; OCmp true 4 2] /\
  expected mixed = Some [SNone; SNone; SChr Y; SNone; SNone; SNat 4; SChr X; SSeq [D]; SNone; SNone; SHash [B; X; Y; C; E; F]; SNone; SEq [E; F] [E; F]].
Proof. split; [exact mixed_safe|split; [reflexivity|vm_compute; reflexivity]]. Qed.
Example C31_case_hash_setting : (0 < 64)%Z /\ (64 | 2 ^ 64)%Z.
Proof. split; [reflexivity|exists (2 ^ 58)%Z; reflexivity]. Qed.

(** In the findings below, [ends l] is the last result of program [l] and what it
    should be; [breaks l] says that [l] is permitted but not defined. *)

(** Removing characters from one string changes another: with [x="ab"], [y="cd"], [y+="ef"], [x+=y], [y] destroyed, [z=x], removing three characters from the front of [x] makes [z[2]] another character. *)
Theorem C31_remove_shared_refuted : exists l, l = [ONew [A; B]; ONew [C; D]; OPushV true 1 [E; F]; OPush true 0 1; ODrop 1; OCopy 0; ORemove false 0 3; OAt 2 2] /\
  ends l = (Some (RChr D), Some (SChr C)).
Proof. eexists. split; [reflexivity|vm_compute; reflexivity]. Qed.
Print Assumptions C31_remove_shared_refuted.

(** Reading that other string as an array is then undefined. *)
Theorem C31_remove_shared_undefined_refuted : exists l, l = [ONew [A; B]; ONew [C; D]; OPushV true 1 [E; F]; OPush true 0 1; ODrop 1; OCopy 0; ORemove false 0 3; OData 2] /\ breaks l = true.
Proof. eexists. split; [reflexivity|vm_compute; reflexivity]. Qed.
Print Assumptions C31_remove_shared_undefined_refuted.

(** Assigning to a character of a string of repeated characters of length one changes its copies. *)
Theorem C31_assign_repeated_refuted : exists l, l = [ORep 1 A; OCopy 0; OAssign 0 0 B; OAt 1 0] /\
  ends l = (Some (RChr B), Some (SChr A)).
Proof. eexists. split; [reflexivity|vm_compute; reflexivity]. Qed.
Print Assumptions C31_assign_repeated_refuted.

(** Assigning to a character of a string of 600 repeated characters is not defined. *)
Theorem C31_assign_repeated_undefined_refuted : exists l, l = [ORep 600 A; OAssign 0 599 B; OSize 0] /\ breaks l = true.
Proof. eexists. split; [reflexivity|vm_compute; reflexivity]. Qed.
Print Assumptions C31_assign_repeated_undefined_refuted.

(** Assigning to a character behind an insertion into shared storage. *)
Theorem C31_assign_after_insert_refuted : exists l, l = [ONew [A; B; C; D]; OCopy 0; OInsertV 0 1 [X; Y]; OAssign 0 3 E; OData 0] /\ breaks l = true.
Proof. eexists. split; [reflexivity|vm_compute; reflexivity]. Qed.
Print Assumptions C31_assign_after_insert_refuted.

(** A substring that begins within an insertion: "aXYbcd".substr(2,2) reads as "XY". *)
Theorem C31_substr_of_insert_refuted : exists l, l = [ONew [A; B; C; D]; OInsertV 0 1 [X; Y]; OSub 0 2 2; OCStr 1] /\
  ends l = (Some (RSeq [X; Y]), Some (SSeq [Y; B])).
Proof. eexists. split; [reflexivity|vm_compute; reflexivity]. Qed.
Print Assumptions C31_substr_of_insert_refuted.

(** Removing from the end through an insertion leaves nothing instead of "a". *)
Theorem C31_remove_after_insert_refuted : exists l, l = [ONew [A; B; C; D]; OInsertV 0 1 [X; Y]; ORemove true 0 5; OData 0] /\
  ends l = (Some (RSeq []), Some (SSeq [A])).
Proof. eexists. split; [reflexivity|vm_compute; reflexivity]. Qed.
Print Assumptions C31_remove_after_insert_refuted.

(** Removing one character from the end of "abcXYd". *)
Theorem C31_remove_after_insert_undefined_refuted : exists l, l = [ONew [A; B; C; D]; OInsertV 0 3 [X; Y]; ORemove true 0 1; OData 0] /\ breaks l = true.
Proof. eexists. split; [reflexivity|vm_compute; reflexivity]. Qed.
Print Assumptions C31_remove_after_insert_undefined_refuted.

(** Inserting "XY" at 3 into "abcd"+"ef" puts it after the first character. *)
Theorem C31_insert_place_refuted : exists l, l = [ONew [A; B; C; D]; OPushV true 0 [E; F]; OInsertV 0 3 [X; Y]; OData 0] /\
  ends l = (Some (RSeq [A; X; Y; B; C; D; E; F]), Some (SSeq [A; B; C; X; Y; D; E; F])).
Proof. eexists. split; [reflexivity|vm_compute; reflexivity]. Qed.
Print Assumptions C31_insert_place_refuted.

(** Inserting "X" at 1 into "ab"+"c" puts it at the front. *)
Theorem C31_insert_front_refuted : exists l, l = [ONew [A; B]; OPushV true 0 [C]; OInsertV 0 1 [X]; OData 0] /\
  ends l = (Some (RSeq [X; A; B; C]), Some (SSeq [A; X; B; C])).
Proof. eexists. split; [reflexivity|vm_compute; reflexivity]. Qed.
Print Assumptions C31_insert_front_refuted.

(** Inserting within the appended part copies between overlapping blocks with [memcpy]. *)
Theorem C31_insert_overlap_refuted : exists l, l = [ONew [A; B]; OPushV true 0 [C; D; E; F]; OInsertV 0 3 [X]; OData 0] /\ breaks l = true.
Proof. eexists. split; [reflexivity|vm_compute; reflexivity]. Qed.
Print Assumptions C31_insert_overlap_refuted.

(** Popping two characters off the end of "ab"+"cdef" returns four. *)
Theorem C31_pop_joined_refuted : exists l, l = [ONew [A; B]; ONew [C; D; E; F]; OPush true 0 1; OPop true 0 2; OData 2] /\
  ends l = (Some (RSeq [C; D; E; F]), Some (SSeq [E; F])).
Proof. eexists. split; [reflexivity|vm_compute; reflexivity]. Qed.
Print Assumptions C31_pop_joined_refuted.

(** Popping from a string appended to twice. *)
Theorem C31_pop_twice_appended_refuted : exists l, l = [ONew [A]; OPlusV true 0 [B]; OPlusV true 1 [C]; ODrop 1; OPop true 2 1; OData 2] /\ breaks l = true.
Proof. eexists. split; [reflexivity|vm_compute; reflexivity]. Qed.
Print Assumptions C31_pop_twice_appended_refuted.

(** Popping five characters off the end of "ef"+"abcd". *)
Theorem C31_pop_prepended_refuted : exists l, l = [ONew [A; B; C; D]; OPushV false 0 [E; F]; OPop true 0 5; OData 0; OData 1] /\ breaks l = true.
Proof. eexists. split; [reflexivity|vm_compute; reflexivity]. Qed.
Print Assumptions C31_pop_prepended_refuted.

(** Appending a string to a compile-time string changes the appended string. *)
Theorem C31_literal_append_refuted : exists l, l = [OLit [A]; ONew [B]; OPushV true 1 [C]; OPush true 0 1; OData 1] /\
  ends l = (Some (RSeq [A; B; C]), Some (SSeq [B; C])).
Proof. eexists. split; [reflexivity|vm_compute; reflexivity]. Qed.
Print Assumptions C31_literal_append_refuted.

(** Appending a one-character string to itself is not defined. *)
Theorem C31_self_append_refuted : exists l, l = [OChar A; OPush true 0 0] /\ breaks l = true.
Proof. eexists. split; [reflexivity|vm_compute; reflexivity]. Qed.
Print Assumptions C31_self_append_refuted.

(** Assigning a string to itself is not defined. *)
Theorem C31_self_assign_refuted : exists l, l = [ONew [A]; OSet 0 0] /\ breaks l = true.
Proof. eexists. split; [reflexivity|vm_compute; reflexivity]. Qed.
Print Assumptions C31_self_assign_refuted.

(** Inserting a string into itself is not defined. *)
Theorem C31_self_insert_refuted : exists l, l = [ONew [A; B]; ONew [C]; OPush true 0 1; OInsert 0 1 0] /\ breaks l = true.
Proof. eexists. split; [reflexivity|vm_compute; reflexivity]. Qed.
Print Assumptions C31_self_insert_refuted.

(** ** C32 *)

(** [==] after any program within the lists of [free]. *)
Theorem C32_equal_partial : forall hd hc, (0 < hd)%Z -> (hd | 2 ^ hd)%Z -> (forall c, word hd (hc c)) ->
  forall p xs g i j l os v w, sruns [] (map snd xs) = Some (l, os) -> Forall (fun x => Sound (fst x)) xs -> Sound g ->
  Forall (free p) (map snd xs ++ [OCmp true i j]) -> sget l i = Some v -> sget l j = Some w ->
  exists f0 s' r b, (forall f, f0 <= f -> run hd hc f st0 (xs ++ [(g, OCmp true i j)]) = Ok (s', r ++ [RBool b])) /\ (b = true <-> v = w).
Proof. exact free_equal. Qed.
Print Assumptions C32_equal_partial.

(** [<=>] likewise: by length, then lexicographic.  Missing, for both: strings
    that were erased from, cut, inserted into or created as compile-time or
    one-character strings; and comparison with a plain sequence.  The general
    theorem C31_guarded_partial covers these under conditions on the
    representation. *)
Theorem C32_order_partial : forall hd hc, (0 < hd)%Z -> (hd | 2 ^ hd)%Z -> (forall c, word hd (hc c)) ->
  forall p xs g i j l os v w, sruns [] (map snd xs) = Some (l, os) -> Forall (fun x => Sound (fst x)) xs -> Sound g ->
  Forall (free p) (map snd xs ++ [OCmp false i j]) -> sget l i = Some v -> sget l j = Some w ->
  exists f0 s' r c, (forall f, f0 <= f -> run hd hc f st0 (xs ++ [(g, OCmp false i j)]) = Ok (s', r ++ [ROrd c])) /\ is_ord v w c.
Proof. exact free_order. Qed.
Print Assumptions C32_order_partial.

(** Comparing, although it merges equal parts of the two representations, does not
    change what any string [k] holds. *)
Theorem C32_unchanged_partial : forall hd hc, (0 < hd)%Z -> (hd | 2 ^ hd)%Z -> (forall c, word hd (hc c)) ->
  forall p xs g g' q i j k l os v w u, sruns [] (map snd xs) = Some (l, os) -> Forall (fun x => Sound (fst x)) xs -> Sound g -> Sound g' ->
  Forall (free p) (map snd xs ++ [OCmp q i j; OData k]) -> sget l i = Some v -> sget l j = Some w -> sget l k = Some u ->
  exists f0 s' r, forall f, f0 <= f -> run hd hc f st0 (xs ++ [(g, OCmp q i j); (g', OData k)]) = Ok (s', r ++ [RSeq u]).
Proof. exact free_unchanged. Qed.
Print Assumptions C32_unchanged_partial.

Example C32_case :
  let l := [ONew [A; B]; OCopy 0; OPushV true 0 [C; D]; ONew [C; D]; OPush true 1 2; OCmp true 0 1; OCmp false 0 1; OPushV false 0 [X]; OCmp false 0 1; OPushV false 1 [Y]; OCmp false 0 1; OCmp true 0 1; OData 0] in
  Forall (free (inl (Cl true true, Empty))) l /\
  expected l = Some [SNone; SNone; SNone; SNone; SNone; SEq [A; B; C; D] [A; B; C; D]; SOrd [A; B; C; D] [A; B; C; D]; SNone;
    SOrd [X; A; B; C; D] [A; B; C; D]; SNone; SOrd [X; A; B; C; D] [Y; A; B; C; D]; SEq [X; A; B; C; D] [Y; A; B; C; D]; SSeq [X; A; B; C; D]] /\
  results l = Some [RNone; RNone; RNone; RNone; RNone; RBool true; ROrd Eq; RNone; ROrd Gt; RNone; ROrd Lt; RBool false; RSeq [X; A; B; C; D]].
Proof. split; [repeat constructor; discriminate|split; vm_compute; reflexivity]. Qed.

(** A string that was erased from is unequal to its own contents. *)
Theorem C32_erased_equal_refuted : exists l, l = [ONew [A; B]; ONew [C; D; E; F]; OPush true 0 1; OErase 0 3 1; OCmpV true 0 [A; B; C; E; F]] /\
  ends l = (Some (RBool false), Some (SEq [A; B; C; E; F] [A; B; C; E; F])).
Proof. eexists. split; [reflexivity|vm_compute; reflexivity]. Qed.
Print Assumptions C32_erased_equal_refuted.

(** [<=>] calls two different strings equal when both were inserted into. *)
Theorem C32_inserted_order_refuted : exists l, l = [ONew [A; B; C; D; E; F]; OInsertV 0 1 [X; Y]; ONew [A; B; C; D; E; X]; OInsertV 1 1 [X; Y]; OCmp false 0 1] /\
  ends l = (Some (ROrd Eq), Some (SOrd [A; X; Y; B; C; D; E; F] [A; X; Y; B; C; D; E; X])).
Proof. eexists. split; [reflexivity|vm_compute; reflexivity]. Qed.
Print Assumptions C32_inserted_order_refuted.

(** [<=>] orders two equal substrings by the length of the strings they were taken from. *)
Theorem C32_substr_order_refuted : exists l, l = [ONew [A; B; C]; ONew [X; B; C; D]; OSub 0 1 2; OSub 1 1 2; OCmp false 2 3] /\
  ends l = (Some (ROrd Lt), Some (SOrd [B; C] [B; C])).
Proof. eexists. split; [reflexivity|vm_compute; reflexivity]. Qed.
Print Assumptions C32_substr_order_refuted.

(** [==] calls "ab" and "abc" equal when both are compile-time strings. *)
Theorem C32_literal_refuted : exists l, l = [OLit [A; B]; OLit [A; B; C]; OCmp true 0 1] /\
  ends l = (Some (RBool true), Some (SEq [A; B] [A; B; C])).
Proof. eexists. split; [reflexivity|vm_compute; reflexivity]. Qed.
Print Assumptions C32_literal_refuted.

(** ... and the comparison changes the first: its size is 3 afterwards. *)
Theorem C32_literal_changes_refuted : exists l, l = [OLit [A; B]; OLit [A; B; C]; OCmp true 0 1; OSize 0] /\
  ends l = (Some (RNat 3), Some (SNat 2)).
Proof. eexists. split; [reflexivity|vm_compute; reflexivity]. Qed.
Print Assumptions C32_literal_changes_refuted.

(** Comparing two strings erased from changes the string the first was copied from. *)
Theorem C32_compare_changes_refuted : exists l, l = [ONew [A; B; X; C; D]; ONew [A; B; Y; C; D]; OCopy 0; OErase 2 2 1; OCopy 1; OErase 3 2 1; OCmp true 2 3; OAt 0 2] /\
  ends l = (Some (RChr Y), Some (SChr X)).
Proof. eexists. split; [reflexivity|vm_compute; reflexivity]. Qed.
Print Assumptions C32_compare_changes_refuted.

(** A comparison can make a node contain itself.  After the program [ring]
    (which is permitted, and defined up to there) reading any character of any of
    the ten strings never ends. *)
Theorem C32_compare_diverges :
  ring = [ONew [A; B]; OPlusV true 0 [C]; OErase 1 2 1; OCopy 1; OCopy 1; OCopy 1; OCopy 1; OCopy 1; OCopy 1; OCopy 1; OCopy 1; OCmp true 0 1] /\
  ends ring = (Some (RBool true), Some (SEq [A; B] [A; B])) /\
  exists s os, run 64 hc64 40 st0 (usually ring) = Ok (s, os) /\
    forall g f k p, k < 10 -> p < 2 -> step 64 hc64 g f s (OAt k p) = Out.
Proof. split; [reflexivity|split; [vm_compute; reflexivity|exact ring_then]]. Qed.
Print Assumptions C32_compare_diverges.

(** ** C33 *)

(** The hash of a string after any program within the lists of [free] is the hash
    of its characters.  Missing: strings inserted into, one-character strings,
    assignment to repeated characters (all wrong, below), and mixtures of the
    lists, covered by C31_guarded_partial under conditions. *)
Theorem C33_hash_partial : forall hd hc, (0 < hd)%Z -> (hd | 2 ^ hd)%Z -> (forall c, word hd (hc c)) ->
  forall p xs g i l os v, sruns [] (map snd xs) = Some (l, os) -> Forall (fun x => Sound (fst x)) xs -> Sound g ->
  Forall (free p) (map snd xs ++ [OHash i]) -> sget l i = Some v ->
  exists f0 s' r h, (forall f, f0 <= f -> run hd hc f st0 (xs ++ [(g, OHash i)]) = Ok (s', r ++ [RHash h])) /\ is_seq_hash hd (map hc v) h.
Proof. exact free_hash. Qed.
Print Assumptions C33_hash_partial.

(** Hashes are cached: three ways to the same contents, with hashes taken on the
    way. *)
Example C33_case :
  let l := [ONew [A; B]; OHash 0; OPushV true 0 [C]; OHash 0; ONew [A; B; C]; OHash 1; ONew [X; A; B; C; X]; OHash 2; OSub 2 1 3; OHash 3; OErase 2 0 1; OHash 2; OResize 2 3 A; OHash 2] in
  Forall (free (inl (Cl false false, Empty))) l /\
  option_map (fun r => (nth 3 r RNone, nth 5 r RNone, nth 9 r RNone, nth 13 r RNone)) (results l) =
  Some (RHash 594, RHash 594, RHash 594, RHash 594).
Proof. split; [repeat constructor; discriminate|vm_compute; reflexivity]. Qed.

(** The hash of a string of one repeated character is stale after assigning to the character: the hash of "b" reported is that of "a", not that of "b". *)
Theorem C33_stale_refuted : exists l, l = [ORep 1 A; OHash 0; OAssign 0 0 B; OHash 0] /\
  ends l = (Some (RHash 194), Some (SHash [B])).
Proof. eexists. split; [reflexivity|vm_compute; reflexivity]. Qed.
Print Assumptions C33_stale_refuted.

Example C33_stale_value : results [ONew [B]; OHash 0; ONew [A]; OHash 1] = Some [RNone; RHash 196; RNone; RHash 194].
Proof. vm_compute. reflexivity. Qed.

(** The hash of a substring that begins within an insertion is that of other characters. *)
Theorem C33_substr_of_insert_refuted : exists l, l = [ONew [A; B; C; D]; OInsertV 0 1 [X; Y]; OSub 0 2 2; OHash 1] /\
  ends l = (Some (RHash 276), Some (SHash [Y; B])).
Proof. eexists. split; [reflexivity|vm_compute; reflexivity]. Qed.
Print Assumptions C33_substr_of_insert_refuted.

(** A string created from one character reports the hash of the character, not that of the sequence of one character (which "a" created from an array has). *)
Theorem C33_char_refuted : exists l, l = [OChar A; OHash 0] /\
  ends l = (Some (RHash 97), Some (SHash [A])).
Proof. eexists. split; [reflexivity|vm_compute; reflexivity]. Qed.
Print Assumptions C33_char_refuted.

Example C33_char_value : results [ONew [A]; OHash 0; ONew [Y; B]; OHash 1] = Some [RNone; RHash 194; RNone; RHash 378].
Proof. vm_compute. reflexivity. Qed.
