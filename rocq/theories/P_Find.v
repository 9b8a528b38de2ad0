(** Property theorems C61, C62, C63: searching in, replacing in, splitting and
    padding strings. *)
From Verif Require Import Base Ref_Model Range_Model Range_Spec Range_Proofs Find_Model Find_Spec Find_Proofs.
Local Open Scope nat_scope.

(** ** C61 *)
(** find(x) without a start position gives the position of the first occurrence,
    npos if there is none.  Missing: searching for more than one character when
    the memory behind the text takes part in an occurrence or is not readable
    (C28), and the empty string. *)
Theorem C61_find_partial : forall idx text tail n,
  needle_chars n <> [] -> safe_miss n text tail ->
  exists r, find idx text tail n = Some r /\ first_from (needle_chars n) text 0 r.
Proof. exact find_exact. Qed.
Print Assumptions C61_find_partial.
(** With a start position the answer is the position of the first occurrence at
    or behind the start — for a string that owns its characters — or its distance
    from the start — for a character, a view, a literal and a string that still
    refers to a literal or is a single character.  Missing: as above. *)
Theorem C61_find_from_partial : forall idx text tail n b,
  needle_chars n <> [] -> b <= length text -> safe_miss n text tail ->
  exists r, first_from (needle_chars n) text b r /\
    find_from idx text tail n b =
      Some (match n with NOwn _ => r | _ => option_map (fun k => k - b) r end).
Proof. exact find_from_exact. Qed.
Print Assumptions C61_find_from_partial.
(** So with a start position other than 0 the answer is always wrong for all but
    strings that own their characters. *)
Theorem C61_find_from_wrong : forall idx text tail n b k,
  needle_chars n <> [] -> (forall l, n <> NOwn l) -> 0 < b ->
  first_from (needle_chars n) text b (Some k) ->
  exists q, find_from idx text tail n b = Some (Some q) /\ q <> k.
Proof. exact find_from_wrong. Qed.
Print Assumptions C61_find_from_wrong.
(** "abcb".find('b',2) is 1; the same search for a string "bc" in "abcabc" from
    position 2 answers 4 or 2 depending on how the string "bc" came about. *)
Theorem C61_find_from_refuted :
  (exists text n b r, find_from (fun _ => 0) text [] n b = Some r /\
     ~ first_from (needle_chars n) text b r) /\
  (exists text l b r r', find_from (fun _ => 0) text [] (NOwn l) b = Some r /\
     find_from (fun _ => 0) text [] (NLit l) b = Some r' /\ r <> r').
Proof.
  split.
  - exists [97; 98; 99; 98]%Z, (NChar 98%Z), 2, (Some 1). split; [vm_compute; reflexivity|].
    intros [[H _] _]. lia.
  - exists [97; 98; 99; 97; 98; 99]%Z, [98; 99]%Z, 2, (Some 4), (Some 2).
    split; [vm_compute; reflexivity|]. split; [vm_compute; reflexivity|discriminate].
Qed.
Print Assumptions C61_find_from_refuted.
Theorem C61_start_behind_undefined : forall idx text tail n b,
  length text < b -> find_from idx text tail n b = None.
Proof. exact find_behind. Qed.
Print Assumptions C61_start_behind_undefined.
Theorem C61_empty_undefined : forall idx text tail n,
  needle_chars n = [] -> find idx text tail n = None.
Proof. exact find_empty. Qed.
Print Assumptions C61_empty_undefined.
Theorem C61_contains_partial : forall idx text tail n,
  needle_chars n <> [] -> safe_miss n text tail ->
  exists r, contains idx text tail n = Some r /\
    (r = true <-> exists k, occurs (needle_chars n) text k).
Proof. exact contains_exact. Qed.
Print Assumptions C61_contains_partial.
(** Zeros behind the text are harmless when the searched string has none. *)
Theorem C61_zeros_behind : forall pat text n,
  pat <> [] -> ~ In 0%Z pat -> length pat <= n -> quiet pat text (repeat 0%Z n).
Proof. exact quiet_zeros. Qed.
Print Assumptions C61_zeros_behind.
Example C61_case :
  let text := [120; 97; 98; 99; 97; 98; 121]%Z in
  let tail := [0; 0; 0]%Z in
  safe_miss (NOwn [97; 98]%Z) text tail /\
  find (fun _ => 0) text tail (NOwn [97; 98]%Z) = Some (Some 1) /\
  find_from (fun _ => 0) text tail (NOwn [97; 98]%Z) 2 = Some (Some 4) /\
  find_from (fun _ => 0) text tail (NView [97; 98]%Z) 2 = Some (Some 2) /\
  find (fun _ => 0) text tail (NLit [99; 99]%Z) = Some None /\
  contains (fun _ => 0) text [] (NChar 121%Z) = Some true.
Proof.
  cbv zeta. split; [|repeat split].
  refine (@quiet_zeros [97; 98]%Z [120; 97; 98; 99; 97; 98; 121]%Z 3 _ _ _); [discriminate| |cbn; lia].
  intros [E|[E|[]]]; discriminate.
Qed.

(** ** C62 *)
(** replace(str1,str2) with a str1 that owns its characters replaces every
    occurrence from the left.  Missing: the other ways to pass what is searched
    for, when it occurs more than once (below), and unfit memory behind the
    text (C28). *)
Theorem C62_replace_partial : forall idx text tail l by_,
  l <> [] -> small text -> quiet l text tail ->
  forall fuel, length text < fuel ->
  exists r, replace_all idx fuel text tail (NOwn l) by_ = Ok r /\ replaced l by_ text r.
Proof. exact replace_own. Qed.
Print Assumptions C62_replace_partial.
(** When the searched string or character occurs at most once, all forms are right. *)
Theorem C62_replace_once_partial : forall idx text tail n by_,
  needle_chars n <> [] -> small text -> safe_miss n text tail ->
  ~ twice (needle_chars n) text ->
  forall fuel, 2 <= fuel ->
  exists r, replace_all idx fuel text tail n by_ = Ok r /\ replaced (needle_chars n) by_ text r.
Proof. exact replace_once. Qed.
Print Assumptions C62_replace_once_partial.
(** replace(ch,ch2), replace(ch,str) and replace(str1,str2) with a str1 that is a
    literal or a single character never end when the searched string occurs at
    least twice. *)
Theorem C62_replace_diverges : forall idx text tail n by_,
  needle_chars n <> [] -> (forall l, n <> NOwn l) -> small text ->
  twice (needle_chars n) text ->
  forall fuel, replace_all idx fuel text tail n by_ = Out.
Proof. exact replace_diverges. Qed.
Print Assumptions C62_replace_diverges.
(** "a-b-c".replace('-','+'). *)
Theorem C62_replace_refuted :
  exists text n by_, twice (needle_chars n) text /\ n = NChar 45%Z /\
    forall fuel, replace_all (fun _ => 0) fuel text [] n by_ = Out.
Proof.
  exists [97; 45; 98; 45; 99]%Z, (NChar 45%Z), [43]%Z.
  assert (T : twice [45]%Z [97; 45; 98; 45; 99]%Z).
  { exists 1, 3. split; [split|split; [|cbn; lia]].
    - exists [97]%Z, [98; 45; 99]%Z. split; reflexivity.
    - intros [|j] H; [|lia]. apply occurs_one in H. discriminate.
    - exists [97; 45; 98]%Z, [99]%Z. split; reflexivity. }
  split; [exact T|]. split; [reflexivity|].
  apply replace_diverges; [discriminate|discriminate|vm_compute; reflexivity|exact T].
Qed.
Print Assumptions C62_replace_refuted.
(** replace(pos,size,str) replaces the characters from pos on ... *)
Theorem C62_replace_at : forall text a b c by_,
  small text -> text = a ++ b ++ c ->
  replace_at text (length a) (length b) by_ = Some (a ++ by_ ++ c).
Proof. exact replace_at_exact. Qed.
Print Assumptions C62_replace_at.
(** ... and is undefined when they are not all inside of the text. *)
Theorem C62_replace_at_undefined : forall text pos size by_,
  small text -> (Z.of_nat (pos + size) < 2 ^ 63)%Z -> length text < pos + size ->
  replace_at text pos size by_ = None.
Proof. exact replace_at_outside. Qed.
Print Assumptions C62_replace_at_undefined.
(** arec(index,delimiter) of a text whose first delimiter is at [k]: with a
    delimiter that owns its characters the empty string, for every index; with
    any other delimiter the characters before the first delimiter for every odd
    index, and for every even index the text from the first delimiter on (nothing
    if the text starts with it). *)
Theorem C62_split_wrong : forall idx text tail n k index,
  needle_chars n <> [] -> small text ->
  least (occurs (needle_chars n) text) k ->
  arec idx text tail n index =
    Some (match n with
          | NOwn _ => []
          | _ => if Nat.odd index then firstn k text
                 else match k with O => [] | _ => skipn k text end
          end).
Proof. exact arec_result. Qed.
Print Assumptions C62_split_wrong.
(** Only index 1 gives a field, and it is the first one.  Missing: all other
    fields. *)
Theorem C62_split_partial : forall idx text tail d k,
  small text -> least (occurs [d] text) k ->
  arec idx text tail (NChar d) 1 = nth_error (fields d text) 0.
Proof. exact arec_first. Qed.
Print Assumptions C62_split_partial.
Theorem C62_split_undefined : forall idx text tail n index,
  needle_chars n <> [] -> safe_miss n text tail ->
  (forall k, ~ occurs (needle_chars n) text k) ->
  arec idx text tail n index = None.
Proof. exact arec_no_delimiter. Qed.
Print Assumptions C62_split_undefined.
(** "a,b,c" split at ',': whether fields are counted from 0 or from 1, a field
    with that number exists and is not what is returned. *)
Theorem C62_split_refuted :
  exists text d i f g, nth_error (fields d text) i = Some f /\
    nth_error (fields d text) (i - 1) = Some g /\
    arec (fun _ => 0) text [] (NChar d) i <> Some f /\
    arec (fun _ => 0) text [] (NChar d) i <> Some g.
Proof.
  exists [97; 44; 98; 44; 99]%Z, 44%Z, 2, [99]%Z, [98]%Z. repeat split; vm_compute; discriminate.
Qed.
Print Assumptions C62_split_refuted.
Example C62_case :
  let text := [97; 98; 120; 97; 98; 97; 98]%Z in
  replace_all (fun _ => 0) 9 text [0; 0]%Z (NOwn [97; 98]%Z) [121]%Z = Ok [121; 120; 121; 121]%Z /\
  replaced [97; 98]%Z [121]%Z text [121; 120; 121; 121]%Z /\
  replace_all (fun _ => 0) 2 text [] (NChar 120%Z) [121]%Z = Ok [97; 98; 121; 97; 98; 97; 98]%Z /\
  replace_all (fun _ => 0) 9 text [0; 0]%Z (NLit [97; 98]%Z) [121]%Z = Out /\
  replace_at text 1 3 [65]%Z = Some [97; 65; 98; 97; 98]%Z /\
  arec (fun _ => 0) text [] (NChar 120%Z) 1 = Some [97; 98]%Z.
Proof.
  cbv zeta. split; [reflexivity|]. split; [|repeat split].
  destruct (@replace_own (fun _ => 0) [97; 98; 120; 97; 98; 97; 98]%Z [0; 0]%Z [97; 98]%Z [121]%Z)
    with (fuel := 9) as (r & E & R).
  - discriminate.
  - vm_compute. reflexivity.
  - refine (@quiet_zeros [97; 98]%Z [97; 98; 120; 97; 98; 97; 98]%Z 2 _ _ _); [discriminate| |cbn; lia].
    intros [H|[H|[]]]; discriminate.
  - cbn. lia.
  - vm_compute in E. injection E as <-. exact R.
Qed.

(** ** C63 *)
Theorem C63_starts_with : forall text n, small text ->
  exists r, starts_with text n = Some r /\ (r = true <-> begins (needle_chars n) text).
Proof. exact starts_with_exact. Qed.
Print Assumptions C63_starts_with.
Theorem C63_ends_with : forall text n, small text ->
  exists r, ends_with text n = Some r /\ (r = true <-> ends (needle_chars n) text).
Proof. exact ends_with_exact. Qed.
Print Assumptions C63_ends_with.
(** The three forms of starts_with of a view; the last one takes a pointer to
    characters that end with a zero. *)
Theorem C63_view_starts : forall text c str junk, ~ In 0%Z str ->
  (view_starts_char text c = true <-> begins [c] text) /\
  (view_starts_view text str = true <-> begins str text) /\
  exists r, view_starts_c (S (length text)) text (str ++ 0%Z :: junk) 0 = Some r /\
    (r = true <-> begins str text).
Proof. exact view_starts_exact. Qed.
Print Assumptions C63_view_starts.
(** ends_with(ch,count) with count >= 1 is true exactly if the last count-1
    characters are ch, the text has at least count characters, and some
    character of it is not ch: off by one, and wrong for a text of only ch. *)
Theorem C63_ends_with_count_wrong : forall w lo text c count,
  (8 <= w)%Z -> Forall (valT w lo) [c] -> Forall (valT w lo) text -> small text -> 1 <= count ->
  exists r, ends_with_count w text c count = Some r /\
    (r = true <-> ((exists x, In x text /\ x <> c) /\ count <= length text /\
                   ends (repeat c (count - 1)) text)).
Proof. exact ends_with_count_exact. Qed.
Print Assumptions C63_ends_with_count_wrong.
(** "abb".ends_with('b',3) is true, "bbb".ends_with('b',3) is false. *)
Theorem C63_ends_with_count_refuted :
  (exists text c count, ends_with_count 8 text c count = Some true /\ ~ ends (repeat c count) text) /\
  (exists text c count, ends_with_count 8 text c count = Some false /\ ends (repeat c count) text).
Proof.
  split.
  - exists [97; 98; 98]%Z, 98%Z, 3. split; [vm_compute; reflexivity|].
    intros [a E]. destruct a as [|? [|? ?]]; cbn in E; try discriminate.
    apply (f_equal (@length Z)) in E. cbn in E. rewrite app_length in E. cbn in E. lia.
  - exists [98; 98; 98]%Z, 98%Z, 3. split; [vm_compute; reflexivity|]. exists []. reflexivity.
Qed.
Print Assumptions C63_ends_with_count_refuted.
Theorem C63_pad_left : forall text size c, exists k,
  pad_left text size c = repeat c k ++ text /\
  length (pad_left text size c) = Nat.max size (length text).
Proof. exact pad_left_exact. Qed.
Print Assumptions C63_pad_left.
Theorem C63_pad_right : forall text size c, exists k,
  pad_right text size c = text ++ repeat c k /\
  length (pad_right text size c) = Nat.max size (length text).
Proof. exact pad_right_exact. Qed.
Print Assumptions C63_pad_right.
Example C63_case :
  let text := [97; 98; 99; 98]%Z in
  starts_with text (NOwn [97; 98]%Z) = Some true /\ starts_with text (NLit [98]%Z) = Some false /\
  ends_with text (NView [99; 98]%Z) = Some true /\ ends_with text (NLit []) = Some true /\
  ends_with text (NOwn [97; 97; 98; 99; 98]%Z) = Some false /\
  view_starts_c 5 text [97; 98; 0; 55]%Z 0 = Some true /\
  ends_with_count 8 text 97%Z 1 = Some true /\ ends_with_count 8 [97; 98; 98]%Z 98%Z 2 = Some true /\
  pad_left text 6 48%Z = [48; 48; 97; 98; 99; 98]%Z /\ pad_right text 3 48%Z = text.
Proof. repeat split. Qed.
