(** Property theorems C105: searching with and in constant strings. *)
From Verif Require Import Base Range_Model Range_Spec Range_Proofs CStr_Model CStr_Proofs.
Local Open Scope nat_scope.

(** ** C105 *)
(** The position of a character in a constant string: the first one, respectively
    the last one, for every string (also with repeated characters, and with
    characters that do not fit the table) and every character. *)
Theorem C105_character_exact : forall w lo, (8 <= w)%Z -> forall idx s x,
  Forall (valT w lo) s -> valT w lo x ->
  first_with (fun k => nth_error s k = Some x) (c_place w (make w idx s) x) /\
  last_with (fun k => nth_error s k = Some x) (c_place_rev w (make w idx s) x).
Proof. exact cstr_place. Qed.
Print Assumptions C105_character_exact.
(** Digits (table), a repeated character (no table), a wide character (no table). *)
Example C105_character_case :
  c_place 32 (make 32 (fun _ => 0) [48; 49; 50]%Z) 50%Z = Some 2 /\
  c_place_rev 32 (make 32 (fun _ => 0) [48; 49; 50]%Z) 306%Z = None /\
  c_place 32 (make 32 (fun _ => 0) [48; 49; 48]%Z) 48%Z = Some 0 /\
  c_place_rev 32 (make 32 (fun _ => 0) [48; 49; 48]%Z) 48%Z = Some 2 /\
  c_place 32 (make 32 (fun _ => 0) [48; 20013]%Z) 20013%Z = Some 1 /\
  Forall (valT 32 0) [48; 20013]%Z.
Proof. repeat split; repeat constructor; unfold valT; lia. Qed.

(** Three of the four searches for members of the set of the characters of a
    constant string are exact. *)
Theorem C105_sets_exact : forall w lo, (8 <= w)%Z -> forall idx s l,
  Forall (valT w lo) s -> Forall (valT w lo) l ->
  (exists r, c_first_of w (make w idx s) l = Some r /\ first_with (at_pos l (fun x => In x s)) r) /\
  (exists r, c_first_not_of w (make w idx s) l = Some r /\
     first_with (at_pos l (fun x => ~ In x s)) r) /\
  (exists r, c_last_not_of w (make w idx s) l = Some r /\
     last_with (at_pos l (fun x => ~ In x s)) r).
Proof. exact cstr_sets. Qed.
Print Assumptions C105_sets_exact.
Example C105_sets_case :
  c_first_of 32 (make 32 (fun _ => 0) [97; 98]%Z) [120; 353; 98; 97]%Z = Some (Some 2) /\
  c_first_of 32 (make 32 (fun _ => 0) [97; 20013]%Z) [120; 353; 20013]%Z = Some (Some 2) /\
  c_first_not_of 8 (make 8 (fun _ => 0) [97; -3]%Z) [97; -3; 5; 97]%Z = Some (Some 2) /\
  c_last_not_of 8 (make 8 (fun _ => 0) [97; -3]%Z) [97; 5; -3]%Z = Some (Some 1).
Proof. repeat split. Qed.

(** The fourth one, find_last_of, is right whenever it answers.  Missing: that it
    answers when nothing is found. *)
Theorem C105_last_of_partial : forall w lo, (8 <= w)%Z -> forall idx s l,
  Forall (valT w lo) s -> Forall (valT w lo) l ->
  match c_last_of w (make w idx s) l with
  | Some r => last_with (at_pos l (fun x => In x s)) r
  | None => Forall (fun c => c mod 2 ^ w < 256)%Z s /\ forall k, ~ at_pos l (fun x => In x s) k
  end.
Proof. exact cstr_last_of. Qed.
Print Assumptions C105_last_of_partial.
(** It is undefined for every constant string of one-byte characters when nothing
    is found. *)
Theorem C105_last_of_undefined : forall w lo, (8 <= w)%Z -> forall idx s l,
  Forall (valT w lo) s -> Forall (valT w lo) l ->
  Forall (fun c => c mod 2 ^ w < 256)%Z s -> (forall k, ~ at_pos l (fun x => In x s) k) ->
  c_last_of w (make w idx s) l = None.
Proof. exact cstr_last_of_undefined. Qed.
Print Assumptions C105_last_of_undefined.
Theorem C105_last_of_refuted : exists s l, Forall (valT 32 0) s /\ Forall (valT 32 0) l /\
  c_last_of 32 (make 32 (fun _ => 0) s) l = None.
Proof.
  exists [97]%Z, [98]%Z. split; [|split]; [repeat constructor; unfold valT; lia..|reflexivity].
Qed.
Print Assumptions C105_last_of_refuted.
Example C105_last_of_case :
  c_last_of 32 (make 32 (fun _ => 0) [97; 98]%Z) [98; 97; 99]%Z = Some (Some 1) /\
  c_last_of 32 (make 32 (fun _ => 0) [97; 20013]%Z) [98; 99]%Z = Some None /\
  ~ at_pos [98; 99]%Z (fun x => In x [97]%Z) 0.
Proof.
  split; [reflexivity|]. split; [reflexivity|].
  intros (x & E & [<-|[]]). discriminate.
Qed.

(** A constant string that occurs in a text is found at its first occurrence, with
    every hash. *)
Theorem C105_first_occurrence_found : forall w idx s mem base size k,
  s <> [] -> base + size <= length mem -> least (occurs s (part_of mem base size)) k ->
  c_search idx (make w idx s) mem base size = Some (Some (base + k)).
Proof. exact cstr_first_found. Qed.
Print Assumptions C105_first_occurrence_found.
(** What an answer means.  Missing: an occurrence that sticks out of the searched
    part (see C28), and definedness. *)
Theorem C105_answer_partial : forall w idx s mem base size r,
  s <> [] -> base + size <= length mem ->
  c_search idx (make w idx s) mem base size = Some r ->
  match r with
  | None => forall k, ~ occurs s (part_of mem base size) k
  | Some p => occurs s mem p /\ base <= p /\
      (least (occurs s (part_of mem base size)) (p - base) \/
       (base + size < p + length s /\ forall k, ~ occurs s (part_of mem base size) k))
  end.
Proof. exact cstr_search_sound. Qed.
Print Assumptions C105_answer_partial.
(** Searching backwards: a found position is an occurrence inside of the searched
    part, and a suffix is found.  Missing: that it is the last one (see C29). *)
Theorem C105_backwards_partial : forall w idx s,
  s <> [] ->
  (forall mem base size p, c_search_rev idx (make w idx s) mem base size = Some (Some p) ->
     occurs s mem p /\ p + length s <= base + size) /\
  (forall pre, c_search_rev idx (make w idx s) (pre ++ s) 0 (length (pre ++ s))
     = Some (Some (length pre))).
Proof.
  intros w idx s N. split; [intros; now apply (@cstr_rev_sound w idx)|].
  intros. now apply cstr_rev_suffix.
Qed.
Print Assumptions C105_backwards_partial.
Theorem C105_backwards_refuted : exists s mem k, occurs s mem k /\
  c_search_rev (fun x => Z.to_nat (x mod 256)) (make 8 (fun x => Z.to_nat (x mod 256)) s)
    mem 0 (length mem) = Some None.
Proof.
  exists [97]%Z, [121; 97; 122; 121]%Z, 1. split; [|reflexivity].
  exists [121]%Z, [122; 121]%Z. split; reflexivity.
Qed.
Print Assumptions C105_backwards_refuted.
Example C105_search_case :
  c_search (fun x => Z.to_nat (x mod 256)) (make 8 (fun x => Z.to_nat (x mod 256)) [97; 98; 99]%Z)
    [98; 97; 97; 98; 97; 98; 99; 97]%Z 0 8 = Some (Some 4) /\
  c_search_rev (fun x => Z.to_nat (x mod 256)) (make 8 (fun x => Z.to_nat (x mod 256)) [97; 98]%Z)
    [97; 98; 97; 98; 120]%Z 0 4 = Some (Some 2).
Proof. repeat split. Qed.
