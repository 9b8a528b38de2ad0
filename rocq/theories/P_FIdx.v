(** Property theorems C107: characters at fractional positions. *)
From Coq Require Import QArith.
From Verif Require Import Base FIdx_Model FIdx_Spec FIdx_Proofs.
Local Open Scope Z_scope.

(** ** C107 *)
(** Between two characters of a string, whatever the rounding of the machine, the
    value read lies between the two characters.  Missing: behind the last
    character, see below. *)
Theorem C107_read_between_partial : forall rs rd b s q i y1 y2,
  rounding 1 rs -> rounding (2 ^ 53) rd ->
  (inject_Z i <= q < inject_Z (i + 1))%Q -> 0 <= i < 2 ^ 64 - 1 ->
  nth_error s (Z.to_nat i) = Some y1 -> nth_error s (Z.to_nat (i + 1)) = Some y2 ->
  0 <= y1 < 2 ^ 31 -> 0 <= y2 < 2 ^ 31 ->
  exists r, read_at rs rd b s q = Some r /\
    (inject_Z (Z.min y1 y2) <= r <= inject_Z (Z.max y1 y2))%Q.
Proof. exact read_between. Qed.
Print Assumptions C107_read_between_partial.
(** Without rounding it lies on the straight line between them. *)
Theorem C107_read_line_partial : forall b s q i y1 y2,
  (inject_Z i <= q < inject_Z (i + 1))%Q -> 0 <= i < 2 ^ 64 - 1 ->
  nth_error s (Z.to_nat i) = Some y1 -> nth_error s (Z.to_nat (i + 1)) = Some y2 ->
  0 <= y1 < 2 ^ 31 -> 0 <= y2 < 2 ^ 31 ->
  exists r, read_at (fun x => x) (fun x => x) b s q = Some r /\ (r == on_line y1 y2 i q)%Q.
Proof. exact read_line. Qed.
Print Assumptions C107_read_line_partial.
(** At a whole position it is the character, whatever the rounding — if something
    can be read at the next position. *)
Theorem C107_read_whole_partial : forall rs rd b s i y1 y2,
  rounding 1 rs -> rounding (2 ^ 53) rd -> 0 <= i < 2 ^ 64 - 1 ->
  nth_error s (Z.to_nat i) = Some y1 -> char_at b s (i + 1) = Some y2 ->
  0 <= y1 < 2 ^ 31 -> 0 <= y2 < 2 ^ 31 ->
  exists r, read_at rs rd b s (inject_Z i) = Some r /\ (r == inject_Z y1)%Q.
Proof. exact read_whole. Qed.
Print Assumptions C107_read_whole_partial.
Example C107_read_case :
  option_map Qred (read_at (fun x => x) (fun x => x) None [97; 122; 100] (1 # 4)%Q) = Some (413 # 4)%Q /\
  option_map Qred (read_at (fun x => x) (fun x => x) None [97; 122; 100] 1%Q) = Some (122 # 1)%Q /\
  (inject_Z 0 <= 1 # 4 < inject_Z (0 + 1))%Q /\ rounding 1 (fun x => x).
Proof.
  split; [reflexivity|]. split; [reflexivity|]. split; [|apply exact_rounding].
  split; vm_compute; congruence.
Qed.

(** From the last character on, its own position included, the place behind the
    string is read: undefined if that cannot be read. *)
Theorem C107_read_last_undefined : forall rs rd s q,
  (inject_Z (Z.of_nat (length s) - 1) <= q < inject_Z (Z.of_nat (length s)))%Q ->
  s <> [] -> Z.of_nat (length s) < 2 ^ 64 ->
  read_at rs rd None s q = None.
Proof. exact read_last. Qed.
Print Assumptions C107_read_last_undefined.
(** If it can be read, equal strings read differently: "ab" followed by a zero and
    "ab" as the beginning of "abz". *)
Theorem C107_read_content_refuted : exists s q r1 r2,
  read_at (fun x => x) (fun x => x) (Some 0) s q = Some r1 /\
  read_at (fun x => x) (fun x => x) (Some 122) s q = Some r2 /\ ~ (r1 == r2)%Q.
Proof.
  exists [97; 98], (3 # 2)%Q. do 2 eexists. split; [reflexivity|]. split; [reflexivity|].
  vm_compute. discriminate.
Qed.
Print Assumptions C107_read_content_refuted.
Example C107_last_case :
  read_at (fun x => x) (fun x => x) None [97; 98] 1%Q = None /\
  (inject_Z (Z.of_nat (length [97; 98]) - 1) <= 1 < inject_Z (Z.of_nat (length [97; 98])))%Q.
Proof. split; [reflexivity|]. split; vm_compute; congruence. Qed.

(** Writing between two characters changes only these two, and reading there gives
    the value written up to less than one.  Missing: the value itself, and the
    writings that are undefined; roundings. *)
Theorem C107_write_partial : forall b s q a i y1 y2 s',
  (inject_Z i <= q < inject_Z (i + 1))%Q -> 0 <= i < 2 ^ 64 - 1 ->
  nth_error s (Z.to_nat i) = Some y1 -> nth_error s (Z.to_nat (i + 1)) = Some y2 ->
  0 <= y1 < 2 ^ 31 -> 0 <= y2 < 2 ^ 31 ->
  write_at (fun x => x) (fun x => x) s q a = Some s' ->
  Forall (fun c => c < 2 ^ 31) s' ->
  length s' = length s /\
  (forall j, j <> Z.to_nat i -> j <> Z.to_nat (i + 1) -> nth_error s' j = nth_error s j) /\
  exists r, read_at (fun x => x) (fun x => x) b s' q = Some r /\ (a - 1 < r < a + 1)%Q.
Proof. exact write_read. Qed.
Print Assumptions C107_write_partial.
(** A value that would put the first of the two characters below zero makes the
    writing undefined. *)
Theorem C107_write_negative_undefined : forall s q a i y1 y2,
  (inject_Z i <= q < inject_Z (i + 1))%Q -> 0 <= i < 2 ^ 64 - 1 ->
  nth_error s (Z.to_nat i) = Some y1 -> nth_error s (Z.to_nat (i + 1)) = Some y2 ->
  0 <= y1 < 2 ^ 31 -> 0 <= y2 < 2 ^ 31 ->
  (a + 1 <= inject_Z (y2 - y1) * (q - inject_Z i))%Q ->
  write_at (fun x => x) (fun x => x) s q a = None.
Proof. exact write_negative. Qed.
Print Assumptions C107_write_negative_undefined.
(** The value written is not what is read: 97 written in the middle of "az". *)
Theorem C107_write_read_refuted : exists s q a s' r,
  write_at (fun x => x) (fun x => x) s q a = Some s' /\
  read_at (fun x => x) (fun x => x) None s' q = Some r /\ ~ (r == a)%Q.
Proof.
  exists [97; 122], (1 # 2)%Q, 97%Q. do 2 eexists. split; [reflexivity|]. split; [reflexivity|].
  vm_compute. discriminate.
Qed.
Print Assumptions C107_write_read_refuted.
Example C107_write_case :
  write_at (fun x => x) (fun x => x) [65; 97; 122; 66] (3 # 2)%Q 100%Q = Some [65; 87; 112; 66] /\
  option_map Qred (read_at (fun x => x) (fun x => x) None [65; 87; 112; 66] (3 # 2)%Q) = Some (199 # 2)%Q /\
  write_at (fun x => x) (fun x => x) [1; 100] (1 # 2)%Q 1%Q = None /\
  (1 + 1 <= inject_Z (100 - 1) * ((1 # 2) - inject_Z 0))%Q.
Proof. repeat split; vm_compute; congruence. Qed.
