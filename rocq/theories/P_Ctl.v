(** Property theorems C109: returning and jumping in lists of statements. *)
From Verif Require Import Base Ctl_Model Ctl_Spec Ctl_Proofs.
Local Open Scope Z_scope.

(** ** C109 *)
(** Evaluating a list has exactly the effects, in the same order, and the value of
    the machine in which a list being executed is a frame, return ends the
    innermost frame and a jump continues it elsewhere — for all programs,
    including loops and lists that contain themselves.
    Missing: jumps that leave a list. *)
Theorem C109_evaluation_partial : forall P a tr v,
  (exists f, go f P a None = Fin tr v) <->
  (exists n, steps P n (Run [(Some a, None)] []) (Stop v tr)).
Proof. exact evaluation. Qed.
Print Assumptions C109_evaluation_partial.
(** Any other exception leaves all lists at once. *)
Theorem C109_uncaught : forall P a tr x,
  (exists f, go f P a None = Exc tr x) <->
  (exists n, steps P n (Run [(Some a, None)] []) (Broken x tr)).
Proof. exact uncaught. Qed.
Print Assumptions C109_uncaught.
(** Statements one after the other: each once, in order; the value is the last. *)
Theorem C109_sequence : forall P a es, es <> [] -> line P (Some a) es None ->
  exists f, go f P a None = Fin es (last (map Some es) None).
Proof. exact line_runs. Qed.
Print Assumptions C109_sequence.
(** Return: nothing behind it is evaluated; the value is that of the statement
    before it. *)
Theorem C109_return : forall P a es r nx,
  line P (Some a) es (Some r) -> nth_error P r = Some (Ret, nx) ->
  exists f, go f P a None = Fin es (last (map Some es) None).
Proof. exact return_ends. Qed.
Print Assumptions C109_return.
(** A jump: on with the target. *)
Theorem C109_goto : forall P a es j nx b es2,
  line P (Some a) es (Some j) -> nth_error P j = Some (Jump b, nx) ->
  es2 <> [] -> line P (Some b) es2 None ->
  exists f, go f P a None = Fin (es ++ es2) (last (map Some es2) None).
Proof. exact goto_skips. Qed.
Print Assumptions C109_goto.
(** A jump out of an inner list to the statement behind it: everything from there
    on is evaluated twice, once as part of the inner list. *)
Theorem C109_jump_out_wrong : forall P c a n es nx,
  nth_error P c = Some (Sub a, Some n) -> nth_error P a = Some (Jump n, nx) ->
  es <> [] -> line P (Some n) es None ->
  exists f, go f P c None = Fin (es ++ es) (last (map Some es) None).
Proof. exact jump_out_twice. Qed.
Print Assumptions C109_jump_out_wrong.
(** Cells 0 1 2: evaluate 7, return, evaluate 8.  Cells 3 4: the list 0, then 9.
    Cells 5 6: the list 7, then 10; cell 7 jumps to 6.  Cell 8 jumps to 2.
    Cell 9 raises 5 after 7 was evaluated in the list 0. *)
Example C109_case :
  let P := [(Do 7, Some 1); (Ret, Some 2); (Do 8, None);
            (Sub 0, Some 4); (Do 9, None);
            (Sub 7, Some 6); (Do 10, None); (Jump 6, None);
            (Jump 2, None); (Sub 0, Some 10); (Raise 5, Some 0)]%nat in
  line P (Some 0%nat) [7] (Some 1%nat) /\ line P (Some 6%nat) [10] None /\
  line P (Some 8%nat) [] (Some 8%nat) /\
  go 9 P 0 None = Fin [7] (Some 7) /\
  go 9 P 3 None = Fin [7; 9] (Some 9) /\
  go 9 P 5 None = Fin [10; 10] (Some 10) /\
  go 9 P 8 None = Fin [8] (Some 8) /\
  go 9 P 9 None = Exc [7] 5.
Proof.
  repeat split; cbn [line].
  - exists 0%nat, (Some 1%nat). repeat split.
  - exists 6%nat, None. repeat split.
Qed.
