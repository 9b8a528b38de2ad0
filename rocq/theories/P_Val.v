(** C72: values that share their contents.  C73: evaluating lists of statements. *)
From Verif Require Import Base.
From Verif Require Import Ref_Model Val_Model Val_Spec Val_Proofs.
Local Open Scope nat_scope.

(** Whatever a program does with values, every operation is defined and comes
    to an end. *)
Theorem C72_safe : forall l, vwell_formed l -> exists s bs n, forall fuel, n < fuel -> vrun fuel vinit l = Ok (s, bs).
Proof. exact programs_safe. Qed.
Print Assumptions C72_safe.
(** Variables 0 and 1 are redirected to each other and to themselves. *)
Example C72_safe_case :
  let l := [VNew; VNew; VSet 1 7; VRefTo 0 1; VRefTo 1 0; VShift 0 0; VRefTo 0 0; VGet 0; VGet 1]%Z in
  vwell_formed l /\ exists s, vrun 20 vinit l =
    Ok (s, [VNothing; VNothing; VNothing; VNothing; VNothing; VNothing; VNothing; VSaw 7; VSaw 7])%Z.
Proof. split; [eexists _, _; vm_compute; reflexivity|eexists; vm_compute; reflexivity]. Qed.

(** A program that redirects only values it used since the last redirection,
    and no null value, sees what it should: assignment to a variable is seen
    through every value that shares it, constants do not change, [ref_to] and
    [>>] redirect all values that share, [re_ref_to] one, and [un_ref] ends the
    sharing.
    Missing: the other programs; the claim is false of them, see below. *)
Theorem C72_sharing_partial : forall l w bs, vmeaning vempty l = Some (w, bs) -> vcareful vempty [] l = true ->
  exists s n, forall fuel, n < fuel -> vrun fuel vinit l = Ok (s, bs).
Proof. exact programs_right. Qed.
Print Assumptions C72_sharing_partial.
(** Variable 0 with copy 1, constant 2; 1 is redirected to the constant, so 0
    is too; 3 is a variable that 4 shares until it is given its own. *)
Example C72_sharing_case :
  let l := [VNew; VCopy 0; VConst 9; VSet 1 5; VGet 0; VRefTo 1 2; VGet 0; VSet 0 6; VGet 2;
            VNew; VCopy 3; VSet 4 1; VUnRef 4; VSet 3 2; VGet 4; VGet 3; VShift 4 3; VGet 3; VReRef 0 3; VSet 4 8; VGet 0]%Z in
  vcareful vempty [] l = true /\ exists w, vmeaning vempty l = Some (w,
    [VNothing; VNothing; VNothing; VNothing; VSaw 5; VNothing; VSaw 9; VNothing; VSaw 9;
     VNothing; VNothing; VNothing; VNothing; VNothing; VSaw 1; VSaw 2; VNothing; VSaw 1; VNothing; VNothing; VSaw 8])%Z.
Proof. split; [vm_compute; reflexivity|eexists; vm_compute; reflexivity]. Qed.

(** Reading a value changes what the program does afterwards: the constant 1 is
    put into a variable with [>>], then the constant 2.  If the variable is
    read in between, the first constant has become 2. *)
Theorem C72_reading_refuted : exists l1 x l2 s bs s' bs' s1 b1 s1' b1',
  vrun 50 vinit l1 = Ok (s, bs) /\ vrun 50 s l2 = Ok (s1, b1) /\
  vrun 50 vinit (l1 ++ [VGet x]) = Ok (s', bs') /\ vrun 50 s' l2 = Ok (s1', b1') /\ b1 <> b1'.
Proof.
  exists [VConst 1; VConst 2; VNew; VShift 0 2]%Z, 2, [VShift 1 2; VGet 0]%Z.
  do 8 eexists. refine (conj _ (conj _ (conj _ (conj _ _)))); [vm_compute; reflexivity..|]. discriminate.
Qed.
Print Assumptions C72_reading_refuted.

(** After any program, redirect a null value to a constant: every null value
    that is made later is that constant, instead of the void node. *)
Theorem C72_null_wrong : forall l w bs p, vmeaning vempty l = Some (w, bs) ->
  let n := length (vdenotes w) in
  let l' := l ++ [VNull; VConst p; VRefTo n (S n); VNull; VGet (S (S n))] in
  (exists w' bs', vmeaning vempty l' = Some (w', bs') /\ last bs' VNothing = VSaw 0%Z) /\
  exists s bs' k, (forall fuel, k < fuel -> vrun fuel vinit l' = Ok (s, bs')) /\ last bs' VNothing = VSaw p.
Proof. exact null_wrong. Qed.
Print Assumptions C72_null_wrong.
(** A program with a variable comes before; the constant is 42. *)
Example C72_null_case :
  (exists w bs, vmeaning vempty [VNew; VSet 0 3]%Z = Some (w, bs) /\ length (vdenotes w) = 1) /\
  exists s, vrun 50 vinit [VNew; VSet 0 3; VNull; VConst 42; VRefTo 1 2; VNull; VGet 3]%Z =
    Ok (s, [VNothing; VNothing; VNothing; VNothing; VNothing; VNothing; VSaw 42])%Z.
Proof. split; [eexists _, _; split; vm_compute; reflexivity|eexists; vm_compute; reflexivity]. Qed.

(** Whatever a program did before, the value of a list of statements, read at
    once, is that of the last statement, however the lists are nested. *)
Theorem C73_value : forall l n s bs, vrun n vinit l = Ok (s, bs) -> forall c,
  exists s1 h s2, forall fuel, 1 < fuel ->
  eval_code fuel s c = Ok (s1, h) /\ vstep fuel s1 (VGet h) = Ok (s2, VSaw (last_value c)).
Proof. exact code_value. Qed.
Print Assumptions C73_value.
(** (1 (2 3) (4 (5))) *)
Example C73_value_case :
  (exists s bs, vrun 9 vinit [VNew; VNull; VShift 0 1] = Ok (s, bs)) /\
  last_value (Block (Leaf 1) [Block (Leaf 2) [Leaf 3]; Block (Leaf 4) [Block (Leaf 5) []]])%Z = 5%Z.
Proof. split; [eexists _, _; vm_compute; reflexivity|reflexivity]. Qed.

(** The value of a list of statements that was read once stays what it is while
    other lists are evaluated.
    Missing: values that were not read at once; the claim is false of them, see
    below. *)
Theorem C73_stable_partial : forall l n s bs, vrun n vinit l = Ok (s, bs) -> forall c d, exists s1 h1 s2 s3 h2 s4,
  forall fuel, 1 < fuel -> eval_code fuel s c = Ok (s1, h1) /\ vstep fuel s1 (VGet h1) = Ok (s2, VSaw (last_value c)) /\
  eval_code fuel s2 d = Ok (s3, h2) /\ vstep fuel s3 (VGet h1) = Ok (s4, VSaw (last_value c)).
Proof. exact code_read_first. Qed.
Print Assumptions C73_stable_partial.
(** The same without reading it at once: the value of the first list has become
    that of the second. *)
Theorem C73_later_wrong : forall l n s bs, vrun n vinit l = Ok (s, bs) -> forall c cs d ds, exists s1 h1 s2 h2 s3,
  forall fuel, 1 < fuel -> eval_code fuel s (Block c cs) = Ok (s1, h1) /\ eval_code fuel s1 (Block d ds) = Ok (s2, h2) /\
  vstep fuel s2 (VGet h1) = Ok (s3, VSaw (last_value (Block d ds))).
Proof. exact code_later. Qed.
Print Assumptions C73_later_wrong.
(** (1 2) and (3 4). *)
Example C73_later_case :
  (exists s bs, vrun 9 vinit [] = Ok (s, bs)) /\
  last_value (Block (Leaf 1) [Leaf 2])%Z = 2%Z /\ last_value (Block (Leaf 3) [Leaf 4])%Z = 4%Z.
Proof. split; [eexists _, _; vm_compute; reflexivity|split; reflexivity]. Qed.
