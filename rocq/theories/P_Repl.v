(** C60: pointers to objects that can be replaced. *)
From Verif Require Import Base.
From Verif Require Import Ref_Model Repl_Model Repl_Spec Repl_Proofs.
Local Open Scope nat_scope.

(** Whatever a program does with pointers, it never touches a freed object,
    every operation comes to an end, and the objects alive at the end are
    exactly those that a variable in scope leads to. *)
Theorem C60_safe : forall l, well_formed l ->
  exists s bs n, (forall fuel, n < fuel -> prun fuel pinit l = Ok (s, bs)) /\
    forall b, alive s b <-> exists x a, getV (vars s) x = Some a /\ leads (cells s) a b.
Proof. exact programs_safe. Qed.
Print Assumptions C60_safe.

(** A program whose variables have all gone out of scope leaves no object. *)
Theorem C60_no_leak : forall l w bs, meaning empty_world l = Some (w, bs) -> (forall x, thing w x = None) ->
  exists s bs' n, (forall fuel, n < fuel -> prun fuel pinit l = Ok (s, bs')) /\ forall b, ~ alive s b.
Proof. exact all_freed. Qed.
Print Assumptions C60_no_leak.

(** A program that replaces only through pointers it used since the last
    replacement sees what it should: every pointer to the replaced object
    becomes a pointer to the other one, [==] and [unique] are exact, and
    writes through one pointer are seen through every other.
    Missing: programs that replace through a pointer not used since; the claim
    is false of them, see below. *)
Theorem C60_transparent_partial : forall l w bs, meaning empty_world l = Some (w, bs) -> careful 0 [] l = true ->
  exists s n, forall fuel, n < fuel -> prun fuel pinit l = Ok (s, bs).
Proof. exact programs_right. Qed.
Print Assumptions C60_transparent_partial.

(** Three objects 1, 2, 3 in variables 0, 1, 2; 3 is a copy of 0.  Both are
    replaced by 2, then that by 3; variable 3 follows twice. *)
Example C60_case :
  let l := [PNew 1; PNew 2; PNew 3; PCopy 0; PReplace 0 1; PWrite 3 7; PUnique 2; PRead 1; PReplace 1 2;
            PEq 0 3; PRead 3; PUnique 2; PDrop 0; PDrop 1; PDrop 3; PUnique 2; PRead 2]%Z in
  careful 0 [] l = true /\ (exists w, meaning empty_world l = Some (w,
    [SawNothing; SawNothing; SawNothing; SawNothing; SawNothing; SawNothing; SawBool true; SawVal 7; SawNothing;
     SawBool true; SawVal 3; SawBool false; SawNothing; SawNothing; SawNothing; SawBool true; SawVal 3]%Z)).
Proof. split; [vm_compute; reflexivity|eexists; vm_compute; reflexivity]. Qed.
Example C60_case_run : exists s, prun 20 pinit
   [PNew 1; PNew 2; PNew 3; PCopy 0; PReplace 0 1; PReplace 1 2; PRead 3; PUnique 2; PDrop 0; PDrop 1; PDrop 3; PUnique 2; PDrop 2]%Z =
   Ok (s, [SawNothing; SawNothing; SawNothing; SawNothing; SawNothing; SawNothing; SawVal 3; SawBool false; SawNothing; SawNothing; SawNothing; SawBool true; SawNothing])
   /\ cells s = [None; None; None].
Proof. eexists; split; vm_compute; reflexivity. Qed.

(** A copy of a pointer that was replaced and not used since: [do_replace]
    changes the object it was made for, not the object it stands for.  Before
    the replacement 0 and 3 are equal, afterwards they are not. *)
Theorem C60_transparent_refuted : exists l w bs s bs', meaning empty_world l = Some (w, bs) /\
  prun 50 pinit l = Ok (s, bs') /\ bs' <> bs.
Proof.
  exists [PNew 1; PNew 2; PNew 3; PCopy 0; PReplace 0 1; PReplace 3 2; PRead 0]%Z.
  do 4 eexists. split; [vm_compute; reflexivity|]. split; [vm_compute; reflexivity|]. discriminate.
Qed.
Print Assumptions C60_transparent_refuted.

(** Replacing by the address of an object that was itself replaced makes a
    ring, in which every further use of the pointers never ends. *)
Theorem C60_ring_diverges : exists l s bs, prun 50 pinit l = Ok (s, bs) /\
  forall fuel, ptr_get fuel s 0 = Out.
Proof. exact address_diverges. Qed.
Print Assumptions C60_ring_diverges.

(** Replacing an object, a second time, by the object it was replaced by,
    when only the replaced object keeps that one alive, uses a freed object. *)
Theorem C60_same_again_undefined : exists l x s bs, prun 50 pinit l = Ok (s, bs) /\ alive s 1 /\
  forall fuel, 1 < fuel -> pstep fuel s (PReplaceAddr x 1) = Ub.
Proof. exact same_again. Qed.
Print Assumptions C60_same_again_undefined.
