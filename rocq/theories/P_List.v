(** Properties of the intrusive list (C58). *)
From Verif Require Import Base Ref_Model List_Model List_Spec List_Proofs.
Local Open Scope nat_scope.

(** Any history of creating elements, adding them, destroying listed elements,
    walking forward and backward, and walking forward while destroying the
    elements visited: no access to a destroyed element, every walk sees the
    elements of the list in the order of insertion (or its reverse), and the
    elements in memory are those not destroyed.  [fuel] bounds the number of
    steps of a walk. *)
Theorem C58_sequence : forall os fuel, llegal_run lst0 os -> fuel >= length os + 2 ->
  exists m, l_run fuel list0 os = Ok (m, snd (ls_run lst0 os)) /\
    forall x, x >= 2 -> (at_ m x <> None <-> In x (inl (fst (ls_run lst0 os))) \/ In x (outl (fst (ls_run lst0 os)))).
Proof. exact list_history. Qed.
Print Assumptions C58_sequence.

(** Destroying an element that was never added reads pointers never set. *)
Theorem C58_unlisted_undefined : forall os fuel m q x, llegal_run lst0 os -> fuel >= length os + 2 ->
  l_run fuel list0 os = Ok (m, q) -> In x (outl (fst (ls_run lst0 os))) -> l_op fuel m (LDel x) = Ub.
Proof. exact destroy_unlisted. Qed.
Print Assumptions C58_unlisted_undefined.

Example C58_case :
  let os := [LNew; LNew; LNew; LNew; LAdd 3; LAdd 2; LAdd 5; LFwd; LBack; LSweep (Nat.eqb 2); LFwd; LAdd 4; LDel 3; LBack; LFwd] in
  llegal_run lst0 os /\
  snd (ls_run lst0 os) = [[2]; [3]; [4]; [5]; []; []; []; [3; 2; 5]; [5; 2; 3]; [3; 2; 5]; [3; 5]; []; []; [4; 5]; [5; 4]].
Proof. vm_compute. repeat split; auto. Qed.

(** Adding an element that is already in the list loses the elements behind it:
    the forward walk sees 2 and 3 but not 4. *)
Theorem C58_add_again_refuted : exists m q,
  l_run 9 list0 [LNew; LAdd 2; LNew; LAdd 3; LNew; LAdd 4; LFwd; LAdd 3; LFwd] = Ok (m, q) /\
  nth 6 q [] = [2; 3; 4] /\ nth 8 q [] = [2; 3].
Proof. do 2 eexists. vm_compute. repeat split. Qed.
Print Assumptions C58_add_again_refuted.
