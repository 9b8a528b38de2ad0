(** Property theorems C120: the output of arrays as text. *)
From Verif Require Import Base ArrOut_Model ArrOut_Spec ArrOut_Proofs.
Local Open Scope Z_scope.

(** ** C120 *)
(** An array is written as the texts of its elements in order, with commas between
    them and square brackets around them. *)
Theorem C120_form : forall l, show (Many l) = [91] ++ commas (map show l) ++ [93].
Proof. exact show_many. Qed.
Print Assumptions C120_form.
(** The text tells which array was written, with arrays in arrays to any depth, if no
    element has an empty text or one with a comma or a square bracket. *)
Theorem C120_readable_partial : forall x y, plain_item x -> plain_item y -> show x = show y -> x = y.
Proof. exact readable. Qed.
Print Assumptions C120_readable_partial.
(** [[12,3],[],7] *)
Example C120_case :
  plain_item (Many [Many [One [49; 50]; One [51]]; Many []; One [55]]) /\
  show (Many [Many [One [49; 50]; One [51]]; Many []; One [55]]) = [91; 91; 49; 50; 44; 51; 93; 44; 91; 93; 44; 55; 93].
Proof.
  split; [|reflexivity].
  assert (P : forall t, plain t -> plain_item (One t)) by (intros; now constructor).
  constructor. intros x [<-|[<-|[<-|[]]]].
  - constructor. intros x [<-|[<-|[]]]; apply P; (split; [discriminate|repeat constructor; discriminate]).
  - constructor. intros x [].
  - apply P. split; [discriminate|repeat constructor; discriminate].
Qed.
(** In general it does not: a text with a comma looks like two elements, and an empty
    text like no element. *)
Theorem C120_readable_refuted : exists x y a b, x <> y /\ show x = show y /\ a <> b /\ show a = show b.
Proof.
  exists (Many [One [49; 44; 50]]), (Many [One [49]; One [50]]), (Many [One []]), (Many []).
  split; [discriminate|]. split; [vm_compute; reflexivity|]. split; [discriminate|vm_compute; reflexivity].
Qed.
Print Assumptions C120_readable_refuted.
