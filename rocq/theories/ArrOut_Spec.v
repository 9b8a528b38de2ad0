(** What a reader of the output of an array relies on. *)
From Verif Require Import Base ArrOut_Model.
Local Open Scope Z_scope.

(** No comma and no square bracket. *)
Definition plain (text : list Z) : Prop := text <> [] /\ Forall (fun c => c <> 44 /\ c <> 91 /\ c <> 93) text.
(** All elements have such texts. *)
Inductive plain_item : item -> Prop :=
| plain_one : forall text, plain text -> plain_item (One text)
| plain_many : forall l, (forall x, In x l -> plain_item x) -> plain_item (Many l).
(** The texts, with commas between them. *)
Fixpoint commas (l : list (list Z)) : list Z :=
  match l with [] => [] | [t] => t | t :: r => t ++ 44 :: commas r end.
