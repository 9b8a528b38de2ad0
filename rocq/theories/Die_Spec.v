(** What a user sees when a program ends with a message. *)
From Verif Require Import Base Utf_Spec.
Local Open Scope Z_scope.

(** How many units of UTF-16 a text takes. *)
Definition units_in16 (cs : list Z) : Z :=
  fold_right (fun c n => (if c <? 0x10000 then 1 else 2) + n) 0 cs.
(** A text that can be shown. *)
Definition clean (cs : list Z) : Prop := Forall (fun c => scalar c /\ c <> 0) cs.
