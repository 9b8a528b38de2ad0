(** What a program relies on when it loads libraries. *)
From Verif Require Import Base Lib_Model.
Local Open Scope Z_scope.

(** The variable is there and belongs to the object number [j]. *)
Definition holds (v : var) (j : nat) : Prop :=
  match v with VLib (Some i) => i = j | VFun (Some i) _ _ => i = j | _ => False end.
(** The program still has a function with this code of the library with handle [h]. *)
Definition has_function (s : lstate) (h code : Z) : Prop :=
  exists x j n name c, nth_error (vars s) x = Some (VFun (Some j) n code) /\
    nth_error (infos s) j = Some (Live name h c).
(** The program still has something of the library with handle [h]. *)
Definition in_use (s : lstate) (h : Z) : Prop :=
  exists x v j name c, nth_error (vars s) x = Some v /\ holds v j /\
    nth_error (infos s) j = Some (Live name h c).
(** Handles of libraries are not null. *)
Definition proper (file : Z -> option Z) : Prop := forall n h, file n = Some h -> h <> 0.
