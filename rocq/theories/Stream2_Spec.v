(** The program's own input, and the values stored as bytes: what a user expects. *)
From Verif Require Import Base Stream_Model Stream_Spec.
Local Open Scope nat_scope.

(** A use of the input: reads into an array with this content, and text given
    back. *)
Inductive eop := ERead (n : nat) (old : list Z) | EUnread (l : list Z).
Fixpoint euse {B : Type} (i : istream B) (ops : list eop) (s : ist B) : so (list (list Z) * ist B) :=
  match ops with
  | [] => Fine ([], s)
  | ERead n old :: r =>
      sbind (eread i n old s) (fun x => sbind (euse i r (snd x)) (fun y => Fine (fst x :: fst y, snd y)))
  | EUnread l :: r =>
      sbind (eunread i l s) (fun s' => sbind (euse i r s') (fun y => Fine ([] :: fst y, snd y)))
  end.
(** Every read finds as much text as it asks for, and no more than [cap]
    characters wait to be read again. *)
Fixpoint efull (cap : nat) (ops : list eop) (p r : list Z) : Prop :=
  match ops with
  | [] => True
  | ERead n _ :: o => n <= length p + length r /\ efull cap o (skipn n p) (skipn (n - length p) r)
  | EUnread l :: o => length p + length l <= cap /\ efull cap o (l ++ p) r
  end.
(** What should be shown: the characters that come from the terminal, each once,
    line endings made LF. *)
Fixpoint eshown (ops : list eop) (p r : list Z) : list Z :=
  match ops with
  | [] => []
  | ERead n _ :: o => lf (firstn (n - length p) r) ++ eshown o (skipn n p) (skipn (n - length p) r)
  | EUnread l :: o => eshown o (l ++ p) r
  end.
(** What is left at the terminal. *)
Fixpoint eleft (ops : list eop) (p r : list Z) : list Z :=
  match ops with
  | [] => r
  | ERead n _ :: o => eleft o (skipn n p) (skipn (n - length p) r)
  | EUnread l :: o => eleft o (l ++ p) r
  end.
