(** Values written one after the other, independently of how they are read. *)
From Verif Require Import Base Stream_Model Word_Model.
Local Open Scope Z_scope.

(** Values that a variable of the kind can hold; a string without a space, and not
    empty. *)
Definition fits (space : Z -> option bool) (k : kind) (v : datum) : Prop :=
  match k, v with
  | KU d, Num n => (1 <= d)%nat /\ 0 <= n < 2 ^ Z.of_nat d
  | KS d, Num n => (1 <= d)%nat /\ - 2 ^ (Z.of_nat d - 1) <= n < 2 ^ (Z.of_nat d - 1)
  | KB, Truth _ => True
  | KW, Text l => l <> [] /\ Forall (fun c => space c = Some false) l
  | _, _ => False
  end.

(** [written space l t]: [t] are the values [l] written with spaces in between (any
    spaces, at least one after each value) and possibly spaces in front. *)
Inductive written (space : Z -> option bool) : list (kind * datum) -> list Z -> Prop :=
| W_none : written space [] []
| W_value k v l t sp s w : show k v = Some w -> fits space k v -> written space l t ->
    Forall (fun c => space c = Some true) sp -> space s = Some true ->
    written space ((k, v) :: l) (sp ++ w ++ s :: t).

(** Where a word may begin and where it ends. *)
Definition word_start (space : Z -> option bool) (t : list Z) : Prop :=
  match t with [] => True | c :: _ => space c = Some false end.
Definition word_end (space : Z -> option bool) (t : list Z) : Prop :=
  match t with [] => True | c :: _ => space c = Some true end.
