(** Specification of names of types and functions: names are texts. *)
From Verif Require Import Base Name_Model.

Section Spec.
(** The readable form of a name, where there is one. *)
Variable readable : list Z -> option (list Z).
(** The name of the function at an address. *)
Variable symbol : Z -> option (option (list Z)).

(** The names that a program has, and how many it made. *)
Definition texts : Type := (nat -> option (list Z)) * nat.
Definition put (f : nat -> option (list Z)) (i : nat) (x : option (list Z)) : nat -> option (list Z) :=
  fun j => if Nat.eqb j i then x else f j.
Definition more (w : texts) (t : list Z) : texts := (put (fst w) (snd w) (Some t), S (snd w)).
(** What each operation does with texts; [None]: it cannot be done. *)
Definition on_texts (w : texts) (o : nop) : option (texts * list Z) :=
  match o with
  | NType t => match readable t with Some u => Some (more w u, []) | None => None end
  | NFunction a =>
    match symbol a with
    | Some (Some t) => match readable t with Some u => Some (more w u, []) | None => None end
    | Some None => None
    | None => match readable [117; 110; 107; 110; 111; 119; 110]%Z with Some u => Some (more w u, []) | None => None end
    end
  | NCopy i => match fst w i with Some t => Some (more w t, []) | None => None end
  | NMove i => match fst w i with Some t => Some (more (put (fst w) i (Some []), snd w) t, []) | None => None end
  | NEnd i => match fst w i with Some _ => Some ((put (fst w) i None, snd w), []) | None => None end
  | NText i => match fst w i with Some t => Some (w, t) | None => None end
  end.
Fixpoint all_on_texts (w : texts) (os : list nop) : option (texts * list (list Z)) :=
  match os with
  | [] => Some (w, [])
  | o :: r =>
    match on_texts w o with
    | Some (w1, t) => match all_on_texts w1 r with Some (w2, l) => Some (w2, t :: l) | None => None end
    | None => None
    end
  end.
End Spec.
