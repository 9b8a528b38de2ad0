(** What searching from a position, replacing and splitting mean, independently
    of the code. *)
From Verif Require Import Base Range_Spec Find_Model.

(** [r] is the position in [text] of the first occurrence of [pat] that starts
    at [begin] or later, [None] if there is none. *)
Definition first_from (pat text : list Z) (begin : nat) (r : option nat) : Prop :=
  first_with (fun k => begin <= k /\ occurs pat text k) r.

(** The memory behind the text does not take part in any occurrence of [pat]
    (for instance zeros, when [pat] has none), and there are as many readable
    characters there as [pat] has. *)
Definition quiet (pat text tail : list Z) : Prop :=
  length pat <= length tail /\
  forall k, occurs pat (text ++ tail) k -> k + length pat <= length text.

(** [replaced pat by l r]: [r] is [l] with every occurrence of [pat], taken from
    the left and without overlaps, replaced by [by]. *)
Inductive replaced (pat by_ : list Z) : list Z -> list Z -> Prop :=
| replaced_none l : (forall k, ~ occurs pat l k) -> replaced pat by_ l l
| replaced_some a c r :
    least (occurs pat (a ++ pat ++ c)) (length a) ->
    replaced pat by_ c r ->
    replaced pat by_ (a ++ pat ++ c) (a ++ by_ ++ r).

(** [pat] occurs at least twice without overlap: once first, and once more
    behind that. *)
Definition twice (pat text : list Z) : Prop :=
  exists k j, least (occurs pat text) k /\ occurs pat text j /\ k + length pat <= j.

(** The fields of a text separated by a character: [fields d l] lists the parts
    between the occurrences of [d]. *)
Fixpoint fields (d : Z) (l : list Z) : list (list Z) :=
  match l with
  | [] => [[]]
  | x :: r =>
      if Z.eq_dec x d then [] :: fields d r
      else match fields d r with
           | f :: fs => (x :: f) :: fs
           | [] => [[x]]
           end
  end.

(** [p] is a beginning / an end of [l]. *)
Definition begins (p l : list Z) : Prop := exists c, l = p ++ c.
Definition ends (p l : list Z) : Prop := exists a, l = a ++ p.

(** Texts that fit into half of the address space. *)
Definition small (text : list Z) : Prop := (Z.of_nat (length text) < 2 ^ 63)%Z.

(** What the memory behind the text must satisfy for a search that finds nothing:
    nothing when a single character is searched for. *)
Definition safe_miss (n : needle) (text tail : list Z) : Prop :=
  match n with NChar _ => True | _ => quiet (needle_chars n) text tail end.

(** What arec returns when the first delimiter is at position [k]: compared with
    [fields] in the theorems. *)
Definition arec_gives (n : needle) (text : list Z) (k index : nat) : list Z :=
  match n with
  | NOwn _ => []
  | _ => if Nat.odd index then firstn k text else match k with O => [] | _ => skipn k text end
  end.
