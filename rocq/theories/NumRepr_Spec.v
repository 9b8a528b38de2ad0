(** Specification vocabulary for texts of numbers: positional notation.  Nothing
    here refers to how the code converts. *)
From Verif Require Import Base NumRepr_Model.
Open Scope Z_scope.

(** Value of a digit sequence, most significant digit first. *)
Definition pos_val (r : Z) (ds : list Z) : Z := fold_left (fun acc d => acc * r + d) ds 0.

Definition digits_in (r : Z) (ds : list Z) : Prop := Forall (fun d => 0 <= d < r) ds.

(** [s] is the usual numeral of [n]: the digits of [n], no superfluous zero in
    front, "0" for zero. *)
Definition numeral_of (R : repr) (n : Z) (s : list Z) : Prop :=
  exists ds, s = map (get_char R) ds /\ digits_in (radix R) ds /\ pos_val (radix R) ds = n /\
             ds <> [] /\ (hd 0 ds = 0 -> ds = [0]).

(** Every character of [s] is a digit of the representation. *)
Definition all_digits (R : repr) (s : list Z) : bool := forallb (is_valid_char R) s.

(** Positional value of a text of digits. *)
Definition text_val (R : repr) (s : list Z) : Z := pos_val (radix R) (map (get_index R) s).

(** A usable representation: at least two digits; characters and digit values
    correspond one to one. *)
Definition repr_ok (R : repr) : Prop :=
  2 <= radix R /\
  (forall i, 0 <= i < radix R -> is_valid_char R (get_char R i) = true /\ get_index R (get_char R i) = i) /\
  (forall c, is_valid_char R c = true ->
     0 <= get_index R c < radix R /\ get_char R (get_index R c) = c).

(** The number [I . P [Q]] in radix [r] -- integer part [I], digits [P], then
    [Q] repeated for ever -- equals [num/den]; cross-multiplied form of
    [I + P/r^|P| + Q/(r^|P| (r^|Q| - 1))]. *)
Definition expansion_is (r I : Z) (P : list Z) (Q : option (list Z)) (num den : Z) : Prop :=
  let p := r ^ Z.of_nat (length P) in
  match Q with
  | None => num * p = den * (I * p + pos_val r P)
  | Some Q =>
      let q := r ^ Z.of_nat (length Q) - 1 in
      Q <> [] /\ num * p * q = den * ((I * p + pos_val r P) * q + pos_val r Q)
  end.

(** The expansion of [num/den] ends. *)
Definition terminating (r num den : Z) : Prop := exists k, 0 <= k /\ (den | num * r ^ k).
(** The expansion of [num/den] repeats from the first digit after the point. *)
Definition purely_periodic (r num den : Z) : Prop := exists k, 0 < k /\ (den | num * (r ^ k - 1)).

(** The text of such an expansion after the point. *)
Definition expansion_text (R : repr) (open_ close_ : Z) (P : list Z) (Q : option (list Z)) : list Z :=
  match Q with
  | None => map (get_char R) P
  | Some Q => map (get_char R) P ++ open_ :: map (get_char R) Q ++ [close_]
  end.
