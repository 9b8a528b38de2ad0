(** Which numbers the guess of a fraction concerns.  Nothing here refers to how the
    code prints or reads. *)
From Coq Require Import QArith Znumtheory.
From Verif Require Import Base NumRepr_Model NumRepr_Spec FracText_Model FracText_Spec Float_Spec FloatBig_Spec.
Local Open Scope Z_scope.

(** The number [x] below one is the nearest one to a short fraction in lowest terms. *)
Definition short_fraction (f : fmt) (x n q : Z) : Prop :=
  (fabs f x < 1)%Q /\ 1 <= n <= 127 /\ 2 <= q <= 2 ^ 17 /\ Z.gcd n q = 1 /\ nearest f (ratio n q) x.

(** Every prime factor of [q] divides the radix, or none does. *)
Definition factors_in (r q : Z) : Prop := forall p, prime p -> (p | q) -> (p | r).
Definition factors_out (r q : Z) : Prop := forall p, prime p -> (p | q) -> ~ (p | r).

(** No short fraction with factors that are foreign to the radix is rounded to [x]. *)
Definition no_guess (f : fmt) (r x : Z) : Prop :=
  forall n q, short_fraction f x n q -> factors_in r q.
(** The denominators of such fractions have no factor in common with the radix, and the
    numerators do not end in three zeros. *)
Definition plain_guess (f : fmt) (r x : Z) : Prop :=
  forall n q, short_fraction f x n q -> factors_in r q \/ factors_out r q /\ ~ (r ^ 3 | n).

(** The same number or one of its neighbours, given by bits. *)
Definition next_to (a b : Z) : Prop := Z.abs (a - b) <= 1.

(** What the theorems ask of the surroundings: exponents of at least 16 bits, usable
    representations, a limit of digits that is not below the logarithm of the greatest
    number as wide as the format, and a radix that leaves room for a digit more than a
    number has (sizes are of 64 bits). *)
Definition text_setting (f : fmt) (ew : Z) (R : repr) (M : marks) (limit_digits : Z) : Prop :=
  16 <= ew /\ repr_ok R /\ marks_ok R M /\ table_ok R M /\
  0 <= limit_digits /\ 2 ^ all_bits f - 1 <= radix R ^ limit_digits /\
  2 ^ (fm f + 1) * radix R < 2 ^ Z.max (all_bits f) 64.
