(** Specifications for the number-theoretic functions, on plain integers. *)
From Coq Require Export Znumtheory.
From Verif Require Import Base.
Local Open Scope Z_scope.

(** The square root oracle is the exact floor or one more. *)
Definition sqrt_ok (sq : Z -> Z) : Prop := forall a, 0 <= a -> Z.sqrt a <= sq a <= Z.sqrt a + 1.
(** [x] is a value of the type with [M] values (0: unbounded). *)
Definition fits (M x : Z) : Prop := 0 <= x /\ (M = 0 \/ x < M).
(** Type sizes considered: unbounded or at least 8 bits. *)
Definition type_ok (M : Z) : Prop := M = 0 \/ 256 <= M.

(** [p] is the least prime not below [a]. *)
Definition least_prime_from (a p : Z) : Prop :=
  prime p /\ a <= p /\ forall q, prime q -> a <= q -> p <= q.
(** [p] is the greatest prime not above [a]. *)
Definition greatest_prime_upto (a p : Z) : Prop :=
  prime p /\ p <= a /\ forall q, prime q -> q <= a -> q <= p.

(** Product of a list. *)
Definition prod (l : list Z) : Z := fold_right Z.mul 1 l.
(** Non-decreasing. *)
Definition nondecreasing (l : list Z) : Prop :=
  forall i j x y, (i < j)%nat -> nth_error l i = Some x -> nth_error l j = Some y -> x <= y.

(** Product of [n] consecutive numbers from [s] on. *)
Fixpoint rising (n : nat) (s : Z) : Z :=
  match n with O => 1 | S n' => s * rising n' (s + 1) end.
