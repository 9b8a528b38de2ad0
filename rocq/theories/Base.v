(** Common helpers: option monad, list utilities.  Nothing in this file models
    code of /repo; it only supplies vocabulary. *)
From Coq Require Export List Arith ZArith Lia Bool.
From Coq Require Export ZifyBool ZifyNat ZifyN.
Export ListNotations.
Global Set Implicit Arguments.
Global Unset Strict Implicit.
Global Set Asymmetric Patterns.

(** [None] is undefined behaviour (out-of-bounds access, ...). *)
Definition obind {A B : Type} (x : option A) (f : A -> option B) : option B :=
  match x with Some a => f a | None => None end.

Declare Scope omonad_scope.
Notation "x <- e ;; k" := (obind e (fun x => k))
  (at level 61, e at next level, right associativity) : omonad_scope.
Notation "' p <- e ;; k" := (obind e (fun p => k))
  (at level 61, p pattern, e at next level, right associativity) : omonad_scope.

Lemma obind_some {A B} (x : option A) (f : A -> option B) r :
  obind x f = Some r -> exists a, x = Some a /\ f a = Some r.
Proof. destruct x as [a|]; cbn; intros H; [exists a; auto|discriminate]. Qed.

(** Replace the [n]-th element; out of bounds is undefined. *)
Fixpoint set_nth {A} (n : nat) (v : A) (l : list A) : option (list A) :=
  match l, n with
  | [], _ => None
  | _ :: r, O => Some (v :: r)
  | x :: r, S n' => option_map (cons x) (set_nth n' v r)
  end.

Definition b2z (b : bool) : Z := if b then 1%Z else 0%Z.
