(** What the text of a number says, and which texts are numbers.  Nothing here refers
    to how the code prints or reads. *)
From Coq Require Import QArith Znumtheory.
From Verif Require Import Base NumRepr_Model NumRepr_Spec FracText_Model.
Local Open Scope Z_scope.

Definition mark_list (M : marks) : list Z :=
  [m_point M; m_plus M; m_minus M; m_slash M; m_exp M].

(** Contains a character that occurs in no number. *)
Definition has_foreign (R : repr) (M : marks) (s : list Z) : Prop :=
  exists c, In c s /\ is_valid_char R c = false /\ ~ In c (mark_list M).

(** Usable marks: different from each other and from the digits; the special texts are
    different, are no numbers and do not begin with a sign. *)
Definition marks_ok (R : repr) (M : marks) : Prop :=
  NoDup (mark_list M) /\
  Forall (fun c => is_valid_char R c = false) (mark_list M) /\
  has_foreign R M (m_nan M) /\ has_foreign R M (m_inf M) /\ m_nan M <> m_inf M /\
  hd (m_minus M) (m_inf M) <> m_minus M /\ hd (m_minus M) (m_inf M) <> m_plus M.

(** The table lists the primes of the radix. *)
Definition table_ok (R : repr) (M : marks) : Prop :=
  Forall (fun i => 1 < i /\ (i | radix R)) (m_primes M) /\
  forall p, prime p -> (p | radix R) -> In p (m_primes M).

Section Grammar.
Variable R : repr.
Variable M : marks.
Local Open Scope Q_scope.

Definition rad : Q := inject_Z (radix R).

(** "digits" or "digits . digits" *)
Inductive plain_text : list Z -> Q -> Prop :=
| PT_int s : all_digits R s = true -> plain_text s (inject_Z (text_val R s))
| PT_point a b : all_digits R a = true -> all_digits R b = true ->
    plain_text (a ++ m_point M :: b)
      (inject_Z (text_val R a) + inject_Z (text_val R b) / rad ^ Z.of_nat (length b)).

(** "a" or "a / b / c ...", grouped to the right *)
Inductive ratio_text : list Z -> Q -> Prop :=
| RT_plain s v : plain_text s v -> ratio_text s v
| RT_over a b va vb : plain_text a va -> ratio_text b vb -> ~ vb == 0 ->
    ratio_text (a ++ m_slash M :: b) (va / vb).

(** an exponent: digits, possibly after a sign *)
Inductive exp_text : list Z -> Z -> Prop :=
| ET_digits s : s <> [] -> all_digits R s = true -> exp_text s (text_val R s)
| ET_plus s : all_digits R s = true -> exp_text (m_plus M :: s) (text_val R s)
| ET_minus s : all_digits R s = true -> exp_text (m_minus M :: s) (- text_val R s).

(** a number, possibly followed by an exponent *)
Inductive number_text : list Z -> Q -> Prop :=
| NT_ratio s v : ratio_text s v -> number_text s v
| NT_exp s v t e : number_text s v -> exp_text t e ->
    number_text (s ++ m_exp M :: t) (v * rad ^ e).

(** The text says this value. *)
Definition denotes (s : list Z) (v : Q) : Prop := exists v', number_text s v' /\ v' == v.

(** The fraction has this value. *)
Definition frac_is (num den : Z) (v : Q) : Prop :=
  (0 < den)%Z /\ inject_Z num / inject_Z den == v.

(** The same texts without regard to values, so with denominators 0 as well. *)
Inductive plain_shape : list Z -> Prop :=
| PS_int s : all_digits R s = true -> plain_shape s
| PS_point a b : all_digits R a = true -> all_digits R b = true ->
    plain_shape (a ++ m_point M :: b).
Inductive ratio_shape : list Z -> Prop :=
| RS_plain s : plain_shape s -> ratio_shape s
| RS_over a b : plain_shape a -> ratio_shape b -> ratio_shape (a ++ m_slash M :: b).
Inductive number_shape : list Z -> Prop :=
| NS_ratio s : ratio_shape s -> number_shape s
| NS_exp s t e : number_shape s -> exp_text t e -> number_shape (s ++ m_exp M :: t).
End Grammar.
