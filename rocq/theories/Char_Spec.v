(** What the classification functions are to mean, in terms of Unicode's categories. *)
From Verif Require Import Base Char_Unicode.
Local Open Scope Z_scope.

(** The character [c] has the general category [g]; what has no row is unassigned, as is
    everything above 10FFFF. *)
Definition category_of (c : Z) (g : gc) : Prop :=
  (exists lo hi v, In ((lo, hi), (g, v)) unicode /\ lo <= c <= hi) \/
  (g = Cn /\ forall lo hi h v, In ((lo, hi), (h, v)) unicode -> ~ (lo <= c <= hi)).
Definition has_category (c : Z) (l : list gc) : Prop := exists g, category_of c g /\ In g l.
(** The function returns, and true exactly if [P]. *)
Definition says (o : option bool) (P : Prop) : Prop := exists b, o = Some b /\ (b = true <-> P).
(** Values of [char_t]. *)
Definition char32 (c : Z) : Prop := 0 <= c < 2 ^ 32.

Definition letters : list gc := [Lu; Ll; Lt; Lm; Lo].
Definition numbers : list gc := [Nd; Nl; No].
Definition separators : list gc := [Zs; Zl; Zp].
Definition others : list gc := [Cc; Cf; Cs; Co; Cn].
Definition punctuation : list gc := [Pc; Pd; Ps; Pe; Pi; Pf; Po].
