(** Specification of the random generator: what a state is, which word of the table a
    draw uses, and sequences of draws. *)
From Verif Require Import Base Seed_Model.
Local Open Scope Z_scope.

(** A byte. *)
Definition is_byte (b : Z) : Prop := 0 <= b < 256.
(** The word of [n] bytes with index [i] in a table of bytes, low byte first. *)
Fixpoint bytes_value (l : list Z) : Z :=
  match l with [] => 0 | b :: r => b + 256 * bytes_value r end.
Definition cell (n i : nat) (l : list Z) : Z := bytes_value (firstn n (skipn (i * n) l)).
(** The bytes of a word, low byte first. *)
Fixpoint word_bytes (n : nat) (x : Z) : list Z :=
  match n with O => [] | S n' => x mod 256 :: word_bytes n' (x / 256) end.
(** The top [h] bits of a 64-bit word. *)
Definition top_bits (h x : Z) : Z := x / 2 ^ (64 - h).
(** The seed after [n] steps of sowing. *)
Definition sown (n : nat) (s : Z) : Z := Nat.iter n (fun x => (13 * x + 7) mod 2 ^ 64) s.
(** A sequence of words drawn one after the other: sizes (powers of two, in bytes) and
    values. *)
Inductive draws {G : Type} (draw : nat -> G -> option (Z * G)) : G -> list (nat * Z) -> G -> Prop :=
| draws_nil : forall g, draws draw g [] g
| draws_cons : forall g g1 g2 k x ws, draw k g = Some (x, g1) -> draws draw g1 ws g2 ->
    draws draw g ((k, x) :: ws) g2.
(** A state of the generator: a 64-bit seed and a table of 2048 bytes. *)
Definition wf (g : gen) : Prop :=
  0 <= g_seed g < 2 ^ 64 /\ length (g_table g) = table_bytes /\ Forall is_byte (g_table g).
(** The bytes of the words of a sequence of draws, one word after the other. *)
Definition laid (ws : list (nat * Z)) : list Z :=
  concat (map (fun kx => word_bytes (Nat.pow 2 (fst kx)) (snd kx)) ws).
