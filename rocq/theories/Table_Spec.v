(** Specifications for stacks, the hash table and the map.  Nothing here
    mentions buckets, nodes or pointers. *)
From Coq Require Import Permutation.
From Verif Require Import Base Table_Model.

(** * The hash table as a multiset *)
Section TableSpec.
Variable T : Type.
Variable eqb : T -> T -> bool.

(** How many elements equal to [y] the table holds after the operations
    [past] (most recent first): every addition counts one, every removal
    takes one away if there is one, clearing takes all away. *)
Fixpoint copies (y : T) (past : list (top_t T)) : nat :=
  match past with
  | [] => 0
  | OAdd _ x :: r => (if eqb x y then 1 else 0) + copies y r
  | ORemove _ x :: r => if eqb x y then pred (copies y r) else copies y r
  | OFind _ _ :: r => copies y r
  | OClear :: _ => 0
  end.

(** The answer every operation of [os] must give after [past]. *)
Fixpoint answers (past os : list (top_t T)) : list bool :=
  match os with
  | [] => []
  | o :: r =>
    match o with
    | OAdd _ _ => true
    | ORemove _ x => Nat.ltb 0 (copies x past)
    | OFind _ x => Nat.ltb 0 (copies x past)
    | OClear => true
    end :: answers (o :: past) r
  end.

(** How many elements the table holds in total: additions minus removals
    that found something, since it was last cleared. *)
Fixpoint total (past : list (top_t T)) : nat :=
  match past with
  | [] => 0
  | OAdd _ _ :: r => S (total r)
  | ORemove _ x :: r => if Nat.ltb 0 (copies x r) then pred (total r) else total r
  | OFind _ _ :: r => total r
  | OClear :: _ => 0
  end.

(** The operation ran with the hash function [hf]. *)
Definition op_hash (hf : T -> Z) (o : top_t T) : Prop :=
  match o with OAdd h _ => h = hf | ORemove h _ => h = hf | OFind h _ => h = hf | OClear => True end.

(** [operator==] is an equivalence. *)
Definition equivalence : Prop :=
  (forall x, eqb x x = true) /\ (forall x y, eqb x y = eqb y x) /\
  (forall x y z, eqb x y = true -> eqb y z = true -> eqb x z = true).

(** The usual contract of a hash function: it never changes and equal
    elements have equal hashes. *)
Definition stable_hashes (hf : T -> Z) (os : list (top_t T)) : Prop :=
  (forall x y, eqb x y = true -> hf x = hf y) /\ Forall (op_hash hf) os.
End TableSpec.

(** * The map as a function from keys to values *)
Section MapSpec.
Variables K V : Type.
Variable keqb : K -> K -> bool.
Variable veqb : V -> V -> bool.
Variable dflt : V.

(** The values of all maps, and the keys that have an entry in each. *)
Definition store := nat -> K -> V.
Definition keyset := nat -> K -> bool.

(** At the start every key of every map has the default value, and no map has
    an entry. *)
Definition start : store * keyset := (fun _ _ => dflt, fun _ _ => false).

(** Effect of an operation on the values: [m[k]=v] changes the keys equal to
    [k] of the map written to, [clear] makes every key of the map the default,
    an updating [for_each] changes the keys with an entry; nothing else changes
    anything. *)
Definition effect_values (m : store) (s : keyset) (o : mop_t K V) : store :=
  match o with
  | MSet _ i k v => fun j k' => if Nat.eqb i j && keqb k k' then v else m j k'
  | MClear i => fun j k' => if Nat.eqb i j then dflt else m j k'
  | MUpdate i f => fun j k' => if Nat.eqb i j && s i k' then f (m j k') else m j k'
  | _ => m
  end.

(** Effect on which keys have an entry: a write and a read through the
    non-const [operator[]] make one, [shrink] and a comparison drop those with
    the default value, [clear] drops all. *)
Definition effect_keys (m : store) (s : keyset) (o : mop_t K V) : keyset :=
  match o with
  | MSet _ i k _ => fun j k' => Nat.eqb i j && keqb k k' || s j k'
  | MGet _ i k => fun j k' => Nat.eqb i j && keqb k k' || s j k'
  | MShrink i => fun j k' => s j k' && (negb (Nat.eqb i j) || negb (veqb (m j k') dflt))
  | MEq _ i i' => fun j k' => s j k' && (negb (Nat.eqb i j || Nat.eqb i' j) || negb (veqb (m j k') dflt))
  | MClear i => fun j k' => negb (Nat.eqb i j) && s j k'
  | _ => s
  end.

(** Both effects. *)
Definition effect (ms : store * keyset) (o : mop_t K V) : store * keyset :=
  (effect_values (fst ms) (snd ms) o, effect_keys (fst ms) (snd ms) o).

(** [ks] lists the keys of [s], each exactly once up to equality. *)
Definition lists_keys (s : K -> bool) (ks : list K) : Prop :=
  ForallOrdPairs (fun a b => keqb a b = false) ks /\
  forall k, s k = true <-> exists k', In k' ks /\ keqb k' k = true.

(** The answer an operation must give: reading gives the value of the key (up
    to equality of values), comparing gives [true] exactly when both maps agree
    on every key, [for_each] visits the value of every key with an entry once,
    and the size is the number of such keys. *)
Definition answer_ok (ms : store * keyset) (o : mop_t K V) (a : mans V) : Prop :=
  let (m, s) := ms in
  match o with
  | MSet _ _ _ _ => a = ANone V
  | MShrink _ => a = ANone V
  | MGet _ i k => exists v, a = AVal v /\ veqb v (m i k) = true
  | MCGet _ i k => exists v, a = AVal v /\ veqb v (m i k) = true
  | MEq _ i j => exists b, a = ABool V b /\ (b = true <-> forall k, veqb (m i k) (m j k) = true)
  | MClear _ => a = ANone V
  | MVisit i => exists vs ks, a = AVals vs /\ lists_keys (s i) ks /\ Forall2 (fun v k => veqb v (m i k) = true) vs ks
  | MUpdate _ _ => a = ANone V
  | MSize i => exists ks, a = ASize V (Z.of_nat (length ks)) /\ lists_keys (s i) ks
  end.

(** All answers of a history are right. *)
Fixpoint answers_ok (ms : store * keyset) (os : list (mop_t K V)) (l : list (mans V)) : Prop :=
  match os, l with
  | [], [] => True
  | o :: os', a :: l' => answer_ok ms o a /\ answers_ok (effect ms o) os' l'
  | _, _ => False
  end.

(** The operation may make an entry in map [i]. *)
Definition fills (i : nat) (o : mop_t K V) : Prop :=
  match o with MSet _ j _ _ => j = i | MGet _ j _ => j = i | _ => False end.

(** The operation runs with the hash function [hk]. *)
Definition mop_hash (hk : K -> Z) (o : mop_t K V) : Prop :=
  match o with
  | MSet h _ _ _ => h = hk
  | MGet h _ _ => h = hk
  | MCGet h _ _ => h = hk
  | MEq h _ _ => h = hk
  | _ => True
  end.

(** The operation does not compare a map with itself, and a callback that
    updates values gives equal results for equal values. *)
Definition usual_op (o : mop_t K V) : Prop :=
  match o with
  | MEq _ i j => i <> j
  | MUpdate _ f => forall x y, veqb x y = true -> veqb (f x) (f y) = true
  | _ => True
  end.

(** The usual contract of a hash function. *)
Definition stable_key_hashes (hk : K -> Z) (os : list (mop_t K V)) : Prop :=
  (forall x y, keqb x y = true -> hk x = hk y) /\ Forall (mop_hash hk) os.
End MapSpec.
