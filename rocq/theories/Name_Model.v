(** Model of the names of types and functions: [demangle_name_t]
    (H/base_defs/type_name.hpp) and [function_name_t] on Linux
    (S/APIs/function_name.hpp), as compiled by gcc and clang.
    Simplifications: memory does not run out; copying no characters from the null
    pointer does nothing. *)
From Verif Require Import Base.

(** A name: a pointer to a block of memory (or null) and a length
    (H/base_defs/array_like.hpp, [_begin] and [_size]); [NGone] before and after its
    life. *)
Inductive nvar := NGone | NLive (p : option nat) (n : nat).
(** How an operation ends; [NUndef]: undefined behaviour. *)
Inductive no (A : Type) := NFine (a : A) | NUndef.
Arguments NFine {A}. Arguments NUndef {A}.
(** Sequencing (language semantics). *)
Definition nbind {A B} (x : no A) (f : A -> no B) : no B := match x with NFine a => f a | NUndef => NUndef end.

Section Names.
(** [abi::__cxa_demangle] (external, H/base_defs/type_name.hpp:46): [None] where the
    status is not 0, else the readable name and what is behind its terminator in the
    new block of memory.  The length that it gives is the size of the block. *)
Variable dem : list Z -> option (list Z * list Z).
(** [dladdr] (external, S/APIs/function_name.hpp:145): [None] where no library has the
    address; otherwise the name of the function there, or the null pointer. *)
Variable dl : Z -> option (option (list Z)).

(** The memory and the names of a program (language semantics). *)
Record nst := mkN { nmem : nat -> option (list Z); nblk : nat; nvars : nat -> nvar; ncnt : nat }.
(** Nothing there yet. *)
Definition nst0 : nst := mkN (fun _ => None) 0 (fun _ => NGone) 0.
(** Changing one place (language semantics). *)
Definition nset {A} (f : nat -> A) (i : nat) (x : A) : nat -> A := fun j => if Nat.eqb j i then x else f j.

(** [malloc] and filling the block (H/base_defs/type_name.hpp:46,66-70). *)
Definition n_alloc (s : nst) (t : list Z) : nst * nat :=
  (mkN (nset (nmem s) (nblk s) (Some t)) (S (nblk s)) (nvars s) (ncnt s), nblk s).
(** A new name. *)
Definition n_new (s : nst) (v : nvar) : nst := mkN (nmem s) (nblk s) (nset (nvars s) (ncnt s) v) (S (ncnt s)).
(** [free] (H/base_defs/type_name.hpp:92): of null it does nothing, of a block that is
    not there it is undefined. *)
Definition n_free (s : nst) (p : option nat) : no nst :=
  match p with
  | None => NFine s
  | Some b => match nmem s b with
              | Some _ => NFine (mkN (nset (nmem s) b None) (nblk s) (nvars s) (ncnt s))
              | None => NUndef
              end
  end.
(** [demangle] and the constructor (H/base_defs/type_name.hpp:37-61,80): where the status
    is not 0 it frees the name it was given (50), which is not a block of its own but
    belongs to the type information, the library or the program text; and for the
    null pointer it counts the characters at null (49). *)
Definition n_make (s : nst) (name : option (list Z)) : no nst :=
  match name with
  | None => NUndef
  | Some t =>
    match dem t with
    | None => NUndef
    | Some (u, g) => let '(s1, b) := n_alloc s (u ++ 0%Z :: g) in NFine (n_new s1 (NLive (Some b) (length (u ++ 0%Z :: g))))
    end
  end.
(** The characters of a name (H/base_defs/array_like.hpp: [begin], [size]). *)
Definition n_read (s : nst) (p : option nat) (n : nat) : no (list Z) :=
  match p with
  | None => if Nat.eqb n 0 then NFine [] else NUndef
  | Some b => match nmem s b with
              | Some t => if Nat.leb n (length t) then NFine (firstn n t) else NUndef
              | None => NUndef
              end
  end.

(** The letters of "unknown" (S/APIs/function_name.hpp:148). *)
Definition unknown : list Z := [117; 110; 107; 110; 111; 119; 110]%Z.

(** What a program does with names: the name of a type
    (H/base_defs/type_name.hpp:100-110) with the name [t] in its type information, of
    the function at an address (S/APIs/function_name.hpp:128-150), copying (82), moving
    (84-86), the end of a name (88-93), reading its characters. *)
Inductive nop := NType (t : list Z) | NFunction (a : Z) | NCopy (i : nat) | NMove (i : nat) | NEnd (i : nat) | NText (i : nat).

(** One operation (lines as for [nop]).  Using a name before or after its life is
    undefined (language semantics).  The copy has as many characters as the source
    and a terminator behind them; the latter is not part of it (66-71). *)
Definition n_op (s : nst) (o : nop) : no (nst * list Z) :=
  match o with
  | NType t => nbind (n_make s (Some t)) (fun s1 => NFine (s1, []))
  | NFunction a =>
    nbind (n_make s (match dl a with Some name => name | None => Some unknown end)) (fun s1 => NFine (s1, []))
  | NCopy i =>
    match nvars s i with
    | NGone => NUndef
    | NLive p n =>
      nbind (n_read s p n) (fun t =>
      let '(s1, b) := n_alloc s (t ++ [0%Z]) in NFine (n_new s1 (NLive (Some b) n), []))
    end
  | NMove i =>
    match nvars s i with
    | NGone => NUndef
    | NLive p n =>
      NFine (n_new (mkN (nmem s) (nblk s) (nset (nvars s) i (NLive None 0)) (ncnt s)) (NLive p n), [])
    end
  | NEnd i =>
    match nvars s i with
    | NGone => NUndef
    | NLive p n =>
      nbind (n_free s p) (fun s1 => NFine (mkN (nmem s1) (nblk s1) (nset (nvars s1) i NGone) (ncnt s1), []))
    end
  | NText i =>
    match nvars s i with
    | NGone => NUndef
    | NLive p n => nbind (n_read s p n) (fun t => NFine (s, t))
    end
  end.
(** A program (language semantics): the state at its end and what it read. *)
Fixpoint n_run (s : nst) (os : list nop) : no (nst * list (list Z)) :=
  match os with
  | [] => NFine (s, [])
  | o :: r => nbind (n_op s o) (fun '(s1, t) => nbind (n_run s1 r) (fun '(s2, l) => NFine (s2, t :: l)))
  end.
End Names.
