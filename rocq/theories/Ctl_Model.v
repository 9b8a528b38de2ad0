(** Control flow in lists of statements: what is evaluated, in which order, when
    statements leave by the exceptions of the interpreter.
    Models H/core/nodes/code_list.hpp:31-60 with
    H/core/runtime_exception/core_runtime_internal_helper.hpp:31-42
    (H = parts/header_file/files/elc/_files).

    A program is a memory of list cells, a cell being numbered by its position:
    its statement (car) and the next cell (cdr), none at the end of the list.
    Simplified: a value is what it is read as at once (see C73 for values that
    are read later); evaluating a statement other than a list has one effect, the
    number it evaluates to. *)
From Verif Require Import Base.

(** Statements: a node that evaluates to [e]; functions that throw return_t,
    goto_t or another exception (core_runtime_internal_helper.hpp:38-41); a list
    of statements, by its first cell (code_list.hpp:37). *)
Inductive stmt := Do (e : Z) | Ret | Jump (a : nat) | Raise (x : Z) | Sub (a : nat).
(** The list cells (H/core/nodes/cons.hpp:31-52). *)
Definition prog := list (stmt * option nat).

(** The outcome of a list: what was evaluated and the value, [None] if no
    statement had been completed; an exception that is not caught; the use of a
    cell that does not exist; [Spin]: the fuel was too small. *)
Inductive result := Fin (tr : list Z) (v : option Z) | Exc (tr : list Z) (x : Z) | Undef | Spin.

(** Effects that came before (language semantics). *)
Definition pre (t : list Z) (r : result) : result :=
  match r with
  | Fin tr v => Fin (t ++ tr) v
  | Exc tr x => Exc (t ++ tr) x
  | r => r
  end.

(** code_list.hpp:43-60, be_eval from the cell [self] with the value [aret] so
    far: the do-while loop (48-51), the handlers of goto_t (53-56) and return_t
    (57-58).  A statement that is a list handles the exceptions of its own
    statements (31-36 call be_eval again). *)
Fixpoint go (fuel : nat) (P : prog) (self : nat) (aret : option Z) : result :=
  match fuel with
  | O => Spin
  | S f =>
      match nth_error P self with
      | None => Undef
      | Some (st, nx) =>
          match st with
          | Do e => pre [e] (match nx with None => Fin [] (Some e) | Some n => go f P n (Some e) end)
          | Ret => Fin [] aret
          | Jump a => go f P a aret
          | Raise x => Exc [] x
          | Sub a =>
              match go f P a None with
              | Fin tr v => pre tr (match nx with None => Fin [] v | Some n => go f P n v end)
              | r => r
              end
          end
      end
  end.
