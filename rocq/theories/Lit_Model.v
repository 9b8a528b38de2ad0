(** Number literals.  Models H/base_defs/literal_support.hpp and
    H/bignum/bignum/literal.hpp:32-64 (H = parts/header_file/files/elc/_files) and
    the 128-bit literals of S/basic_environment/pre_math.hpp:57-64.

    The literal is the list of its characters, as the compiler hands it to the
    literal operator (prefix, digits, separators, point and exponent).  A literal
    that a static_assert refuses is [None].
    Simplification: characters are those of an ASCII execution character set; big
    integers and fractions are given by their values. *)
From Verif Require Import Base.
From Coq Require Import Ascii QArith.
Local Open Scope Z_scope.

Definition code (c : ascii) : Z := Z.of_N (N_of_ascii c).

(** literal_support.hpp:32-46 [hexval] ('a' > 'A'). *)
Definition hexval (c : ascii) : Z :=
  if code "a" <=? code c then code c + 10 - code "a"
  else if code "A" <=? code c then code c + 10 - code "A"
  else code c - code "0".

(** literal_support.hpp:89-93 [char_checker]. *)
Definition char_ok (base : Z) (c : ascii) : bool :=
  (((code "0" <=? code c) && (code c <=? code "9")) ||
   ((code "a" <=? code c) && (code c <=? code "f")) ||
   ((code "A" <=? code c) && (code c <=? code "F"))) && (hexval c <? base).

Section Lit.
(** Width of size_t. *)
Variable sw : Z.

(** literal_support.hpp:59-80 [fast_integer_iterator]: the value, the block and the
    scale. *)
Record blocks := mkIter { i_val : Z; i_block : Z; i_scale : Z }.
Definition iter_start : blocks := mkIter 0 0 1.
Definition iter_push (base : Z) (c : ascii) (i : blocks) : blocks :=
  let new_scale := (i_scale i * base) mod 2 ^ sw in
  if new_scale <? i_scale i then
    mkIter (i_val i * i_scale i + i_block i) (hexval c) base
  else mkIter (i_val i) ((i_block i * base + hexval c) mod 2 ^ sw) new_scale.
Definition iter_end (i : blocks) : Z := i_val i * i_scale i + i_block i.

(** literal_support.hpp:97-106 [eval_impl]. *)
Fixpoint eval_impl (base : Z) (cs : list ascii) (i : blocks) : option blocks :=
  match cs with
  | [] => Some i
  | c :: cs' =>
    if Ascii.eqb c "'" then eval_impl base cs' i
    else if char_ok base c then eval_impl base cs' (iter_push base c i)
    else None
  end.

(** literal_support.hpp:108-117 [do_eval]. *)
Definition do_eval (base : Z) (cs : list ascii) : option Z :=
  option_map iter_end (eval_impl base cs iter_start).

(** literal_support.hpp:119-159 [eval_differ], [eval_with_base]. *)
Definition eval_with_base (default_base : Z) (cs : list ascii) : option Z :=
  match cs with
  | c :: cs1 =>
    if Ascii.eqb c "0" then
      match cs1 with
      | c1 :: cs2 =>
        if Ascii.eqb c1 "x" || Ascii.eqb c1 "X" then do_eval 16 cs2
        else if Ascii.eqb c1 "b" || Ascii.eqb c1 "B" then do_eval 2 cs2
        else do_eval 8 cs1
      | [] => do_eval 8 cs1
      end
    else do_eval default_base cs
  | [] => do_eval default_base cs
  end.

(** literal.hpp:32-35 and literal_support.hpp:160-163: a ubigint literal. *)
Definition ubigint_literal (cs : list ascii) : option Z := eval_with_base 10 cs.

(** literal_support.hpp:165-188 [signed_integer_literal_evaler]. *)
Definition signed_eval_with_base (default_base : Z) (cs : list ascii) : option Z :=
  match cs with
  | c :: cs' => if Ascii.eqb c "-" then option_map Z.opp (eval_with_base default_base cs')
                else eval_with_base default_base cs
  | [] => eval_with_base default_base cs
  end.
(** literal.hpp:36-39: a bigint literal. *)
Definition bigint_literal (cs : list ascii) : option Z := signed_eval_with_base 10 cs.

(** literal_support.hpp:191-212 [eval_impl] of a literal with a point and an
    exponent; the upper case of the exponent character is 32 below. *)
Fixpoint feval_impl (base : Z) (exp_char : ascii) (pointed : bool) (cs : list ascii) (i : blocks) (exp : Z)
  : option (blocks * Z) :=
  match cs with
  | [] => Some (i, exp)
  | c :: cs' =>
    if Ascii.eqb c "." then
      if pointed then None else feval_impl base exp_char true cs' i exp
    else if (code c =? code exp_char) || (code c =? code exp_char - 32) then
      match signed_eval_with_base base cs' with
      | Some e => Some (i, exp + e)
      | None => None
      end
    else if Ascii.eqb c "'" then feval_impl base exp_char pointed cs' i exp
    else if char_ok base c then
      feval_impl base exp_char pointed cs' (iter_push base c i) (if pointed then exp - 1 else exp)
    else None
  end.

(** literal_support.hpp:214-225 [do_eval]: the value times the base to the power of
    the exponent. *)
Definition fdo_eval (base : Z) (exp_char : ascii) (cs : list ascii) : option Q :=
  match feval_impl base exp_char false cs iter_start 0 with
  | Some (i, exp) => Some (inject_Z (iter_end i) * (inject_Z base) ^ exp)%Q
  | None => None
  end.

(** literal_support.hpp:227-253, literal.hpp:41-49: a ubigfloat literal. *)
Definition ubigfloat_literal (cs : list ascii) : option Q :=
  match cs with
  | c :: c1 :: cs2 =>
    if Ascii.eqb c "0" && (Ascii.eqb c1 "x" || Ascii.eqb c1 "X") then fdo_eval 16 "p" cs2
    else fdo_eval 10 "e" cs
  | _ => fdo_eval 10 "e" cs
  end.

(** literal_support.hpp:49-58 [integer_iterator] for built-in integers of [n] bits,
    pre_math.hpp:57-60: an unsigned 128-bit literal ([n] = 128). *)
Fixpoint neval_impl (n base : Z) (cs : list ascii) (v : Z) : option Z :=
  match cs with
  | [] => Some v
  | c :: cs' =>
    if Ascii.eqb c "'" then neval_impl n base cs' v
    else if char_ok base c then neval_impl n base cs' (((v * base) mod 2 ^ n + hexval c) mod 2 ^ n)
    else None
  end.
Definition native_literal (n : Z) (cs : list ascii) : option Z :=
  match cs with
  | c :: cs1 =>
    if Ascii.eqb c "0" then
      match cs1 with
      | c1 :: cs2 =>
        if Ascii.eqb c1 "x" || Ascii.eqb c1 "X" then neval_impl n 16 cs2 0
        else if Ascii.eqb c1 "b" || Ascii.eqb c1 "B" then neval_impl n 2 cs2 0
        else neval_impl n 8 cs1 0
      | [] => neval_impl n 8 cs1 0
      end
    else neval_impl n 10 cs 0
  | [] => neval_impl n 10 cs 0
  end.
End Lit.
