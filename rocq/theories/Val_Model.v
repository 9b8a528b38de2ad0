(** Model of the interpreter's values (H/core/base_def/value.hpp) and of the
    evaluation of a list of statements (H/core/nodes/code_list.hpp).

    A [value] is a counting pointer to a data object, which can be replaced
    (H/base/memory/other/replace_able.hpp, H/base/memory/ptr/ptr/base_ptr_t.hpp).
    Data objects are numbered in the order of their creation; number 0 is the
    one [null_data].  A node is a number; 0 is the void node.
    Outcomes as in Ref_Model.v: [Ub] is the use of a value that does not exist,
    [Out] means that the fuel was too small.
    Simplifications: no data object is freed while a pointer leads to it, which
    is C60, so reference counters and the destruction of values are left out
    here; one thread; only the three kinds of data of value.hpp. *)
From Verif Require Import Base.
From Verif Require Import Ref_Model.
Local Open Scope nat_scope.

(** [null_data_t], [constexpr_data_t], [variable_data_t]
    (H/core/base_def/value.hpp:67-102). *)
Inductive dkind := KNull | KConst | KVar.
(** A data object: what replaced it, if anything
    (H/base/memory/other/replace_able.hpp:35), its kind, the node in it
    (H/core/base_def/value.hpp:80,93). *)
Record dcell := mkD { dfwd : option nat; dk : dkind; dnode : Z }.
(** The data objects and the [value]s, each with the address in its pointer
    (H/core/base_def/value.hpp:104). *)
Record vstate := mkVs { data : list dcell; vals : list nat }.

(** Continuation of a step (language semantics). *)
Definition vthen {A B} (r : res A) (k : A -> res B) : res B :=
  match r with Ok a => k a | Ub => Ub | Out => Out end.
(** Access that must succeed (language semantics). *)
Definition vmust {A} (o : option A) : res A := match o with Some a => Ok a | None => Ub end.

(** [get_ptr] (H/base/memory/other/replace_able.hpp:43-48). *)
Fixpoint follow (fuel : nat) (d : list dcell) (a : nat) : res nat :=
  match fuel with
  | 0 => Out
  | S f => vthen (vmust (nth_error d a)) (fun x =>
           match dfwd x with None => Ok a | Some b => follow f d b end)
  end.

(** [be_replace_as] (H/base/memory/other/replace_able.hpp:49-55). *)
Definition replace_data (d : list dcell) (a p : nat) : res (list dcell) :=
  vthen (vmust (nth_error d a)) (fun x =>
  Ok (upd d a (mkD (if Nat.eqb p a then None else Some p) (dk x) (dnode x)))).

(** [_m.get()], which stores the address it found in the value
    (H/base/memory/ptr/ptr/base_ptr_t.hpp:115-119,131-134). *)
Definition look (fuel : nat) (s : vstate) (x : nat) : res (vstate * nat) :=
  vthen (vmust (nth_error (vals s) x)) (fun a =>
  vthen (follow fuel (data s) a) (fun r => Ok (mkVs (data s) (upd (vals s) x r), r))).
(** The same through a copy of the value, which is then thrown away: the
    argument of [ref_to], [re_ref_to] and [>>] is a copy
    (H/core/base_def/value.hpp:138,144,147). *)
Definition look_copy (fuel : nat) (s : vstate) (x : nat) : res nat :=
  vthen (vmust (nth_error (vals s) x)) (fun a => follow fuel (data s) a).

(** Operations of a program on values (H/core/base_def/value.hpp): [value()]
    (106), [value(special_init)] (107), [value(ptr)] (108), copy construction
    (112), [x = ptr] (116-119), [ptr(x)] (124-126), [x.ref_to(y)] (138-140),
    [x.un_ref()] (141-143), [x.re_ref_to(y)] (144-146), [x >> y] (147-150). *)
Inductive vop :=
| VNew | VNull | VConst (p : Z) | VCopy (x : nat) | VSet (x : nat) (p : Z) | VGet (x : nat)
| VRefTo (x y : nat) | VUnRef (x : nat) | VReRef (x y : nat) | VShift (x y : nat).
(** What a program sees (language semantics). *)
Inductive vseen := VNothing | VSaw (p : Z).

(** A [value] to a new data object (H/core/base_def/value.hpp:106,108). *)
Definition fresh (s : vstate) (k : dkind) (p : Z) : vstate :=
  mkVs (data s ++ [mkD None k p]) (vals s ++ [length (data s)]).

(** One operation (the lines of [vop]):
    - [be_set] by kind: 72,85,98; [get_value]: 73,86,99; [copy]: 74,87,100;
    - [do_replace] replaces the object whose address is in the pointer, and the
      pointer itself gets the new address
      (H/base/memory/ptr/ptr/base_ptr_t.hpp:120-129);
    - [>>] calls [ref_to] on a copy of its right operand, so that the pointer in
      the operand itself keeps its address. *)
Definition vstep (fuel : nat) (s : vstate) (o : vop) : res (vstate * vseen) :=
  match o with
  | VNew => Ok (fresh s KVar 0%Z, VNothing)
  | VNull => Ok (mkVs (data s) (vals s ++ [0]), VNothing)
  | VConst p => Ok (fresh s KConst p, VNothing)
  | VCopy x =>
    vthen (vmust (nth_error (vals s) x)) (fun a => Ok (mkVs (data s) (vals s ++ [a]), VNothing))
  | VSet x p =>
    vthen (look fuel s x) (fun '(s1, r) =>
    vthen (vmust (nth_error (data s1) r)) (fun c =>
    Ok (mkVs (upd (data s1) r (match dk c with KVar => mkD (dfwd c) KVar p | _ => c end)) (vals s1), VNothing)))
  | VGet x =>
    vthen (look fuel s x) (fun '(s1, r) =>
    vthen (vmust (nth_error (data s1) r)) (fun c => Ok (s1, VSaw (match dk c with KNull => 0%Z | _ => dnode c end))))
  | VRefTo x y =>
    vthen (vmust (nth_error (vals s) x)) (fun a =>
    vthen (look_copy fuel s y) (fun p =>
    vthen (replace_data (data s) a p) (fun d => Ok (mkVs d (upd (vals s) x p), VNothing))))
  | VUnRef x =>
    vthen (look fuel s x) (fun '(s1, r) =>
    vthen (vmust (nth_error (data s1) r)) (fun c =>
    match dk c with
    | KNull => Ok (s1, VNothing)
    | k => Ok (mkVs (data s1 ++ [mkD None k (dnode c)]) (upd (vals s1) x (length (data s1))), VNothing)
    end))
  | VReRef x y =>
    vthen (vmust (nth_error (vals s) x)) (fun _ =>
    vthen (look_copy fuel s y) (fun p => Ok (mkVs (data s) (upd (vals s) x p), VNothing)))
  | VShift x y =>
    vthen (vmust (nth_error (vals s) y)) (fun a =>
    vthen (look_copy fuel s x) (fun p =>
    vthen (replace_data (data s) a p) (fun d => Ok (mkVs d (vals s), VNothing))))
  end.

(** A program (language semantics). *)
Fixpoint vrun (fuel : nat) (s : vstate) (l : list vop) : res (vstate * list vseen) :=
  match l with
  | [] => Ok (s, [])
  | o :: r =>
    vthen (vstep fuel s o) (fun '(s1, b) =>
    vthen (vrun fuel s1 r) (fun '(s2, bs) => Ok (s2, b :: bs)))
  end.
(** The start of a program: [null_data] (H/core/base_def/value.hpp:67-76). *)
Definition vinit : vstate := mkVs [mkD None KNull 0%Z] [].

(** What a list of statements holds: nodes that evaluate to a new value of
    their own (H/core/base_def/node_like_using_value_func_defs.hpp:32-34) and
    lists of statements again, which are never empty
    (H/core/nodes/code_list.hpp:37).  Calls of functions, [goto] and [return]
    are left out. *)
Inductive code := Leaf (p : Z) | Block (first : code) (rest : list code).

(** [be_eval] (H/core/base_def/node_like_using_value_func_defs.hpp:32-34,
    H/core/nodes/code_list.hpp:43-60); the result is the number of the value it
    returns. *)
Fixpoint eval_code (fuel : nat) (s : vstate) (c : code) : res (vstate * nat) :=
  match c with
  | Leaf p => Ok (fresh s KConst p, length (vals s))
  | Block first rest =>
    let aret := length (vals s) in
    vthen (vstep fuel s VNull) (fun '(s0, _) =>
    let stmt s c := vthen (eval_code fuel s c) (fun '(s1, h) =>
                    vthen (vstep fuel s1 (VShift h aret)) (fun '(s2, _) => Ok s2)) in
    vthen (stmt s0 first) (fun s1 =>
    vthen ((fix go s l := match l with
            | [] => Ok s
            | c :: r => vthen (stmt s c) (fun s' => go s' r)
            end) s1 rest) (fun s2 => Ok (s2, aret))))
  end.
