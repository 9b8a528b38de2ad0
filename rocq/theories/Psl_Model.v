(** Model of the loader of package symbols
    (H/package_symbol_loader/package_symbol_loader.hpp:30-55 over S/paths.hpp, the
    Linux variant), on top of the libraries of Lib_Model.v.
    Simplifications: those of Lib_Model.v; the arguments and results of the two
    functions are left out, only which code runs is seen; the path is computed when
    the program starts, before the loader is made. *)
From Verif Require Import Base Lib_Model.
From Coq Require Import String.
Local Open Scope Z_scope.

(** [get_elc_runtime_lib_path] (S/paths.hpp:95-118, Linux); [there] is
    [file_exists] (lines 57-70). *)
Definition runtime_path (there : string -> bool) : string :=
  (if there "/usr/lib/elc/flag" then "/usr/lib/elc" else "./elc")%string.
(** [package_symbol_loader_path] (S/paths.hpp:120-124). *)
Definition loader_path (there : string -> bool) : string :=
  (runtime_path there ++ "/" ++ "package_symbol_loader" ++ ".so")%string.

(** The loader was made, with its members in three variables from this one on; or
    the program ended with a message; or the effect is undefined. *)
Inductive made := Made (s : lstate) (x : nat) | Died | MWild.

Section Loader.
(** The system (Lib_Model.v), and its names for texts. *)
Variable file : Z -> option Z.
Variable sym : Z -> Z -> option Z.
Variable name : string -> Z.
Variable there : string -> bool.

(** [package_symbol_loader_t()] (H/package_symbol_loader/package_symbol_loader.hpp:36-45).
    The test in lines 43-44 is never true: a function made from a symbol has its
    address, and a symbol that is not found is undefined earlier
    (H/lib_loader/lib_loader.hpp:121-128). *)
Definition make_loader (s : lstate) : made :=
  let x := List.length (vars s) in
  match lrun file sym s [OLoad (name (loader_path there)); OOk x] with
  | LFine (s1, [_; SBool true]) =>
    match lrun file sym s1 [OSym x (name "load_interface"); OSym x (name "load_error_interface")] with
    | LFine (s2, _) => Made s2 x
    | LWild => MWild
    end
  | LFine _ => Died
  | LWild => MWild
  end.
(** [load_symbol] (lines 48-50). *)
Definition load_symbol (s : lstate) (x : nat) : lo (lstate * lseen) := lstep file sym s (OCall (x + 1)).
(** [get_load_error] (lines 51-53). *)
Definition get_load_error (s : lstate) (x : nat) : lo (lstate * lseen) := lstep file sym s (OCall (x + 2)).
(** [~package_symbol_loader_t] (line 46): the members end, the last one first. *)
Definition end_loader (s : lstate) (x : nat) : lo (lstate * list lseen) :=
  lrun file sym s [ODrop (x + 2); ODrop (x + 1); ODrop x].
End Loader.
