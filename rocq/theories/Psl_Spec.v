(** What a program relies on when it loads symbols of packages. *)
From Verif Require Import Base Lib_Model Lib_Spec.
From Coq Require Import String.
Local Open Scope Z_scope.

(** Where the library is. *)
Definition library_file (there : string -> bool) (p : string) : Prop :=
  (there "/usr/lib/elc/flag"%string = true /\ p = "/usr/lib/elc/package_symbol_loader.so"%string) \/
  (there "/usr/lib/elc/flag"%string = false /\ p = "./elc/package_symbol_loader.so"%string).
(** The program does not end the loader's own variables. *)
Definition leaves (x : nat) (l : list lop) : Prop := ~ In (ODrop x) l /\ ~ In (ODrop (x + 1)) l /\ ~ In (ODrop (x + 2)) l.
(** The program has something of the library with handle [h] besides the loader. *)
Definition used_elsewhere (s : lstate) (x : nat) (h : Z) : Prop :=
  exists y v j name c, y <> x /\ y <> (x + 1)%nat /\ y <> (x + 2)%nat /\ nth_error (vars s) y = Some v /\ holds v j /\
    nth_error (infos s) j = Some (Live name h c).
