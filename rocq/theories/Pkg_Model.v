(** Model of the choice of the packages to load
    (parts/header_file/draft/package_manager/defs.hpp): which packages are loaded
    for a given tree of dependencies.
    Simplifications: memory does not run out; the pointers in the trees are not
    null; whether a package can be found or is installed does not change during
    one resolution.
    The file is a draft: no other part of the repository includes it. *)
From Coq Require Import String.
From Verif Require Import Base.
Open Scope Z_scope.

(** [package_info_t] (parts/header_file/draft/package_manager/defs.hpp:12-17). *)
Record pkg := mkPkg { pname : string; pmajor : Z; pminor : Z }.
(** [same_package_as] (parts/header_file/draft/package_manager/defs.hpp:22-24): the
    lesser number is not looked at. *)
Definition same_package (a b : pkg) : bool := String.eqb (pname a) (pname b) && Z.eqb (pmajor a) (pmajor b).

(** The trees of dependencies (parts/header_file/draft/package_manager/defs.hpp):
    [common_package_relay_info_t] (72-84), [signal_package_relay_info_t] (85-95) and
    [pick_one_package_relay_info_t] (96-157). *)
Inductive relay := RAll (l : list relay) | ROne (p : pkg) | RPick (l : list relay).

(** How a call ends: normally, with [package_not_found], with the [runtime_error] of
    line 116 (which no handler for [package_not_found] takes), or undefined
    (parts/header_file/draft/package_manager/defs.hpp:9-11,110,116). *)
Inductive pout (A : Type) := Got (a : A) | NotFound | NoPick | Undef.
Arguments Got {A}. Arguments NotFound {A}. Arguments NoPick {A}. Arguments Undef {A}.

Section Resolve.
(** [is_this_package_can_be_found] and [is_this_package_installed], supplied by the
    program (parts/header_file/draft/package_manager/defs.hpp:26-27). *)
Variable found : pkg -> bool.
Variable inst : pkg -> bool.
(** The numbers that [rand] gives, one after the other
    (parts/header_file/draft/package_manager/defs.hpp:153). *)
Variable rnd : nat -> nat.

(** [already_in_list] and [add_package]
    (parts/header_file/draft/package_manager/defs.hpp:40-52). *)
Definition add_package (pl : list pkg) (p : pkg) : pout (list pkg) :=
  if existsb (fun q => same_package q p) pl then Got pl
  else if found p then Got (pl ++ [p]) else NotFound.
(** [add_list] (parts/header_file/draft/package_manager/defs.hpp:53-56). *)
Fixpoint add_list (pl : list pkg) (l : list pkg) : pout (list pkg) :=
  match l with
  | [] => Got pl
  | p :: r => match add_package pl p with Got pl1 => add_list pl1 r | e => e end
  end.

(** The least size (parts/header_file/draft/package_manager/defs.hpp:119-122). *)
Definition min_size (ls : list (list pkg)) : nat :=
  fold_left (fun m l => if Nat.ltb (length l) m then length l else m) ls (length (hd [] ls)).
(** The lists of that size (parts/header_file/draft/package_manager/defs.hpp:123-127). *)
Definition of_size (n : nat) (ls : list (list pkg)) : list (list pkg) := filter (fun l => Nat.eqb (length l) n) ls.
(** Installed packages in a list (parts/header_file/draft/package_manager/defs.hpp:136-139). *)
Definition installed (l : list pkg) : nat := length (filter inst l).
(** The greatest number of them (parts/header_file/draft/package_manager/defs.hpp:133-143). *)
Definition max_installed (ls : list (list pkg)) : nat :=
  fold_left (fun m l => if Nat.ltb m (installed l) then installed l else m) ls 0%nat.
(** The loop that erases (parts/header_file/draft/package_manager/defs.hpp:144-148).
    [i] is [it - package_list_list.begin()]; the numbers are looked up at the
    position that the list has now, not at the one it had when they were counted. *)
Fixpoint erase_loop (counts : list nat) (m : nat) (i : nat) (ls : list (list pkg)) : list (list pkg) :=
  match ls with
  | [] => []
  | l :: r => if Nat.eqb (nth i counts 0%nat) m then l :: erase_loop counts m (S i) r else erase_loop counts m i r
  end.
(** From the alternatives to the chosen list
    (parts/header_file/draft/package_manager/defs.hpp:115-155); the remainder by zero is
    undefined. *)
Definition pick_from (pl : list pkg) (ls : list (list pkg)) (k : nat) : pout (list pkg) * nat :=
  match ls with
  | [] => (NoPick, k)
  | _ =>
    let l1 := of_size (min_size ls) ls in
    let l2 := if Nat.eqb (length l1) 1 then l1 else erase_loop (map installed l1) (max_installed l1) 0 l1 in
    match l2 with
    | [] => (Undef, S k)
    | _ => (add_list pl (nth (Nat.modulo (rnd k) (length l2)) l2 []), S k)
    end
  end.

(** [get_relay_list] (parts/header_file/draft/package_manager/defs.hpp:78-83,91-94,102-156).
    [k] counts the numbers taken from [rand].  An alternative gets a copy of the
    list (106), so that what it did before it failed is not seen. *)
Fixpoint get_relay (r : relay) (pl : list pkg) (k : nat) {struct r} : pout (list pkg) * nat :=
  match r with
  | ROne p => (add_package pl p, k)
  | RAll l =>
    (fix go (l : list relay) (pl : list pkg) (k : nat) {struct l} : pout (list pkg) * nat :=
       match l with
       | [] => (Got pl, k)
       | r1 :: rest => match get_relay r1 pl k with (Got pl1, k1) => go rest pl1 k1 | e => e end
       end) l pl k
  | RPick l =>
    let '(o, k1) :=
      (fix alts (l : list relay) (k : nat) {struct l} : pout (list (list pkg)) * nat :=
         match l with
         | [] => (Got [], k)
         | r1 :: rest =>
           match get_relay r1 pl k with
           | (Got c, k1) => match alts rest k1 with (Got cs, k2) => (Got (c :: cs), k2) | e => e end
           | (NotFound, k1) => alts rest k1
           | (NoPick, k1) => (NoPick, k1)
           | (Undef, k1) => (Undef, k1)
           end
         end) l k in
    match o with
    | Got cs => pick_from pl cs k1
    | NotFound => (NotFound, k1)
    | NoPick => (NoPick, k1)
    | Undef => (Undef, k1)
    end
  end.
(** [get_package_load_list] (parts/header_file/draft/package_manager/defs.hpp:159-164) where
    the dependencies of the package are known. *)
Definition load_list (r : relay) : pout (list pkg) := fst (get_relay r [] 0).
End Resolve.
