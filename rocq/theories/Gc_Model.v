(** Model of the mark-and-sweep collector for one type
    (H/base/memory/gc/gc_t/default_method/defs.hpp).

    Objects have a mark and pointers to other objects of the type.  Root
    pointers are variables of type [root_ptr_t].  Simplifications: the list of
    all objects is a sequence (C58); the reference counts of root pointers are
    left out (C37): objects die by collection only; [shrink] has no effect on
    the graph; root pointers are not null; one type. *)
From Verif Require Import Base Ref_Model List_Model.
Local Open Scope res_scope.
Local Open Scope nat_scope.

(** An object: [mark_able_for_gc] (H/base_defs/mark_type.hpp:39-47,
    H/base/memory/gc/gc_flags/mark_able_for_gc/_body.hpp:31-35) and the
    pointers in it. *)
Record gobj := mkG { gmark : bool; grefs : list nat }.
(** Memory of objects; [None]: destroyed. *)
Notation gheap := (list (option gobj)).
(** A live object (language semantics). *)
Definition getG (h : gheap) (o : nat) : option gobj := match nth_error h o with Some (Some x) => Some x | _ => None end.

(** Objects; [can_map_all::type_list] in order
    (H/base/memory/other/can_map_all.hpp:31-43); root pointer variables and
    what they point to ([None]: destroyed); [roots_of<T>], the registered
    roots, latest first (H/base/memory/gc/gc_flags/roots/_body.hpp:36-62). *)
Record gst := mkGst { objs : gheap; order : list nat; rvars : list (option nat); reg : list nat }.
(** Nothing allocated. *)
Definition gst0 : gst := mkGst [] [] [] [].

Section Gc.
(** [map_and_mark_for_gc], supplied by the user of the library
    (H/base/memory/gc/root_ptr/defs.hpp:31-35,55-57). *)
Variable marker : gheap -> nat -> res gheap.
(** The objects that [destory_by_gc], supplied by the user, destroys when it
    is given an object (H/base/memory/gc/gc_t/default_method/defs.hpp:51-55). *)
Variable kills : nat -> list nat.

(** [roots_of<T>.map_and_mark()]
    (H/base/memory/gc/gc_flags/roots/_body.hpp:52-59): a virtual call on each
    registered root; on one that was destroyed it is undefined. *)
Fixpoint mark_roots (h : gheap) (rv : list (option nat)) (rs : list nat) : res gheap :=
  match rs with
  | [] => Ok h
  | r :: rs' =>
    match nth_error rv r with
    | Some (Some o) => h1 <- marker h o ;; mark_roots h1 rv rs'
    | _ => Ub
    end
  end.

(** Destroying objects: they leave the list of all objects
    (H/base_defs/list.hpp:78-80). *)
Fixpoint kill (h : gheap) (l : list nat) : gheap := match l with [] => h | o :: l' => kill (upd h o None) l' end.
(** Membership (vocabulary). *)
Definition isin (x : nat) (l : list nat) : bool := existsb (Nat.eqb x) l.

(** [map_all<T>(...)]: the iterator is advanced, then the action is taken
    (H/base/memory/other/can_map_all.hpp:45-51); the action unmarks a marked
    object and destroys the others
    (H/base/memory/gc/gc_t/default_method/defs.hpp:69-81).  The argument is
    the rest of the list as it was when the sweep began; advancing to an
    object that was destroyed meanwhile is undefined. *)
Fixpoint sweep_from (h : gheap) (l : list nat) : res gheap :=
  match l with
  | [] => Ok h
  | o :: l' =>
    match getG h o with
    | None => Ub
    | Some x => sweep_from (if gmark x then upd h o (Some (mkG false (grefs x))) else kill h (kills o)) l'
    end
  end.

(** [default_gc_method] (H/base/memory/gc/gc_t/default_method/defs.hpp:57-84). *)
Definition collect (s : gst) : res gst :=
  h1 <- mark_roots (objs s) (rvars s) (reg s) ;;
  h2 <- sweep_from h1 (order s) ;;
  Ok (mkGst h2 (filter (fun o => match getG h2 o with Some _ => true | None => false end) (order s)) (rvars s) (reg s)).

(** Operations of a program:
    - [GNew refs]: a new object, unmarked, added to the list of all objects;
    - [GLink o refs]: the pointers in an object change;
    - [GRoot o]: [root_ptr_t r=&o;], registers itself
      (H/base/memory/gc/gc_flags/roots/_body.hpp:66-70);
    - [GCopy i]: [root_ptr_t r=q;], the implicit copy constructor, copies the
      pointer and does not register (H/base/memory/gc/root_ptr/defs.hpp:42-46,
      H/base/memory/gc/gc_flags/roots/_body.hpp:63-74);
    - [GSet i o]: assignment (H/base/memory/gc/root_ptr/defs.hpp:47-51);
    - [GDrop i]: destruction, no code, the registration stays
      (H/base/memory/gc/gc_flags/roots/_body.hpp:63-74);
    - [GCollect]: [gc()]. *)
Inductive gop := GNew (refs : list nat) | GLink (o : nat) (refs : list nat) | GRoot (o : nat) | GCopy (i : nat)
  | GSet (i o : nat) | GDrop (i : nat) | GCollect.
(** One operation, see [gop]. *)
Definition g_op (s : gst) (c : gop) : res gst :=
  match c with
  | GNew refs => Ok (mkGst (objs s ++ [Some (mkG false refs)]) (order s ++ [length (objs s)]) (rvars s) (reg s))
  | GLink o refs =>
    match getG (objs s) o with
    | Some x => Ok (mkGst (upd (objs s) o (Some (mkG (gmark x) refs))) (order s) (rvars s) (reg s))
    | None => Ub
    end
  | GRoot o => Ok (mkGst (objs s) (order s) (rvars s ++ [Some o]) (length (rvars s) :: reg s))
  | GCopy i =>
    match nth_error (rvars s) i with
    | Some (Some o) => Ok (mkGst (objs s) (order s) (rvars s ++ [Some o]) (reg s))
    | _ => Ub
    end
  | GSet i o =>
    match nth_error (rvars s) i with
    | Some (Some _) => Ok (mkGst (objs s) (order s) (upd (rvars s) i (Some o)) (reg s))
    | _ => Ub
    end
  | GDrop i =>
    match nth_error (rvars s) i with
    | Some (Some _) => Ok (mkGst (objs s) (order s) (upd (rvars s) i None) (reg s))
    | _ => Ub
    end
  | GCollect => collect s
  end.
(** A sequence of operations (language semantics). *)
Fixpoint g_run (s : gst) (cs : list gop) : res gst :=
  match cs with [] => Ok s | c :: r => s1 <- g_op s c ;; g_run s1 r end.

(** [gc.success()] after a collection, for a type that counts its objects:
    the number before is larger (H/base/memory/gc/gc_t/defs.hpp:49-58,
    H/base/memory/gc/gc_t/default_method/defs.hpp:62-64,88-94). *)
Definition gc_success (before after : gst) : bool := Nat.ltb (length (order after)) (length (order before)).
End Gc.

(** A marker as a user of the library would write it: depth-first, stops at
    marked objects.  Not code of /repo; it shows that the requirement on
    markers can be met. *)
Fixpoint dfs (fuel : nat) (h : gheap) (o : nat) : res gheap :=
  match fuel with
  | 0 => Out
  | S f =>
    match getG h o with
    | None => Ub
    | Some x =>
      if gmark x then Ok h
      else (fix all (h : gheap) (l : list nat) : res gheap :=
              match l with [] => Ok h | r :: l' => h1 <- dfs f h r ;; all h1 l' end)
           (upd h o (Some (mkG true (grefs x)))) (grefs x)
    end
  end.
(** [dfs] with enough fuel for a heap. *)
Definition mark_dfs (h : gheap) (o : nat) : res gheap := dfs (S (length h)) h o.
