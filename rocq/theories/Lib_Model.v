(** Model of loading libraries and the functions found in them
    (H/lib_loader/lib_loader.hpp over S/APIs/library_load.hpp, the Linux variant).

    What the system does is given: which names of files can be loaded, and what
    is found in a library.  A handle of the system is a number; the null handle is
    0.  The system counts how often a library was opened and unloads it when it was
    closed as often.  Searching with the null handle searches the program itself,
    since it is RTLD_DEFAULT.
    Simplifications: counters do not overflow; one thread; the error texts are left
    out; a step that names a variable that does not exist, or is of another kind,
    does nothing, as no program that compiles has it. *)
From Verif Require Import Base.
Local Open Scope Z_scope.

(** A step gives a result, or its effect is undefined. *)
Inductive lo (A : Type) := LFine (a : A) | LWild.
Arguments LFine {A}. Arguments LWild {A}.
(** Continuation (language semantics). *)
Definition lbind {A B : Type} (m : lo A) (f : A -> lo B) : lo B :=
  match m with LFine a => f a | LWild => LWild end.

(** [library_info_t] with its counter (H/lib_loader/lib_loader.hpp:37-58,
    H/base/memory/ptr/ref/ref_t.hpp:33), or freed memory. *)
Inductive info := Live (name handle : Z) (count : nat) | Freed.
(** Variables of the program: [library_handle_t] (line 35), a function made from a
    symbol, with the library and name in it (lines 85-119), or one that is gone.
    [None] is the object [null_lib] (lines 82-83). *)
Inductive var := VLib (i : option nat) | VFun (i : option nat) (name code : Z) | VGone.
(** How often each library is open, the objects, the variables. *)
Record lstate := mkLs { opened : Z -> nat; infos : list info; vars : list var }.

Section System.
(** [dlopen]: the handle, or [None] (S/APIs/library_load.hpp:63-72). *)
Variable file : Z -> option Z.
(** [dlsym]: the address (S/APIs/library_load.hpp:90-99). *)
Variable sym : Z -> Z -> option Z.

(** [_m] of the object; that of [null_lib] is 0 (H/lib_loader/lib_loader.hpp:45). *)
Definition handle_of (s : lstate) (i : option nat) : lo Z :=
  match i with
  | None => LFine 0
  | Some j => match nth_error (infos s) j with Some (Live _ h _) => LFine h | _ => LWild end
  end.

(** Replacing an element (language semantics). *)
Fixpoint set_at {A : Type} (l : list A) (j : nat) (x : A) : list A :=
  match l, j with
  | [], _ => []
  | _ :: r, O => x :: r
  | y :: r, S j' => y :: set_at r j' x
  end.
(** Changing the count of a library (language semantics). *)
Definition count_at (o : Z -> nat) (h : Z) (n : nat) : Z -> nat := fun h' => if h' =? h then n else o h'.

(** A pointer to the object is made (H/base/memory/ptr/ref/ref_t.hpp:37);
    [null_lib] does not count. *)
Definition add_ref (s : lstate) (i : option nat) : lo lstate :=
  match i with
  | None => LFine s
  | Some j => match nth_error (infos s) j with
              | Some (Live n h c) => LFine (mkLs (opened s) (set_at (infos s) j (Live n h (S c))) (vars s))
              | _ => LWild
              end
  end.
(** [free_library] (S/APIs/library_load.hpp:81-89,108-110): closing something that
    is not open is undefined. *)
Definition close (o : Z -> nat) (h : Z) : lo (Z -> nat) :=
  if h =? 0 then LWild else match o h with O => LWild | S n => LFine (count_at o h n) end.
(** A pointer to the object ends; with the last one, the object is destroyed
    (H/base/memory/ptr/ref/ref_t.hpp:39, ref_able.hpp:37-41, H/lib_loader/lib_loader.hpp:56-58). *)
Definition drop_ref (s : lstate) (i : option nat) : lo lstate :=
  match i with
  | None => LFine s
  | Some j => match nth_error (infos s) j with
              | Some (Live n h (S (S c))) => LFine (mkLs (opened s) (set_at (infos s) j (Live n h (S c))) (vars s))
              | Some (Live n h _) =>
                lbind (close (opened s) h) (fun o => LFine (mkLs o (set_at (infos s) j Freed) (vars s)))
              | _ => LWild
              end
  end.
(** A new variable (language semantics). *)
Definition new_var (s : lstate) (v : var) : lstate := mkLs (opened s) (infos s) (vars s ++ [v]).

(** Steps of a program (H/lib_loader/lib_loader.hpp): [load_lib] (130-132), a null
    handle, a copy, the end of a variable, [bool] of a handle (59-61,79-81),
    [get_symbol_as_function] (121-128), a call of the function,
    [get_symbol_name_form_symbol] (141-148), [get_library_handle_form_symbol]
    (133-140). *)
Inductive lop :=
| OLoad (n : Z) | ONull | OCopy (x : nat) | ODrop (x : nat) | OOk (x : nat) | OSym (x : nat) (n : Z)
| OCall (x : nat) | OName (x : nat) | OLib (x : nat).
(** What the program sees. *)
Inductive lseen := SNothing | SBool (b : bool) | SCalled (code : Z) | SName (n : Z).

(** One step (the lines of [lop]).
    - Loading makes the object with the handle or the null handle (49-55);
    - a symbol that is not found is the target of a reference before it is tested
      (69-75,123-124), which is undefined;
    - a function runs code of its library, which must be open (language semantics);
      code of the program is always there. *)
Definition lstep (s : lstate) (o : lop) : lo (lstate * lseen) :=
  match o with
  | OLoad n =>
    let j := length (infos s) in
    LFine (match file n with
           | Some h => mkLs (count_at (opened s) h (S (opened s h))) (infos s ++ [Live n h 1]) (vars s ++ [VLib (Some j)])
           | None => mkLs (opened s) (infos s ++ [Live n 0 1]) (vars s ++ [VLib (Some j)])
           end, SNothing)
  | ONull => LFine (new_var s (VLib None), SNothing)
  | OCopy x =>
    match nth_error (vars s) x with
    | Some (VLib i) => lbind (add_ref s i) (fun s1 => LFine (new_var s1 (VLib i), SNothing))
    | Some (VFun i n a) => lbind (add_ref s i) (fun s1 => LFine (new_var s1 (VFun i n a), SNothing))
    | _ => LFine (s, SNothing)
    end
  | ODrop x =>
    match nth_error (vars s) x with
    | Some (VLib i) | Some (VFun i _ _) =>
      lbind (drop_ref s i) (fun s1 => LFine (mkLs (opened s1) (infos s1) (set_at (vars s1) x VGone), SNothing))
    | _ => LFine (s, SNothing)
    end
  | OOk x =>
    match nth_error (vars s) x with
    | Some (VLib i) => lbind (handle_of s i) (fun h => LFine (s, SBool (negb (h =? 0))))
    | _ => LFine (s, SNothing)
    end
  | OSym x n =>
    match nth_error (vars s) x with
    | Some (VLib i) =>
      lbind (handle_of s i) (fun h =>
      match sym h n with
      | None => LWild
      | Some a => lbind (add_ref s i) (fun s1 => LFine (new_var s1 (VFun i n a), SNothing))
      end)
    | _ => LFine (s, SNothing)
    end
  | OCall x =>
    match nth_error (vars s) x with
    | Some (VFun i _ a) =>
      lbind (handle_of s i) (fun h =>
      if h =? 0 then LFine (s, SCalled a)
      else match opened s h with O => LWild | S _ => LFine (s, SCalled a) end)
    | _ => LFine (s, SNothing)
    end
  | OName x =>
    match nth_error (vars s) x with
    | Some (VFun _ n _) => LFine (s, SName n)
    | _ => LFine (s, SNothing)
    end
  | OLib x =>
    match nth_error (vars s) x with
    | Some (VFun i _ _) => lbind (add_ref s i) (fun s1 => LFine (new_var s1 (VLib i), SNothing))
    | _ => LFine (s, SNothing)
    end
  end.

(** A program (language semantics). *)
Fixpoint lrun (s : lstate) (l : list lop) : lo (lstate * list lseen) :=
  match l with
  | [] => LFine (s, [])
  | o :: r => lbind (lstep s o) (fun '(s1, b) => lbind (lrun s1 r) (fun '(s2, bs) => LFine (s2, b :: bs)))
  end.
(** The start: nothing is open (language semantics). *)
Definition lstart : lstate := mkLs (fun _ => O) [] [].
End System.
