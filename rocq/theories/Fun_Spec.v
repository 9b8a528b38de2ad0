(** What a user expects of function objects: several of them may share a callable,
    nothing is counted. *)
From Verif Require Import Base Fun_Model.
Local Open Scope nat_scope.

Section Sharing.
Context {V A R : Type} (run : Z -> V -> A -> V * option R) (nothing : R).
Context (comparable : Z -> bool) (same : Z -> V -> V -> bool) (plain : Z -> V -> option Z).
Context (run_plain : Z -> A -> option R).

(** All callables ever stored, and for every function object whether it still exists
    and which callable it shows, if any. *)
Record astate := mka { things : list (callable (V := V)); shows : list (option (option nat)) }.
(** The function object [v] exists and shows [h]. *)
Definition has (s : astate) (v : nat) (h : option nat) : Prop := nth_error (shows s) v = Some (Some h).
Definition set_nth {X : Type} (l : list X) (i : nat) (x : X) : list X := firstn i l ++ x :: skipn (S i) l.
(** The result of a call and the callable after it. *)
Definition answers (s : astate) (h : option nat) (a : A) (ts : list callable) (r : option R) : Prop :=
  match h with
  | None => ts = things s /\ r = Some nothing
  | Some p => exists c, nth_error (things s) p = Some c /\
      ts = set_nth (things s) p (mkc (tag c) (fst (run (tag c) (val c) a))) /\
      r = snd (run (tag c) (val c) a)
  end.
(** Equality: the same type, a type with [==], and equal values; two functions
    without callable are equal. *)
Definition alike (c d : callable (V := V)) : Prop :=
  tag c = tag d /\ comparable (tag c) = true /\ same (tag c) (val c) (val d) = true.
Definition look (s : astate) (h : option nat) : option callable :=
  match h with None => None | Some p => nth_error (things s) p end.

(** One step of a program without deep copies and calls of the shared function: what
    it changes, what it sees. *)
Inductive astep : op (V := V) (A := A) -> astate -> astate -> list (out (R := R)) -> Prop :=
| a_new s : astep ONew s (mka (things s) (shows s ++ [Some None])) []
| a_make s c : astep (OMake c) s (mka (things s ++ [c]) (shows s ++ [Some (Some (length (things s)))])) []
| a_copy s w h : has s w h -> astep (OCopy w) s (mka (things s) (shows s ++ [Some h])) []
| a_move s w h : has s w h ->
    astep (OMove w) s (mka (things s) (set_nth (shows s) w (Some None) ++ [Some h])) []
| a_assign s v w h k : has s v k -> has s w h ->
    astep (OAssign v w) s (mka (things s) (set_nth (shows s) v (Some h))) []
| a_set s v k c : has s v k ->
    astep (OSet v c) s (mka (things s ++ [c]) (set_nth (shows s) v (Some (Some (length (things s)))))) []
| a_null s v k : has s v k -> astep (ONull v) s (mka (things s) (set_nth (shows s) v (Some None))) []
| a_swap s v w h k : has s v h -> has s w k ->
    astep (OSwap v w) s (mka (things s) (set_nth (set_nth (shows s) v (Some k)) w (Some h))) []
| a_drop s v k : has s v k -> astep (ODrop v) s (mka (things s) (set_nth (shows s) v None)) []
| a_call s v h a ts r : has s v h -> answers s h a ts r ->
    astep (OCall v a) s (mka ts (shows s)) [RCall r]
| a_bool s v h b : has s v h -> (b = true <-> h <> None) -> astep (OBool v) s s [RBool b]
| a_equal s v w h k b : has s v h -> has s w k ->
    (b = true <-> match look s h, look s k with
                  | None, None => True | Some c, Some d => alike c d | _, _ => False end) ->
    astep (OEqual v w) s s [RBool b]
| a_equal_to s v h d b : has s v h ->
    (b = true <-> match look s h with None => False | Some c => alike c d end) ->
    astep (OEqualTo v d) s s [RBool b]
| a_pointer s t v h k : has s v h ->
    k = match look s h with Some c => plain (tag c) (val c) | None => None end ->
    astep (OPointer t v) s s [RPointer k]
| a_plain s k a : astep (OCallPlain k a) s s [RCall (run_plain k a)].
Inductive asteps : list (op (V := V) (A := A)) -> astate -> astate -> list (out (R := R)) -> Prop :=
| as_nil s : asteps [] s s []
| as_cons o os s s1 s2 r1 r2 : astep o s s1 r1 -> asteps os s1 s2 r2 -> asteps (o :: os) s s2 (r1 ++ r2).
(** Some function object shows the callable. *)
Definition shown (s : astate) (p : nat) : Prop := exists v, has s v (Some p).
End Sharing.

(** A program that uses only objects that exist: every step names objects that were
    built and not destroyed. *)
Definition names {V A : Type} (o : op (V := V) (A := A)) : list nat :=
  match o with
  | OCopy w | OMove w | ODeep w => [w]
  | OAssign v w | OSwap v w | OEqual v w => [v; w]
  | OSet v _ | ONull v | ODrop v | OCall v _ | OBool v | OEqualTo v _ | OPointer _ v => [v]
  | ONew | OMake _ | OCallPointer _ _ | OCallPlain _ _ => []
  end.
(** Which objects exist after a step, [n] objects built so far. *)
Definition builds {V A : Type} (o : op (V := V) (A := A)) : bool :=
  match o with ONew | OMake _ | OCopy _ | OMove _ | ODeep _ => true | _ => false end.
Fixpoint proper {V A : Type} (os : list (op (V := V) (A := A))) (alive : list bool) : Prop :=
  match os with
  | [] => True
  | o :: r => Forall (fun v => nth v alive false = true) (names o) /\
      proper r ((match o with
                 | ODrop v => firstn v alive ++ false :: skipn (S v) alive
                 | _ => alive
                 end) ++ (if builds o then [true] else []))
  end.
(** The steps other than deep copies and calls of the shared function. *)
Definition ordinary {V A : Type} (o : op (V := V) (A := A)) : Prop :=
  match o with ODeep _ | OCallPointer _ _ => False | _ => True end.
(** Those of them that make no pointer in thread [t]. *)
Definition quiet {V A : Type} (t : nat) (o : op (V := V) (A := A)) : Prop :=
  match o with ODeep _ | OCallPointer _ _ => False | OPointer u _ => u <> t | _ => True end.
