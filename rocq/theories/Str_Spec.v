(** What string operations mean on plain character sequences.  This file does
    not mention nodes, handles or small strings. *)
From Verif Require Import Base Bits_Spec Str_Api_Model.
Local Open Scope nat_scope.

(** The contents of all string variables; a destroyed variable is [None]. *)
Definition sst := list (option (list Z)).
Definition sget (l : sst) (i : nat) : option (list Z) := match nth_error l i with Some x => x | None => None end.
Definition sset (l : sst) (i : nat) (x : option (list Z)) : sst := firstn i l ++ x :: skipn (S i) l.
(** What is returned: nothing, a number, a character, a sequence, the hash of a
    sequence, whether two sequences are equal, or their order. *)
Inductive sout := SNone | SNat (n : nat) | SChr (c : Z) | SSeq (d : list Z) | SHash (d : list Z) | SEq (v w : list Z) | SOrd (v w : list Z).
Definition sbind {A B} (x : option A) (k : A -> option B) : option B := match x with Some a => k a | None => None end.
Definition sif {A} (b : bool) (x : option A) : option A := if b then x else None.

(** One operation; [None] if its precondition does not hold. *)
Definition sstep (l : sst) (x : op) : option (sst * sout) :=
  let ok l := Some (l, SNone) in
  match x with
  | ONew d | OLit d => ok (l ++ [Some d])
  | OChar c => ok (l ++ [Some [c]])
  | ORep n c => ok (l ++ [Some (repeat c n)])
  | OCopy j => sbind (sget l j) (fun v => ok (l ++ [Some v]))
  | OMove j => sbind (sget l j) (fun v => ok (sset l j (Some []) ++ [Some v]))
  | OSet i j => sbind (sget l i) (fun _ => sbind (sget l j) (fun v => ok (sset l i (Some v))))
  | OSwap i j => sbind (sget l i) (fun v => sbind (sget l j) (fun u => ok (sset (sset l i (Some u)) j (Some v))))
  | OSetLit i d => sbind (sget l i) (fun _ => ok (sset l i (Some d)))
  | OSetChar i c => sbind (sget l i) (fun _ => ok (sset l i (Some [c])))
  | OClear i => sbind (sget l i) (fun _ => ok (sset l i (Some [])))
  | ODrop i => sbind (sget l i) (fun _ => ok (sset l i None))
  | OPush e i j => sbind (sget l i) (fun v => sbind (sget l j) (fun u => ok (sset l i (Some (if e then v ++ u else u ++ v)))))
  | OPushV e i u => sbind (sget l i) (fun v => ok (sset l i (Some (if e then v ++ u else u ++ v))))
  | OPushRep e i c n => sbind (sget l i) (fun v => ok (sset l i (Some (if e then v ++ repeat c n else repeat c n ++ v))))
  | OPlus i j => sbind (sget l i) (fun v => sbind (sget l j) (fun u => ok (l ++ [Some (v ++ u)])))
  | OPlusV e i u => sbind (sget l i) (fun v => ok (l ++ [Some (if e then v ++ u else u ++ v)]))
  | OAssign i p c => sbind (sget l i) (fun v => sif (Nat.ltb p (length v)) (ok (sset l i (Some (firstn p v ++ c :: skipn (S p) v)))))
  | OSub i b n => sbind (sget l i) (fun v => sif (Nat.leb b (length v)) (ok (l ++ [Some (firstn n (skipn b v))])))
  | OResize i n c => sbind (sget l i) (fun v => ok (sset l i (Some (firstn n v ++ repeat c (n - length v)))))
  | OErase i p n => sbind (sget l i) (fun v => sif (Nat.leb (p + n) (length v)) (ok (sset l i (Some (firstn p v ++ skipn (p + n) v)))))
  | OInsert i p j => sbind (sget l i) (fun v => sbind (sget l j) (fun u =>
      sif (Nat.leb p (length v)) (ok (sset l i (Some (firstn p v ++ u ++ skipn p v))))))
  | OInsertV i p u => sbind (sget l i) (fun v => sif (Nat.leb p (length v)) (ok (sset l i (Some (firstn p v ++ u ++ skipn p v)))))
  | ORemove e i n => sbind (sget l i) (fun v => sif (Nat.leb n (length v))
      (ok (sset l i (Some (if e then firstn (length v - n) v else skipn n v)))))
  | OPop e i n => sbind (sget l i) (fun v => sif (Nat.leb n (length v))
      (ok (sset l i (Some (if e then firstn (length v - n) v else skipn n v)) ++ [Some (if e then skipn (length v - n) v else firstn n v)])))
  | OSize i => sbind (sget l i) (fun v => Some (l, SNat (length v)))
  | OAt i p => sbind (sget l i) (fun v => sbind (nth_error v p) (fun c => Some (l, SChr c)))
  | OData i | OCStr i => sbind (sget l i) (fun v => Some (l, SSeq v))
  | OHash i => sbind (sget l i) (fun v => Some (l, SHash v))
  | OCmp q i j => sbind (sget l i) (fun v => sbind (sget l j) (fun w => Some (l, if q then SEq v w else SOrd v w)))
  | OCmpV q i w | OCmpL q i w => sbind (sget l i) (fun v => Some (l, if q then SEq v w else SOrd v w))
  end.
(** A sequence of operations, with all results. *)
Fixpoint sruns (l : sst) (xs : list op) : option (sst * list sout) :=
  match xs with
  | [] => Some (l, [])
  | x :: t => sbind (sstep l x) (fun '(l1, o) => sbind (sruns l1 t) (fun '(l2, os) => Some (l2, o :: os)))
  end.
(** [v] comes before [w]: it is shorter, or as long and smaller in the first
    character that differs. *)
Definition before (v w : list Z) : Prop :=
  length v < length w \/
  length v = length w /\ exists p x y a b, v = p ++ x :: a /\ w = p ++ y :: b /\ (x < y)%Z.
Definition is_ord (v w : list Z) (c : comparison) : Prop :=
  match c with Eq => v = w | Lt => before v w | Gt => before w v end.
(** The result a caller sees. *)
Definition out_ok (hd : Z) (hc : Z -> Z) (a : sout) (b : out) : Prop :=
  match a, b with
  | SNone, RNone => True
  | SNat n, RNat m => n = m
  | SChr c, RChr d => c = d
  | SSeq v, RSeq w => v = w
  | SHash v, RHash h => is_seq_hash hd (map hc v) h
  | SEq v w, RBool b => b = true <-> v = w
  | SOrd v w, ROrd c => is_ord v w c
  | _, _ => False
  end.
