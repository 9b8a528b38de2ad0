(** What a user of a text stream relies on, in terms of the text still to come. *)
From Verif Require Import Base Stream_Model.
Local Open Scope nat_scope.

(** A plain source of text: a read takes a piece, not longer than asked for, off
    the front of what is to come; it takes nothing only when nothing is asked for
    or nothing is left; [is_end] tells whether anything is left. *)
Record delivers {B : Type} (b : base B) (good : B -> Prop) (coming : B -> list Z) : Prop := mkdel {
  del_read : forall n st, good st -> exists got st',
    b_read b n st = Fine (got, st') /\ good st' /\ coming st = got ++ coming st' /\
    length got <= n /\ (got = [] -> n = 0 \/ coming st = []);
  del_end : forall st, good st -> (b_end b st = true <-> coming st = []) }.

(** The same of a stream that takes text back, [room] being how much it takes. *)
Record obeys {B : Type} (i : istream B) (good : B -> Prop) (coming : B -> list Z) (room : B -> nat)
    : Prop := mkob {
  ob_read : forall n st, good st -> exists got st',
    s_read i n st = Fine (got, st') /\ good st' /\ coming st = got ++ coming st' /\
    length got <= n /\ (got = [] -> n = 0 \/ coming st = []) /\
    room st <= room st' /\ (got <> [] -> 1 <= room st');
  ob_unread : forall l st, good st -> length l <= room st -> exists st',
    s_unread i l st = Fine st' /\ good st' /\ coming st' = l ++ coming st /\
    room st' = room st - length l;
  ob_end : forall st, good st -> (s_end i st = true <-> coming st = []) }.
(** A stream whose reads never fall short. *)
Definition prompt {B : Type} (i : istream B) (good : B -> Prop) (coming : B -> list Z) : Prop :=
  forall n st got st', good st -> s_read i n st = Fine (got, st') -> got = firstn n (coming st).

(** A use of a stream, and what it shows: the text of each read, the character of
    each [peek] and [get] (0 at the end). *)
Inductive op := ORead (n : nat) | OUnread (l : list Z) | OPeek | OGet.
Definition do_op {B : Type} (i : istream B) (o : op) (st : B) : so (list Z * B) :=
  match o with
  | ORead n => s_read i n st
  | OUnread l => sbind (s_unread i l st) (fun st' => Fine ([], st'))
  | OPeek => sbind (speek i st) (fun r => Fine ([fst r], snd r))
  | OGet => sbind (sget i st) (fun r => Fine ([fst r], snd r))
  end.
Fixpoint use {B : Type} (i : istream B) (ops : list op) (st : B) : so (list (list Z) * B) :=
  match ops with
  | [] => Fine ([], st)
  | o :: r => sbind (do_op i o st) (fun x => sbind (use i r (snd x)) (fun y => Fine (fst x :: fst y, snd y)))
  end.

(** What a use should show, from the text given back [p] and the text the source
    still has [r]: what was given back comes first. *)
Inductive shows : list op -> list Z -> list Z -> list (list Z) -> list Z -> list Z -> Prop :=
| sh_nil p r : shows [] p r [] p r
| sh_read n ops p r more r' tr p2 r2 :
    r = more ++ r' -> length more <= n - length p -> (more = [] -> n <= length p \/ r = []) ->
    shows ops (skipn n p) r' tr p2 r2 ->
    shows (ORead n :: ops) p r ((firstn n p ++ more) :: tr) p2 r2
| sh_unread l ops p r tr p2 r2 :
    shows ops (l ++ p) r tr p2 r2 -> shows (OUnread l :: ops) p r ([] :: tr) p2 r2
| sh_peek_back ops c p r tr p2 r2 :
    shows ops (c :: p) r tr p2 r2 -> shows (OPeek :: ops) (c :: p) r ([c] :: tr) p2 r2
| sh_peek_new ops c r tr p2 r2 :
    shows ops [c] r tr p2 r2 -> shows (OPeek :: ops) [] (c :: r) ([c] :: tr) p2 r2
| sh_peek_end ops tr p2 r2 :
    shows ops [] [] tr p2 r2 -> shows (OPeek :: ops) [] [] ([0%Z] :: tr) p2 r2
| sh_get_back ops c p r tr p2 r2 :
    shows ops p r tr p2 r2 -> shows (OGet :: ops) (c :: p) r ([c] :: tr) p2 r2
| sh_get_new ops c r tr p2 r2 :
    shows ops [] r tr p2 r2 -> shows (OGet :: ops) [] (c :: r) ([c] :: tr) p2 r2
| sh_get_end ops tr p2 r2 :
    shows ops [] [] tr p2 r2 -> shows (OGet :: ops) [] [] ([0%Z] :: tr) p2 r2.

(** With [k] characters given back and not read again, no more than [cap] are ever
    waiting. *)
Fixpoint fits (cap : nat) (ops : list op) (k : nat) : Prop :=
  match ops with
  | [] => True
  | ORead n :: r => fits cap r (k - n)
  | OUnread l :: r => k + length l <= cap /\ fits cap r (k + length l)
  | OPeek :: r => fits cap r (max k 1)
  | OGet :: r => fits cap r (k - 1)
  end.

(** [w] is the stream on a file of these units after the use [ops], [p] the text
    given back and not read again, [r] what the file still has. *)
Definition after_use (units : list Z) (sch : list nat) (ops : list op) (w : wst src) (p r : list Z) : Prop :=
  exists tr, fits (Z.to_nat 1024) ops 0 /\
    use (wrap src_base) ops (wnew (mksrc units 0 sch false)) = Fine (tr, w) /\ shows ops [] units tr p r.

(** The text after the first line ending: LF, CR LF or CR. *)
Fixpoint after_line (t : list Z) : list Z :=
  match t with
  | [] => []
  | c :: r =>
      if (c =? 10)%Z then r
      else if (c =? 13)%Z then match r with d :: r' => if (d =? 10)%Z then r' else r | [] => [] end
      else after_line r
  end.
Definition no_ending (t : list Z) : Prop := Forall (fun c => c <> 10%Z /\ c <> 13%Z) t.

(** A text with each line ending made LF. *)
Fixpoint lf (t : list Z) : list Z :=
  match t with
  | [] => []
  | c :: r =>
      if (c =? 13)%Z then
        10%Z :: match r with d :: r' => if (d =? 10)%Z then lf r' else lf r | [] => [] end
      else c :: lf r
  end.
