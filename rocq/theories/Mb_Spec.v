(** Multibyte texts, after the C standard (5.2.1.2, 7.30.1): independent of the
    loops in the model. *)
From Verif Require Import Base.
From Verif Require Import Mb_Model.
Local Open Scope Z_scope.

(** What the C standard asks of a locale whose encoding has no shift states. *)
Record stateless (L : locale) : Prop := mkStateless {
  (** a row of bytes is read as the character for which it is written *)
  sl_same : forall c p, l_enc L c = Some p <-> l_read L p = MChar c;
  (** a proper beginning of a character is recognised as such *)
  sl_begin : forall c p q, p <> [] -> q <> [] -> l_enc L c = Some (p ++ q) -> l_read L p = MMore;
  (** and nothing else is *)
  sl_more : forall p, l_read L p = MMore -> exists c q, q <> [] /\ l_enc L c = Some (p ++ q);
  (** characters take at least one byte and at most MB_LEN_MAX *)
  sl_size : forall c p, l_enc L c = Some p -> p <> [] /\ (length p <= l_max L)%nat;
  (** the null character is one zero byte, and no other character has one *)
  sl_null : l_enc L 0 = Some [0];
  sl_zero : forall c p, l_enc L c = Some p -> In 0 p -> c = 0 }.

(** The bytes [bs] are the text [cs] written in the locale. *)
Definition spells (L : locale) (cs bs : list Z) : Prop :=
  exists ps, Forall2 (fun c p => l_enc L c = Some p) cs ps /\ bs = concat ps.
(** The bytes [p] are a proper, non-empty beginning of a character. *)
Definition cut_char (L : locale) (p : list Z) : Prop :=
  p <> [] /\ exists c q, q <> [] /\ l_enc L c = Some (p ++ q).
(** The bytes [p] begin no character, but all but the last of them do. *)
Definition broken_char (L : locale) (p : list Z) : Prop :=
  exists p' b, p = p' ++ [b] /\ (p' = [] \/ cut_char L p') /\
  forall c q, l_enc L c <> Some (p ++ q).
