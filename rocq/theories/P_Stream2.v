(** Property theorems C79-C83: characters in files and at terminals, the echo of the
    input, values as bytes, rows as text. *)
From Verif Require Import Base Utf_Model Utf_Spec Stream_Model Stream_Spec Stream2_Spec Cvt_Proofs Echo_Proofs.
Local Open Scope nat_scope.

(** ** C79.  A read of characters that ends well has read the characters of the text
    in order: no more than asked for, and fewer only at its end.  Every read ends. *)
Theorem C79_file_partial : forall units sch n, Forall unit8 units ->
  s_read file_in n (open_in units sch) <> Endless /\
  forall got st, s_read file_in n (open_in units sch) = Fine (got, st) ->
  exists u r, units = u ++ r /\ text seq8 u got /\ length got <= n /\ (length got < n -> r = []).
Proof. exact file_sound. Qed.
Print Assumptions C79_file_partial.
Theorem C79_terminal_partial : forall units sch n, Forall unit16 units ->
  s_read terminal_in n (open_in units sch) <> Endless /\
  forall got st, s_read terminal_in n (open_in units sch) = Fine (got, st) ->
  exists u r, units = u ++ r /\ text seq16 u got /\ length got <= n /\ (length got < n -> r = []).
Proof. exact terminal_sound. Qed.
Print Assumptions C79_terminal_partial.
(** And it does end well when the text, cut into blocks of four bytes, is well-formed
    block by block, and the read asks for the characters of whole blocks. *)
Theorem C79_file_blocks_partial : forall blocks css tail, Forall unit8 (concat blocks ++ tail) ->
  Forall2 (fun u cs => length u = 4 /\ text seq8 u cs) blocks css ->
  exists st, s_read file_in (length (concat css)) (open_in (concat blocks ++ tail) []) =
    Fine (concat css, st).
Proof. exact file_blocks. Qed.
Print Assumptions C79_file_blocks_partial.
Theorem C79_terminal_blocks_partial : forall blocks css tail, Forall unit16 (concat blocks ++ tail) ->
  Forall2 (fun u cs => length u = 2 /\ text wf16 u cs) blocks css ->
  exists st, s_read terminal_in (length (concat css)) (open_in (concat blocks ++ tail) []) =
    Fine (concat css, st).
Proof. exact terminal_blocks. Qed.
Print Assumptions C79_terminal_blocks_partial.
Example C79_case :
  match s_read file_in 5 (open_in [65; 66; 0xC3; 0xA9; 67; 0xE2; 0x82; 0xAC; 68; 69]%Z []) with
  | Fine (got, _) => got = [65; 66; 0xE9; 67; 0x20AC]%Z | _ => False end /\
  match s_read terminal_in 3 (open_in [65; 66; 0xD83D; 0xDE00]%Z []) with
  | Fine (got, _) => got = [65; 66; 0x1F600]%Z | _ => False end.
Proof. vm_compute. auto. Qed.
(** Reading or looking at one character of a text that begins with two ASCII
    characters writes past the caller's variable. *)
Theorem C79_one_undefined : forall c1 c2 t, Forall unit8 t -> (0 <= c1 < 128)%Z -> (0 <= c2 < 128)%Z ->
  sget file_in (open_in (c1 :: c2 :: t) []) = Wild /\ speek file_in (open_in (c1 :: c2 :: t) []) = Wild.
Proof. exact file_one. Qed.
Print Assumptions C79_one_undefined.
Theorem C79_terminal_one_undefined : forall u1 u2 t,
  (0 <= u1 < 0xD800 \/ 0xDC00 <= u1 < 0x10000)%Z -> (0 <= u2 < 0xD800 \/ 0xDC00 <= u2 < 0x10000)%Z ->
  sget terminal_in (open_in (u1 :: u2 :: t) []) = Wild /\
  speek terminal_in (open_in (u1 :: u2 :: t) []) = Wild.
Proof. exact terminal_one. Qed.
Print Assumptions C79_terminal_one_undefined.
(** Three ASCII characters and any character outside ASCII: the program dies. *)
Theorem C79_split_dies : forall a b c x t n,
  (0 <= a < 128)%Z -> (0 <= b < 128)%Z -> (0 <= c < 128)%Z -> (128 <= x < 256)%Z -> 3 <= n ->
  s_read file_in n (open_in (a :: b :: c :: x :: t) []) = Dies.
Proof. exact file_dies. Qed.
Print Assumptions C79_split_dies.
(** The same when the system reads less than a block, as it may. *)
Example C79_short_case :
  match s_read file_in 3 (open_in [65; 66; 0xC3; 0xA9]%Z []) with
  | Fine (got, _) => got = [65; 66; 0xE9]%Z | _ => False end /\
  s_read file_in 3 (open_in [65; 66; 0xC3; 0xA9]%Z [2]) = Dies.
Proof. vm_compute. auto. Qed.
Example C79_split_case : Forall unit8 [65; 66; 67; 0xC3; 0xA9]%Z /\
  utf8_to_utf32 [65; 66; 67; 0xC3; 0xA9]%Z = Some (true, 5, [65; 66; 67; 0xE9]%Z) /\
  s_read file_in 4 (open_in [65; 66; 67; 0xC3; 0xA9]%Z []) = Dies /\
  sget file_in (open_in [65; 66; 67; 0xC3; 0xA9]%Z []) = Wild.
Proof. split; [repeat constructor; vm_compute; try discriminate; reflexivity|vm_compute; auto]. Qed.

(** ** C80.  Characters written to a handle that takes all it is given are held as
    UTF-8 or UTF-16, behind what was there, and UTF-8 reads back. *)
Theorem C80_file_partial : forall cs h, Forall code_point cs ->
  exists bs, file_out cs (mksnk h []) = Some (true, mksnk (h ++ bs) []) /\ text seq8 bs cs /\
    utf8_to_utf32 bs = Some (true, length bs, cs).
Proof. exact file_out_all. Qed.
Print Assumptions C80_file_partial.
Theorem C80_terminal_partial : forall cs h, Forall code_point cs ->
  exists us, terminal_out cs (mksnk h []) = Some (true, mksnk (h ++ us) []) /\ text seq16 us cs.
Proof. exact terminal_out_all. Qed.
Print Assumptions C80_terminal_partial.
(** A character that is no code point: the program dies, after writing what is in
    front of it. *)
Theorem C80_bad_dies : forall pre c post h, Forall code_point pre -> (0x110000 <= c < 2 ^ 32)%Z ->
  exists bs, file_out (pre ++ c :: post) (mksnk h []) = Some (false, mksnk (h ++ bs) []) /\ text seq8 bs pre.
Proof. exact file_out_dies. Qed.
Print Assumptions C80_bad_dies.
Example C80_case : Forall code_point [65; 0xE9; 0x1F600]%Z /\
  file_out [65; 0xE9; 0x1F600]%Z (mksnk [1]%Z []) =
    Some (true, mksnk [1; 65; 0xC3; 0xA9; 0xF0; 0x9F; 0x98; 0x80]%Z []) /\
  terminal_out [65; 0x1F600]%Z (mksnk [] []) = Some (true, mksnk [65; 0xD83D; 0xDE00]%Z []) /\
  file_out [65; 0x110000; 66]%Z (mksnk [] []) = Some (false, mksnk [65]%Z []).
Proof. split; [repeat constructor; vm_compute; discriminate|vm_compute; auto]. Qed.
(** A lone surrogate is written, as bytes that no UTF-8 reader has to take. *)
Theorem C80_surrogate_wrong : forall c h, surrogate c ->
  exists bs, file_out [c] (mksnk h []) = Some (true, mksnk (h ++ bs) []) /\ forall cs, ~ text wf8 bs cs.
Proof. exact file_out_surrogate. Qed.
Print Assumptions C80_surrogate_wrong.
Example C80_surrogate_case : surrogate 0xD800%Z /\ file_out [0xD800]%Z (mksnk [] []) = Some (true, mksnk [0xED; 0xA0; 0x80]%Z []).
Proof. split; [split; vm_compute; discriminate|vm_compute; reflexivity]. Qed.
(** A write that the system cuts short loses the rest of the character, and the
    stream does not say so. *)
Theorem C80_short_wrong : forall c h k ks, code_point c -> exists b, seq8 b c /\
  file_out [c] (mksnk h (k :: ks)) = Some (true, mksnk (h ++ firstn k b) ks).
Proof. exact file_out_short. Qed.
Print Assumptions C80_short_wrong.
Example C80_short_case : code_point 0xE9%Z /\
  file_out [0xE9; 65]%Z (mksnk [] [1]) = Some (true, mksnk [0xC3; 65]%Z []).
Proof. split; [split; vm_compute; discriminate|vm_compute; reflexivity]. Qed.

(** ** C81.  As long as every read finds what it asks for and no more than 1024
    characters wait, the characters that come from the terminal are shown once
    each, whatever is given back in between, and line endings are shown as LF. *)
Theorem C81_shown_partial : forall t ops, efull (Z.to_nat 1024) ops [] t ->
  exists tr s, euse (wrap src_base) ops (mki (wnew (mksrc t 0 [] false)) 0 []) = Fine (tr, s) /\
    i_shown s = eshown ops [] t.
Proof. exact echo_all. Qed.
Print Assumptions C81_shown_partial.
Theorem C81_once_partial : forall t ops, efull (Z.to_nat 1024) ops [] t -> ~ In 13%Z t ->
  exists tr s, euse (wrap src_base) ops (mki (wnew (mksrc t 0 [] false)) 0 []) = Fine (tr, s) /\
    i_shown s ++ rest (wbase (i_in s)) = t.
Proof. exact echo_once. Qed.
Print Assumptions C81_once_partial.
Example C81_case : efull (Z.to_nat 1024)
    [ERead 4 []; EUnread [66; 67]%Z; ERead 3 []; ERead 1 []] [] [65; 13; 10; 66; 67; 68; 69]%Z /\
  match euse (wrap src_base) [ERead 4 []; EUnread [66; 67]%Z; ERead 3 []; ERead 1 []]
      (mki (wnew (mksrc [65; 13; 10; 66; 67; 68; 69]%Z 0 [] false)) 0 []) with
  | Fine (tr, s) => tr = [[65; 13; 10; 66]; []; [66; 67; 67]; [68]]%Z /\ i_shown s = [65; 10; 66; 67; 68]%Z
  | _ => False
  end.
Proof. split; [cbn; lia|vm_compute; auto]. Qed.
(** A read that finds less than half of what it asks for shows what the caller's
    array held before, and none of the text. *)
Theorem C81_short_wrong : forall t n old, t <> [] -> 2 * length t <= n -> length old = n ->
  exists s, eread (wrap src_base) n old (mki (wnew (mksrc t 0 [] false)) 0 []) = Fine (t, s) /\
    i_shown s = lf (skipn (n - length t) old).
Proof. exact echo_short. Qed.
Print Assumptions C81_short_wrong.
Example C81_short_case :
  match eread (wrap src_base) 4 [1; 2; 3; 4]%Z (mki (wnew (mksrc [65; 66]%Z 0 [] false)) 0 []) with
  | Fine (got, s) => got = [65; 66]%Z /\ i_shown s = [3; 4]%Z | _ => False end.
Proof. vm_compute. auto. Qed.
(** A line ending that two reads divide is shown as two line ends: the text shown
    depends on how the reads fall. *)
Theorem C81_divided_refuted : exists t ops, efull (Z.to_nat 1024) ops [] t /\
  match euse (wrap src_base) ops (mki (wnew (mksrc t 0 [] false)) 0 []) with
  | Fine (_, s) => rest (wbase (i_in s)) = [] /\ i_shown s <> lf t | _ => False end.
Proof.
  exists [65; 13; 10; 66]%Z, [ERead 2 []; ERead 2 []]. split; [cbn; lia|].
  vm_compute. split; [reflexivity|discriminate].
Qed.
Print Assumptions C81_divided_refuted.

(** ** C82.  Values read as bytes: the first [n * sz] bytes of the stream, and the
    stream goes on behind them; what was written as [n] values reads back as
    them. *)
Theorem C82_read_partial : forall t sz n, (0 < sz)%Z -> (0 <= n)%Z -> (n * sz < 2 ^ 64)%Z ->
  (n * sz <= Z.of_nat (length t))%Z ->
  exists st, typed_read (wrap src_base) sz n (wnew (mksrc t 0 [] false)) =
    Fine (n, firstn (Z.to_nat (n * sz)) t, st) /\
    exists st', s_read (wrap src_base) (length t) st = Fine (skipn (Z.to_nat (n * sz)) t, st').
Proof. exact typed_exact. Qed.
Print Assumptions C82_read_partial.
Theorem C82_round_partial : forall sz n bytes h, (0 < sz)%Z -> (0 <= n)%Z -> (n * sz < 2 ^ 64)%Z ->
  Z.of_nat (length bytes) = (n * sz)%Z ->
  let f := typed_write sz n bytes (mksnk h []) in
  exists st, typed_read (wrap src_base) sz n (wnew (mksrc (skipn (length h) (held f)) 0 [] false)) =
    Fine (n, bytes, st).
Proof. exact typed_round. Qed.
Print Assumptions C82_round_partial.
(** Values given back are read again, and then the stream goes on. *)
Theorem C82_again_partial : forall t sz n bytes, (0 < sz)%Z -> (0 <= n)%Z -> (n * sz <= 1024)%Z ->
  Z.of_nat (length bytes) = (n * sz)%Z ->
  exists st1 st2 st3, typed_unread (wrap src_base) sz n bytes (wnew (mksrc t 0 [] false)) = Fine st1 /\
    typed_read (wrap src_base) sz n st1 = Fine (n, bytes, st2) /\
    s_read (wrap src_base) (length t) st2 = Fine (t, st3).
Proof. exact typed_again. Qed.
Print Assumptions C82_again_partial.
Example C82_case :
  match typed_read (wrap src_base) 4 2 (wnew (mksrc [1; 2; 3; 4; 5; 6; 7; 8; 9]%Z 0 [] false)) with
  | Fine (n, b, _) => n = 2%Z /\ b = [1; 2; 3; 4; 5; 6; 7; 8]%Z | _ => False end /\
  held (typed_write 4 1 [5; 6; 7; 8]%Z (mksnk [1]%Z [])) = [1; 5; 6; 7; 8]%Z.
Proof. vm_compute. auto. Qed.
(** A stream that ends inside a value: its bytes are read and lost, the count says
    nothing was read. *)
Theorem C82_cut_wrong : forall t sz, t <> [] -> (Z.of_nat (length t) < sz < 2 ^ 64)%Z ->
  exists st, typed_read (wrap src_base) sz 1 (wnew (mksrc t 0 [] false)) = Fine (0%Z, t, st) /\
    exists st', s_read (wrap src_base) (length t) st = Fine ([], st').
Proof. exact typed_lost. Qed.
Print Assumptions C82_cut_wrong.
(** A size in bytes that is a multiple of 2^64 reads nothing at all. *)
Theorem C82_wraps_wrong : forall t sz n sch, ((n * sz) mod 2 ^ 64 = 0)%Z ->
  typed_read (wrap src_base) sz n (wnew (mksrc t 0 sch false)) = Fine (0%Z, [], wnew (mksrc t 0 sch false)).
Proof. exact typed_wraps. Qed.
Print Assumptions C82_wraps_wrong.
Example C82_wrong_case : [1; 2; 3]%Z <> [] /\ (Z.of_nat (length [1; 2; 3]%Z) < 4 < 2 ^ 64)%Z /\
  ((2 ^ 62 * 4) mod 2 ^ 64 = 0)%Z.
Proof. split; [discriminate|]. split; [cbn; lia|vm_compute; reflexivity]. Qed.

(** ** C83.  The text of a row tells the row, if the texts of the elements are not
    empty, hold no comma and no closing bracket, and tell the elements. *)
Theorem C83_row_partial : forall (A : Type) (txt : A -> list Z),
  (forall a, txt a <> [] /\ ~ In 44%Z (txt a) /\ ~ In 93%Z (txt a)) ->
  (forall a a', txt a = txt a' -> a = a') ->
  forall l l', row txt l = row txt l' -> l = l'.
Proof. intros A txt. exact (@row_inj A txt). Qed.
Print Assumptions C83_row_partial.
Example C83_case : row (fun b : bool => if b then [84]%Z else [70]%Z) [true; false] = [91; 84; 44; 70; 93]%Z /\
  (forall b : bool, (if b then [84]%Z else [70]%Z) <> [] /\ ~ In 44%Z (if b then [84]%Z else [70]%Z) /\
    ~ In 93%Z (if b then [84]%Z else [70]%Z)).
Proof.
  split; [vm_compute; reflexivity|]. intros b.
  destruct b; (split; [discriminate|]); cbn; split; intros [E|[]]; discriminate E.
Qed.
(** Rows of texts, which are shown as they are, are told apart neither by a comma
    nor when a text is empty. *)
Theorem C83_comma_refuted : exists l l' : list (list Z),
  Forall (fun t => t <> []) (l ++ l') /\ l <> l' /\ row (fun t => t) l = row (fun t => t) l'.
Proof.
  exists [[65; 44; 66]%Z], [[65]%Z; [66]%Z]. split; [repeat constructor; discriminate|].
  split; [discriminate|vm_compute; reflexivity].
Qed.
Print Assumptions C83_comma_refuted.
Theorem C83_empty_refuted : exists l l' : list (list Z), l <> l' /\ row (fun t => t) l = row (fun t => t) l'.
Proof. exists [], [[]]. split; [discriminate|vm_compute; reflexivity]. Qed.
Print Assumptions C83_empty_refuted.
