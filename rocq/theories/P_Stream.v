(** Property theorems C76-C78: text given back to a stream, seeking, line
    endings. *)
From Verif Require Import Base Stream_Model Stream_Spec Stream_Proofs Line_Proofs.
Local Open Scope nat_scope.

(** ** C76.  Whatever the source, and however short its reads fall: as long as no
    more than 1024 characters wait to be read again, every use of the stream shows
    the text given back first and then the source's, each character once. *)
Theorem C76_given_back_partial : forall (B : Type) (b : base B) good coming st ops,
  delivers b good coming -> good st -> fits (Z.to_nat 1024) ops 0 ->
  exists tr w p r, use (wrap b) ops (wnew st) = Fine (tr, w) /\ shows ops [] (coming st) tr p r.
Proof. intros B b good coming st ops. exact (@shows_new B b good coming st ops). Qed.
Print Assumptions C76_given_back_partial.
(** Files are such sources, and so are streams that take text back. *)
Theorem C76_sources : delivers src_base (fun _ => True) rest /\
  forall (B : Type) (b : base B) good coming, delivers b good coming ->
    obeys (wrap b) (fun w => exists p r, holds good coming default_buffer_size w p r)
      (fun w => skipn (wpos w) (wbuf w) ++ coming (wbase w)) (@wpos B).
Proof. exact (conj src_delivers (fun B b good coming D => @wrap_obeys B b good coming D _ cap_pos)). Qed.
Print Assumptions C76_sources.
(** On a file whose reads do not fall short a read gets all it asks for. *)
Theorem C76_read_exact_partial : forall units ops tr w p r n, fits (Z.to_nat 1024) ops 0 ->
  use (wrap src_base) ops (wnew (mksrc units 0 [] false)) = Fine (tr, w) ->
  shows ops [] units tr p r ->
  exists w', s_read (wrap src_base) n w = Fine (firstn n (p ++ r), w').
Proof. exact read_exact. Qed.
Print Assumptions C76_read_exact_partial.

Example C76_case : fits (Z.to_nat 1024) [ORead 3; OUnread [2; 3]%Z; OPeek; OGet; ORead 9; OGet; OPeek] 0 /\
  match use (wrap src_base) [ORead 3; OUnread [2; 3]%Z; OPeek; OGet; ORead 9; OGet; OPeek] (wnew (mksrc [1; 2; 3; 4; 5]%Z 0 [5; 0] false)) with
  | Fine (tr, w) => tr = [[1; 2; 3]; []; [2]; [2]; [3; 4]; [5]; [0]]%Z
  | _ => False
  end.
Proof. split; [cbn; lia|vm_compute; reflexivity]. Qed.
(** Giving back more than there is room for is undefined. *)
Theorem C76_too_much_undefined : forall (B : Type) (b : base B) good coming st ops tr w p r l,
  delivers b good coming -> good st -> fits (Z.to_nat 1024) ops 0 ->
  use (wrap b) ops (wnew st) = Fine (tr, w) -> shows ops [] (coming st) tr p r ->
  (Z.of_nat (length p) < 1024 < Z.of_nat (length p + length l))%Z ->
  s_unread (wrap b) l w = Wild.
Proof. intros B b good coming st ops tr w p r l. exact (@too_much B b good coming st ops tr w p r l). Qed.
Print Assumptions C76_too_much_undefined.
Example C76_too_much_case :
  s_unread (wrap src_base) (repeat 7%Z (Z.to_nat 1025)) (wnew (mksrc [1]%Z 0 [] false)) = Wild.
Proof. vm_compute. reflexivity. Qed.
(** With exactly 1024 characters waiting the stream takes more, but then reading
    past what was just given back is undefined. *)
Theorem C76_full_undefined : forall (B : Type) (b : base B) good coming st ops tr w p r l n,
  delivers b good coming -> good st -> fits (Z.to_nat 1024) ops 0 ->
  use (wrap b) ops (wnew st) = Fine (tr, w) -> shows ops [] (coming st) tr p r ->
  Z.of_nat (length p) = 1024%Z -> l <> [] -> length l < n ->
  exists w', s_unread (wrap b) l w = Fine w' /\ s_read (wrap b) n w' = Wild.
Proof. intros B b good coming st ops tr w p r l n. exact (@too_much_full B b good coming st ops tr w p r l n). Qed.
Print Assumptions C76_full_undefined.
Example C76_full_case :
  use (wrap src_base) [OUnread (repeat 7%Z (Z.to_nat 1024)); OUnread [8; 9]%Z; ORead 3]
    (wnew (mksrc [1]%Z 0 [] false)) = Wild.
Proof. vm_compute. reflexivity. Qed.

(** ** C77.  Seeking moves the source; with nothing given back, the text that
    follows is the file's from there. *)
Theorem C77_seek_partial : forall units sch ops w p r d off ops2, after_use units sch ops w p r ->
  (0 <= match d with beg => 0 | end_ => Z.of_nat (length units) | cur => wtell w end + off)%Z ->
  fits (Z.to_nat 1024) ops2 (length p) ->
  exists q w1 tr w2 p2 r2,
    q = (match d with beg => 0 | end_ => Z.of_nat (length units) | cur => wtell w end + off)%Z /\
    wseek d off w = (q, w1) /\ use (wrap src_base) ops2 w1 = Fine (tr, w2) /\
    shows ops2 p (skipn (Z.to_nat q) units) tr p2 r2.
Proof. exact seek_then_use. Qed.
Print Assumptions C77_seek_partial.
Theorem C77_before_start : forall units sch ops w p r d off, after_use units sch ops w p r ->
  (match d with beg => 0 | end_ => Z.of_nat (length units) | cur => wtell w end + off < 0)%Z ->
  wseek d off w = ((-1)%Z, w).
Proof. exact seek_refused. Qed.
Print Assumptions C77_before_start.
Example C77_before_case : wseek beg (-2) (wnew (mksrc [1; 2]%Z 0 [] false))
  = ((-1)%Z, wnew (mksrc [1; 2]%Z 0 [] false)).
Proof. vm_compute. reflexivity. Qed.
Example C77_case : exists w p r, after_use [1; 2; 3; 4; 5]%Z [] [ORead 2] w p r /\ p = [] /\
  match wseek end_ (-2) w with
  | (q, w1) => q = 3%Z /\ match use (wrap src_base) [OGet; OGet; OGet] w1 with
               | Fine (tr, _) => tr = [[4]; [5]; [0]]%Z | _ => False end
  end.
Proof.
  let x := eval vm_compute in
    (use (wrap src_base) [ORead 2] (wnew (mksrc [1; 2; 3; 4; 5]%Z 0 [] false))) in
  match x with Fine (_, ?w) => exists w, [], [3; 4; 5]%Z end.
  split; [|split; [reflexivity|vm_compute; auto]].
  exists [[1; 2]%Z]. split; [exact I|]. split; [vm_compute; reflexivity|].
  apply (@sh_read 2 [] [] [1; 2; 3; 4; 5]%Z [1; 2]%Z [3; 4; 5]%Z); [reflexivity|cbn; lia|discriminate|].
  constructor.
Qed.
(** Text given back survives the seek, which reports success: it is read first,
    wherever the seek went. *)
Theorem C77_seek_stale_wrong : forall units sch ops w c p r x, after_use units sch ops w (c :: p) r ->
  (0 <= x)%Z ->
  exists w1 w2, wseek_to x w = (true, w1) /\ sget (wrap src_base) w1 = Fine (c, w2).
Proof. exact seek_then_get. Qed.
Print Assumptions C77_seek_stale_wrong.
(** [tell] counts the text given back as already read: the file has [r] left, the
    user has [p ++ r] left. *)
Theorem C77_tell_partial : forall units sch ops w p r, after_use units sch ops w p r ->
  wtell w = (Z.of_nat (length units) - Z.of_nat (length r))%Z.
Proof. exact tell_counts. Qed.
Print Assumptions C77_tell_partial.
Example C77_stale_case : match use (wrap src_base) [OPeek] (wnew (mksrc [1; 2; 3]%Z 0 [] false)) with
  | Fine (_, w) => wtell w = 1%Z /\
      match wseek_to 2 w with
      | (ok, w1) => ok = true /\ match use (wrap src_base) [OGet; OGet] w1 with
                    | Fine (tr, _) => tr = [[1]; [3]]%Z | _ => False end
      end
  | _ => False
  end.
Proof. vm_compute. auto. Qed.

(** ** C78.  Skipping to the end of the line leaves the text after the first line
    ending: on every stream that keeps the contract and does not say it is waiting
    for data, except when the text is one line, a CR and one more character. *)
Theorem C78_endline_partial : forall (B : Type) (i : istream B) good coming room st fuel,
  obeys i good coming room -> (forall st, good st -> s_wait i st = false) ->
  good st -> length (coming st) < fuel ->
  (forall pre x, no_ending pre -> x <> 10%Z -> coming st <> pre ++ [13%Z; x]) ->
  exists st', endline i fuel st = Fine st' /\ good st' /\ coming st' = after_line (coming st).
Proof.
  intros B i good coming room st fuel O W. exact (@endline_after B i good coming room O W st fuel).
Qed.
Print Assumptions C78_endline_partial.
Theorem C78_file_partial : forall t n,
  (forall pre x, no_ending pre -> x <> 10%Z -> t <> pre ++ [13%Z; x]) ->
  exists st st', endline (wrap src_base) (S (length t)) (wnew (mksrc t 0 [] false)) = Fine st /\
    s_read (wrap src_base) n st = Fine (firstn n (after_line t), st').
Proof. exact file_endline. Qed.
Print Assumptions C78_file_partial.
Example C78_case : (forall pre x, no_ending pre -> x <> 10%Z -> [65; 13; 66; 67]%Z <> pre ++ [13%Z; x]) /\
  after_line [65; 13; 66; 67]%Z = [66; 67]%Z /\ after_line [65; 13; 10; 66]%Z = [66]%Z /\
  after_line [65; 10; 13; 66]%Z = [13; 66]%Z.
Proof.
  split; [|vm_compute; auto]. intros pre x _ _ E. apply (f_equal (@length Z)) in E as L.
  destruct pre as [|a [|b [|c pre]]]; try discriminate. cbn in L. rewrite app_length in L. cbn in L. lia.
Qed.
(** In that case the last character is lost. *)
Theorem C78_last_lost_wrong : forall pre x n, no_ending pre -> x <> 10%Z ->
  after_line (pre ++ [13%Z; x]) = [x] /\
  exists st st', endline (wrap src_base) (S (length (pre ++ [13%Z; x])))
      (wnew (mksrc (pre ++ [13%Z; x]) 0 [] false)) = Fine st /\
    s_read (wrap src_base) n st = Fine ([], st').
Proof. exact file_endline_lost. Qed.
Print Assumptions C78_last_lost_wrong.
(** A stream that says it is waiting for data keeps the LF of a CR LF, which then
    ends one more line. *)
Theorem C78_waiting_wrong : forall pre r n, no_ending pre ->
  exists st st', endline (wrap src_base) (S (length (pre ++ 13%Z :: 10%Z :: r)))
      (wnew (mksrc (pre ++ 13%Z :: 10%Z :: r) 0 [] true)) = Fine st /\
    s_read (wrap src_base) n st = Fine (firstn n (10%Z :: r), st').
Proof. exact file_endline_wait. Qed.
Print Assumptions C78_waiting_wrong.
Example C78_wrong_case : no_ending [72; 105]%Z /\ 66%Z <> 10%Z /\
  after_line [72; 105; 13; 10; 66]%Z = [66]%Z.
Proof. split; [repeat constructor; discriminate|vm_compute; split; [discriminate|reflexivity]]. Qed.
(** The stream that discards everything is never at its end: skipping a line on it
    looks at a character that was never set. *)
Theorem C78_null_undefined : forall fuel, endline null_stream (S fuel) tt = Wild.
Proof. exact null_endline. Qed.
Print Assumptions C78_null_undefined.
