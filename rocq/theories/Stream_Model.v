(** Model of the text and data streams: a stream to which text can be given back
    (H/base_stream/unreadable_wrap/_body.hpp), the input and output operators
    (H/base_stream/operators/_body.hpp), the streams over a file handle
    (H/stream/base_fstream/_body.hpp), those that convert between the units of a
    file and characters, and the program's own input with its echo
    (H/stream/defs.hpp).

    A caller's array is modelled by what is written into it: a read of [n] units
    that would write more than [n] is undefined ([Wild]), since the array the
    caller passes has [n] cells. *)
From Verif Require Import Base Utf_Model.
Local Open Scope nat_scope.

(** [Fine]: a result; [Wild]: undefined behaviour; [Dies]: the program ends with
    [die_with]; [Endless]: the fuel of the model ran out. *)
Inductive so (A : Type) := Fine (a : A) | Wild | Dies | Endless.
Arguments Fine {A}. Arguments Wild {A}. Arguments Dies {A}. Arguments Endless {A}.
Definition sbind {A B : Type} (x : so A) (k : A -> so B) : so B :=
  match x with Fine a => k a | Wild => Wild | Dies => Dies | Endless => Endless end.

(** [noexcept_not_unreadable_text_istream_t] (H/base_stream/base_streams/_body.hpp:
    43-49,160-162): [read], [is_end], [waitting_for_data]. *)
Record base (B : Type) := mkbase {
  b_read : nat -> B -> so (list Z * B);
  b_end : B -> bool;
  b_wait : B -> bool }.
(** [noexcept_text_istream_t] (H/base_stream/base_streams/_body.hpp:164-180), which
    adds [unread]. *)
Record istream (B : Type) := mkis {
  s_read : nat -> B -> so (list Z * B);
  s_unread : list Z -> B -> so B;
  s_end : B -> bool;
  s_wait : B -> bool }.

(** ** A file or terminal handle: H/stream/base_fstream/_body.hpp:35-95 over
    S/APIs/streams.hpp:165-179,242-288 ([read], [lseek]).  The file is a list of
    units and a position; [sched] says how short each coming [read] of the system
    falls: a read returns at most one unit more than its entry, and as much as is
    asked for when the schedule is exhausted.  Simplified: a read that fails is
    left out; [is_eof] (S/APIs/streams.hpp:142-151) is taken to say that no unit is
    left, which neither of its two variants ensures; the file does not change. *)
Record src := mksrc { all : list Z; at_ : nat; sched : list nat; waiting : bool }.
(** What is left of the file. *)
Definition rest (s : src) : list Z := skipn (at_ s) (all s).
(** How many units a read of [n] may return. *)
Definition allowed (n : nat) (s : src) : nat :=
  match sched s with [] => n | k :: _ => min n (S k) end.
(** [read] (H/stream/base_fstream/_body.hpp:86-88, S/APIs/streams.hpp:165-179). *)
Definition src_read (n : nat) (s : src) : so (list Z * src) :=
  if n =? 0 then Fine ([], s)
  else let got := firstn (allowed n s) (rest s) in
       Fine (got, mksrc (all s) (at_ s + length got) (tl (sched s)) (waiting s)).
(** [is_end] (H/stream/base_fstream/_body.hpp:89-91). *)
Definition src_end (s : src) : bool := length (all s) <=? at_ s.
(** [waitting_for_data] (H/stream/base_fstream/_body.hpp:92-94). *)
Definition src_wait (s : src) : bool := waiting s.
(** H/stream/base_fstream/_body.hpp:76-95. *)
Definition src_base : base src := mkbase src_read src_end src_wait.

(** [seek_type] (H/base_stream/base_streams/_body.hpp:32). *)
Inductive seek_type := beg | end_ | cur.
(** [basic_seek_impl] (S/APIs/streams.hpp:250-288), [lseek]: a position before the
    start of the file is refused with -1. *)
Definition src_seek (d : seek_type) (off : Z) (s : src) : Z * src :=
  let from := match d with beg => 0%Z | end_ => Z.of_nat (length (all s)) | cur => Z.of_nat (at_ s) end in
  let p := (from + off)%Z in
  if (p <? 0)%Z then ((-1)%Z, s) else (p, mksrc (all s) (Z.to_nat p) (sched s) (waiting s)).
(** [basic_tell_impl] (S/APIs/streams.hpp:242-248). *)
Definition src_tell (s : src) : Z := Z.of_nat (at_ s).
(** [seek_to] (H/stream/base_fstream/_body.hpp:46-48). *)
Definition src_seek_to (p : Z) (s : src) : bool * src :=
  let r := src_seek beg p s in ((fst r =? p)%Z, snd r).

(** ** [unreadable_wrap] (H/base_stream/unreadable_wrap/_body.hpp:31-98). *)
(** [_buffer], [_using_size], [_reading_pos] and the stream that is wrapped
    (lines 57-58, 33). *)
Record wst (B : Type) := mkw { wbuf : list Z; wusing : nat; wpos : nat; wbase : B }.
(** [default_buffer_size=1<<10] (line 55). *)
Definition default_buffer_size : nat := Z.to_nat 1024.
(** A stream as it is constructed (lines 57-58); the content of the buffer is
    never read before it is written. *)
Definition wnew {B : Type} (b : B) : wst B :=
  mkw (repeat 0%Z default_buffer_size) default_buffer_size default_buffer_size b.
(** [forward_resize] (H/base/memory/get/defs.hpp:759-784): the argument is the new
    size; cells are dropped or added at the front. *)
Definition forward_resize (n : nat) (l : list Z) : list Z :=
  if n <=? length l then skipn (length l - n) l else repeat 0%Z (n - length l) ++ l.
Section Wrap.
Context {B : Type} (b : base B).
(** [read] (lines 67-80).  [_using_size-_reading_pos] is never negative: both grow
    together (line 86-87) and the position stops at the size. *)
Definition wread (n : nat) (s : wst B) : so (list Z * wst B) :=
  if n =? 0 then Fine ([], s)
  else if wpos s =? wusing s then
    sbind (b_read b n (wbase s)) (fun r =>
      Fine (fst r, mkw (wbuf s) (wusing s) (wpos s) (snd r)))
  else
    let k := min n (wusing s - wpos s) in
    if wpos s + k <=? length (wbuf s) then
      sbind (b_read b (n - k) (wbase s)) (fun r =>
        Fine (firstn k (skipn (wpos s) (wbuf s)) ++ fst r,
              mkw (wbuf s) (wusing s) (wpos s + k) (snd r)))
    else Wild.
(** [unread] (lines 81-91). *)
Definition wunread (l : list Z) (s : wst B) : so (wst B) :=
  if length l =? 0 then Fine s
  else
    let s1 :=
      if wpos s <? length l then
        let more := length l - wpos s in
        mkw (forward_resize more (wbuf s)) (wusing s + more) (wpos s + more) (wbase s)
      else s in
    let p := wpos s1 - length l in
    if p + length l <=? length (wbuf s1) then
      Fine (mkw (firstn p (wbuf s1) ++ l ++ skipn (p + length l) (wbuf s1)) (wusing s1) p (wbase s1))
    else Wild.
(** [is_end] (lines 92-94). *)
Definition wend (s : wst B) : bool := (wpos s =? wusing s) && b_end b (wbase s).
(** [waitting_for_data] (lines 95-97). *)
Definition wwait (s : wst B) : bool := (wpos s =? wusing s) && b_wait b (wbase s).
(** The whole interface (lines 32-98). *)
Definition wrap : istream (wst B) := mkis wread wunread wend wwait.
End Wrap.
(** [seek], [tell] and [seek_to] of a wrapped stream are those of the stream
    inside: [unreadable_wrap] derives from it and overrides none of them
    (line 33). *)
Definition wseek (d : seek_type) (off : Z) (s : wst src) : Z * wst src :=
  let r := src_seek d off (wbase s) in (fst r, mkw (wbuf s) (wusing s) (wpos s) (snd r)).
Definition wtell (s : wst src) : Z := src_tell (wbase s).
Definition wseek_to (p : Z) (s : wst src) : bool * wst src :=
  let r := src_seek_to p (wbase s) in (fst r, mkw (wbuf s) (wusing s) (wpos s) (snd r)).

(** [null_text_stream] (H/base_stream/base_streams/_body.hpp:290-303): reads give
    nothing, and it is never at its end. *)
Definition null_stream : istream unit :=
  mkis (fun _ st => Fine ([], st)) (fun _ st => Fine st) (fun _ => false) (fun _ => false).

(** ** What every input stream inherits. *)
Section Input.
Context {B : Type} (i : istream B).
(** [get] (H/base_stream/base_streams/_body.hpp:120-125,173-178). *)
Definition sget (st : B) : so (Z * B) :=
  sbind (s_read i 1 st) (fun r =>
    match fst r with [] => Fine (0%Z, snd r) | c :: _ => Fine (c, snd r) end).
(** [peek] (H/base_stream/base_streams/_body.hpp:113-119,166-172). *)
Definition speek (st : B) : so (Z * B) :=
  sbind (s_read i 1 st) (fun r =>
    match fst r with
    | [] => Fine (0%Z, snd r)
    | c :: _ => sbind (s_unread i [c] (snd r)) (fun st' => Fine (c, st'))
    end).
(** [stream>>ch] (H/base_stream/operators/_body.hpp:49-53): a read of one unit, whose
    count is ignored; [ch] keeps what it was (possibly nothing) at the end. *)
Definition sshift (ch : option Z) (st : B) : so (option Z * B) :=
  sbind (s_read i 1 st) (fun r =>
    match fst r with [] => Fine (ch, snd r) | c :: _ => Fine (Some c, snd r) end).
(** [endline] on an input stream (H/base_stream/operators/_body.hpp:98-112).  The
    truth value of a stream is "not at the end"
    (H/base_stream/base_streams/_body.hpp:46-48).  Comparing an uninitialised
    character is undefined. *)
Fixpoint endline_loop (fuel : nat) (ch : option Z) (st : B) : so B :=
  match fuel with
  | O => Endless
  | S f =>
      sbind (sshift ch st) (fun r =>
        let '(ch1, st1) := r in
        if s_end i st1 then Fine st1
        else match ch1 with
             | None => Wild
             | Some c =>
                 if (c =? 10)%Z then Fine st1
                 else if (c =? 13)%Z then
                   if s_wait i st1 then Fine st1
                   else sbind (sshift ch1 st1) (fun r2 =>
                     let '(ch2, st2) := r2 in
                     if s_end i st2 then Fine st2
                     else match ch2 with
                          | None => Wild
                          | Some c2 => if (c2 =? 10)%Z then Fine st2 else s_unread i [c2] st2
                          end)
                 else endline_loop f ch1 st1
             end)
  end.
Definition endline (fuel : nat) (st : B) : so B := endline_loop fuel None st.
End Input.

(** ** [not_unreadable_code_cvted_text_irefstream::read]
    (H/stream/defs.hpp:112-130), over a stream [i] of units, [K] of which fill the
    buffer [code_convert_buf] ([to_u32_code_size], S/char_set/convert.hpp:38-39),
    and the conversion [dec] of a block ([auto_to_utf32],
    S/char_set/convert.hpp:502-527).  The conversion writes its characters into the
    caller's array as it goes, before its result is looked at. *)
Section Convert.
Context {B : Type} (i : istream B) (K : nat) (dec : list Z -> option (bool * nat * list Z)).
Fixpoint cvt_loop (fuel size : nat) (readed : list Z) (st : B) : so (list Z * B) :=
  if size <=? length readed then Fine (readed, st)
  else match fuel with
  | O => Endless
  | S f =>
      sbind (s_read i K st) (fun r =>
        let '(units, st1) := r in
        match units with
        | [] => Fine (readed, st1)
        | _ =>
            match dec units with
            | None => Wild
            | Some (ok, used, o) =>
                if size <? length readed + length o then Wild
                else if negb ok then Dies
                else sbind (s_unread i (skipn used units) st1) (fun st2 =>
                       cvt_loop f size (readed ++ o) st2)
            end
        end)
  end.
Definition cvt_read (size : nat) (st : B) : so (list Z * B) := cvt_loop size size [] st.
(** H/stream/defs.hpp:90-131. *)
Definition cvt_base : base B := mkbase cvt_read (s_end i) (s_wait i).
End Convert.
(** [to_u32_code_size] (S/char_set/convert.hpp:38-39) of [char8_t] and [char16_t]. *)
Definition code_size8 : nat := 4.
Definition code_size16 : nat := 2.
(** [file_irefstream_impl] (H/stream/defs.hpp:192-208): characters out of a UTF-8
    file. *)
Definition file_in : istream (wst (wst src)) :=
  wrap (cvt_base (wrap src_base) code_size8 utf8_to_utf32).
(** A terminal of UTF-16 units, [terminal_irefstream_impl]
    (H/stream/defs.hpp:164-177; [base_io_char_type], S/APIs/streams.hpp:95-102). *)
Definition terminal_in : istream (wst (wst src)) :=
  wrap (cvt_base (wrap src_base) code_size16 utf16_to_utf32).
(** A stream on a file that has just been opened. *)
Definition open_in (units : list Z) (sch : list nat) : wst (wst src) :=
  wnew (wnew (mksrc units 0 sch false)).

(** ** Output. *)
(** A handle that is written to: what it holds, and how many units each coming
    [write] of the system takes ([basic_write_impl],
    S/APIs/streams.hpp:181-193); an exhausted list takes everything. *)
Record snk := mksnk { held : list Z; takes : list nat }.
(** [write] (H/stream/base_fstream/_body.hpp:109-113): the count is ignored. *)
Definition snk_write (l : list Z) (s : snk) : snk :=
  match takes s with
  | [] => mksnk (held s ++ l) []
  | k :: r => mksnk (held s ++ firstn k l) r
  end.
(** [code_cvted_text_orefstream::write] (H/stream/defs.hpp:148-161), one character
    at a time through a buffer of [K] units; [None] is undefined.  The first part
    of the result is false when the program died ([die_with], line 157). *)
Fixpoint cvt_write (K : nat) (enc : list Z -> option (bool * nat * list Z)) (cs : list Z) (s : snk)
    : option (bool * snk) :=
  match cs with
  | [] => Some (true, s)
  | c :: r =>
      match enc [c] with
      | None => None
      | Some (ok, _, o) =>
          if K <? length o then None
          else if negb ok then Some (false, s)
          else cvt_write K enc r (snk_write o s)
      end
  end.
(** [file_orefstream_impl] (H/stream/defs.hpp:208-224). *)
Definition file_out : list Z -> snk -> option (bool * snk) := cvt_write code_size8 utf32_to_utf8.
(** [terminal_orefstream_impl] over UTF-16 (H/stream/defs.hpp:178-191). *)
Definition terminal_out : list Z -> snk -> option (bool * snk) := cvt_write code_size16 utf32_to_utf16.

(** ** The program's own input, [in_impl_t] (H/stream/defs.hpp:275-335): what is read
    is shown on the output it is tied to.  [_in], [_unread_size] and the text
    shown. *)
Record ist (B : Type) := mki { i_in : B; i_unread : nat; i_shown : list Z }.
(** [str.find(ec('\r'))] (H/stream/defs.hpp:294). *)
Fixpoint find_cr (l : list Z) : option nat :=
  match l with
  | [] => None
  | c :: r => if (c =? 13)%Z then Some 0 else option_map S (find_cr r)
  end.
(** The loop that shows a text (H/stream/defs.hpp:293-308). *)
Fixpoint show_loop (fuel : nat) (str : list Z) : list Z :=
  match fuel with
  | O => []
  | S f =>
      match str with
      | [] => []
      | _ =>
          match find_cr str with
          | None => str
          | Some p =>
              firstn p str ++ [10%Z] ++
              show_loop f (if (p + 1 <? length str) && (nth (p + 1) str 0%Z =? 10)%Z
                           then skipn (p + 2) str else skipn (p + 1) str)
          end
      end
  end.
Definition show (str : list Z) : list Z := show_loop (length str) str.
Section Echo.
Context {B : Type} (i : istream B).
(** [read] (H/stream/defs.hpp:286-314), with an output tied to it.  [old] is what
    the caller's array held. *)
Definition eread (n : nat) (old : list Z) (s : ist B) : so (list Z * ist B) :=
  sbind (s_read i n (i_in s)) (fun r =>
    let '(got, st) := r in
    let aret := length got in
    let arr := got ++ skipn aret old in
    let shown :=
      if i_unread s <? aret then
        let tie_size := aret - i_unread s in
        i_shown s ++ show (firstn tie_size (skipn (n - tie_size) arr))
      else i_shown s in
    Fine (got, mki st (if aret <=? i_unread s then i_unread s - aret else 0) shown)).
(** [unread] (H/stream/defs.hpp:324-327). *)
Definition eunread (l : list Z) (s : ist B) : so (ist B) :=
  sbind (s_unread i l (i_in s)) (fun st => Fine (mki st (i_unread s + length l) (i_shown s))).
End Echo.

(** ** Values as bytes. *)
Section Typed.
Context {B : Type} (i : istream B).
(** [read] of [n] values of [sz] bytes (H/base_stream/base_streams/_body.hpp:215-218,
    252-255): the count returned and the bytes written.  [size*sizeof(T)] wraps
    around at 64 bits; the array has [n * sz] bytes. *)
Definition typed_read (sz n : Z) (st : B) : so (Z * list Z * B) :=
  sbind (s_read i (Z.to_nat ((n * sz) mod 2 ^ 64)) st) (fun r =>
    Fine ((Z.of_nat (length (fst r)) / sz)%Z, fst r, snd r)).
(** [unread] of [n] values (H/base_stream/base_streams/_body.hpp:222-225). *)
Definition typed_unread (sz n : Z) (bytes : list Z) (st : B) : so B :=
  s_unread i (firstn (Z.to_nat ((n * sz) mod 2 ^ 64)) bytes) st.
End Typed.
(** [write] of [n] values (H/base_stream/base_streams/_body.hpp:229-232). *)
Definition typed_write (sz n : Z) (bytes : list Z) (s : snk) : snk :=
  snk_write (firstn (Z.to_nat ((n * sz) mod 2 ^ 64)) bytes) s.

(** ** [base_array_output] (H/base_stream/operators/_body.hpp:126-136): the elements,
    each shown by [txt], between brackets, with commas. *)
Section Rows.
Context {A : Type} (txt : A -> list Z).
Fixpoint row_rest (l : list A) : list Z :=
  match l with [] => [93%Z] | a :: r => 44%Z :: txt a ++ row_rest r end.
Definition row (l : list A) : list Z :=
  91%Z :: match l with [] => [93%Z] | a :: r => txt a ++ row_rest r end.
End Rows.
