(** Unicode encoding forms, after the Unicode Standard (D90-D92, table 3-6):
    which unit sequences encode which code points.  Independent of the model. *)
From Verif Require Import Base.
Local Open Scope Z_scope.

Definition code_point (c : Z) : Prop := 0 <= c <= 0x10FFFF.
Definition surrogate (c : Z) : Prop := 0xD800 <= c <= 0xDFFF.
Definition scalar (c : Z) : Prop := code_point c /\ ~ surrogate c.

Definition unit8 (x : Z) : Prop := 0 <= x < 2 ^ 8.
Definition unit16 (x : Z) : Prop := 0 <= x < 2 ^ 16.
Definition unit32 (x : Z) : Prop := 0 <= x < 2 ^ 32.

(** UTF-8, shortest form; payload bits [x y z u]. *)
Inductive seq8 : list Z -> Z -> Prop :=
| seq8_1 c : 0 <= c <= 0x7F -> seq8 [c] c
| seq8_2 x y c : 0 <= x < 2 ^ 5 -> 0 <= y < 2 ^ 6 -> c = x * 2 ^ 6 + y -> 0x80 <= c ->
    seq8 [0xC0 + x; 0x80 + y] c
| seq8_3 x y z c : 0 <= x < 2 ^ 4 -> 0 <= y < 2 ^ 6 -> 0 <= z < 2 ^ 6 ->
    c = (x * 2 ^ 6 + y) * 2 ^ 6 + z -> 0x800 <= c ->
    seq8 [0xE0 + x; 0x80 + y; 0x80 + z] c
| seq8_4 x y z u c : 0 <= x < 2 ^ 3 -> 0 <= y < 2 ^ 6 -> 0 <= z < 2 ^ 6 -> 0 <= u < 2 ^ 6 ->
    c = ((x * 2 ^ 6 + y) * 2 ^ 6 + z) * 2 ^ 6 + u -> 0x10000 <= c <= 0x10FFFF ->
    seq8 [0xF0 + x; 0x80 + y; 0x80 + z; 0x80 + u] c.
(** Well-formed UTF-8 excludes surrogates. *)
Definition wf8 (b : list Z) (c : Z) : Prop := seq8 b c /\ ~ surrogate c.

(** UTF-16: one unit, or a high and a low surrogate carrying ten bits each. *)
Inductive seq16 : list Z -> Z -> Prop :=
| seq16_1 c : 0 <= c <= 0xFFFF -> seq16 [c] c
| seq16_2 x y c : 0 <= x < 2 ^ 10 -> 0 <= y < 2 ^ 10 -> c = 0x10000 + x * 2 ^ 10 + y ->
    seq16 [0xD800 + x; 0xDC00 + y] c.
Definition wf16 (b : list Z) (c : Z) : Prop := seq16 b c /\ ~ surrogate c.

Inductive seq32 : list Z -> Z -> Prop := seq32_1 c : seq32 [c] c.

(** A text: the concatenation of the encodings of its code points. *)
Inductive text (R : list Z -> Z -> Prop) : list Z -> list Z -> Prop :=
| text_nil : text R [] []
| text_cons b c bs cs : R b c -> text R bs cs -> text R (b ++ bs) (c :: cs).
