(** Characters of a string at fractional positions.
    Models H/string/defs.hpp:380-460 (floating_arec_t_impl and operator[] of
    floating-point numbers) and math::linear_interpolation,
    H/base_defs/math.hpp:602-622 (H = parts/header_file/files/elc/_files).

    Floating-point numbers are rationals; [rs] rounds the results computed in
    float_t, [rd] those computed in double (both arbitrary functions here).
    [None] is undefined behaviour.  Characters are char32_t values.
    Simplified: infinities and NaNs as positions are left out. *)
From Coq Require Import QArith Qround.
From Verif Require Import Base.
Local Open Scope omonad_scope.
Local Open Scope Z_scope.

(** static_cast<size_t>(index) (string/defs.hpp:417) and (char_T)value (434, 435):
    truncation towards zero, undefined outside of [w] bits. *)
Definition trunc (w : Z) (q : Q) : option Z :=
  let z := if Qle_bool 0 q then Qfloor q else Qceiling q in
  if (0 <=? z) && (z <? 2 ^ w) then Some z else None.

(** string/defs.hpp:318-324, arec(index).  [behind] is what reading the place
    right behind the last character gives: it depends on how the string is
    represented (string_data_t/comn:116, null:72, same_value_compress:78,
    substr:82); [None] where it is undefined, as it is further behind. *)
Definition char_at (behind : option Z) (s : list Z) (i : Z) : option Z :=
  if i <? Z.of_nat (length s) then (if 0 <=? i then nth_error s (Z.to_nat i) else None)
  else if i =? Z.of_nat (length s) then behind else None.

(** static_cast<signedT> of sub (math.hpp:217-218). *)
Definition to_int (x : Z) : Z := if x <? 2 ^ 31 then x else x - 2 ^ 32.
(** math.hpp:212-218, sub of two char32_t: int subtraction. *)
Definition sub_chars (a b : Z) : option Z :=
  let d := to_int a - to_int b in
  if (- 2 ^ 31 <=? d) && (d <? 2 ^ 31) then Some d else None.

Section Rounded.
Variable rs rd : Q -> Q.

(** math.hpp:604-613, get_k: the difference as a double, divided by 1.0. *)
Definition slope (y1 y2 : Z) : option Q :=
  d <- sub_chars y2 y1 ;; Some (rd (inject_Z d)).
(** math.hpp:614-617, get_result. *)
Definition interpolated (y1 : Z) (k dx : Q) : Q := rd (inject_Z y1 + rd (k * dx))%Q.
(** math.hpp:618-621, get_reverse_result. *)
Definition extrapolated (k dx y : Q) : Q := rd (y - rd (k * dx))%Q.

(** string/defs.hpp:416-429: reading s[q]. *)
Definition read_at (behind : option Z) (s : list Z) (q : Q) : option Q :=
  x1 <- trunc 64 q ;;
  y1 <- char_at behind s x1 ;;
  y2 <- char_at behind s ((x1 + 1) mod 2 ^ 64) ;;
  k <- slope y1 y2 ;;
  Some (interpolated y1 k (rs (q - inject_Z x1))%Q).

(** string/defs.hpp:325, arec_set inside of the string. *)
Definition put_char (s : list Z) (i : Z) (c : Z) : list Z :=
  firstn (Z.to_nat i) s ++ c :: skipn (S (Z.to_nat i)) s.

(** string/defs.hpp:430-439: s[q]=a.  Simplified: only positions between two
    characters of the string. *)
Definition write_at (s : list Z) (q a : Q) : option (list Z) :=
  x1 <- trunc 64 q ;;
  y1 <- char_at None s x1 ;;
  y2 <- char_at None s ((x1 + 1) mod 2 ^ 64) ;;
  k <- slope y1 y2 ;;
  z1 <- trunc 32 (extrapolated k (rs (q - inject_Z x1)) a)%Q ;;
  z2 <- trunc 32 (extrapolated k (rs (q - inject_Z (x1 + 1))) a)%Q ;;
  Some (put_char (put_char s x1 z1) (x1 + 1) z2).
End Rounded.
