(** Model of character classification, S/char_set/isX.hpp and what it uses. *)
From Verif Require Import Base Char_Data.
Local Open Scope Z_scope.
Local Open Scope omonad_scope.

(** The constants (S/char_set/constexprs.hpp:31-132). *)
Definition SHIFT_1 : Z := 6 + 5.
Definition SHIFT_2 : Z := 5.
Definition OMITTED_BMP_INDEX_1_LENGTH : Z := Z.shiftr 65536 SHIFT_1.
Definition INDEX_2_BLOCK_LENGTH : Z := Z.shiftl 1 (SHIFT_1 - SHIFT_2).
Definition INDEX_2_MASK : Z := INDEX_2_BLOCK_LENGTH - 1.
Definition DATA_BLOCK_LENGTH : Z := Z.shiftl 1 SHIFT_2.
Definition DATA_MASK : Z := DATA_BLOCK_LENGTH - 1.
Definition INDEX_SHIFT : Z := 2.
Definition LSCP_INDEX_2_OFFSET : Z := Z.shiftr 65536 SHIFT_2.
Definition LSCP_INDEX_2_LENGTH : Z := Z.shiftr 1024 SHIFT_2.
Definition INDEX_2_BMP_LENGTH : Z := LSCP_INDEX_2_OFFSET + LSCP_INDEX_2_LENGTH.
Definition UTF8_2B_INDEX_2_OFFSET : Z := INDEX_2_BMP_LENGTH.
Definition UTF8_2B_INDEX_2_LENGTH : Z := Z.shiftr 2048 6.
Definition INDEX_1_OFFSET : Z := UTF8_2B_INDEX_2_OFFSET + UTF8_2B_INDEX_2_LENGTH.
Definition BAD_UTF8_DATA_OFFSET : Z := 128.
(** The members of [propstrie] (S/char_set/props_data.hpp:1480-1485). *)
Definition indexLength : Z := 4692.
Definition highStart : Z := 1114112.
Definition highValueIndex : Z := 23012.

(** Reading the table; outside of it is undefined (language). *)
Definition entry (i : Z) : option Z := if i <? 0 then None else nth_error props_index (Z.to_nat i).
(** [_UTRIE_INDEX_RAW] (S/char_set/marcos/_defs.hpp:44-47). *)
Definition index_raw (offset c : Z) : option Z :=
  x <- entry (offset + Z.shiftr c SHIFT_2) ;; Some (Z.shiftl x INDEX_SHIFT + Z.land c DATA_MASK).
(** [_UTRIE_INDEX_FROM_SUPP] (S/char_set/marcos/_defs.hpp:36-42). *)
Definition index_from_supp (c : Z) : option Z :=
  x <- entry (INDEX_1_OFFSET - OMITTED_BMP_INDEX_1_LENGTH + Z.shiftr c SHIFT_1) ;;
  y <- entry (x + Z.land (Z.shiftr c SHIFT_2) INDEX_2_MASK) ;;
  Some (Z.shiftl y INDEX_SHIFT + Z.land c DATA_MASK).
(** [_UTRIE_INDEX_FROM_CP] (S/char_set/marcos/_defs.hpp:49-60), [char_t] being 32 bits
    without sign (S/default_data_type.hpp:32). *)
Definition index_from_cp (asciiOffset c : Z) : option Z :=
  if c <? 55296 then index_raw 0 c
  else if c <=? 65535 then
    index_raw (if c <=? 56319 then LSCP_INDEX_2_OFFSET - Z.shiftr 55296 SHIFT_2 else 0) c
  else if c >? 1114111 then Some (asciiOffset + BAD_UTF8_DATA_OFFSET)
  else if c >=? highStart then Some highValueIndex
  else index_from_supp c.
(** [GET_PROPS] (S/char_set/marcos/_defs.hpp:62-66). *)
Definition get_props (c : Z) : option Z := i <- index_from_cp indexLength c ;; entry i.
(** [U_MASK], [GET_CATEGORY], [CAT_MASK] (S/char_set/marcos/_defs.hpp:30-34). *)
Definition U_MASK (x : Z) : Z := Z.shiftl 1 x.
Definition get_category (props : Z) : Z := Z.land props 31.
Definition cat_mask (props : Z) : Z := U_MASK (get_category props).

(** The categories (S/char_set/constexprs.hpp:133-196). *)
Definition U_UNASSIGNED := 0. Definition U_UPPERCASE_LETTER := 1. Definition U_LOWERCASE_LETTER := 2.
Definition U_TITLECASE_LETTER := 3. Definition U_MODIFIER_LETTER := 4. Definition U_OTHER_LETTER := 5.
Definition U_NON_SPACING_MARK := 6. Definition U_ENCLOSING_MARK := 7. Definition U_COMBINING_SPACING_MARK := 8.
Definition U_DECIMAL_DIGIT_NUMBER := 9. Definition U_LETTER_NUMBER := 10. Definition U_OTHER_NUMBER := 11.
Definition U_SPACE_SEPARATOR := 12. Definition U_LINE_SEPARATOR := 13. Definition U_PARAGRAPH_SEPARATOR := 14.
Definition U_CONTROL_CHAR := 15. Definition U_FORMAT_CHAR := 16. Definition U_PRIVATE_USE_CHAR := 17.
Definition U_SURROGATE := 18. Definition U_DASH_PUNCTUATION := 19. Definition U_START_PUNCTUATION := 20.
Definition U_END_PUNCTUATION := 21. Definition U_CONNECTOR_PUNCTUATION := 22. Definition U_OTHER_PUNCTUATION := 23.
Definition U_INITIAL_PUNCTUATION := 28. Definition U_FINAL_PUNCTUATION := 29.
(** The masks (S/char_set/constexprs.hpp:197-290). *)
Definition masks (l : list Z) : Z := fold_left (fun m x => Z.lor m (U_MASK x)) l 0.
Definition U_GC_L_MASK : Z :=
  masks [U_UPPERCASE_LETTER; U_LOWERCASE_LETTER; U_TITLECASE_LETTER; U_MODIFIER_LETTER; U_OTHER_LETTER].
Definition U_GC_N_MASK : Z := masks [U_DECIMAL_DIGIT_NUMBER; U_LETTER_NUMBER; U_OTHER_NUMBER].
Definition U_GC_Z_MASK : Z := masks [U_SPACE_SEPARATOR; U_LINE_SEPARATOR; U_PARAGRAPH_SEPARATOR].
Definition U_GC_C_MASK : Z :=
  masks [U_UNASSIGNED; U_CONTROL_CHAR; U_FORMAT_CHAR; U_PRIVATE_USE_CHAR; U_SURROGATE].
Definition U_GC_P_MASK : Z :=
  masks [U_DASH_PUNCTUATION; U_START_PUNCTUATION; U_END_PUNCTUATION; U_CONNECTOR_PUNCTUATION; U_OTHER_PUNCTUATION;
         U_INITIAL_PUNCTUATION; U_FINAL_PUNCTUATION].

(** "Category equals", "category among the mask" as written in each function below. *)
Definition is_category (c k : Z) : option bool := props <- get_props c ;; Some (get_category props =? k).
Definition in_mask (c m : Z) : option bool := props <- get_props c ;; Some (negb (Z.land (cat_mask props) m =? 0)).
(** S/char_set/isX.hpp:31-34, 37-40, 43-46, 49-52. *)
Definition islower (c : Z) : option bool := is_category c U_LOWERCASE_LETTER.
Definition isupper (c : Z) : option bool := is_category c U_UPPERCASE_LETTER.
Definition istitle (c : Z) : option bool := is_category c U_TITLECASE_LETTER.
Definition isdigit (c : Z) : option bool := is_category c U_DECIMAL_DIGIT_NUMBER.
(** S/char_set/isX.hpp:54-65. *)
Definition isxdigit (c : Z) : option bool :=
  if ((c <=? 102) && (c >=? 65) && ((c <=? 70) || (c >=? 97)))
     || ((c >=? 65313) && (c <=? 65350) && ((c <=? 65318) || (c >=? 65345)))
  then Some true else is_category c U_DECIMAL_DIGIT_NUMBER.
(** S/char_set/isX.hpp:68-71, 74-77, 80-83, 86-89, 92-95. *)
Definition isalpha (c : Z) : option bool := in_mask c U_GC_L_MASK.
Definition isalnum (c : Z) : option bool := in_mask c (Z.lor U_GC_L_MASK (U_MASK U_DECIMAL_DIGIT_NUMBER)).
Definition isdefined (c : Z) : option bool := props <- get_props c ;; Some (negb (get_category props =? 0)).
Definition isbase (c : Z) : option bool :=
  in_mask c (masks [U_COMBINING_SPACING_MARK; U_ENCLOSING_MARK; U_DECIMAL_DIGIT_NUMBER; U_LETTER_NUMBER; U_OTHER_NUMBER;
    U_UPPERCASE_LETTER; U_LOWERCASE_LETTER; U_TITLECASE_LETTER; U_MODIFIER_LETTER; U_OTHER_LETTER]).
Definition iscntrl (c : Z) : option bool :=
  in_mask c (masks [U_CONTROL_CHAR; U_FORMAT_CHAR; U_LINE_SEPARATOR; U_PARAGRAPH_SEPARATOR]).
(** S/char_set/isX.hpp:97-99. *)
Definition isISOControl (c : Z) : bool := (c <=? 159) && ((c <=? 31) || (c >=? 127)).
(** [IS_THAT_CONTROL_SPACE] and [isspace] (S/char_set/isX.hpp:102-109). *)
Definition control_space (c : Z) : bool :=
  (c <=? 159) && (((c >=? 9) && (c <=? 13)) || ((c >=? 28) && (c <=? 31)) || (c =? 133)).
Definition isspace (c : Z) : option bool := b <- in_mask c U_GC_Z_MASK ;; Some (b || control_space c).
(** S/char_set/isX.hpp:113-121. *)
Definition isblank (c : Z) : option bool :=
  if c <=? 159 then Some ((c =? 9) || (c =? 32)) else is_category c U_SPACE_SEPARATOR.
(** S/char_set/isX.hpp:124-128, 130-136, 138-141. *)
Definition isprint (c : Z) : option bool := b <- in_mask c U_GC_C_MASK ;; Some (negb b).
Definition isgraph (c : Z) : option bool :=
  b <- in_mask c (Z.lor (masks [U_CONTROL_CHAR; U_FORMAT_CHAR; U_SURROGATE; U_UNASSIGNED]) U_GC_Z_MASK) ;; Some (negb b).
Definition ispunct (c : Z) : option bool := in_mask c U_GC_P_MASK.
