{
 "claims": [
  {
   "property": "C01",
   "status": "proved",
   "theorems": [
    "C01_uadd_exact",
    "C01_uadd_assign_exact"
   ],
   "note": "operator+ and += are exact for every pair of canonical operands and every digit width."
  },
  {
   "property": "C02",
   "status": "proved",
   "theorems": [
    "C02_usub_exact"
   ],
   "note": "exact, saturating at zero; the buffer is never overrun."
  },
  {
   "property": "C03",
   "status": "partial",
   "theorems": [
    "C03_umul_partial",
    "C03_schoolbook_exact",
    "C03_umul_refuted",
    "C03_umul_debug_refuted"
   ],
   "note": "Every produced product is exact, and the product is always produced when the shorter operand has fewer than 64 digits (schoolbook path, exact for all sizes). Full statement refuted: two 64-digit operands make the divide-and-conquer path carry past its buffer (C03_umul_refuted)."
  },
  {
   "property": "C04",
   "status": "partial",
   "theorems": [
    "C04_umod_exact_partial",
    "C04_udiv_partial",
    "C04_udivmod_partial",
    "C04_long_division_exact",
    "C04_exact_multiple_partial",
    "C04_udiv_refuted",
    "C04_any_size_mod_partial",
    "C04_any_size_div_partial",
    "C04_any_size_divmod_partial",
    "C04_short_divisor_partial",
    "C04_short_divisor_quotient_partial",
    "C04_any_size_ends",
    "C04_short_path_agrees",
    "C04_one_digit_divisor_undefined",
    "C04_top_digits_maximal_undefined",
    "C04_long_remainder_undefined",
    "C04_long_quotient_refuted",
    "C04_long_division_refuted"
   ],
   "note": "Dividends of at most 32 digits: % exact; / exact or one too large, exact if the divisor is at most about half as long and for exact multiples; divmod exact whenever it produces a result. Dividends of any size (divide-and-conquer path): every remainder produced is exact, every quotient produced is at least the true one and, for divisors of at most 20 digits, exact (/: exact or one more); divisors of 2 to 9 digits always give the exact result. Full statement refuted: one too large (C04_udiv_refuted), 2^32-1 too large (C04_long_quotient_refuted), undefined (C04_long_division_refuted); no result for any >32-digit dividend with a one-digit divisor, a divisor with maximal leading digits, or a scaled remainder of more than 32 digits."
  },
  {
   "property": "C05",
   "status": "proved",
   "theorems": [
    "C05_ucompare_numeric"
   ],
   "note": "order, equality and uniqueness of representation."
  },
  {
   "property": "C06",
   "status": "proved",
   "theorems": [
    "C06_increment_exact"
   ],
   "note": ""
  },
  {
   "property": "C07",
   "status": "partial",
   "theorems": [
    "C07_decrement_partial",
    "C07_decrement_always_wrong_refuted",
    "C07_decrement_refuted"
   ],
   "note": "Exact when the lowest digit is not zero; for every number whose lowest digit is zero the result is wrong (refuted, with the exact wrong value)."
  },
  {
   "property": "C08",
   "status": "partial",
   "theorems": [
    "C08_left_shift_exact",
    "C08_right_shift_assign_exact",
    "C08_digit_shifts_exact",
    "C08_right_shift_partial",
    "C08_right_shift_refuted"
   ],
   "note": "<<, <<=, >>= and whole-digit shifts exact; by-value >> exact whenever defined, undefined for counts of at least one digit that are not a multiple of the digit width (refuted)."
  },
  {
   "property": "C09",
   "status": "proved",
   "theorems": [
    "C09_native_round_trip",
    "C09_convert_modulo"
   ],
   "note": ""
  },
  {
   "property": "C10",
   "status": "partial",
   "theorems": [
    "C10_native_compare_partial",
    "C10_native_order_partial",
    "C10_native_less_wrong",
    "C10_native_equality_refuted",
    "C10_native_order_refuted"
   ],
   "note": "Equal numbers compare equal and a longer big integer compares greater; one with as many digits as the native type compares greater exactly if it is greater, but never less (C10_native_less_wrong); the rest is refuted (3 == 5u, 5 <=> 3ull is less)."
  },
  {
   "property": "C11",
   "status": "partial",
   "theorems": [
    "C11_add_native_partial",
    "C11_add_native_refuted"
   ],
   "note": "Exact unless the native value lies within one digit of the top of the calculation type; refuted there (1 += 2^64-1 gives 0)."
  },
  {
   "property": "C12",
   "status": "partial",
   "theorems": [
    "C12_add_partial",
    "C12_add_assign_partial",
    "C12_sub_exact",
    "C12_negate_exact",
    "C12_mul_partial",
    "C12_div_partial",
    "C12_mod_partial",
    "C12_shift_left_exact",
    "C12_increment_partial",
    "C12_decrement_partial",
    "C12_add_mixed_never_returns",
    "C12_add_assign_mixed",
    "C12_sub_assign_wrong",
    "C12_native_sub_assign_wrong",
    "C12_native_sub_zero_wrong",
    "C12_refuted"
   ],
   "note": "By-value -, unary minus, <<, and + / += of operands of the same sign exact; *, /, % exact as far as the unsigned operations are (C03, C04); ++ and -- except when the unsigned decrement is wrong (C07). + of operands of different sign never returns, += never returns or ignores the operand, -= is wrong for every non-zero operand (proved for all operands). -= with a native operand is wrong unless the operand is zero or the number itself (C12_native_sub_assign_wrong), and zero of a wider type makes a number zero (C12_native_sub_zero_wrong); +, += and - with native operands do not compile (ambiguous calls, assignment to a constant). Rvalue overloads of - not modelled; by-value - does not compile as written and is modelled as if its sign variable were not const."
  },
  {
   "property": "C13",
   "status": "partial",
   "theorems": [
    "C13_order_partial",
    "C13_hash_partial",
    "C13_mul_assign_zero",
    "C13_div_assign_partial",
    "C13_mod_assign_partial",
    "C13_shift_right_assign",
    "C13_refuted",
    "C13_rvalue_minus_refuted"
   ],
   "note": "Equality, order, uniqueness of representation and hash proved for values without a negative zero; negative zeros are produced by *=, /=, %= and >>= (characterised exactly), and by negating a temporary (refuted)."
  },
  {
   "property": "C14",
   "status": "partial",
   "theorems": [
    "C14_add_partial",
    "C14_sub_partial",
    "C14_mul_partial",
    "C14_div_partial",
    "C14_reciprocal_exact",
    "C14_integer_operand_partial",
    "C14_power_partial",
    "C14_split_partial",
    "C14_trunc_partial",
    "C14_simplify_partial",
    "C14_simplify_refuted",
    "C14_divide_by_itself_wrong",
    "C14_divide_by_itself_refuted"
   ],
   "note": "Every produced result of + - * / pow, reciprocal, split, mixed integer operators is the exact rational for all sizes and unreduced representations; total below 64 digits (C03). Truncation is the floor (C14_trunc_partial: numerator up to 32 digits, denominator about half of it). Reduction correct up to 32 digits except zero over an even denominator, which stays unreduced (refuted). x/=x yields 1/denominator (refuted, and characterised for all x)."
  },
  {
   "property": "C15",
   "status": "partial",
   "theorems": [
    "C15_equal_partial",
    "C15_order_partial",
    "C15_integer_operand_partial"
   ],
   "note": "Every produced answer is right for all representations; total when one operand is below 64 digits (C03)."
  },
  {
   "property": "C16",
   "status": "partial",
   "theorems": [
    "C16_hash_partial",
    "C16_hash_refuted",
    "C16_signed_hash_partial"
   ],
   "note": "Proved for fractions in lowest terms, unsigned and signed; refuted in general: hash(1/2)=30, hash(2/4)=60."
  },
  {
   "property": "C17",
   "status": "partial",
   "theorems": [
    "C17_short_print_agrees",
    "C17_long_print_partial",
    "C17_long_usual_partial",
    "C17_long_signed_partial",
    "C17_long_round_trip_partial",
    "C17_long_power_radices",
    "C17_decimal_text_refuted",
    "C17_decimal_undefined_refuted",
    "C17_hexadecimal_undefined_refuted",
    "C17_huge_text_undefined",
    "C17_representations",
    "C17_table_characters",
    "C17_numeral_unique",
    "C17_native_round_trip",
    "C17_native_signed_round_trip",
    "C17_big_print_partial",
    "C17_big_round_trip_partial",
    "C17_big_total_partial",
    "C17_usual_radices",
    "C17_bigint_total_partial",
    "C17_ternary_print_refuted",
    "C17_radix_1165_print_refuted"
   ],
   "note": "Proved for all built-in integers in every radix, and for big integers of at most 32 digits (1024 bits on 32-bit digits) in decimal, hexadecimal, octal, binary; refuted in radix 3 and 1165 (undefined for some 22-digit numbers). Longer numbers with the fast division: hexadecimal and binary up to 1632 bits and octal up to 1248 bits are total, exact and parsed back; decimal up to 1344 bits is exact whenever a text results. Beyond that the statement is false: 2^640*10^256-1 has a wrong decimal text, 2^448*10^256-1 none, 7^600 no hexadecimal text, and almost no number of more than 96 digits has a text in any radix."
  },
  {
   "property": "C18",
   "status": "partial",
   "theorems": [
    "C18_native_partial",
    "C18_native_overflow_refuted",
    "C18_big_exact_partial",
    "C18_big_answers_partial",
    "C18_signed_empty_undefined",
    "C18_lone_sign_refuted"
   ],
   "note": "Error iff an invalid character, for built-in and big integers; value exact for big integers, modulo 2^d for built-in ones (overflow accepted silently: refuted). Signed: empty text undefined, lone sign accepted (refuted). Missing: texts beyond 63 digits of the base (definedness of the fast multiplication)."
  },
  {
   "property": "C19",
   "status": "partial",
   "theorems": [
    "C19_meaning_partial",
    "C19_prints_partial",
    "C19_mixed_expansion_refuted"
   ],
   "note": "Complete characterisation: the printed expansion denotes the fraction iff the expansion ends or is purely periodic; otherwise it is wrong (1/6 prints 0.[1], refuted). Termination with a text for denominators of at most two digits."
  },
  {
   "property": "C20",
   "status": "proved",
   "theorems": [
    "C20_rotations_exact",
    "C20_rotations_group",
    "C20_rot_iterator",
    "C20_bit_counts_exact"
   ],
   "note": "rotations by any integer amount at any width; bit length and the four run counts at every power-of-two byte width."
  },
  {
   "property": "C21",
   "status": "proved",
   "theorems": [
    "C21_hash_exact",
    "C21_hash_compositional"
   ],
   "note": "hash is characterised bit by bit; merge and continuation give the hash of the concatenation."
  },
  {
   "property": "C22",
   "status": "proved",
   "theorems": [
    "C22_repeat_hash"
   ],
   "note": "for every count, including the parity shortcut the author marked as unverified."
  },
  {
   "property": "C23",
   "status": "proved",
   "theorems": [
    "C23_sort_exact",
    "C23_sort_all_exact",
    "C23_sort_any_comparator",
    "C23_heapsort_exact",
    "C23_quicksort_exact",
    "C23_insertion_sort_exact"
   ],
   "note": "For every strict weak ordering the result is a sorted permutation; for an arbitrary comparator it is still a permutation and no access leaves the range; each of the three algorithms and the selector is covered."
  },
  {
   "property": "C24",
   "status": "proved",
   "theorems": [
    "C24_utf8_encode_decode",
    "C24_utf8_decode_encode"
   ],
   "note": "for all code point sequences and all byte sequences."
  },
  {
   "property": "C25",
   "status": "partial",
   "theorems": [
    "C25_utf8_decoder_partial",
    "C25_surrogate_refuted"
   ],
   "note": "The decoder accepts exactly the shortest-form sequences up to U+10FFFF, never reads outside the input, and reports the longest convertible prefix. It also accepts surrogates written as three bytes (refuted)."
  },
  {
   "property": "C26",
   "status": "partial",
   "theorems": [
    "C26_utf16_encode_decode_partial",
    "C26_utf16_decode_encode",
    "C26_utf16_high_surrogate_rejected_partial",
    "C26_direct_conversions",
    "C26_utf32_copy",
    "C26_low_surrogate_refuted",
    "C26_encode_decode_refuted"
   ],
   "note": "Round trip proved for all scalar values, re-encoding proved for everything accepted, direct 8<->16 conversions proved equal to the route through code points, unpaired high surrogates rejected, UTF-32 to UTF-32 copies everything (C26_utf32_copy). Unpaired low surrogates are accepted and surrogate code points do not survive (refuted)."
  },
  {
   "property": "C27",
   "status": "partial",
   "theorems": [
    "C27_sizes_partial",
    "C27_utf8_to_utf32_size_partial",
    "C27_utf8_to_utf32_size_refuted",
    "C27_utf8_to_utf16_size_refuted"
   ],
   "note": "Exact for 16->8, 16->32, 32->8, 32->16; 8->32 exact on convertible input but predicts a size for malformed input (refuted); 8->16 has no return statement and is undefined on every convertible input (refuted)."
  },
  {
   "property": "C28",
   "status": "partial",
   "theorems": [
    "C28_first_occurrence_found",
    "C28_answer_partial",
    "C28_defined_partial",
    "C28_short_range_undefined",
    "C28_bounds_refuted"
   ],
   "note": "An occurrence inside the range is always found, at its first position, without outside reads, for every hash; not-found answers are right. Refuted: when there is no occurrence the search may read past the end or report a match sticking out of the range; ranges shorter than the pattern are always over-read."
  },
  {
   "property": "C29",
   "status": "partial",
   "theorems": [
    "C29_reverse_answer_partial",
    "C29_suffix_found_partial",
    "C29_next_found_partial",
    "C29_before_start_undefined",
    "C29_reverse_refuted"
   ],
   "note": "A reported position is an occurrence; a pattern at the very end is found, and one that is a single step away (C29_next_found_partial). Refuted: misses occurrences, reports an earlier one, reads before the text (skip distance one too long, last pattern element missing from the table, repeated elements overwrite); for every pattern there are texts for which it reads before the text (C29_before_start_undefined)."
  },
  {
   "property": "C30",
   "status": "partial",
   "theorems": [
    "C30_first_of_exact",
    "C30_first_not_of_exact",
    "C30_last_not_of_exact",
    "C30_last_of_partial",
    "C30_last_of_undefined",
    "C30_last_of_refuted"
   ],
   "note": "find_first_of, find_first_not_of, find_last_not_of exact for all integer element types; find_last_of exact when defined, undefined exactly when the set fits the table and nothing is found (missing return)."
  },
  {
   "property": "C31",
   "status": "partial",
   "theorems": [
    "C31_programs_partial",
    "C31_guarded_partial",
    "C31_remove_shared_refuted",
    "C31_remove_shared_undefined_refuted",
    "C31_assign_repeated_refuted",
    "C31_assign_repeated_undefined_refuted",
    "C31_assign_after_insert_refuted",
    "C31_substr_of_insert_refuted",
    "C31_remove_after_insert_refuted",
    "C31_remove_after_insert_undefined_refuted",
    "C31_insert_place_refuted",
    "C31_insert_front_refuted",
    "C31_insert_overlap_refuted",
    "C31_pop_joined_refuted",
    "C31_pop_twice_appended_refuted",
    "C31_pop_prepended_refuted",
    "C31_literal_append_refuted",
    "C31_self_append_refuted",
    "C31_self_assign_refuted",
    "C31_self_insert_refuted"
   ],
   "note": "Proved for all programs of string operations within two lists of operations (building: construct, copy, append, prepend, concatenate, erase, substr, resize, assign, ...; taking apart: substr, remove, pop, assign, ...) without any condition on representation or sharing, and for all mixtures of all operations under an explicit condition on the representation per operation. The full claim is false: 18 refutations (insert at the wrong place, remove and pop through joined or inserted strings, assignment to repeated characters, self assignment, ...). Not modelled: find/replace/starts_with family, iterators, streams, multithreaded sharing, allocation failure, the reference counts themselves (a handle counter gives uniqueness; any answer that never calls a shared node unique is allowed)."
  },
  {
   "property": "C32",
   "status": "partial",
   "theorems": [
    "C32_equal_partial",
    "C32_order_partial",
    "C32_unchanged_partial",
    "C32_erased_equal_refuted",
    "C32_inserted_order_refuted",
    "C32_substr_order_refuted",
    "C32_literal_refuted",
    "C32_literal_changes_refuted",
    "C32_compare_changes_refuted",
    "C32_compare_diverges"
   ],
   "note": "==, <=> and unchanged contents proved after any program of construction, copying, appending, prepending and concatenation on node strings, including the merging of equal nodes done by a comparison; under conditions on the representation (C31_guarded_partial) for the rest. Refuted for strings erased from, inserted into, cut and for compile-time strings; a comparison can change another string and can make a node contain itself so that reading never ends."
  },
  {
   "property": "C33",
   "status": "partial",
   "theorems": [
    "C33_hash_partial",
    "C33_stale_refuted",
    "C33_substr_of_insert_refuted",
    "C33_char_refuted"
   ],
   "note": "Hash proved equal to the hash of the characters after any program of the two lists, including cached values and sharing; refuted for one-character strings, substrings of inserted strings and assignment to a repeated character (stale cache)."
  },
  {
   "property": "C34",
   "status": "proved",
   "theorems": [
    "C34_table_stable_hash",
    "C34_table_unstable_hash"
   ],
   "note": "For all histories, hash functions, collision patterns, growth policies and bucket capacities, both for stable and for unstable hashes; on a heap of linked nodes with move-to-front lookups, so absence of dangling accesses is part of the statement, and so is absence of leaks (as many nodes allocated as elements held). Copying tables not modelled (the default bucket type is not copyable)."
  },
  {
   "property": "C35",
   "status": "partial",
   "theorems": [
    "C35_maps_partial",
    "C35_no_leak_partial",
    "C35_self_compare_diverges"
   ],
   "note": "Reads, writes, clear, size, for_each (reading and replacing values), shrink and comparison of different maps proved for all histories, with absence of leaks; comparing a map with itself never returns when two keys with non-default values share a bucket (proved for all such histories). Callbacks of for_each that use the map itself are not modelled; copy and move of maps are not (operator= and swap of map_t do not compile when used: inside the class swap(_m,a._m) finds the one-argument member, and the const copy calls the non-const copy())."
  },
  {
   "property": "C36",
   "status": "partial",
   "theorems": [
    "C36_values_partial",
    "C36_isolated",
    "C36_defined_partial",
    "C36_compare",
    "C36_construct_undefined",
    "C36_kept_reference_refuted",
    "C36_compare_dangles_refuted",
    "C36_compare_changes_refuted"
   ],
   "note": "For every history with a == that holds of identical values only: independent values, no undefined access, no leak. For every ==: an operation changes no other handle. Undefined/refuted: construction from arguments (all states), references kept across a copy, const references across ==, == coarser than identity changing the left value."
  },
  {
   "property": "C37",
   "status": "partial",
   "theorems": [
    "C37_operations_partial",
    "C37_lifetime_partial",
    "C37_null_stays",
    "C37_weak_member_refuted"
   ],
   "note": "For all histories of handle operations (construction, copy, assignment, reset, swap, moves between members, destruction with cascades): the count equals the number of handles, an object is destroyed exactly when its last handle goes, never accessed afterwards, null operations are inert. Missing: cycles stay allocated (example), objects holding a weak handle inside themselves (refuted), replacement of objects (separate)."
  },
  {
   "property": "C38",
   "status": "partial",
   "theorems": [
    "C38_lock_partial",
    "C38_released_partial",
    "C38_waiting_is_empty",
    "C38_assign_refuted",
    "C38_get_refuted"
   ],
   "note": "Locking a weak handle yields the object iff it is alive, for all histories; released cells freed. Refuted: assignment of a weak handle and get() through an expired one."
  },
  {
   "property": "C39",
   "status": "partial",
   "theorems": [
    "C39_behaves_partial",
    "C39_disjoint_partial",
    "C39_release_undefined",
    "C39_size_undefined",
    "C39_first_release_undefined"
   ],
   "note": "Allocation, reuse, shrink proved for all unit and object sizes as long as only slots that begin below byte n-1 of their unit are released. Releasing any other slot, in particular the first one a pool hands out, is undefined for all sizes (the range check counts bytes instead of slots). The pool header is not part of the shipped umbrella header."
  },
  {
   "property": "C40",
   "status": "partial",
   "theorems": [
    "C40_collect_partial",
    "C40_defined_partial",
    "C40_marker",
    "C40_dead_root_undefined",
    "C40_copied_root_refuted",
    "C40_cascade_refuted"
   ],
   "note": "Exactness proved for all programs over one type, every correct marker (depth-first marker proved correct) and destruction of single objects. A destroyed root pointer makes every later collection undefined (proved for all states); copied root pointers are not registered, and cascading destruction during the sweep is undefined (refuted)."
  },
  {
   "property": "C41",
   "status": "partial",
   "theorems": [
    "C41_arrays_partial",
    "C41_push_own_element_undefined",
    "C41_push_own_element_bytes",
    "C41_remove_partial",
    "C41_remove_undefined",
    "C41_remove_only_dangles",
    "C41_insert_used_refuted",
    "C41_forward_insert_nothing_refuted"
   ],
   "note": "Histories proved for all element types and allocators (no undefined behaviour, sequence semantics, no sharing, no leaks). push_back(a[k]) is undefined for every type not movable as bytes and whenever the block moves; remove is undefined with two or more elements behind the removed one and leaves a dangling pointer when it removes the only one; the insert that is told the used size loses an element (types with constructor); forward insert of nothing ignores the size. Throwing constructors and failing allocation not modelled."
  },
  {
   "property": "C42",
   "status": "partial",
   "theorems": [
    "C42_between_in_range",
    "C42_between_attains_partial",
    "C42_wide_range_refuted",
    "C42_empty_range_refuted"
   ],
   "note": "Every returned value is in range for every generator output; every value of the range attainable unless the range covers half of a 32-bit or wider type (refuted: undefined subtraction or shift); exclusive range with equal bounds never returns (refuted). Floating-point ranges: C102."
  },
  {
   "property": "C43",
   "status": "proved",
   "theorems": [
    "C43_full_period",
    "C43_sowing_full_period"
   ],
   "note": "Hull-Dobell condition for the chosen multiplier with any square-root and prime-search oracle; period exactly 2^w and every state reached, for all w and seeds; the seeding step as well."
  },
  {
   "property": "C44",
   "status": "partial",
   "theorems": [
    "C44_is_prime_exact",
    "C44_square_root_refuted",
    "C44_next_prime_partial",
    "C44_next_prime_refuted",
    "C44_previous_prime_partial",
    "C44_previous_prime_refuted"
   ],
   "note": "The primality predicate is exact for every value of every type, given a square root that is the floor or one more. The next-prime search is exact except for multiples of 6 (refuted: 24 gives 27, 131 gives 139); the previous-prime search except for residues 0 and 5 modulo 6 (refuted: 11 gives 7)."
  },
  {
   "property": "C45",
   "status": "partial",
   "theorems": [
    "C45_factorisation_partial",
    "C45_unique_factors_partial",
    "C45_termination_partial",
    "C45_factorisation_refuted"
   ],
   "note": "Whatever is returned is a correct prime factorisation (and the distinct variant lists exactly the prime divisors); terminates for numbers whose prime factors are below 137; never terminates for 137 (refuted)."
  },
  {
   "property": "C46",
   "status": "partial",
   "theorems": [
    "C46_big_gcd_any_size_partial",
    "C46_uneven_lengths_undefined",
    "C46_long_remainder_undefined",
    "C46_native_gcd_exact",
    "C46_native_gcd_refuted",
    "C46_big_gcd_partial",
    "C46_big_gcd_refuted",
    "C46_euclid_partial",
    "C46_euclid_refuted"
   ],
   "note": "Binary gcd exact on built-in words (on 32 bits and wider only if shifting zero by the whole width is harmless, otherwise undefined behaviour on every call: refuted); big integers below 256 digits exact except gcd(0, even) (refuted); Euclid exact for positive first argument or two negatives, else division by zero or no termination (refuted). Big integers of any size, with Lehmer's variant from 256 digits on: always ends, and what it returns is the gcd (C46_big_gcd_any_size_partial); but it has no result when the shorter number has at least two digits and is 32 digits shorter (C46_uneven_lengths_undefined), nor when the remainder is long (C46_long_remainder_undefined)."
  },
  {
   "property": "C47",
   "status": "partial",
   "theorems": [
    "C47_integer_log_partial",
    "C47_integer_log_refuted",
    "C47_factorial_exact",
    "C47_factorial_refuted",
    "C47_big_power_partial",
    "C47_ceil_div_exact",
    "C47_ceil_div_refuted",
    "C47_ceil_div_signed_partial",
    "C47_ceil_div_signed_wrong",
    "C47_ceil_div_undefined"
   ],
   "note": "Factorial, unsigned ceil_div and every returned big power exact; integer_log exact while squares fit the type, otherwise it may never end (refuted); signed ceil_div exact for quotients that are not negative, one too much for every other inexact one (C47_ceil_div_signed_wrong), undefined for divisor zero and for the least number by -1."
  },
  {
   "property": "C48",
   "status": "partial",
   "theorems": [
    "C48_single_bit_exact",
    "C48_bulk_exact",
    "C48_conversion_exact",
    "C48_equality_partial",
    "C48_equality_refuted",
    "C48_shift_partial",
    "C48_shift_refuted",
    "C48_shift_bits_wrong",
    "C48_shift_bytes_wrong",
    "C48_storage",
    "C48_iteration_refuted"
   ],
   "note": "Single-bit access and update, bulk operations and conversions exact; equality exact when the size is a multiple of 8 (refuted otherwise), shifts exact on one byte (refuted on two bytes; C48_shift_bits_wrong and C48_shift_bytes_wrong say what they do on any set), iteration never ends (refuted)."
  },
  {
   "property": "C49",
   "status": "partial",
   "theorems": [
    "C49_self_add_partial",
    "C49_self_add_refuted"
   ],
   "note": "Exact when no growth is needed; refuted otherwise (dangling view)."
  },
  {
   "property": "C50",
   "status": "partial",
   "theorems": [
    "C50_bit_queries_partial",
    "C50_bit_at_refuted"
   ],
   "note": "Proved except that the single-bit query is restricted to in-digit positions below 32 (1u<<mod): complete for 8- and 32-bit digits, refuted for 64-bit digits."
  },
  {
   "property": "C51",
   "status": "partial",
   "theorems": [
    "C51_all_one_partial",
    "C51_all_zero_inverted",
    "C51_all_zero_refuted"
   ],
   "note": "all-ones query proved; the all-zeros query returns the opposite for every value (proved and refuted by witness)."
  },
  {
   "property": "C52",
   "status": "partial",
   "theorems": [
    "C52_construct_partial",
    "C52_construct_refuted",
    "C52_construct_never_refuted"
   ],
   "note": "Proved for digits narrower than 64 bits; with 64-bit digits (compilers with a 128-bit integer) the radix constant wraps to 0 and every construction from a non-zero value divides by zero (refuted)."
  },
  {
   "property": "C53",
   "status": "partial",
   "theorems": [
    "C53_abs_partial",
    "C53_abs_refuted"
   ],
   "note": "Exact except at the smallest value, where it overflows (refuted)."
  },
  {
   "property": "C54",
   "status": "proved",
   "theorems": [
    "C54_unindex_exact",
    "C54_unindex_succeeds",
    "C54_single_element_exact"
   ],
   "note": "Single element search both directions; alphabet index."
  },
  {
   "property": "C55",
   "status": "partial",
   "theorems": [
    "C55_round_trip_partial",
    "C55_convert_modulo",
    "C55_minimum_refuted"
   ],
   "note": "Exact except at the smallest value of the type, where taking the absolute value overflows (refuted)."
  },
  {
   "property": "C56",
   "status": "partial",
   "theorems": [
    "C56_add_sub_partial",
    "C56_mul_div_partial",
    "C56_unsigned_operand",
    "C56_add_unsigned_refuted",
    "C56_power_partial",
    "C56_power_refuted"
   ],
   "note": "+ - * / exact for all signs whenever the integer products are defined; += with an unsigned operand ignores the sign (refuted: -3 += 2 gives -5); a negative exponent is treated as positive (refuted)."
  },
  {
   "property": "C57",
   "status": "partial",
   "theorems": [
    "C57_compare_partial",
    "C57_cancel_sign",
    "C57_negate_sign",
    "C57_refuted"
   ],
   "note": "Proved for values without a negative zero; x + (-x) with x positive is a negative zero that compares below zero (refuted, and characterised for all x); so is the negation of zero (C57_negate_sign)."
  },
  {
   "property": "C58",
   "status": "proved",
   "theorems": [
    "C58_sequence",
    "C58_unlisted_undefined",
    "C58_add_again_refuted"
   ],
   "note": "On memory cells with explicit pointers, forward/backward walks and sweeps. Findings beside it: destroying an element never added is undefined, adding an element twice loses elements."
  },
  {
   "property": "C59",
   "status": "partial",
   "theorems": [
    "C59_orders",
    "C59_equal",
    "C59_compare_partial",
    "C59_compare_string_partial",
    "C59_lexicographical_partial",
    "C59_reverse",
    "C59_string_array_undefined",
    "C59_string_array_wrong",
    "C59_string_array_refuted",
    "C59_two_strings_undefined",
    "C59_two_strings_refuted",
    "C59_negative_character_wrong"
   ],
   "note": "Equality proved in all forms. Orders proved for blocks, for a block with a string, for parts; with a string on the left only when it is shorter (two strings: not longer, dictionary order: no element below zero). Otherwise false: compare and lexicographical of a string with an array read the element after the array and depend on it (256, 318), compare of two strings runs past the end of a shorter right one (261-268), dictionary order of two strings is wrong for negative characters (327)."
  },
  {
   "property": "C60",
   "status": "partial",
   "theorems": [
    "C60_safe",
    "C60_no_leak",
    "C60_transparent_partial",
    "C60_transparent_refuted",
    "C60_ring_diverges",
    "C60_same_again_undefined"
   ],
   "note": "Proved over all programs: memory safety, termination, and that an object is alive exactly while a variable leads to it (C60_safe, C60_no_leak, full statement). Redirection, ==, unique and aliasing writes are exact for all programs that replace only through pointers used since the last replacement. Otherwise false: do_replace through a pointer not used since the last replacement changes the superseded object and leaves pointers behind (base_ptr_t.hpp:120-125 does not check for replacement first). With bare addresses: replacing by a superseded object makes a ring in which get never ends, replacing again by the same object cuts before it adds (replace_able.hpp:49-55) and uses freed memory."
  },
  {
   "property": "C61",
   "status": "partial",
   "theorems": [
    "C61_find_partial",
    "C61_find_from_partial",
    "C61_find_from_wrong",
    "C61_find_from_refuted",
    "C61_start_behind_undefined",
    "C61_empty_undefined",
    "C61_contains_partial",
    "C61_zeros_behind"
   ],
   "note": "find without a start position and contains are exact for a character, and for longer texts when the memory behind the string does not take part in an occurrence (zeros: C61_zeros_behind). With a start position the answer is exact only for a string that owns its characters; for a character, view, literal or literal-backed string it is the distance from the start, hence wrong for every start other than 0 (C61_find_from_wrong, C61_find_from_refuted). A start behind the end and the empty text are undefined. Read in the code but not modelled: find_last_not_of of a literal is declared to return a pointer, so it does not compile."
  },
  {
   "property": "C62",
   "status": "partial",
   "theorems": [
    "C62_replace_partial",
    "C62_replace_once_partial",
    "C62_replace_diverges",
    "C62_replace_refuted",
    "C62_replace_at",
    "C62_replace_at_undefined",
    "C62_split_wrong",
    "C62_split_partial",
    "C62_split_undefined",
    "C62_split_refuted"
   ],
   "note": "replace(str1,str2) is exact for a str1 that owns its characters; all forms are exact when the searched text occurs at most once. False otherwise: with two occurrences replace(ch,..) and replace(literal,..) never end, for every text (C62_replace_diverges). replace(pos,size,str) exact inside of the text, undefined otherwise. arec(index,delimiter) is wrong: characterised for every index (C62_split_wrong), only index 1 gives a field, undefined without a delimiter."
  },
  {
   "property": "C63",
   "status": "partial",
   "theorems": [
    "C63_starts_with",
    "C63_ends_with",
    "C63_view_starts",
    "C63_ends_with_count_wrong",
    "C63_ends_with_count_refuted",
    "C63_pad_left",
    "C63_pad_right"
   ],
   "note": "starts_with, ends_with, starts_with of views, pad_left, pad_right proved in full. ends_with(ch,count) is false in both directions (C63_ends_with_count_refuted); what it computes is proved for all texts (C63_ends_with_count_wrong)."
  },
  {
   "property": "C64",
   "status": "partial",
   "theorems": [
    "C64_decompose_exact",
    "C64_roundtrip",
    "C64_make_truncates_partial",
    "C64_make_large_wrong",
    "C64_make_small_undefined",
    "C64_half_refuted",
    "C64_bfloat_refuted"
   ],
   "note": "Decomposition exact and round trip proved for all finite float, double and quadruple numbers; make_float proved to cut to the format for every significand and every exponent in range. Otherwise false: numbers that are too large become 0 (C64_make_large_wrong), numbers that are far too small are undefined, a shift by the width or more (C64_make_small_undefined), and the constants for half precision and bfloat16 have one stored bit too many (C64_half_refuted, C64_bfloat_refuted)."
  },
  {
   "property": "C65",
   "status": "partial",
   "theorems": [
    "C65_to_integer",
    "C65_to_signed_partial",
    "C65_negative_zero_wrong",
    "C65_to_fraction",
    "C65_to_fraction_exact",
    "C65_to_fraction_defined_partial",
    "C65_to_fraction_undefined",
    "C65_from_fraction_partial",
    "C65_from_fraction_below_wrong",
    "C65_from_fraction_large_wrong",
    "C65_from_fraction_small_undefined",
    "C65_roundtrip_partial",
    "C65_roundtrip_refuted",
    "C65_infinity_nan"
   ],
   "note": "Integer part exact for all finite numbers; fractions exact or nearest short fraction for all numbers from 2^-56 on; conversion of fractions faithful (a neighbour, exact when representable) for all fractions in range that are not just below a power of two; round trip when the fraction is exact; infinities give 1/0 and not-a-numbers 0. False otherwise: negative numbers above -1 give a big integer zero that is not equal to zero; positive numbers up to 2^-64 make the fraction constructor convert an out-of-range number to size_t; dyadic fractions whose first 32 (64, 128) bits are ones and that have more bits become 0; too large fractions become 0; too small ones shift by the width or more; 0.1f does not survive the round trip. Machine arithmetic (division, multiplication, addition, modf) is IEEE 754 round to nearest even, an assumption of the model."
  },
  {
   "property": "C66",
   "status": "partial",
   "theorems": [
    "C66_integer_literals",
    "C66_signed_integer_literals",
    "C66_only_integer_literals",
    "C66_integer_literals_32_partial",
    "C66_integer_literals_32_refuted",
    "C66_native_literals",
    "C66_decimal_literals",
    "C66_decimal_exponents_partial",
    "C66_leading_zero_exponent_wrong",
    "C66_leading_zero_exponent_refused",
    "C66_plus_sign_refused",
    "C66_hexadecimal_exponent_wrong",
    "C66_hexadecimal_zero_exponent"
   ],
   "note": "Integer literals of every length and base proved exact for 64-bit size_t, acceptance proved to be exactly the literals; 128-bit literals modulo their range; decimal fractions with and without exponent proved exact if the exponent has no plus sign and no leading zero. False otherwise: with 32-bit size_t 9999999999 is another number (C66_integer_literals_32_refuted); an exponent with a leading zero is read in octal and wrong from 10 on (C66_leading_zero_exponent_wrong) or refused; a plus sign is refused; every hexadecimal literal with a non-zero exponent is wrong (C66_hexadecimal_exponent_wrong)."
  },
  {
   "property": "C67",
   "status": "partial",
   "theorems": [
    "C67_add",
    "C67_add_carry",
    "C67_add_carry_only",
    "C67_sub",
    "C67_sub_borrow",
    "C67_sub_borrow_only",
    "C67_assembly_add_wrong",
    "C67_assembly_sub_wrong"
   ],
   "note": "All six functions proved exact for every width and all operands on the portable path (and the built-ins of GCC and MSVC are specified the same way). False of the assembly path for other compilers: it returns the carry in place of the sum (C67_assembly_add_wrong, C67_assembly_sub_wrong)."
  },
  {
   "property": "C68",
   "status": "partial",
   "theorems": [
    "C68_library_marks",
    "C68_library_primes",
    "C68_text_says_value",
    "C68_reading_value",
    "C68_accepted",
    "C68_reading_ends",
    "C68_round_trip",
    "C68_signed_round_trip",
    "C68_infinity",
    "C68_equal_same_text",
    "C68_dangling_exponent_undefined",
    "C68_runtime_point_wrong",
    "C68_runtime_round_trip_refuted"
   ],
   "note": "Value of the text, form of the text, exact acceptance, exact reading and round trips (signed, unsigned, infinite) proved for every representation whose marks differ from each other and from the digits, which all shipped constants do (C68_library_marks, C68_library_primes). False otherwise: a text that ends in the exponent separator is read out of bounds (C68_dangling_exponent_undefined), and the run-time representation has the point as default fraction separator, so that every decimal fraction is read as a quotient (C68_runtime_point_wrong, C68_runtime_round_trip_refuted). Big integers by value: their digit algorithms are C01-C18."
  },
  {
   "property": "C69",
   "status": "partial",
   "theorems": [
    "C69_text_close_partial",
    "C69_guess_unique",
    "C69_defined",
    "C69_tiny_undefined",
    "C69_size_limit_undefined",
    "C69_near_round_trip_partial",
    "C69_power_round_trip_partial",
    "C69_double_partial",
    "C69_double_hexadecimal",
    "C69_negative_zero_wrong",
    "C69_infinity",
    "C69_reading_value_partial",
    "C69_reading_sign",
    "C69_reading_large_wrong",
    "C69_reading_small_undefined",
    "C69_decimal_round_trip_refuted",
    "C69_reads_zero_refuted",
    "C69_fraction_text_refuted",
    "C69_odd_radix_refuted"
   ],
   "note": "Proved for float, double and quadruple numbers: printing is defined for every number from 2^-56 on other than 2^64 (even radices); the text says a value next to the number; reading it back gives the number or a neighbour (or zero when the text is just below a power of two); exact round trip when the radix is a power of two; infinities round trip; doubles from one on in decimal and radix sixteen without further conditions (C69_double_partial, C69_double_hexadecimal); reading any text of a number in range gives a neighbour of its value, with sign. Below one this is under the condition that the short fraction the code guesses has a denominator made only of, or free of, factors of the radix; C69_guess_unique shows how to decide the condition. False otherwise: pi is not read back in decimal, 2^100f is read back as 0, 1/6 is printed as 1/15, in radix three 40.5 is printed as a text that the reader refuses, 2^64 and all magnitudes up to 2^-64 are undefined to print, -0.0 is printed as 0, too large texts read as 0, too small ones shift by the width or more. NaN texts: C70."
  },
  {
   "property": "C70",
   "status": "partial",
   "theorems": [
    "C70_round_trip_partial",
    "C70_double_round_trip",
    "C70_default_round_trip",
    "C70_wide_radix_undefined",
    "C70_texts_differ",
    "C70_data_text",
    "C70_wide_data_undefined",
    "C70_bare_end_undefined",
    "C70_nan_prefix_wrong",
    "C70_data_not_nan_refuted",
    "C70_numbers_unchanged"
   ],
   "note": "Round trip of every NaN proved for representations with fewer than 256 digits, for the default NaNs in all; for every double NaN in decimal without conditions (C70_double_round_trip); different texts for different NaNs in all; complete description of what bracketed texts give. False otherwise: with 256 digits or more (valanlottish) reading runs over the end of the text (C70_wide_radix_undefined, C70_wide_data_undefined); too many or too few bytes and \"NaN]\" are undefined (C70_data_text, C70_bare_end_undefined); texts such as NaNo are accepted (C70_nan_prefix_wrong); bracketed bytes may give an ordinary number (C70_data_not_nan_refuted). The 80-bit long double (with padding bytes) is not covered."
  },
  {
   "property": "C71",
   "status": "partial",
   "theorems": [
    "C71_same_partial",
    "C71_different_types_undefined",
    "C71_symmetric",
    "C71_equivalence",
    "C71_hash_partial",
    "C71_hash_refuted",
    "C71_pairs_partial",
    "C71_lists_partial",
    "C71_list_itself",
    "C71_lists_wrong",
    "C71_truth",
    "C71_condition",
    "C71_functions",
    "C71_void",
    "C71_transitive_refuted"
   ],
   "note": "Proved for all stores: == of pointers is identity or equality of contents, except for boxes of different types; symmetric without exception; equivalence; hash; pairs; one-element lists; t, nil and void. False otherwise: two boxes of different C++ types are read as one type, undefined (C71_different_types_undefined: the test compares get_type_info, which all boxes share, in place of get_additional_type_info); separately built lists of two or more elements are never equal (C71_lists_wrong); a type with == but without hash gives equal nodes different hashes (C71_hash_refuted); == of nodes is not transitive (C71_transitive_refuted, by design of t). common_node and function_node are not modelled."
  },
  {
   "property": "C72",
   "status": "partial",
   "theorems": [
    "C72_safe",
    "C72_sharing_partial",
    "C72_reading_refuted",
    "C72_null_wrong"
   ],
   "note": "Proved for all programs that redirect only values used since the last redirection and no null value; safety for all programs. False otherwise: whether a value was read decides what a later redirection does (C72_reading_refuted), and redirecting one null value redirects every null value of the program, also those made later (C72_null_wrong)."
  },
  {
   "property": "C73",
   "status": "partial",
   "theorems": [
    "C73_value",
    "C73_stable_partial",
    "C73_later_wrong"
   ],
   "note": "The value of every nested list of statements, read at once, is proved right from every reachable state, and stable once read. False if it is not read at once: the result of an earlier list becomes that of the later one (C73_later_wrong). Function calls, goto and return are not modelled."
  },
  {
   "property": "C74",
   "status": "partial",
   "theorems": [
    "C74_copy",
    "C74_move",
    "C74_move_construct",
    "C74_destruct",
    "C74_default",
    "C74_assign_partial",
    "C74_assign_down_wrong",
    "C74_assign_overlap_undefined",
    "C74_assign_one_partial",
    "C74_self_assign_undefined",
    "C74_move_assign",
    "C74_overlap_partial",
    "C74_move_assign_refused",
    "C74_moved_argument_wrong",
    "C74_throw_wrong",
    "C74_rebuild_partial",
    "C74_rebuild_undefined"
   ],
   "note": "Proved for every lawful combination of type traits and every length: copying, moving, destruction, default construction, assignment of rows apart (and of overlapping rows towards the back for non-trivial types), rebuilding from an object outside the row, memmove. False otherwise: a row built from a temporary gives only the last object its value (C74_moved_argument_wrong); a throwing constructor leaves the objects built before it alive (C74_throw_wrong); overlapping assignment towards the front repeats the last values, and is undefined for trivial types (C74_assign_down_wrong, C74_assign_overlap_undefined); self-assignment without operator= and rebuilding from an element are undefined; the move assignment of rows does not compile for non-trivial types (C74_move_assign_refused)."
  },
  {
   "property": "C75",
   "status": "partial",
   "theorems": [
    "C75_construct_partial",
    "C75_copy_partial",
    "C75_assign_partial",
    "C75_float_wrong",
    "C75_one_partial",
    "C75_one_refused",
    "C75_small_class_refused"
   ],
   "note": "Building one object from another, of any lawful type, leaves it with that value (C75_one_partial); a trivially copyable type that cannot be assigned does not compile there (C75_one_refused). Proved for integers and enumerations of every size and for all other types whose size is neither one byte nor that of wchar_t. False otherwise: with a four-byte wchar_t no float but +0 is written correctly, proved for all other bit patterns (C75_float_wrong: 1.5f becomes 1.4e-45); classes of one byte or of the size of wchar_t are refused by the compiler (C75_small_class_refused)."
  },
  {
   "property": "C76",
   "status": "partial",
   "theorems": [
    "C76_given_back_partial",
    "C76_sources",
    "C76_read_exact_partial",
    "C76_too_much_undefined",
    "C76_full_undefined"
   ],
   "note": "Proved for every source that delivers a text and every use during which at most 1024 characters wait to be read again. False beyond: giving back more than there is room for is undefined (C76_too_much_undefined), and with exactly 1024 waiting one more give-back is taken but the next long read is undefined (C76_full_undefined)."
  },
  {
   "property": "C77",
   "status": "partial",
   "theorems": [
    "C77_seek_partial",
    "C77_before_start",
    "C77_seek_stale_wrong",
    "C77_tell_partial"
   ],
   "note": "Proved with nothing given back (seek_then_use with an empty pending text) and for refused seeks. False with text pending: it is still read first after any seek that reports success (C77_seek_stale_wrong), and tell counts it as read (C77_tell_partial says exactly what tell returns)."
  },
  {
   "property": "C78",
   "status": "partial",
   "theorems": [
    "C78_endline_partial",
    "C78_file_partial",
    "C78_last_lost_wrong",
    "C78_waiting_wrong",
    "C78_null_undefined"
   ],
   "note": "Proved for all streams that keep the contract and are not waiting, for all texts but one shape. In that shape (one line, CR, one last character) the last character is lost (C78_last_lost_wrong, for all such texts); a waiting stream keeps the LF of a CR LF (C78_waiting_wrong); on the null stream it is undefined (C78_null_undefined)."
  },
  {
   "property": "C79",
   "status": "partial",
   "theorems": [
    "C79_file_partial",
    "C79_terminal_partial",
    "C79_file_blocks_partial",
    "C79_terminal_blocks_partial",
    "C79_one_undefined",
    "C79_terminal_one_undefined",
    "C79_split_dies"
   ],
   "note": "Proved: every read ends, and one that ends well has read the right characters; it ends well when the text is well-formed in blocks of four bytes (two units). False otherwise: get and peek on a text starting with two ASCII characters write past the variable (C79_one_undefined, C79_terminal_one_undefined); three ASCII characters and one outside ASCII kill the program (C79_split_dies). Failed system reads are not modelled."
  },
  {
   "property": "C80",
   "status": "partial",
   "theorems": [
    "C80_file_partial",
    "C80_terminal_partial",
    "C80_bad_dies",
    "C80_surrogate_wrong",
    "C80_short_wrong"
   ],
   "note": "Proved for all code points on handles that take all they are given. False otherwise: surrogates are written as ill-formed UTF-8 (C80_surrogate_wrong), a short write loses the rest without a word (C80_short_wrong); a value above 10FFFF kills the program after the text in front of it is written (C80_bad_dies)."
  },
  {
   "property": "C81",
   "status": "partial",
   "theorems": [
    "C81_shown_partial",
    "C81_once_partial",
    "C81_short_wrong",
    "C81_divided_refuted"
   ],
   "note": "Proved for all uses whose reads are filled and that keep at most 1024 characters waiting. False otherwise: a short read shows the old content of the caller's array (C81_short_wrong); a CR LF divided by two reads shows two line ends (C81_divided_refuted)."
  },
  {
   "property": "C82",
   "status": "partial",
   "theorems": [
    "C82_read_partial",
    "C82_round_partial",
    "C82_again_partial",
    "C82_cut_wrong",
    "C82_wraps_wrong"
   ],
   "note": "Proved when the bytes are there and n*sizeof(T) is below 2^64. False otherwise: a value cut by the end is read, lost and counted as nothing (C82_cut_wrong); sizes that are multiples of 2^64 read nothing (C82_wraps_wrong)."
  },
  {
   "property": "C83",
   "status": "partial",
   "theorems": [
    "C83_row_partial",
    "C83_comma_refuted",
    "C83_empty_refuted"
   ],
   "note": "Proved for all element texts that are non-empty, different for different elements and free of commas and closing brackets. False for rows of texts (C83_comma_refuted, C83_empty_refuted)."
  },
  {
   "property": "C84",
   "status": "partial",
   "theorems": [
    "C84_functions_partial",
    "C84_one_expectation",
    "C84_deep_copy_wrong",
    "C84_equal_itself_wrong"
   ],
   "note": "Proved for all programs of construction, copy, move, assignment, swap, destruction, call, test and comparison: they refine a specification without counts, which is deterministic (C84_one_expectation). False for deep copies: undefined or another name for the same callable (C84_deep_copy_wrong); a function whose callable has no == is not equal to itself (C84_equal_itself_wrong)."
  },
  {
   "property": "C85",
   "status": "partial",
   "theorems": [
    "C85_pointer_partial",
    "C85_plain_pointer",
    "C85_reassigned_refuted",
    "C85_new_thread_refuted"
   ],
   "note": "Proved: in the thread that made it the pointer runs the callable the object had then, exactly as long as some function object holds it; afterwards calling it is undefined; an exception ends the program. A plain function gives itself (C85_plain_pointer). The documented statement is false: an object that takes another callable leaves the pointer dangling although it lives (C85_reassigned_refuted), and a new thread keeps what it found at its first call (C85_new_thread_refuted)."
  },
  {
   "property": "C86",
   "status": "proved",
   "theorems": [
    "C86_one_category",
    "C86_classes"
   ],
   "note": "For all 2^32 values: C86_classes; C86_one_category shows that the category is well defined. The list of categories is part of the trusted base: Unicode 14.0 from Python's unicodedata; the 4489 code points only Unicode 15.0 has are listed with the category the table gives, so that for them the theorem says that the functions agree with each other."
  },
  {
   "property": "C87",
   "status": "partial",
   "theorems": [
    "C87_classes_fit_partial",
    "C87_graph_print_refuted",
    "C87_cntrl_print_refuted"
   ],
   "note": "All relations for all values, save two which are false: characters for private use are graphic and not printable (C87_graph_print_refuted), the line and the paragraph separator are control characters and printable (C87_cntrl_print_refuted). The theorem shows that these are the only exceptions."
  },
  {
   "property": "C88",
   "status": "partial",
   "theorems": [
    "C88_one_type_partial",
    "C88_min_of_equals_refuted",
    "C88_unordered_refuted",
    "C88_integers_partial",
    "C88_mixed_signs_refuted",
    "C88_order_refuted",
    "C88_for_type"
   ],
   "note": "One totally ordered type: exactly which argument is given (C88_one_type_partial). Integers of different types: right if no argument is negative or no type of at least 32 bits is unsigned (C88_integers_partial); for_type<T> right whenever T holds all arguments (C88_for_type). Refuted: min(-1,1u) is 1, max(-1,1u) is 4294967295; max depends on the order of arguments of mixed types; with a NaN the result is not the largest of the others; min(a,b) and min({a,b}) give different ones of two equal values."
  },
  {
   "property": "C89",
   "status": "partial",
   "theorems": [
    "C89_subview",
    "C89_elements",
    "C89_zero_ended",
    "C89_zero_outside_undefined",
    "C89_substr_partial",
    "C89_substr_pos_ptr_wrong",
    "C89_substr_beyond_undefined",
    "C89_substr_outside_refuted"
   ],
   "note": "subview, element access, both loops and zero-terminated strings for all views and positions; substr for positions inside the view. substr(pos, pointer) shows pos elements too many for every pos > 0 (C89_substr_pos_ptr_wrong); substr(pos) behind the end always over-reads (C89_substr_beyond_undefined); substr(pos,len) may show what is outside the view (C89_substr_outside_refuted)."
  },
  {
   "property": "C90",
   "status": "partial",
   "theorems": [
    "C90_blocks_partial",
    "C90_alloc_partial",
    "C90_realloc_partial",
    "C90_free",
    "C90_realloc_alignment_refuted",
    "C90_size_wrap_refuted"
   ],
   "note": "All histories, with the answers of the system arbitrary within its contract: separation, sizes, one system block for each block, bytes kept, failure changes nothing (C90_blocks_partial, C90_alloc_partial, C90_realloc_partial, C90_free). Alignment: always after aligned_alloc, after realloc on Windows or up to 16. Refuted: outside Windows realloc loses alignments above 16 (C90_realloc_alignment_refuted); a size next to 2^64 wraps around and the size word is stored outside the block (C90_size_wrap_refuted)."
  },
  {
   "property": "C91",
   "status": "partial",
   "theorems": [
    "C91_counters_partial",
    "C91_clear_refuted"
   ],
   "note": "All counters exactly, for all histories in which the counters are cleared only while no block is held (C91_counters_partial). Refuted: clearing while 20 bytes are held makes the memory in use 2^64-20 after the next free (C91_clear_refuted)."
  },
  {
   "property": "C92",
   "status": "partial",
   "theorems": [
    "C92_write",
    "C92_read_partial",
    "C92_round_trip_partial",
    "C92_null_diverges",
    "C92_malformed_dies",
    "C92_cut_undefined",
    "C92_round_trip_refuted",
    "C92_utf8"
   ],
   "note": "Writing in full (C92_write). Reading and the round trip for texts without null characters (C92_read_partial, C92_round_trip_partial), malformed bytes end the program (C92_malformed_dies). False of the code, hence partial: a text with a null character anywhere is never read, the loop does not end (C92_null_diverges, C92_round_trip_refuted); bytes that break off inside of a character are read beyond their end (C92_cut_undefined). UTF-8 meets the hypotheses on the locale (C92_utf8)."
  },
  {
   "property": "C93",
   "status": "partial",
   "theorems": [
    "C93_sqrt_partial",
    "C93_sqrt_eps_partial",
    "C93_negative_diverges",
    "C93_unsigned_wrong",
    "C93_zero_eps_wrong",
    "C93_invsqrt_partial",
    "C93_invsqrt_refuted"
   ],
   "note": "Signed fractions: ends and is within ε for all v >= 0 and all positive guesses, cached accuracy included (C93_sqrt_partial, C93_sqrt_eps_partial); inverse roots from guesses between 0.625 and 1.45 times the right value (C93_invsqrt_partial). False of the code, hence partial: unsigned fractions subtract to 0, so the loop stops after two steps and misses every small ε - this is the cached root of 640320 in π_with_ε (C93_unsigned_wrong); negative numbers are iterated for ever (C93_negative_diverges); ε 0 returns the first guess (C93_zero_eps_wrong); invsqrt from the guess 2/v gives -1 for 1 (C93_invsqrt_refuted)."
  },
  {
   "property": "C94",
   "status": "partial",
   "theorems": [
    "C94_sin_partial",
    "C94_cos_partial",
    "C94_sin_refuted"
   ],
   "note": "All x, for ε up to 2 or below |x| (C94_sin_partial); the cosine within ε plus half the error of the π used, for ε up to 2 (C94_cos_partial; cos calls π_with_ε(ε), whose own error is not modelled beyond C93). False for large ε: sin(5, 5) is 5 (C94_sin_refuted)."
  },
  {
   "property": "C95",
   "status": "partial",
   "theorems": [
    "C95_arctan_value",
    "C95_arctan_wrong",
    "C95_arccos_wrong",
    "C95_arcsin_wrong",
    "C95_arctan_partial"
   ],
   "note": "Right only at 0 (C95_arctan_partial). False everywhere else: the loop of arctan adds up to x - x^2 arctan x (C95_arctan_value), which misses arctan x for every x but 0 and every small ε (C95_arctan_wrong); arccos and arcsin are wrong for every x in (0, 1] (C95_arccos_wrong, C95_arcsin_wrong)."
  },
  {
   "property": "C96",
   "status": "partial",
   "theorems": [
    "C96_exp_diverges",
    "C96_log_diverges",
    "C96_exp_log_partial"
   ],
   "note": "Right only for exp 0 and log 1 (C96_exp_log_partial). False everywhere else: exp(x) never returns for x other than 0, log(x) never for x other than 1 and -1 (C96_exp_diverges, C96_log_diverges)."
  },
  {
   "property": "C97",
   "status": "partial",
   "theorems": [
    "C97_unsigned_partial",
    "C97_signed_partial",
    "C97_special_undefined",
    "C97_defined_refuted"
   ],
   "note": "Exact result and exact domain for every format, unsigned target (C97_unsigned_partial) and signed target (C97_signed_partial). That it is always defined is false: infinities and not-a-number (C97_special_undefined), numbers from 2^64 on and below -2^63 (C97_defined_refuted)."
  },
  {
   "property": "C98",
   "status": "partial",
   "theorems": [
    "C98_trunc_partial",
    "C98_ceil_partial",
    "C98_ceil_refuted",
    "C98_floor_wrong",
    "C98_floor_negative_partial",
    "C98_floor_negative_refuted",
    "C98_large_undefined"
   ],
   "note": "trunc right on intmax_t (C98_trunc_partial); ceil right for negative numbers, integers and fractions above ε and one too small below (C98_ceil_partial, C98_ceil_refuted); floor of numbers not negative is one too small whenever the fraction exceeds ε: floor(1.5) = 0 (C98_floor_wrong); negative integers too: floor(-3) = -4 (C98_floor_negative_partial, C98_floor_negative_refuted); undefined from 2^64 on (C98_large_undefined)."
  },
  {
   "property": "C99",
   "status": "partial",
   "theorems": [
    "C99_negative_partial",
    "C99_negative_wrong",
    "C99_unsigned_wrong",
    "C99_reverse_partial",
    "C99_reverse_wrong",
    "C99_sub_partial",
    "C99_sub_wrong"
   ],
   "note": "Right for numbers not negative of signed and narrow types (C99_negative_partial, C99_reverse_partial) and for differences of numbers of the wider signed type (C99_sub_partial). False of the code: copy_as_negative(-5) = 5 (C99_negative_wrong), wide unsigned numbers stay unsigned (C99_unsigned_wrong), reverse_sign returns a negative number as it is (C99_reverse_wrong), sub(3000000000u, 0u) is negative (C99_sub_wrong)."
  },
  {
   "property": "C100",
   "status": "partial",
   "theorems": [
    "C100_div_partial",
    "C100_div_wrong",
    "C100_mod",
    "C100_smallest_undefined",
    "C100_unsigned_partial",
    "C100_div_refuted"
   ],
   "note": "Native types of at most two digits (always with 32- and 64-bit digits; not the 8-bit digits of debug builds). Quotient right for divisors that are not negative (C100_div_partial), remainder right for all divisors (C100_mod). False of the code: with a negative divisor the quotient has the wrong sign, for all operands (C100_div_wrong, C100_div_refuted: 7 / -2 is 3); unsigned dividends give the quotient modulo 2^d (C100_unsigned_partial); the smallest number of a signed type is undefined (C100_smallest_undefined)."
  },
  {
   "property": "C101",
   "status": "partial",
   "theorems": [
    "C101_arithmetic",
    "C101_trivial_partial",
    "C101_two_partial",
    "C101_exp_partial",
    "C101_power_refuted",
    "C101_log_16_diverges"
   ],
   "note": "The arithmetic of the model is shown to round to nearest (C101_arithmetic). Right: exponent 0 and base 1 (C101_trivial_partial), powers of two up to the 45th (C101_two_partial); exp of a number not negative is at least 1 (C101_exp_partial). False of the code: 10^1 is 9, 10^2 is 99, 2^46 is one too large (C101_power_refuted); the logarithm of 16 never ends (C101_log_16_diverges). The range of exponents of double is not modelled."
  },
  {
   "property": "C102",
   "status": "partial",
   "theorems": [
    "C102_unit_double",
    "C102_unit_float_partial",
    "C102_unit_float_refuted",
    "C102_unit_inclusive",
    "C102_unit_inclusive_diverges",
    "C102_between_partial",
    "C102_above_refuted",
    "C102_bound_refuted",
    "C102_whole_range_wrong"
   ],
   "note": "double: [0,1) holds for all words (C102_unit_double), [0,1] for both types (C102_unit_inclusive). between(a,b): within the bounds if the difference of the bounds is a number of the type (C102_between_partial). False of the code: [0,1) for float returns 1 for 128 of the 2^32 words (C102_unit_float_partial, C102_unit_float_refuted); results above both bounds (C102_above_refuted); the excluded bound is returned (C102_bound_refuted); uniform_in_range() never returns a finite number (C102_whole_range_wrong); [0,1] does not end while the words are odd and not 1 (C102_unit_inclusive_diverges)."
  },
  {
   "property": "C103",
   "status": "partial",
   "theorems": [
    "C103_range",
    "C103_first_accepted_partial",
    "C103_attained_partial",
    "C103_single",
    "C103_empty_range_diverges",
    "C103_whole_digits_undefined",
    "C103_total_refuted"
   ],
   "note": "Range for all words and digit widths (C103_range); with digits below 32 bits, or widths of the range that do not fill whole digits, the result is exactly the first accepted group of bits (C103_first_accepted_partial) and every number is attained (C103_attained_partial); a range of one number (C103_single). False of the code: with digits of 32 bits or more a width filling whole digits is an undefined shift for all words (C103_whole_digits_undefined, C103_total_refuted); exclusive() with equal bounds never returns (C103_empty_range_diverges). rand<bigint> (signed) is not modelled."
  },
  {
   "property": "C104",
   "status": "proved",
   "theorems": [
    "C104_set",
    "C104_reset",
    "C104_copy",
    "C104_draw",
    "C104_halves",
    "C104_word",
    "C104_no_merge",
    "C104_attained",
    "C104_object"
   ],
   "note": "The whole state after set (C104_set), restart (C104_reset), copies (C104_copy), the draw of a word (C104_draw, C104_halves, C104_word), injectivity of the step (C104_no_merge), attained values (C104_attained), objects (C104_object). Little-endian bytes are assumed; the multiplier is a parameter, odd by C43."
  },
  {
   "property": "C105",
   "status": "partial",
   "theorems": [
    "C105_character_exact",
    "C105_sets_exact",
    "C105_last_of_partial",
    "C105_last_of_undefined",
    "C105_last_of_refuted",
    "C105_first_occurrence_found",
    "C105_answer_partial",
    "C105_backwards_partial",
    "C105_backwards_refuted"
   ],
   "note": "Exact for characters (C105_character_exact), three of the four set searches (C105_sets_exact) and first occurrences (C105_first_occurrence_found); what answers mean (C105_answer_partial, C105_backwards_partial, C105_last_of_partial). False of the code, as for other strings: find_last_of without a match is undefined (C105_last_of_undefined, C105_last_of_refuted), searching backwards misses occurrences (C105_backwards_refuted). hash() of constant strings is not modelled."
  },
  {
   "property": "C106",
   "status": "partial",
   "theorems": [
    "C106_string_loops",
    "C106_string_jumps",
    "C106_string_jumps_back",
    "C106_least_jump_refuted",
    "C106_string_order",
    "C106_array_loop",
    "C106_array_back_partial",
    "C106_array_back_undefined",
    "C106_array_back_jumps",
    "C106_between_partial",
    "C106_between_nothing_undefined",
    "C106_between_backward_wrong",
    "C106_between_strings_undefined"
   ],
   "note": "Strings: loops (C106_string_loops), jumps (C106_string_jumps, C106_string_jumps_back), order (C106_string_order). Arrays: loops (C106_array_loop), reverse jumps (C106_array_back_jumps), reverse loops if pointers in front of an array can be formed (C106_array_back_partial). Strings from iterators (C106_between_partial). False of the code: rend() of every array and view is undefined in C++ (C106_array_back_undefined); it-n for the least n (C106_least_jump_refuted); a string from two equal iterators is undefined (C106_between_nothing_undefined), in the wrong order it is not empty (C106_between_backward_wrong), from different strings it is not initialised (C106_between_strings_undefined). The order of reverse iterators is not modelled: it depends on which of the overloads of iterator.hpp:45 and 122-133 the compiler takes."
  },
  {
   "property": "C107",
   "status": "partial",
   "theorems": [
    "C107_read_between_partial",
    "C107_read_line_partial",
    "C107_read_whole_partial",
    "C107_read_last_undefined",
    "C107_read_content_refuted",
    "C107_write_partial",
    "C107_write_negative_undefined",
    "C107_write_read_refuted"
   ],
   "note": "Between two characters for every rounding (C107_read_between_partial), on the line without rounding (C107_read_line_partial), whole positions (C107_read_whole_partial), writing up to one (C107_write_partial). False of the code: from the last character on the place behind the string is read (C107_read_last_undefined), so that equal strings read differently (C107_read_content_refuted); the value written is not read again (C107_write_read_refuted); writing can be undefined (C107_write_negative_undefined)."
  },
  {
   "property": "C108",
   "status": "partial",
   "theorems": [
    "C108_running_time_partial",
    "C108_stopped_twice_wrong",
    "C108_resumed_twice_wrong"
   ],
   "note": "Exact for all sequences that stop only a running and resume only a stopped timer (C108_running_time_partial). False of the code otherwise: a second pause or end counts the time since the first one (C108_stopped_twice_wrong), a second resume takes away the time since the last stop (C108_resumed_twice_wrong). Ticks are unbounded integers; the conversion into units (duration_cast) is not modelled."
  },
  {
   "property": "C109",
   "status": "partial",
   "theorems": [
    "C109_evaluation_partial",
    "C109_uncaught",
    "C109_sequence",
    "C109_return",
    "C109_goto",
    "C109_jump_out_wrong"
   ],
   "note": "Evaluation by recursion and exceptions agrees with a stack machine for all programs (C109_evaluation_partial, C109_uncaught), return and jumps within a list behave as stated (C109_sequence, C109_return, C109_goto). False of the code for jumps that leave a list: the innermost list catches the jump, so the rest of the outer list is evaluated twice (C109_jump_out_wrong). A list whose first statement returns has no value in the model (see C73 for the shared null object)."
  },
  {
   "property": "C110",
   "status": "partial",
   "theorems": [
    "C110_round_trip",
    "C110_word",
    "C110_line_partial",
    "C110_line_wrong",
    "C110_number_wrong",
    "C110_end_undefined",
    "C110_truth_unknown",
    "C110_other_undefined"
   ],
   "note": "Round trip of every sequence of values and exact words on every stream that keeps the contract (C110_round_trip, C110_word), lines that begin with no space (C110_line_partial). False of the code: getline loses leading spaces and empty lines (C110_line_wrong), a word that is no number or too large silently becomes zero or wraps around (C110_number_wrong), a signed number at the end of the text and other(n) are undefined (C110_end_undefined, C110_other_undefined). Decimal format and default bool texts; floating-point numbers and pointers not modelled here."
  },
  {
   "property": "C111",
   "status": "partial",
   "theorems": [
    "C111_lookup",
    "C111_lookup_diverges",
    "C111_defined",
    "C111_define_partial",
    "C111_enter_leave",
    "C111_start",
    "C111_nil_hidden_wrong",
    "C111_nil_refuted",
    "C111_lost_wrong",
    "C111_leave_refuted",
    "C111_no_namespace_wrong"
   ],
   "note": "For every reachable state: lookup of value, type and existence is that of the innermost declaring namespace and changes no name (C111_lookup), no call uses something that is no node (C111_defined), entering and leaving (C111_enter_leave), defining a name with a value other than void and nil (C111_define_partial). False of the code: a name whose value is nil or void and that has no type is not found, nil itself among them (C111_nil_refuted, C111_nil_hidden_wrong); leaving the outermost namespace or entering an unknown name loses all names for good (C111_lost_wrong, C111_leave_refuted); after entering a value that is no namespace every name exists and has that value (C111_no_namespace_wrong); a circular way outwards never ends (C111_lookup_diverges). Names are strings; freeing of namespaces not modelled."
  },
  {
   "property": "C112",
   "status": "partial",
   "theorems": [
    "C112_open_while_used",
    "C112_call",
    "C112_safe_partial",
    "C112_parts",
    "C112_missing_library_undefined",
    "C112_missing_symbol_undefined",
    "C112_own_symbol_wrong"
   ],
   "note": "For all programs and systems: open exactly while in use (C112_open_while_used), functions held can be called (C112_call), name and library of a function (C112_parts); programs whose libraries and functions all exist do nothing undefined (C112_safe_partial). False of the code otherwise: the end of a handle of a library that could not be loaded closes the null handle (C112_missing_library_undefined); asking for a function that is not there makes a reference from a null pointer before the test (C112_missing_symbol_undefined); a library that could not be loaded has the functions of the program itself (C112_own_symbol_wrong). Not modelled: the Windows variant, error texts, code of the library that runs when it is loaded."
  },
  {
   "property": "C113",
   "status": "partial",
   "theorems": [
    "C113_lists",
    "C113_no_leak",
    "C113_empty_top_undefined",
    "C113_asking_refuted"
   ],
   "note": "For all programs, element types and comparisons: answers are those of lists, undefined exactly where the top of an empty stack is moved (C113_lists); no memory is in use after clearing (C113_no_leak); moving the top of an empty stack is undefined (C113_empty_top_undefined). False of the code: asking a constant self-ordering stack whether it has an element changes its order (C113_asking_refuted). Not modelled: element constructors and destructors that throw, visitors that change the stack, the hash of the top."
  },
  {
   "property": "C114",
   "status": "partial",
   "theorems": [
    "C114_load",
    "C114_grow",
    "C114_best_partial",
    "C114_found_partial",
    "C114_installed_undefined",
    "C114_minor_wrong",
    "C114_nested_refuted"
   ],
   "note": "For all trees, worlds and random numbers: the list is enough by name and main version, has nothing twice, nothing unneeded and nothing that cannot be found (C114_load, C114_grow). Where no alternative has alternatives itself: shortest and most installed (C114_best_partial), and a list is given if it can be, or the call is undefined (C114_found_partial). False of the code: of two packages of which only the second is installed neither is taken and the program divides by zero, since the loop that erases looks up the numbers at shifted positions (C114_installed_undefined); an older minor version in the list is taken for a newer one (C114_minor_wrong); an alternative all of whose alternatives are missing ends the search (C114_nested_refuted). Not modelled: null pointers in trees, worlds that change during the search."
  },
  {
   "property": "C115",
   "status": "partial",
   "theorems": [
    "C115_texts",
    "C115_length_wrong",
    "C115_unreadable_undefined"
   ],
   "note": "For all programs, demanglers and symbol tables: names are texts, namely the whole blocks that the demangler gives; copies and moves are separate; nothing is in use when all names have ended (C115_texts). False of the code: the length given by the demangler is the size of its block, so every name has the terminator and what is behind it (C115_length_wrong); where there is no readable form the name that was passed in is freed although it is not a block of its own, so the names of functions with C linkage, and the word unknown itself, are undefined, as is a function without a name (C115_unreadable_undefined). Not modelled: Windows, memory that runs out."
  },
  {
   "property": "C116",
   "status": "partial",
   "theorems": [
    "C116_number",
    "C116_number_partial",
    "C116_copy_wrong",
    "C116_success_partial",
    "C116_success_refuted"
   ],
   "note": "For all programs: the number given is that of living objects less that of copies ever made, modulo the size of the counter (C116_number); without copies it is right (C116_number_partial) and a collection is a success exactly if it ended something (C116_success_partial). False of the code: copies are not counted but their ends are, so after every program with copies the number is wrong (C116_copy_wrong), and a collection that ended an object may be called a failure (C116_success_refuted)."
  },
  {
   "property": "C117",
   "status": "partial",
   "theorems": [
    "C117_loader",
    "C117_no_library",
    "C117_no_function_undefined"
   ],
   "note": "For all systems and programs: the loader calls the two functions of the library at its place while it lives, the library stays open, its end is never undefined and leaves a library open only if something else uses it (C117_loader); without the library the program ends with a message (C117_no_library). False of the code: without one of the functions the effect is undefined before the test for it (C117_no_function_undefined). Linux variant; arguments and results of the functions are not modelled."
  },
  {
   "property": "C118",
   "status": "partial",
   "theorems": [
    "C118_turns",
    "C118_numbers",
    "C118_negative_undefined",
    "C118_negative_wrong",
    "C118_again_wrong"
   ],
   "note": "For all numbers that are not negative, types and bodies: the turns are those asked for and the loop ends (C118_turns, C118_numbers). False of the code: with a negative number the loop is undefined after 2^(w-1) turns, or in types narrower than int runs 2^w + n times (C118_negative_undefined, C118_negative_wrong); a provider gives no turns the second time, since begin does not reset it (C118_again_wrong). Not modelled: numbers that are not integers, bodies that throw or return."
  },
  {
   "property": "C119",
   "status": "partial",
   "theorems": [
    "C119_shown_partial",
    "C119_invalid_wrong",
    "C119_no_message",
    "C119_message_lost",
    "C119_overrun_wrong"
   ],
   "note": "On Windows every message without zeros that takes fewer than 2048 units of UTF-16 is shown in full (C119_shown_partial); without a message both systems say that the program died (C119_no_message). False of the code: longer messages overrun an array (second half of C119_shown_partial); nothing is shown from the first invalid code on (C119_invalid_wrong); on Linux no message is shown at all, since wide characters are written to a stream that was just used for bytes, which is undefined in the C standard and refused by glibc (C119_message_lost); if the stream was used for wide characters before, then what follows the message in memory is shown too (C119_overrun_wrong). Not modelled: debuggers, windows, the variant for other widths of wchar_t."
  },
  {
   "property": "C120",
   "status": "partial",
   "theorems": [
    "C120_form",
    "C120_readable_partial",
    "C120_readable_refuted"
   ],
   "note": "For all arrays: the form of the text (C120_form), and that no two arrays have the same text if the texts of the elements are not empty and have no comma or square bracket (C120_readable_partial), which holds for integers. False in general: nothing is quoted (C120_readable_refuted)."
  },
  {
   "property": "C121",
   "status": "proved",
   "theorems": [
    "C121_seen",
    "C121_bools",
    "C121_more",
    "C121_equal"
   ],
   "note": "For all formulas and assignments: what if sees with and without ! (C121_seen), ordinary bools (C121_bools), more information (C121_more), equality (C121_equal)."
  },
  {
   "property": "C122",
   "status": "partial",
   "theorems": [
    "C122_outermost_partial",
    "C122_unguarded_wrong",
    "C122_valid_inside_partial",
    "C122_kept_dangles"
   ],
   "note": "For all nestings in which every allocation happens inside of a guard that has a frame: the answers are those of the outermost guard and nothing is left (C122_outermost_partial), and the names given inside of a guard stay valid until it ends (C122_valid_inside_partial). False otherwise: one allocation outside of all guards gives the next guarded ones the empty file name (C122_unguarded_wrong); the names of all earlier allocations are in one static string that is assigned for the next guard, so that the pointers kept for the report dangle (C122_kept_dangles). Not modelled: threads (the variables are shared by all of them)."
  },
  {
   "property": "C123",
   "status": "partial",
   "theorems": [
    "C123_pointer_partial",
    "C123_function",
    "C123_unique",
    "C123_null_undefined"
   ],
   "note": "For all names, types and addresses with a live object or a class without virtual functions: exactly this text (C123_pointer_partial), for functions too (C123_function), and it is unique (C123_unique). False of the code: a null pointer to a class with virtual functions that is not final has its object looked at, which is undefined (C123_null_undefined)."
  },
  {
   "property": "C124",
   "status": "partial",
   "theorems": [
    "C124_swaps_partial",
    "C124_types_wrong",
    "C124_constant_partial",
    "C124_constant_self_lost"
   ],
   "note": "For all sequences and every behaviour of moving, if the types hold all the values: a permutation of the values (C124_swaps_partial); the form with a constant that is another object (C124_constant_partial). False otherwise: objects of different types get what their type makes of the value (C124_types_wrong: an int 300 becomes 44 in an unsigned char); with the object itself as the constant its value is lost (C124_constant_self_lost). Not modelled: exceptions, objects inside of one another."
  }
 ]
}