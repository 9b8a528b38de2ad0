{"id": "C01", "title": "Big unsigned addition is exact", "statement": "a+b on arbitrary-precision unsigned integers denotes the mathematical sum and the result is in canonical form (no leading zero digit), so that it compares equal to every other way of computing the same number.", "quantifier": "all pairs of arbitrary-precision unsigned integers of any length, all digit widths", "why_tests_cant": "the operands have unbounded length; carry chains of every length and position cannot be enumerated", "anchors": ["parts/header_file/files/elc/_files/bignum/bignum/ubigint.hpp: ubigint::operator+, add_base, add_to_base, get_size_diff", "parts/_share/basic_environment/add_sub_carry.hpp: add_carry"]}
{"id": "C02", "title": "Big unsigned subtraction is exact and saturates at zero", "statement": "a-b on arbitrary-precision unsigned integers denotes a-b when b<=a and 0 otherwise; the result is canonical.", "quantifier": "all pairs of arbitrary-precision unsigned integers, all digit widths", "why_tests_cant": "borrow chains of unbounded length; the in-place and the allocating variants must agree on all of them", "anchors": ["parts/header_file/files/elc/_files/bignum/bignum/ubigint.hpp: ubigint::operator-, sub_base, sub_with_base", "parts/_share/basic_environment/add_sub_carry.hpp: sub_borrow"]}
{"id": "C03", "title": "Big unsigned multiplication is exact on every size path", "statement": "a*b denotes the mathematical product whichever internal algorithm (schoolbook or divide-and-conquer) the operand sizes select; the result is canonical.", "quantifier": "all pairs of arbitrary-precision unsigned integers, all digit widths, every split threshold", "why_tests_cant": "the fast path only starts at 64 digits, its recursion tree depends on both lengths; no finite sample covers all shapes", "anchors": ["parts/header_file/files/elc/_files/bignum/bignum/ubigint.hpp: muti, muti_base, fast_muti_base, ubigint::operator*"]}
{"id": "C04", "title": "Big unsigned division obeys the Euclidean law", "statement": "for b<>0, a/b and a%b satisfy a=(a/b)*b+a%b and a%b<b; division by zero yields 0; divmod agrees with the two operators.", "quantifier": "all pairs of arbitrary-precision unsigned integers, all digit widths", "why_tests_cant": "quotient-digit estimation errors occur on a vanishing fraction of operands; only a proof covers all of them", "anchors": ["parts/header_file/files/elc/_files/bignum/bignum/ubigint.hpp: div_base, div_with_base_no_optimisation, no_mod_optimisation_of_div, mod_base, divmod, fast_div_base, fast_mod_base"]}
{"id": "C05", "title": "Big unsigned comparison is numeric comparison", "statement": "==, <=> between two arbitrary-precision unsigned integers decide numeric equality and order, and equal numbers have identical representations.", "quantifier": "all pairs of arbitrary-precision unsigned integers", "why_tests_cant": "needs all lengths and all most-significant-difference positions", "anchors": ["parts/header_file/files/elc/_files/bignum/bignum/ubigint.hpp: ubigint::operator==, compare, operator<=>, shrink_to_fit"]}
{"id": "C06", "title": "Big unsigned increment is exact", "statement": "++a turns the number n into n+1 whatever the carry chain length.", "quantifier": "all arbitrary-precision unsigned integers", "why_tests_cant": "carry chains of every length", "anchors": ["parts/header_file/files/elc/_files/bignum/bignum/ubigint.hpp: add_one, operator++"]}
{"id": "C07", "title": "Big unsigned decrement is exact", "statement": "--a turns the number n into n-1 for every n>0.", "quantifier": "all positive arbitrary-precision unsigned integers", "why_tests_cant": "the borrow path needs a zero low digit, i.e. probability 2^-64 on random data", "anchors": ["parts/header_file/files/elc/_files/bignum/bignum/ubigint.hpp: sub_one, operator--"]}
{"id": "C08", "title": "Big unsigned shifts are multiplication and floor division by powers of two", "statement": "a<<n denotes a*2^n and a>>n denotes floor(a/2^n), in place and by value, results canonical.", "quantifier": "all arbitrary-precision unsigned integers, all shift counts", "why_tests_cant": "every combination of whole-digit and in-digit shift for unbounded lengths", "anchors": ["parts/header_file/files/elc/_files/bignum/bignum/ubigint.hpp: left_shift, right_shift, operator<<, operator>>, operator<<=, operator>>="]}
{"id": "C09", "title": "Native integers convert to big integers and back without loss", "statement": "constructing a big unsigned integer from a native unsigned value and converting back gives the same value; converting any big integer to a native type yields its value modulo the type's range.", "quantifier": "all native values of all unsigned types, all arbitrary-precision integers", "why_tests_cant": "the value space is 2^64 or unbounded", "anchors": ["parts/header_file/files/elc/_files/bignum/bignum/ubigint.hpp: ubigint(T), convert_to, is_safe_convert_to"]}
{"id": "C10", "title": "Comparing a big integer with a native integer is numeric", "statement": "a==t and a<=>t with a native unsigned t decide numeric equality and order.", "quantifier": "all big integers, all native values wider than one digit", "why_tests_cant": "mis-comparisons need values that agree on some digits only; sparse in the value space", "anchors": ["parts/header_file/files/elc/_files/bignum/bignum/ubigint.hpp: operator==(T), operator<=>(T)"]}
{"id": "C11", "title": "Adding a native integer to a big integer is exact", "statement": "a+=t with native unsigned t of any width denotes a+t.", "quantifier": "all big integers, all native values", "why_tests_cant": "the lost carry needs an overflow of the intermediate type", "anchors": ["parts/header_file/files/elc/_files/bignum/bignum/ubigint.hpp: add_to_base(data_type&,T), operator+=(T)"]}
{"id": "C12", "title": "Signed big integer arithmetic follows the integer ring", "statement": "+,-,*,/,% and unary minus on signed big integers denote the corresponding operation on integers (truncated division).", "quantifier": "all pairs of signed big integers of all sign combinations", "why_tests_cant": "sign combinations interact with unbounded magnitudes; termination for all inputs cannot be tested", "anchors": ["parts/header_file/files/elc/_files/bignum/bignum/bigint.hpp: operator+, operator-, operator-=, operator*, operator/, operator%"]}
{"id": "C13", "title": "Signed big integers have a unique zero and a numeric order", "statement": "a==b iff the integers are equal, and a<=>b is the integer order, for every value reachable through the public operators (in particular zero has only one representation).", "quantifier": "all values reachable by any sequence of public operations", "why_tests_cant": "reachability through arbitrary operation histories", "anchors": ["parts/header_file/files/elc/_files/bignum/bignum/bigint.hpp: operator==, operator<=>, operator-() &&, operator*=, operator/="]}
{"id": "C14", "title": "Big unsigned fractions compute exact rationals", "statement": "+,*,/ and (when non-negative) - of unsigned fractions denote exactly the rational operation, with no rounding, and simplify does not change the value.", "quantifier": "all pairs of fractions with unreduced numerators and denominators", "why_tests_cant": "infinitely many representations per value", "anchors": ["parts/header_file/files/elc/_files/bignum/bignum/ubigfloat.hpp: operator+, operator-, operator*, operator/, simplify, reciprocal"]}
{"id": "C15", "title": "Fraction comparison depends only on the value", "statement": "== and <=> on fractions decide equality and order of the rationals regardless of common factors.", "quantifier": "all pairs of fractions and all representations", "why_tests_cant": "unbounded representations", "anchors": ["parts/header_file/files/elc/_files/bignum/bignum/ubigfloat.hpp: operator==, operator<=>"]}
{"id": "C16", "title": "Equal fractions have equal hashes", "statement": "x==y implies hash(x)==hash(y) for unsigned fractions.", "quantifier": "all pairs of equal fractions", "why_tests_cant": "requires all representations of one value", "anchors": ["parts/header_file/files/elc/_files/bignum/bignum/ubigfloat.hpp: hash, operator=="]}
{"id": "C17", "title": "Integer text round-trip in every radix", "statement": "parsing the text printed for a non-negative (native or arbitrary-precision) integer in any radix >=2 with distinct digit characters gives the integer back, and the text is its positional expansion with no leading zero.", "quantifier": "all integers of all sizes, all radices, every recursion split", "why_tests_cant": "divide-and-conquer printing splits at data dependent points for unbounded lengths", "anchors": ["parts/header_file/files/elc/_files/numerical_representation/to_string/_body.hpp: to_string_base, from_string_get_unsigneded", "parts/header_file/files/elc/_files/numerical_representation/representations/comn.hpp"]}
{"id": "C18", "title": "Parsing rejects exactly the malformed integers", "statement": "integer parsing reports an error iff the text contains a character that is not a digit of the radix; otherwise it returns the positional value.", "quantifier": "all texts over all characters, all radices", "why_tests_cant": "unbounded texts; both recursion shapes must agree", "anchors": ["parts/header_file/files/elc/_files/numerical_representation/to_string/_body.hpp: from_string_get_unsigneded"]}
{"id": "C19", "title": "Fraction text denotes the fraction", "statement": "the positional text with a bracketed repeating group printed for a fraction denotes exactly that fraction.", "quantifier": "all fractions, all radices", "why_tests_cant": "the period is unbounded and depends on number-theoretic structure", "anchors": ["parts/header_file/files/elc/_files/numerical_representation/to_string/_body.hpp: to_string_fractional_base"]}
{"id": "C20", "title": "Rotations and bit counts are exact", "statement": "rotl/rotr rotate by any amount (including 0, multiples of the width, amounts above the width), are mutually inverse, compose additively; the leading/trailing zero/one counts and bit length are exact.", "quantifier": "all word values, all widths, all rotation amounts", "why_tests_cant": "2^64 values times unbounded amounts", "anchors": ["parts/header_file/files/elc/_files/base_defs/bit.hpp: rotl, rotr, rot_iterator, countl_zero, countr_zero, countl_one, countr_one, get_bitnum"]}
{"id": "C21", "title": "Sequence hash is compositional", "statement": "the hash of a concatenation is the merge of the hashes of its parts, and continuing a hash from a prefix gives the hash of the whole, so the hash does not depend on how the sequence was cut.", "quantifier": "all sequences, all cut points, all element hashes", "why_tests_cant": "unbounded lengths and cut points", "anchors": ["parts/header_file/files/elc/_files/base_defs/hash.hpp: hash, with_calculated_before, merge_array_hash_results"]}
{"id": "C22", "title": "Hash of a repeated element equals its closed form", "statement": "the shortcut for hashing n copies of one element equals hashing the expanded sequence, for every n.", "quantifier": "all element hashes, all repetition counts", "why_tests_cant": "the source itself admits that the author could not verify the argument; n is unbounded", "anchors": ["parts/header_file/files/elc/_files/base_defs/hash.hpp: repeat_times"]}
{"id": "C23", "title": "Sorting yields an ordered permutation", "statement": "every sort entry point leaves the range a permutation of its input that is non-decreasing for the comparator.", "quantifier": "all sequences, all total preorders, every pivot/depth path", "why_tests_cant": "n! orders and the adversarial depth-limit path", "anchors": ["parts/header_file/files/elc/_files/base_defs/sort.hpp: sort, introsort, heapsort, quicksort, insertion_sort, partition, heapify"]}
{"id": "C24", "title": "UTF-8 round trip", "statement": "decoding the UTF-8 encoding of any code point sequence gives the sequence back; encoding what a successful decode produced gives the input bytes back.", "quantifier": "all code point sequences, all byte sequences", "why_tests_cant": "unbounded strings; the code space alone is 1.1M values times contexts", "anchors": ["parts/_share/char_set/convert.hpp: encode_utf8, decode_utf8, utf8_to_utf32, utf32_to_utf8"]}
{"id": "C25", "title": "UTF-8 decoding accepts only well-formed input", "statement": "the decoder accepts a byte sequence iff it is a well-formed UTF-8 string: shortest form, at most U+10FFFF, no surrogates, complete sequences.", "quantifier": "all byte sequences", "why_tests_cant": "2^32 four-byte sequences in all positions", "anchors": ["parts/_share/char_set/convert.hpp: decode_utf8, utf8_to_utf32"]}
{"id": "C26", "title": "UTF-16 round trip", "statement": "encoding to UTF-16 and decoding gives the code points back; re-encoding what was decoded gives the same units; unpaired surrogates are rejected.", "quantifier": "all code point sequences, all unit sequences", "why_tests_cant": "unbounded sequences, pairs form across element borders", "anchors": ["parts/_share/char_set/convert.hpp: encode_utf16, decode_utf16, utf16_to_utf32, utf32_to_utf16"]}
{"id": "C27", "title": "Conversion size predictions are exact", "statement": "every size-prediction function returns exactly the number of units the corresponding conversion writes, and fails exactly when the conversion fails, so a buffer of the predicted size is never overrun.", "quantifier": "all inputs, all pairs of encodings", "why_tests_cant": "unbounded inputs; malformed tails", "anchors": ["parts/_share/char_set/convert.hpp: get_utf8_to_utf16_size, get_utf8_to_utf32_size, get_utf16_to_utf8_size, get_utf16_to_utf32_size, get_utf32_to_utf8_size, get_utf32_to_utf16_size"]}
{"id": "C28", "title": "Forward substring search returns the first occurrence and stays in bounds", "statement": "searching a pattern returns the first position where it occurs, or nothing if it does not occur, and reads no element outside the searched range.", "quantifier": "all texts, patterns and element hash functions", "why_tests_cant": "skip distances depend on hash collisions; out-of-range reads are invisible to value tests", "anchors": ["parts/header_file/files/elc/_files/base_defs/range.hpp: match_pattern::match, build_table, in_range"]}
{"id": "C29", "title": "Backward substring search returns the last occurrence", "statement": "the reverse search returns the last position where the pattern occurs, or nothing.", "quantifier": "all texts and patterns", "why_tests_cant": "depends on all skip table contents", "anchors": ["parts/header_file/files/elc/_files/base_defs/range.hpp: reverse_match_pattern::match"]}
{"id": "C30", "title": "Set searches find the first/last element in/not in the set", "statement": "find_first_of, find_last_of, find_first_not_of, find_last_not_of return the first/last element whose membership in the pattern set is as requested, whether the table shortcut applies or not, or nothing when there is none.", "quantifier": "all texts and pattern sets of any element width", "why_tests_cant": "two code paths chosen by data must agree everywhere", "anchors": ["parts/header_file/files/elc/_files/base_defs/range.hpp: find_first_of, find_last_of, find_first_not_of, find_last_not_of, bitmark_for_finds"]}
{"id": "C31", "title": "Strings have value semantics whatever internal representation is used", "statement": "after any sequence of append, prepend, insert, erase, substring, pop and character assignment on any number of strings sharing storage, each string holds exactly the characters of the same operations on plain character sequences, and operations on one string never change another.", "quantifier": "all operation sequences, all numbers of strings and sharing patterns", "why_tests_cant": "the representation is a DAG of lazily shared nodes with in-place mutation when unshared; shapes are unbounded", "anchors": ["parts/header_file/files/elc/_files/string/defs.hpp: string_t", "parts/header_file/files/elc/_files/string/string_data_t/*.hpp: sum, substr, erased, inserted, end_apply, head_apply, same_value_compress, comn nodes"]}
{"id": "C32", "title": "String comparison is a total order on contents", "statement": "== holds iff the contents are equal; <=> orders by length and then lexicographically, independently of the representation of either operand, and comparing does not change either string.", "quantifier": "all pairs of contents and all representations", "why_tests_cant": "representation pairs are unbounded", "anchors": ["parts/header_file/files/elc/_files/string/defs.hpp: operator==, operator<=>", "parts/header_file/files/elc/_files/string/string_data_t/base_string_data_t.hpp: equal_with, compare_with", "parts/header_file/files/elc/_files/base_defs/compare.hpp"]}
{"id": "C33", "title": "String hash depends only on content", "statement": "the hash reported by a string equals the hash of its character sequence for every representation and history (including cached values).", "quantifier": "all representations and histories", "why_tests_cant": "cache staleness depends on operation order", "anchors": ["parts/header_file/files/elc/_files/string/string_data_t/base_string_data_t.hpp: get_hash, get_others_hash_with_calculated_before"]}
{"id": "C34", "title": "Hash table behaves as a multiset over any history", "statement": "after any sequence of add, remove, lookup and clear, a lookup succeeds iff the key was added more often than it was removed, a removal reports whether there was something to remove and takes away exactly one copy, size is the number of elements held and a traversal visits exactly these, and no memory is leaked, across every resize; for types whose hash may change over time no matter how it changes.", "quantifier": "all operation sequences, all hash functions and collision patterns", "why_tests_cant": "resizes happen only after more than 256 collisions in one bucket; histories are unbounded", "anchors": ["parts/header_file/files/elc/_files/base/container/hash_table/defs.hpp", "parts/header_file/files/elc/_files/base/container/stacks/base_stack.hpp", "parts/header_file/files/elc/_files/base/container/stacks/auto_stack.hpp"]}
{"id": "C35", "title": "Map behaves as a total function with default values", "statement": "m[k]=v then m[k] gives v and leaves other keys unchanged; reading an absent key gives the default; two maps are equal iff they agree on every key; clear makes every key the default again; for_each meets the value of every key with an entry exactly once and can replace it, size is the number of these keys; when all maps used are cleared no memory is left allocated.", "quantifier": "all operation sequences and keys", "why_tests_cant": "unbounded histories", "anchors": ["parts/header_file/files/elc/_files/base/container/map/defs.hpp"]}
{"id": "C36", "title": "Copy-on-write values are isolated", "statement": "writing through one copy-on-write handle never changes the value seen through another handle.", "quantifier": "all interleavings of copies, writes and comparisons over any number of handles", "why_tests_cant": "aliasing histories are unbounded", "anchors": ["parts/header_file/files/elc/_files/base/container/copy_on_write/defs.hpp"]}
{"id": "C37", "title": "Reference counted objects are destroyed exactly once, when the last owner goes", "statement": "for every history of handle creation, copy, assignment, move and destruction an object is alive while some strong handle refers to it, and is destroyed exactly once after the last one disappears.", "quantifier": "all histories over all objects and handles", "why_tests_cant": "aliasing and self assignment histories are unbounded; leaks and double frees are invisible to value tests", "anchors": ["parts/header_file/files/elc/_files/base/memory/ptr/ref/*.hpp", "parts/header_file/files/elc/_files/base/memory/ptr/ptr/base_ptr_t.hpp"]}
{"id": "C38", "title": "Weak handles never reach a destroyed object", "statement": "a weak handle never lets a caller reach an object after its last strong handle is gone, and the storage is released once the last weak handle goes.", "quantifier": "all histories of strong and weak handles", "why_tests_cant": "order dependent; unbounded", "anchors": ["parts/header_file/files/elc/_files/base/memory/ptr/ref/weak_ref_able.hpp", "parts/header_file/files/elc/_files/base/memory/ptr/ref/ref_able.hpp", "parts/header_file/files/elc/_files/base/memory/ptr/ptr/base_ptr_t.hpp"]}
{"id": "C39", "title": "Object pool never hands out a slot twice", "statement": "over any sequence of allocations and releases, live pool allocations are pairwise disjoint slots inside the pool and a released slot becomes available again.", "quantifier": "all allocation/release sequences", "why_tests_cant": "fragmentation patterns are unbounded", "anchors": ["parts/header_file/files/elc/_files/base/memory/pool/defs.hpp"]}
{"id": "C40", "title": "Mark-and-sweep collects exactly the unreachable objects", "statement": "after a collection the objects that remain are precisely those reachable from the roots.", "quantifier": "all object graphs and root sets", "why_tests_cant": "graph shapes are unbounded, cycles included", "anchors": ["parts/header_file/files/elc/_files/base/memory/gc/gc_t/default_method/defs.hpp", "parts/header_file/files/elc/_files/base/memory/gc/gc_t/defs.hpp"]}
{"id": "C41", "title": "Growable array is a sequence", "statement": "construction, copy, swap, clear, resize and forward resize, insertion (with and without simultaneous resize at either end), push_back, remove, indexing, size and find on arrays are the corresponding operations on finite sequences, with no element lost, duplicated, used after destruction or leaked by reallocation; pushing an element of the array itself appends a copy of it.", "quantifier": "all operation sequences over any number of arrays, all lengths, all element types (trivially movable or not, with or without default constructor), all allocator behaviours", "why_tests_cant": "capacity and block addresses depend on history and allocator; dangling reads usually still see the old bytes", "anchors": ["parts/header_file/files/elc/_files/base/container/array/defs.hpp", "parts/header_file/files/elc/_files/base/memory/get/defs.hpp", "parts/header_file/files/elc/_files/base/memory/alloc/defs.hpp"]}
{"id": "C42", "title": "Random value in a requested range stays in the range", "statement": "between(a,b) returns a value in [a,b] (inclusive) or [a,b) (exclusive) whatever the generator produces, and every value of the range is attainable.", "quantifier": "all ranges, all generator outputs", "why_tests_cant": "2^64 generator states times all ranges", "anchors": ["parts/header_file/files/elc/_files/random/defs.hpp: between_integral_t, gen_randbit_with_bitnum"]}
{"id": "C43", "title": "Random generator state has full period", "statement": "the generator state visits all 2^w states before repeating, for any seed.", "quantifier": "all seeds, all state widths", "why_tests_cant": "2^64 steps cannot be run", "anchors": ["parts/header_file/files/elc/_files/random/defs.hpp: base_gen_randbit, get_multiplier_by_modulus, get_increment_by_modulus"]}
{"id": "C44", "title": "Primality test is exact", "statement": "the primality predicate is true exactly for primes (plus the documented conventions for 0 and 1), and the next/previous prime functions return the nearest prime.", "quantifier": "all natural numbers", "why_tests_cant": "infinitely many inputs", "anchors": ["parts/header_file/files/elc/_files/base_defs/math.hpp: is_prime_num, is_prime_num_no_pre_check, get_prime_num_big_or_eq_than, get_prime_num_less_or_eq_than"]}
{"id": "C45", "title": "Prime factorisation multiplies back", "statement": "the factorisation of n consists of primes with multiplicities whose product is n, and the function terminates.", "quantifier": "all positive integers", "why_tests_cant": "infinitely many inputs; termination", "anchors": ["parts/header_file/files/elc/_files/base_defs/math.hpp: get_prime_factorization"]}
{"id": "C46", "title": "gcd is the greatest common divisor", "statement": "gcd(a,b) divides both and is divisible by every common divisor, for every algorithm variant selected by size.", "quantifier": "all pairs of unsigned integers", "why_tests_cant": "variant selection and unbounded sizes", "anchors": ["parts/header_file/files/elc/_files/base_defs/math.hpp: gcd, binary_gcd, euclidean_gcd, lehmer_gcd"]}
{"id": "C47", "title": "Integer powers, logarithms and factorials are exact", "statement": "pow(a,n)=a^n, integer_log(a,b) is the largest r with b^r<=a, factorial(n)=n!, ceil_div is the ceiling.", "quantifier": "all naturals", "why_tests_cant": "infinitely many inputs", "anchors": ["parts/header_file/files/elc/_files/base_defs/math.hpp: pow, integer_log, factorial, ceil_div"]}
{"id": "C48", "title": "Bit set behaves as an indexed set of bits", "statement": "setting/clearing/flipping a bit changes exactly that bit, bulk and/or/xor/not act bitwise, shifts move bits, equality holds iff all bits agree.", "quantifier": "all bit set sizes and contents", "why_tests_cant": "2^n contents for every n", "anchors": ["parts/header_file/files/elc/_files/base_defs/bitset.hpp"]}
{"id": "C49", "title": "Adding a big integer to itself in place doubles it", "statement": "x+=x turns the number n into 2n, i.e. an operand that is the object itself behaves like a copy of it.", "quantifier": "all arbitrary-precision unsigned integers, all digit widths", "why_tests_cant": "whether the storage moves during the operation depends on carry and allocator; a dangling read usually still sees the old bytes", "anchors": ["parts/header_file/files/elc/_files/bignum/bignum/ubigint.hpp: operator+=, add_to_base(data_type&,view)", "parts/header_file/files/elc/_files/base/container/array/defs.hpp: insert"]}
{"id": "C50", "title": "Bit queries on big integers are exact", "statement": "is_odd, truth value, bit length, trailing-zero count and single-bit query of a big unsigned integer are those of its binary expansion.", "quantifier": "all arbitrary-precision unsigned integers, all bit positions, all digit widths", "why_tests_cant": "unbounded lengths and positions", "anchors": ["parts/header_file/files/elc/_files/bignum/bignum/ubigint.hpp: is_odd, operator!, get_bitnum, countr_zero, bit_at"]}
{"id": "C51", "title": "All-ones and all-zeros queries answer the question they name", "statement": "all_bit_is_one(v) is true exactly when every bit of v is set, all_bit_is_zero(v) exactly when none is.", "quantifier": "all word values, all widths", "why_tests_cant": "a whole-range claim; a single example of the wrong polarity is easily written down as expected", "anchors": ["parts/header_file/files/elc/_files/base_defs/bit.hpp: all_bit_is_one, all_bit_is_zero"]}
{"id": "C52", "title": "Big integers can be built from native integers in every build configuration", "statement": "constructing a big unsigned integer from a native unsigned value is defined and exact for each digit type the build may select.", "quantifier": "all values, all digit widths the build configurations select", "why_tests_cant": "the digit width depends on compiler and build mode; a test run sees one configuration", "anchors": ["parts/header_file/files/elc/_files/bignum/bignum/ubigint.hpp: ubigint(T), base_type, base_type_mod", "parts/header_file/files/elc/_files/base_defs/data.hpp: number_of_possible_values_per"]}
{"id": "C53", "title": "Absolute value of signed integers", "statement": "abs(v) is defined and equals |v|.", "quantifier": "all signed values of all widths", "why_tests_cant": "the failing value is a single one out of 2^32 or 2^64", "anchors": ["parts/header_file/files/elc/_files/base_defs/math.hpp: abs"]}
{"id": "C54", "title": "Element lookup and alphabet reverse index", "statement": "searching a single element forwards (backwards) returns its first (last) position or nothing; the reverse index of an alphabet maps each element to its position and everything else to nothing, and is refused exactly for alphabets with a repetition or an element outside of a byte.", "quantifier": "all element types, texts and alphabets", "why_tests_cant": "unbounded alphabets and texts; silent table collisions between wide characters", "anchors": ["parts/header_file/files/elc/_files/base_defs/range.hpp: in_range, in_range_but_reverse, bitmark_for_quick_unindex"]}
{"id": "C55", "title": "Native signed values survive conversion", "statement": "a signed big integer built from a native signed value denotes that value and converts back to it; converting any value reduces it modulo 2^width into the range of the type.", "quantifier": "all native widths and values, all big integers", "why_tests_cant": "the failing value is a single one out of 2^64", "anchors": ["parts/header_file/files/elc/_files/bignum/bignum/bigint.hpp: bigint(T), convert_to", "parts/header_file/files/elc/_files/base_defs/math.hpp: abs, copy_as_negative"]}
{"id": "C56", "title": "Signed fractions compute exact rationals", "statement": "+,-,*,/ and integer powers of signed fractions denote the rational operation for every sign combination and every operand type.", "quantifier": "all pairs of signed fractions, all exponents", "why_tests_cant": "sign combinations interact with unbounded representations", "anchors": ["parts/header_file/files/elc/_files/bignum/bignum/bigfloat.hpp: operator+, operator-, operator*, operator/, operator+=, pow"]}
{"id": "C57", "title": "Signed fractions have one zero and a numeric order", "statement": "== and <=> on signed fractions decide equality and order of the rationals for every value the operators can produce.", "quantifier": "all values reachable through the operators", "why_tests_cant": "reachability of representations through arbitrary computations", "anchors": ["parts/header_file/files/elc/_files/bignum/bignum/bigfloat.hpp: operator==, operator<=>, operator+"]}
{"id": "C58", "title": "Intrusive lists enumerate their living elements in insertion order", "statement": "walking a list forward or backward visits exactly the elements added and not yet destroyed, in (reverse) insertion order, without touching destroyed memory, also when the elements visited are destroyed during the walk.", "quantifier": "all histories of creating, adding once, destroying listed elements, and walks", "why_tests_cant": "pointer rings of any length and any interleaving of removals", "anchors": ["parts/header_file/files/elc/_files/base_defs/list.hpp: cons_t, list_t", "parts/header_file/files/elc/_files/base/memory/other/can_map_all.hpp: map_all_helper"]}
{"id": "C59", "title": "Array and string comparisons decide the documented orders", "statement": "equal(...) decides equality of two sequences given by size or by a terminating zero; compare(...) orders by length and then by first difference, compare.lexicographical(...) in dictionary order, without reading outside of the sequences; compare.reverse exchanges the operands.", "quantifier": "all element orders, all sequences, all memory contents behind them", "why_tests_cant": "what lies behind the arrays is not visible to a test and usually readable", "anchors": ["parts/header_file/files/elc/_files/base_defs/compare.hpp: equal, compare, compare.lexicographical, compare.reverse"]}
{"id": "C60", "title": "Replacing an object redirects every pointer to it", "statement": "after p.do_replace(q) every pointer that stood for the object of p stands for the object of q, for reading, writing, == and unique; no operation touches freed memory or fails to end, and an object lives exactly as long as some pointer leads to it.", "quantifier": "all programs of constructing, copying, assigning, moving, dropping, reading, writing, comparing and replacing pointers over any number of objects", "why_tests_cant": "chains of replacements and the order in which pointers catch up are unbounded; a pointer that misses a replacement is only seen by a program that compares afterwards", "anchors": ["parts/header_file/files/elc/_files/base/memory/other/replace_able.hpp: replace_able", "parts/header_file/files/elc/_files/base/memory/ptr/ptr/base_ptr_t.hpp: get, replace_check, do_replace, reset, unique, operator=="]}
{"id": "C61", "title": "Searching a string from a position", "statement": "find(x) and find(x,begin) of a string give the position of the first occurrence of x in the string (that starts at begin or later), npos if there is none, whatever way x is given (a character, a view, a literal, a string); contains(x) tells whether there is one", "quantifier": "all strings, all searched texts in all representations, all start positions", "why_tests_cant": "the answer depends on the start position and on how the searched string came about; tests use start position 0 or short literals", "anchors": ["parts/header_file/files/elc/_files/string/defs.hpp: find, contains", "parts/header_file/files/elc/_files/base_defs/string_view.hpp: substr", "parts/header_file/files/elc/_files/base_defs/range.hpp: in_range_size_t"]}
{"id": "C62", "title": "Replacing and splitting", "statement": "replace(x,y) gives the string with every occurrence of x, from the left and without overlaps, replaced by y, and ends; replace(pos,size,y) replaces the characters at that place; arec(index,delimiter) gives the field of that number", "quantifier": "all strings, all searched texts and replacements, all indices", "why_tests_cant": "loops whose progress depends on all positions of the occurrences; a test with one occurrence passes", "anchors": ["parts/header_file/files/elc/_files/string/defs.hpp: replace, arec, substr"]}
{"id": "C63", "title": "Beginnings, ends and padding", "statement": "starts_with and ends_with (also of a view) tell whether the string begins / ends with the given text; ends_with(ch,count) tells whether the last count characters are ch; pad_left / pad_right give a string of at least the given size that ends / begins with the original one and has only the given character besides", "quantifier": "all strings, texts, characters, counts and sizes", "why_tests_cant": "boundary cases (equal length, empty, only the given character) range over all lengths", "anchors": ["parts/header_file/files/elc/_files/string/defs.hpp: starts_with, ends_with, pad_left, pad_right", "parts/header_file/files/elc/_files/base_defs/string_view.hpp: starts_with"]}
{"id": "C64", "title": "Taking floating-point numbers apart and putting them together", "statement": "the significand and the exponent that the library takes from a finite floating-point number have exactly its absolute value; make_float(n,e) is the floating-point number nearest below n*2^e (infinity or the largest number when that is too large), hence gives back the number when applied to its parts.", "quantifier": "all finite numbers of the float types with constants in the library, all significands and exponents", "why_tests_cant": "2^64 doubles, 2^128 quadruple numbers; boundaries of subnormal numbers", "anchors": ["parts/_share/basic_environment/float_info.hpp: float_info", "parts/_share/basic_environment/after_math.hpp: get_precision, get_exponent, get_precision_and_exponent, make_float"]}
{"id": "C65", "title": "Big numbers from and to floating-point numbers", "statement": "a big integer built from a floating-point number is its integer part (and equals that integer); a fraction built from a floating-point number is exact or a short fraction that rounds to the number; a fraction converts to the nearest or at least a neighbouring floating-point number (infinity when it is too large), and a number converted to a fraction and back is unchanged.", "quantifier": "all finite floating-point numbers of 32, 64 and 128 bits, all fractions of unbounded size", "why_tests_cant": "2^64 doubles; fractions of unbounded size; the failing ones are thinly spread", "anchors": ["parts/header_file/files/elc/_files/bignum/bignum/ubigint.hpp: ubigint(float)", "parts/header_file/files/elc/_files/bignum/bignum/bigint.hpp: bigint(float)", "parts/header_file/files/elc/_files/bignum/bignum/ubigfloat.hpp: ubigfloat(float), convert_to", "parts/_share/basic_environment/after_math.hpp: to_divide"]}
{"id": "C66", "title": "Number literals", "statement": "A literal written with the library's suffixes (_ubigint, _bigint, _ubigfloat, _bigfloat, 128-bit) denotes exactly the number the same literal denotes in C++: decimal, octal, binary and hexadecimal integers with digit separators of any length, and floating-point literals with point and exponent; and what is no literal is refused.", "quantifier": "all literals of any length, both sizes of size_t", "why_tests_cant": "Literals have unbounded length and the code gathers digits in machine-word blocks with an overflow test by wrap-around; a test uses a few short literals, and a literal that a test does not spell is never compiled.", "anchors": ["parts/header_file/files/elc/_files/base_defs/literal_support.hpp: fast_integer_iterator, unsigned_integer_literal_evaler, signed_integer_literal_evaler, unsigned_float_literal_evaler", "parts/header_file/files/elc/_files/bignum/bignum/literal.hpp: operator\"\"_ubigint, operator\"\"_bigint, operator\"\"_ubigfloat", "parts/_share/basic_environment/pre_math.hpp: operator\"\"_u128"]}
{"id": "C67", "title": "Addition with carry and subtraction with borrow", "statement": "add_carry and sub_borrow of machine integers return the sum (difference) modulo the range of the type and set the flag exactly when it left that range, with or without a carry (borrow) coming in, whatever the operands and on every target.", "quantifier": "all widths, all operand pairs, both values of the incoming flag, all code paths", "why_tests_cant": "Two 64-bit operands cannot be enumerated, the corner case is a carry into an operand of all ones, and tests run only the code path of one compiler.", "anchors": ["parts/_share/basic_environment/add_sub_carry.hpp: add_carry, sub_borrow"]}
{"id": "C68", "title": "Fractions of big integers as text and back", "statement": "to_string of a big fraction (unsigned or signed) writes a text that, read as a number in that representation, is the exact value of the fraction: with digits, point and exponent if the expansion ends, as numerator/denominator in lowest terms otherwise; equal fractions have the same text, and an infinite fraction its own text. from_string accepts exactly the texts 'digits[.digits][/...][e[sign]digits]' (several exponents allowed, '/' grouped to the right) and the two special texts, reports an error for every other text, and returns the exact value, so that reading back a written fraction gives an equal one. This holds in every representation, including one made at run time with default marks.", "quantifier": "All numerators, denominators, signs, all texts, all representations with different marks, any radix.", "why_tests_cant": "Texts, values and radices are unbounded; tests sample a few decimals and cannot show that no text is misread.", "anchors": ["parts/header_file/files/elc/_files/numerical_representation/to_string/_body.hpp: build_expression_str, to_string_and_add_exp, to_string_base(fraction), from_string_get_base, from_string_get", "parts/header_file/files/elc/_files/numerical_representation/representations/comn.hpp: get_denominator_complement, comn_numerical_representation_t", "parts/header_file/files/elc/_files/bignum/bignum/ubigfloat.hpp: pow, isInf"]}
{"id": "C69", "title": "Built-in floating-point numbers as text and back", "statement": "to_string of a built-in floating-point number writes a text that, read as a number in that representation, says a value to which the number is the (or a) nearest one, and from_string of this text gives back the number, whatever the radix; infinities and both zeros included. from_string of any text of a number gives a floating-point number next to the value (infinity if it is too large, zero if it is too small).", "quantifier": "all finite and infinite numbers of 32, 64 and 128 bits, all radices and all representations with usable marks, all texts of numbers", "why_tests_cant": "2^64 doubles times all radices; the numbers that fail (neighbours of powers of two, quotients such as 1/6, magnitudes near the limits of size_t) are thinly spread and a test of a handful of values passes", "anchors": ["parts/header_file/files/elc/_files/numerical_representation/to_string/_body.hpp: to_string, to_string_base, apply_info_threshold, string_builder, from_string, from_string_get_base", "parts/_share/basic_environment/after_math.hpp: to_divide, make_float", "parts/header_file/files/elc/_files/bignum/bignum/ubigfloat.hpp: convert_to"]}
{"id": "C70", "title": "NaNs as text and back", "statement": "to_string of a NaN followed by from_string gives a NaN with the same bits (sign and payload) in every representation, different NaNs have different texts, and from_string of a text that begins with the text of NaN either gives a NaN or reports an error; texts of ordinary numbers are not affected.", "quantifier": "all NaN bit patterns of types without padding, all representations with usable marks, all texts that begin with the text of NaN, any number of bytes in the brackets", "why_tests_cant": "2^53 NaNs of a double and arbitrary bracketed texts; a test sees the default NaN, and writes past the block or reads of unwritten bytes do not fail visibly", "anchors": ["parts/header_file/files/elc/_files/numerical_representation/to_string/_body.hpp: to_string_NaN_handle, from_string_get_unsigneded", "parts/header_file/files/elc/_files/base_defs/data.hpp: data_block, data_view, data_cast, full_equal_in_byte", "parts/header_file/files/elc/_files/numerical_representation/representations/comn.hpp: valanlottish"]}
{"id": "C71", "title": "Comparing the nodes of the interpreter's data", "statement": "== of two pointers to nodes holds exactly when they are the same node or hold equal objects of the same C++ type; it is defined for every pair of nodes, does not depend on the order of the operands, is an equivalence when == of the boxed types is one, and nodes that are the same have the same hash. == of nodes compares lists element by element; t equals exactly the true nodes, nil the false ones, and the void node follows its own rule.", "quantifier": "all stores of nodes, all pairs of nodes, all boxed C++ types with any == and any hash, lists of any length", "why_tests_cant": "The answer depends on the dynamic types on both sides; reading a boxed object as another type usually yields a plausible false. Lists are of unbounded length.", "anchors": ["parts/header_file/files/elc/_files/core/base_def/node_like.hpp: eq_with, equal_with, operator==, operator hash_t", "parts/header_file/files/elc/_files/core/nodes/binary_node_t.hpp: was_eq_with, was_equal_with", "parts/header_file/files/elc/_files/core/nodes/cons.hpp: was_equal_with", "parts/header_file/files/elc/_files/core/special_values: was_equal_with", "parts/header_file/files/elc/_files/base_defs/logical_bool.hpp: logical_bool"]}
{"id": "C72", "title": "Values of the interpreter share and separate as told", "statement": "A value that was copied shares its contents with the copy: assigning to one is seen through the other; constants and null values ignore assignment; x.ref_to(y) and y >> x make every value that shared with x share with y, x.re_ref_to(y) only x; x.un_ref() ends the sharing and keeps the contents. Reading a value has no effect, a null value reads as the void node, and every operation is defined and ends.", "quantifier": "all programs of creating, copying, assigning, reading, redirecting and separating any number of values", "why_tests_cant": "Sharing is a relation between all values of a program; a redirection that misses a value, or hits one too many, is only seen by reading another value later.", "anchors": ["parts/header_file/files/elc/_files/core/base_def/value.hpp: value, ref_to, un_ref, re_ref_to, operator>>, null_data_t, constexpr_data_t, variable_data_t", "parts/header_file/files/elc/_files/base/memory/ptr/ptr/base_ptr_t.hpp: do_replace"]}
{"id": "C73", "title": "Evaluating a list of statements", "statement": "Evaluating a list of statements, nested to any depth and whatever the program did before, gives the value of its last statement, and that value stays what it is while other lists are evaluated.", "quantifier": "all lists of statements, nested in any way, all program states before, all lists evaluated later", "why_tests_cant": "A result changes only when another evaluation comes between taking it and looking at it; tests look at once.", "anchors": ["parts/header_file/files/elc/_files/core/nodes/code_list.hpp: be_eval", "parts/header_file/files/elc/_files/core/base_def/value.hpp: value(special_init_t), operator>>, null_data_t"]}
{"id": "C74", "title": "Building, copying, moving, assigning and destroying rows of objects", "statement": "Copying or moving n objects to free slots puts the same values there and touches nothing else; after a move the old slots are free; destroying frees exactly the row; assignment gives the values the source had, also when the rows overlap if the function says so, and assigning an object to itself keeps it; a row built from an argument holds that argument n times; when a constructor throws, no half-built row remains. Each object is built once and destroyed once. This holds whichever operations of the type are trivial, user-defined or missing.", "quantifier": "all element types (every lawful combination of trivial, existing and missing operations), all row lengths, all positions of the rows, all memory contents, all constructors that throw", "why_tests_cant": "Which branch runs is chosen by the type; a test instantiates a few types and never sees the other branches, nor overlapping rows, nor the n-th constructor throwing.", "anchors": ["parts/header_file/files/elc/_files/base_defs/memory/lifetime/defs.hpp: construct, destruct, re_construct, copy_construct, move_construct, move, copy_assign, move_assign, may_overlap"]}
{"id": "C75", "title": "One value in a row of objects", "statement": "Building or assigning a row of n objects from one value gives every object exactly that value, for every type that can be copied, whatever its size.", "quantifier": "all element types of all sizes and kinds, all values, all row lengths and positions", "why_tests_cant": "The shortcut depends on the size of the type compared with that of wchar_t, which differs between systems, and it is right for the values a test tries first, such as 0.", "anchors": ["parts/header_file/files/elc/_files/base_defs/memory/lifetime/defs.hpp: super_speed_trivial_copy_from_one, construct, copy_construct, copy_assign", "parts/header_file/files/elc/_files/base_defs/zero.hpp: is_all_byte_zero"]}
{"id": "C76", "title": "Text given back to a stream is read again", "statement": "Text given back to an input stream is the next text read, in order and in front of the rest of the source; every character of the source is seen once, however the reads, peeks and gets fall and however short the reads of the system are. A peek shows the next character and leaves it there.", "quantifier": "all sources that deliver a text, all sequences of reads, gets, peeks and give-backs, all texts, all ways the system cuts its reads short", "why_tests_cant": "The buffer behind the stream has sizes and positions that only matter for long mixes of reads and give-backs; a test gives back one or two characters.", "anchors": ["parts/header_file/files/elc/_files/base_stream/unreadable_wrap/_body.hpp: unreadable_wrap::read, unread, forward_resize_buffer", "parts/header_file/files/elc/_files/base_stream/base_streams/_body.hpp: get, peek"]}
{"id": "C77", "title": "Seeking and telling in a file", "statement": "After a seek the next text read is the file's text at the new position; a seek before the start fails and changes nothing; tell returns the position of the next character read.", "quantifier": "all files, all uses before the seek, all directions and offsets", "why_tests_cant": "A test seeks in a fresh stream; the answer depends on what was given back before.", "anchors": ["parts/header_file/files/elc/_files/base_stream/unreadable_wrap/_body.hpp: unreadable_wrap::seek, tell, seek_to", "parts/header_file/files/elc/_files/stream/base_fstream/_body.hpp: seek, tell, seek_to", "parts/_share/APIs/streams.hpp: basic_seek_impl, basic_tell_impl"]}
{"id": "C78", "title": "Skipping to the end of a line", "statement": "Reading endline from a stream leaves exactly the text behind the first line ending (CR, LF or CR LF), or nothing if there is none; it always returns.", "quantifier": "all texts, all streams that keep the contract of an input stream", "why_tests_cant": "Every position of CR and LF relative to the end of the text has its own path; a test tries a line in the middle of a file.", "anchors": ["parts/header_file/files/elc/_files/base_stream/operators/_body.hpp: endline", "parts/header_file/files/elc/_files/base_stream/operators/_body.hpp: operator>>"]}
{"id": "C79", "title": "Reading characters from a file or terminal", "statement": "Reading n characters from a well-formed UTF-8 or UTF-16 source gives its next n characters, fewer only at the end, and writes nothing outside the caller's array.", "quantifier": "all unit sequences, all counts, all ways the system cuts its reads short", "why_tests_cant": "Which characters end up in one block of four bytes depends on everything before them; short texts fit one block.", "anchors": ["parts/header_file/files/elc/_files/stream/defs.hpp: not_unreadable_code_cvted_text_irefstream::read", "parts/header_file/files/elc/_files/stream/defs.hpp: file_irefstream_impl, terminal_irefstream_impl"]}
{"id": "C80", "title": "Writing characters to a file or terminal", "statement": "The characters written are held as well-formed UTF-8 or UTF-16 behind what was there, and reading them back gives the same characters; what cannot be written is reported.", "quantifier": "all sequences of 32-bit characters, all contents before, all ways the system cuts a write short", "why_tests_cant": "Tests write text that has an encoding to files that take it; surrogates, values above 10FFFF and full disks are not among them.", "anchors": ["parts/header_file/files/elc/_files/stream/defs.hpp: code_cvted_text_orefstream::write", "parts/header_file/files/elc/_files/stream/defs.hpp: file_orefstream_impl, terminal_orefstream_impl", "parts/header_file/files/elc/_files/stream/base_fstream/_body.hpp: write"]}
{"id": "C81", "title": "What the input shows on the output", "statement": "Characters that come from the terminal are shown on the tied output once each, in order, line endings as LF, also when text is given back and read again; what is shown does not depend on how the reads fall.", "quantifier": "all texts, all sequences of reads and give-backs, all former contents of the caller's array", "why_tests_cant": "The echo counts characters given back and indexes the array from its end: it is right whenever a read is filled, which is what a test does.", "anchors": ["parts/header_file/files/elc/_files/stream/defs.hpp: in_impl_t::read, unread"]}
{"id": "C82", "title": "Values stored as bytes in a stream", "statement": "Writing n values as bytes and reading n values gives the same values; a read returns how many values it got and leaves the stream behind them, and loses no bytes.", "quantifier": "all value sizes, all counts, all byte sequences", "why_tests_cant": "Sizes at which the number of bytes wraps around, and streams that end inside a value, are not what a test builds.", "anchors": ["parts/header_file/files/elc/_files/base_stream/base_streams/_body.hpp: read, unread, write"]}
{"id": "C83", "title": "The text of a row of values", "statement": "Rows that differ are shown as texts that differ.", "quantifier": "all element types and all texts of elements, all pairs of rows", "why_tests_cant": "It is about all pairs of rows.", "anchors": ["parts/header_file/files/elc/_files/base_stream/operators/_body.hpp: base_array_output"]}
{"id": "C84", "title": "Function objects share callables", "statement": "A program that uses only function objects that exist never touches freed memory. Copying and assigning a function shares its callable, moving hands it over, every call runs the callable with its present state; a callable is destroyed once, and exactly when the last function holding it goes or takes another. A deep copy is independent of its original. A function is equal to its copies.", "quantifier": "all programs over any number of function objects of one type, all callables (any state, any behaviour, also throwing)", "why_tests_cant": "Counts go wrong only in particular orders of copies, moves, swaps and drops; the number of programs is infinite.", "anchors": ["parts/header_file/files/elc/_files/base/container/function/base_function_t.hpp: base_function_t, func_data_t, default_func_data_t, deep_copy", "parts/header_file/files/elc/_files/base/memory/ptr/ref/ref_able.hpp: cut_ref", "parts/header_file/files/elc/_files/base/memory/ptr/ptr/base_ptr_t.hpp: reset", "parts/header_file/files/elc/_files/base/memory/get/defs.hpp: copy_get"]}
{"id": "C85", "title": "Function pointers made from function objects", "statement": "A function pointer made from a function object behaves as the object until the thread makes another pointer of that type or the object is destroyed; in a new thread it behaves as the pointer made last before the call.", "quantifier": "all programs before and after the conversion, all callables, all threads", "why_tests_cant": "The pointer is one shared function with hidden state: whether it still means the right callable depends on everything that happened since.", "anchors": ["parts/header_file/files/elc/_files/base/container/function/base_function_t.hpp: operator func_ptr_t, _func_ptr_value, _func_ptr_data_local, _func_ptr_data_gobal"]}
{"id": "C86", "title": "Character classes follow Unicode", "statement": "Every classification function returns for every 32-bit value, reads nothing outside its table, and answers by the general category of the code point: the one Unicode 14.0 gives it or, where that version leaves it unassigned, one that all functions agree on (Unicode 15.0's); everything above 10FFFF is unassigned.", "quantifier": "all 32-bit values", "why_tests_cant": "The functions read a compressed table of 23016 numbers in two stages; one wrong number or offset misplaces a block of characters nobody happens to try.", "anchors": ["parts/_share/char_set/isX.hpp: islower, isupper, istitle, isdigit, isxdigit, isalpha, isalnum, isdefined, isbase, iscntrl, isISOControl, isspace, isblank, isprint, isgraph, ispunct", "parts/_share/char_set/props_data.hpp: props_index, propstrie", "parts/_share/char_set/marcos/_defs.hpp: GET_PROPS", "parts/_share/char_set/constexprs.hpp"]}
{"id": "C87", "title": "Character classes fit together", "statement": "The classes are related as those of the C library: lower, upper and title case letters are alphabetic, alphanumeric is alphabetic or digit, hexadecimal digits are alphanumeric, alphanumeric and punctuation characters are graphic and disjoint, blank characters are space, no space is graphic, what is printable is graphic or space, what is graphic is printable, no control character is printable.", "quantifier": "all 32-bit values", "why_tests_cant": "Relations between classes concern every character at once.", "anchors": ["parts/_share/char_set/isX.hpp"]}
{"id": "C88", "title": "max and min give the largest and the smallest value", "statement": "max(v1, v2, ...) and min(v1, v2, ...) give the largest and the smallest argument, whatever the number, order and types of the arguments; on a list they give its largest and smallest element; for_type<T> gives the same in the type T.", "quantifier": "all numbers of arguments, all totally ordered types, all combinations of integer types", "why_tests_cant": "Which value survives depends on the order of evaluation, the conversions and equal or unordered values; tests try a few pairs of one type.", "anchors": ["parts/header_file/files/elc/_files/base_defs/min_max.hpp: max_t, min_t", "parts/header_file/files/elc/_files/base_defs/compare.hpp: compare_t::base_call"]}
{"id": "C89", "title": "Views show the part asked for", "statement": "A part of a view of an array or string (subview, substr in all its forms) shows exactly the elements between the two positions and never anything outside of the view; element access and the loops in both directions show the elements in order; a view of a zero-terminated string ends before the first zero.", "quantifier": "all blocks of memory, all views, all 64-bit positions", "why_tests_cant": "Wrap-around of sizes and over-reads only show for particular positions, and silently.", "anchors": ["parts/header_file/files/elc/_files/base_defs/array_like.hpp: array_like_view_t, array_end_by_zero_t", "parts/header_file/files/elc/_files/base_defs/string_view.hpp: string_view_t::substr"]}
{"id": "C90", "title": "Allocated blocks are aligned, separate and of the size asked for", "statement": "Whatever sequence of aligned_alloc, realloc and free a program makes, and whatever it writes into its own blocks: every block it holds is aligned as asked, shares no byte with another block, reports through get_size_of_alloc the size it was last given, and keeps its bytes (up to the smaller size on realloc) until freed; every block goes back to the system exactly once; a failed request changes nothing.", "quantifier": "all histories of requests, all sizes and power-of-two alignments, all addresses the system may answer", "why_tests_cant": "The hidden size word in front of a block can overlap, be misaligned or overwritten only for particular addresses and histories, and no test chooses the answers of the system.", "anchors": ["parts/_share/APIs/alloc.hpp: aligned_alloc, realloc, free, get_size_of_alloc, overheaded_operators_provider_t, default_operators_provider_t", "parts/_share/APIs/alloc/default_method/overhead.hpp: overhead_n"]}
{"id": "C91", "title": "The allocation counters tell the memory in use", "statement": "With counting on: allocations less frees is the number of blocks held, bytes allocated less bytes freed and the memory in use are the bytes held, and the recorded maximum is the largest number of bytes held at any time since the counters were cleared.", "quantifier": "all histories of requests", "why_tests_cant": "Sizes that shrink on realloc and wrap-around of differences only show in particular histories.", "anchors": ["parts/_share/APIs/alloc.hpp: count_info, update_memory_using, clear, aligned_alloc, realloc, free"]}
{"id": "C92", "title": "Texts survive the way to multibyte characters and back", "statement": "Converting a text into the multibyte encoding of the locale gives exactly its characters written one after another, or ends the program if a character has no representation; converting bytes back gives the text they spell, and only then a text, without looking at anything behind the bytes; so every text that can be written is read back as it was.", "quantifier": "all locales without shift states (UTF-8 among them), all texts, all byte sequences, whatever lies behind them in memory", "why_tests_cant": "The count that the C library returns is special for the null character and for characters that break off at the end of the bytes; which bytes lie behind a view is not up to a test.", "anchors": ["parts/_share/APIs/str_code_convert.hpp: to_char_str, to_char_t_str"]}
{"id": "C93", "title": "Square roots to a given accuracy", "statement": "sqrt(v, ε) and invsqrt(v, ε) end for every positive ε and give a value no farther than ε from the root (its inverse); a value and an accuracy kept from an earlier call can be improved to any smaller ε.", "quantifier": "all fractions v, all ε, all first guesses and cached values, signed and unsigned big floats", "why_tests_cant": "That an iteration ends, and that a small step means a small error, is a statement about all reals; tests see only the digits they print.", "anchors": ["parts/header_file/files/elc/_files/base_defs/math.hpp: sqrt, sqrt_to_new_ε, sqrt_iteration, quick_sqrt, invsqrt, invsqrt_to_new_ε, invsqrt_iteration, π_with_ε_impl_t"]}
{"id": "C94", "title": "Sine and cosine to a given accuracy", "statement": "sin(x, ε) and cos(x, ε) end for every ε above 0 and give a value no farther than ε from the sine (the cosine) of x.", "quantifier": "all fractions x of any size and sign, all ε", "why_tests_cant": "The truncation error of a series, for arguments of any size, cannot be sampled.", "anchors": ["parts/header_file/files/elc/_files/base_defs/math.hpp: sin, cos"]}
{"id": "C95", "title": "Inverse trigonometric functions to a given accuracy", "statement": "arctan(x, ε), arccos(x, ε) and arcsin(x, ε) give a value no farther than ε from the true one.", "quantifier": "all fractions, all ε", "why_tests_cant": "A series that converges, but to another function, looks plausible at single points.", "anchors": ["parts/header_file/files/elc/_files/base_defs/math.hpp: arctan, arccos, arcsin"]}
{"id": "C96", "title": "Exponential and logarithm of big floats", "statement": "exp(x) and log(x) of big floats return a value.", "quantifier": "all fractions", "why_tests_cant": "No test can tell a loop that never ends from a slow one.", "anchors": ["parts/header_file/files/elc/_files/base_defs/math.hpp: exp, log, is_close"]}
{"id": "C97", "title": "Casts from floating-point numbers to integers", "statement": "safe_arithmetic_cast<T>(x), to_size_t(x) and to_uintmax_t(x) of a floating-point number x give x without its fraction, modulo 2^n for an unsigned T of n bits, and never have undefined behaviour.", "quantifier": "all float, double and binary128 numbers including infinities and not-a-number, all integer types", "why_tests_cant": "There are 2^64 doubles, and an undefined cast usually looks fine on the machine that runs the test.", "anchors": ["parts/header_file/files/elc/_files/base_defs/math.hpp: safe_arithmetic_cast, to_size_t, to_uintmax_t, is_negative"]}
{"id": "C98", "title": "Roundings during constant evaluation", "statement": "In a constant expression trunc(v), ceil(v) and floor(v) of a built-in floating-point number are v rounded towards zero, up and down, as they are at run time.", "quantifier": "all finite numbers of all three formats", "why_tests_cant": "Only constant expressions take this path, so that running tests measure the other one; the result differs on numbers nobody lists.", "anchors": ["parts/header_file/files/elc/_files/base_defs/math.hpp: trunc, ceil, floor, is_close, to_uintmax_t"]}
{"id": "C99", "title": "Signs and differences of built-in integers", "statement": "copy_as_negative(x) is minus the absolute value of x, reverse_sign(x) is -x, and sub(a, b) is the signed difference of a and b, for integers of any built-in types.", "quantifier": "all pairs of integer types (signed and unsigned, all widths) and all values", "why_tests_cant": "The result depends on promotions for each pair of types and on values next to the limits.", "anchors": ["parts/header_file/files/elc/_files/base_defs/math.hpp: copy_as_negative, reverse_sign, sub, is_negative"]}
{"id": "C100", "title": "Built-in integers divided by big integers", "statement": "For a built-in integer a and a signed big integer b other than zero, a/b is the quotient truncated towards zero and a%b the remainder with the sign of a, as between two built-in integers.", "quantifier": "all values of all built-in integer types of at least 32 bits, all big integers of any size and sign", "why_tests_cant": "The sign of the result is decided twice, by the inner division and by the caller; four sign combinations times all sizes of the divisor.", "anchors": ["parts/header_file/files/elc/_files/bignum/bignum/bigint.hpp: operator/(T&&,bigint_t&&), operator%(T&&,bigint_t&&), operator/=, operator%=, convert_to", "parts/header_file/files/elc/_files/base_defs/math.hpp: abs, copy_as_negative"]}
{"id": "C101", "title": "Powers of integers during constant evaluation", "statement": "pow(a,b) of two integers in a constant expression has a value, and converted to an integer it is the power of a with exponent b.", "quantifier": "all integers a and exponents b whose power is below 2^64", "why_tests_cant": "The library computes the power by its own series for exp and its own iteration for log in double; whether the rounding errors stay below the next integer, and whether the iteration ends at all, differs from number to number.", "anchors": ["parts/header_file/files/elc/_files/base_defs/math.hpp: pow, exp, log, is_close", "parts/header_file/files/elc/_files/string/string_data_t/same_value_compress_string_data_t.hpp: max_static_data_size", "parts/header_file/files/elc/_files/random/defs.hpp: εντροπία_num", "parts/header_file/files/elc/_files/memory_stream/memory_stream.hpp: buf_size"]}
{"id": "C102", "title": "Random floating-point numbers", "statement": "between_0_and_1_exclusive() is at least 0 and below 1, between_0_and_1_inclusive() from 0 to 1; between(a,b) is a number from the smaller to the greater bound, never the greater bound in the exclusive version; uniform_in_range() is a finite number of the type.", "quantifier": "all words of the generator, all finite bounds, float and double", "why_tests_cant": "The bad results come from a few of 2^32 or 2^64 words and from bounds whose difference is rounded; sampling does not meet them.", "anchors": ["parts/header_file/files/elc/_files/random/defs.hpp: between_0_and_1_exclusive, between_0_and_1_inclusive, between_floating_t, uniform_in_range", "parts/header_file/files/elc/_files/base_defs/math.hpp: pow"]}
{"id": "C103", "title": "Random big integers in a range", "statement": "rand<ubigint>.between(a,b) draws a number from the smaller to the greater bound, the greater one excluded by exclusive(); every number of the range can come out; the number is the first group of random bits, as long as the width of the range, that falls in it.", "quantifier": "all bounds in either order, all words of the generator, all digit widths", "why_tests_cant": "The number of bits, of digits and the rejections depend on the bounds and on the words; the ranges that break are those whose width fills whole digits.", "anchors": ["parts/header_file/files/elc/_files/random/defs.hpp: gen_randbit_with_bitnum, between_integral_t, between", "parts/header_file/files/elc/_files/bignum/bignum/ubigint.hpp: apply_basetype_to_head, end_apply_basetypes, get_bitnum"]}
{"id": "C104", "title": "The random generator as a state", "statement": "Setting a seed determines everything the generator returns afterwards, whatever it did before, and get_origin() returns that seed; a copy continues the same sequence; every draw of a word or an object is defined, touches only its own part of the table and loses nothing of the state; every byte of a random object comes from exactly one draw.", "quantifier": "all states, seeds, word sizes, object sizes and sequences of draws", "why_tests_cant": "The state has 2112 bytes; which part of the table a draw uses depends on the seed, and an uninitialised or overwritten byte of an object is not visible in its random value.", "anchors": ["parts/header_file/files/elc/_files/random/defs.hpp: rand_seed_t, set, get_origin, base_gen_randbit, gen_randbit, gen_randbit_with_sand_size_to_pointer"]}
{"id": "C105", "title": "Searching with constant strings", "statement": "A string literal made with _constexpr_str, whose search tables are computed when it is made, is searched for, searched in for a character, and used as a set of characters with the same answers as any other string: first occurrence, first or last position of a character, first or last element in or not in the set.", "quantifier": "all constant strings, texts, characters, character widths and hashes", "why_tests_cant": "Which of the precomputed tables exist depends on the characters of the literal (repetitions, values above one byte); tests use a few ASCII literals.", "anchors": ["parts/header_file/files/elc/_files/base_defs/constexpr_str.hpp: constexpr_str_t, in_range, in_range_size_t, in_range_but_reverse, find_first_of, find_last_of, find_first_not_of, find_last_not_of"]}
{"id": "C106", "title": "Iterators of strings, arrays and views", "statement": "A loop from begin() to end() sees every element once and in order, one from rbegin() to rend() in the opposite order; it+n and it-n land n places away; comparisons of iterators of a string are those of the positions; a string made from two iterators holds what lies between them.", "quantifier": "all strings, arrays, positions and distances", "why_tests_cant": "Tests walk one short string; the empty string, the distances at the ends of the range, and undefined pointers that happen to work are out of their reach.", "anchors": ["parts/header_file/files/elc/_files/base_defs/iterator.hpp: base_iterator_t, same_base_t, reverse_base_t", "parts/header_file/files/elc/_files/string/defs.hpp: iterator_base_t, begin, end, rbegin, rend, string_t(const_iterator,const_iterator)", "parts/header_file/files/elc/_files/base/container/array/defs.hpp: rbegin, rend", "parts/header_file/files/elc/_files/base_defs/array_like.hpp: array_like_view_t::reverse_iterator, rbegin, rend"]}
{"id": "C107", "title": "Characters at fractional positions", "statement": "Reading a string at a fractional position interpolates between the two neighbouring characters and depends only on the content of the string; at a whole position it is the character there; writing at a fractional position changes only the two neighbours, and reading there afterwards gives the value written.", "quantifier": "all strings, positions, values and roundings of the machine", "why_tests_cant": "Positions and roundings cannot be enumerated; what is read behind the last character depends on the internal representation.", "anchors": ["parts/header_file/files/elc/_files/string/defs.hpp: floating_arec_t_impl, operator[]", "parts/header_file/files/elc/_files/base_defs/math.hpp: linear_interpolation, sub"]}
{"id": "C108", "title": "The timer shows the time it has been running", "statement": "After start(), any pauses and resumptions, and end(), the timer shows the time between start and end without the pauses; start() or reset() begins at zero again whatever happened before.", "quantifier": "all sequences of calls at all times, all earlier states of the timer", "why_tests_cant": "Times are not reproducible in a test, and the sequences of calls are unbounded.", "anchors": ["parts/header_file/files/elc/_files/timer/defs.hpp: debug_timer_t::start, end, reset, pause, resume, get"]}
{"id": "C109", "title": "return and goto in lists of statements", "statement": "Evaluating a list of statements evaluates each statement reached exactly once and in order: return ends the list in which it is executed, with the value of the statement before it, and the enclosing list goes on; goto continues with the target, whichever list it belongs to; any other exception leaves all lists.", "quantifier": "all programs (cyclic and nested to any depth included), all jumps", "why_tests_cant": "Programs with jumps run arbitrarily long and nest arbitrarily deep; a test covers one path.", "anchors": ["parts/header_file/files/elc/_files/core/nodes/code_list.hpp: eval, code_list::be_eval", "parts/header_file/files/elc/_files/core/runtime_exception/core_runtime_internal_helper.hpp: goto_t, return_t"]}
{"id": "C110", "title": "Words, lines and values on text streams", "statement": "Reading from a text stream gives back the numbers, truth values and strings that were written with spaces in between; a word ends at the next space, a line at the next line ending; text that is not of the kind asked for is reported and leaves the variable alone.", "quantifier": "all streams that keep the contract of an input stream, all texts, all sequences of kinds and values", "why_tests_cant": "Every mixture of kinds, spaces and positions of the end is its own case; a test reads one well-formed line.", "anchors": ["parts/header_file/files/elc/_files/string/defs.hpp: operator>>(stream,string), getline", "parts/header_file/files/elc/_files/_multi/arithmetic_text_io.hpp: operator<<, operator>>", "parts/header_file/files/elc/_files/numerical_representation/representations/bool.hpp: common_bool_representation_t"]}
{"id": "C111", "title": "Names in namespaces", "statement": "Looking up a name gives its value and type in the innermost namespace that defines it; a defined name is found whatever its value; asking changes nothing; entering a namespace and leaving it comes back; leaving the outermost namespace or entering something that is no namespace does no harm.", "quantifier": "all states of the namespaces any program can come to, all names, all depths of nesting", "why_tests_cant": "The depth of nesting, the shadowing names, and what lies at the end of the way outwards are unbounded; a test tries one or two levels with ordinary values.", "anchors": ["parts/header_file/files/elc/_files/namespace/defs.hpp: namespace_t", "parts/header_file/files/elc/_files/core/nodes/common_node.hpp: arec", "parts/header_file/files/elc/_files/core/special_values/base_constexpr.hpp: arec", "parts/header_file/files/elc/_files/core/base_def/value.hpp: operator bool, operator=, operator[]"]}
{"id": "C112", "title": "Libraries loaded at run time", "statement": "A library is open exactly as long as the program has a handle of it or a function from it; such a function can be called for as long as the program has it; a function knows its name and its library; a library or function that does not exist is reported and does no harm.", "quantifier": "all programs that load, copy, end and ask libraries and functions in any order, over all systems", "why_tests_cant": "The orders in which handles, functions and their copies end are unbounded; the test for this part of the program is empty.", "anchors": ["parts/header_file/files/elc/_files/lib_loader/lib_loader.hpp: library_info_t, symbol_t, load_lib, get_symbol_as_function, get_library_handle_form_symbol, get_symbol_name_form_symbol", "parts/_share/APIs/library_load.hpp: load_library, free_library, get_symbol"]}
{"id": "C113", "title": "Stacks behave as lists", "statement": "Every program on any number of stacks sees what it would see if each stack were a list of its own: adding puts an element first, removing takes out the first equal one and tells whether there was one, a copy has the same elements in the same order and is separate from its source, moving the top of a stack moves that one element, the size is the number of elements; after the stacks are cleared no memory is in use; asking a stack changes nothing.", "quantifier": "all programs of adding, removing, finding, visiting, copying, swapping, moving tops and clearing, over all element types and all comparison functions", "why_tests_cant": "Programs are unbounded in length and in the number of stacks; damage to a pointer in one stack may only be seen much later or in another stack.", "anchors": ["parts/header_file/files/elc/_files/base/container/stacks/base_stack.hpp: base_stack_t", "parts/header_file/files/elc/_files/base/container/stacks/auto_stack.hpp: auto_stack_t"]}
{"id": "C114", "title": "Which packages are loaded", "statement": "The list of packages to load for a package is enough for all of its dependencies, with versions that will do; it has no package twice and none that the dependencies do not speak of or that cannot be found; of alternatives one is taken that makes the list shortest and, among those, that has the most packages installed; if what is needed can be found then a list is given.", "quantifier": "all trees of dependencies, all sets of packages that can be found or are installed, all random numbers", "why_tests_cant": "Trees are unbounded in depth and width; the one test has one tree, in which no two alternatives are possible.", "anchors": ["parts/header_file/draft/package_manager/defs.hpp: get_package_load_list, package_relay_list, common_package_relay_info_t, signal_package_relay_info_t, pick_one_package_relay_info_t"]}
{"id": "C115", "title": "Names of types and functions", "statement": "The name of a type or function has exactly the characters of its readable form; a name that has no readable form is given as it is, and a function that is not known is called unknown; copies have the same characters; each name frees its memory once.", "quantifier": "all programs that make, copy, move, end and read names, over all demanglers and all symbol tables", "why_tests_cant": "Orders of copies, moves and ends are unbounded; a wrong free or a length that is too great may show nothing in a test.", "anchors": ["parts/header_file/files/elc/_files/base_defs/type_name.hpp: demangle_name_t, type_name_t, get_name", "parts/_share/APIs/function_name.hpp: function_name_t, get_function_name"]}
{"id": "C116", "title": "Counting objects", "statement": "The number of objects of a counting class is the number of those that live, however they were made; a collection is a success exactly if it ended an object.", "quantifier": "all programs that make, copy and end objects and collect", "why_tests_cant": "Programs are unbounded; the existing test makes no copies.", "anchors": ["parts/header_file/files/elc/_files/base_defs/count_able.hpp: count_able, the_number_of", "parts/header_file/files/elc/_files/base/memory/gc/gc_t/default_method/defs.hpp: default_gc_success_identifier, count_for_success_identify"]}
{"id": "C117", "title": "The loader of package symbols", "statement": "A loader of package symbols takes its two functions from the library in /usr/lib/elc if there is a file flag in that directory, and in ./elc otherwise; it keeps that library open, calls those functions whatever else the program does with libraries, and closes the library when it ends; if the library or one of the functions is missing then the program ends with a message.", "quantifier": "all files and libraries the system may have, all programs that load libraries before, during and after the life of the loader", "why_tests_cant": "The code has no test (its test file does not compile and testing is an error); what breaks is seen only with libraries that are missing or lack a function.", "anchors": ["parts/header_file/files/elc/_files/package_symbol_loader/package_symbol_loader.hpp: package_symbol_loader_t", "parts/_share/paths.hpp: get_elc_runtime_lib_path, package_symbol_loader_path"]}
{"id": "C118", "title": "Loops of a number of turns", "statement": "A loop for times(n) runs its body n times, with the numbers 0 to n-1 in order, or until the body ends it, whatever the body does to its copies of the numbers; n may be any number of the type; a negative number gives no turns; a provider of turns can be used for several loops.", "quantifier": "all integer types of any width, all numbers, all bodies", "why_tests_cant": "Numbers and bodies are unbounded; the largest numbers of a type take too long to count to.", "anchors": ["parts/header_file/files/elc/_files/base_defs/other.hpp: times_provider_t", "parts/_share/_defs.hpp: times"]}
{"id": "C119", "title": "Ending the program with a message", "statement": "When a program ends because of an error, the message it ends with is shown in full and nothing else is, after a line that says that the program died, whatever the length of the message, whatever its characters and wherever it is in memory, on every system; without a message a line says that the program died.", "quantifier": "all messages (texts of any length, views into larger texts), all earlier uses of the error stream, Windows and Linux", "why_tests_cant": "The program ends, so no test can run it; messages are unbounded, and what breaks depends on the memory behind the message and on the system.", "anchors": ["parts/_share/APIs/die.hpp: die, die_with, Init_die_state, ConsoleLog, ConsoleLogEnd"]}
{"id": "C120", "title": "The output of arrays", "statement": "An array is written to a text stream as the texts of its elements in order, with commas between them and square brackets around them, whatever its size; the text tells which array was written.", "quantifier": "all arrays of any size, arrays in arrays to any depth, all texts of elements", "why_tests_cant": "Sizes and depth are unbounded, and that two different arrays never have one text is about pairs of arrays.", "anchors": ["parts/header_file/files/elc/_files/base_stream/operators/_body.hpp: base_array_output, operator<< of arrays"]}
{"id": "C121", "title": "Truth values between true and false", "statement": "A formula of five-valued truth values is taken by if exactly if nothing in it is unknown and it speaks for true, either speaking for both answers and neither for none; on ordinary bools it is what it is on bools; unknown anywhere makes the whole unknown; equality says only true or false; without equality, values that speak for more never take an answer away.", "quantifier": "all formulas of !, &&, || and == over all assignments of the five values", "why_tests_cant": "Formulas can be nested without bound; a wrong field in one operator shows only in combinations of values that a test does not list.", "anchors": ["parts/header_file/files/elc/_files/base_defs/logical_bool.hpp: logical_bool, neither, either, unknown"]}
{"id": "C122", "title": "Where memory was asked for", "statement": "With locations recorded, every allocation is reported with the file and line from which the outermost library operation around it was called, for as long as the memory is in use; when that operation is over nothing of its location is left.", "quantifier": "all nestings of operations, all frames of the stack including those without known file or line, all numbers of allocations", "why_tests_cant": "Operations nest and follow one another without bound; a location that is left behind or a name that is freed too early shows only in the report of a later leak.", "anchors": ["parts/_share/APIs/alloc/debug_info/source_location_guard.hpp: source_location_guard, source_location_info_t", "parts/_share/APIs/alloc.hpp: _aligned_malloc_dbg, _aligned_realloc_dbg"]}
{"id": "C123", "title": "The output of pointers", "statement": "The text of a pointer is the name of its type, the name of the type of the object if that is another one, and the address in hexadecimal behind an @; pointers to different addresses have different texts, whatever the names are; every pointer, also a null pointer, can be written.", "quantifier": "all types and names, all addresses, all objects and dynamic types", "why_tests_cant": "There are too many addresses and names to try, names may have an @ themselves, and the outcome for pointers to nothing depends on the type.", "anchors": ["parts/header_file/files/elc/_files/_multi/arithmetic_text_io.hpp: operator<< of T* and of functions"]}
{"id": "C124", "title": "Exchanging objects", "statement": "Exchanges of objects, also of an object with itself, only move values to other places: after any number of them no value is lost, doubled or changed; the form that takes a constant gives the old value back and leaves the value of the constant in the object.", "quantifier": "all sequences of exchanges, all objects and values, all types whatever moving leaves behind", "why_tests_cant": "Sequences are unbounded, and objects exchanged with themselves or of different types are the cases that tests leave out.", "anchors": ["parts/header_file/files/elc/_files/base_defs/other.hpp: swap (both overloads)"]}
