# Formal model of ELC — design

Subject: `ELC-lang/ELC`, read as text in `/repo` (never built or run here). Tool: Coq 8.16.1.
Abbreviations used in citations: `H/` = `parts/header_file/files/elc/_files/`, `S/` = `parts/_share/`.

## How it is organised

Each modelled area has up to four kinds of files in `rocq/theories`:

* `X_Model.v`   executable Gallina transcription, function by function; every definition cites file and lines;
* `X_Spec.v`    (or a section at the top of the proof file) an independent specification, not using the model;
* `X_Proofs.v`  lemmas;
* `P_X.v`       property theorems only: `Theorem … . Proof. exact lemma. Qed.`, `Print Assumptions`, and next to each an
  `Example` exhibiting a concrete non-trivial instance of its hypotheses.

Naming: `Cnn_…` is a theorem for property `Cnn`. `…_partial` proves part of the property (the missing part is said in a
comment and in `MANIFEST.json`). `…_refuted` shows by a computed witness that the full statement is false of the model,
hence (by reading) of the code: these are findings.

## Modelling conventions

* Machine words are `Z` or `N` with the wrap-around written explicitly (`mod 2^w`); the width is a parameter so that a
  theorem covers every build configuration (the digit type of big integers is `unsigned char` in debug builds and half of
  `uintmax_t` otherwise).
* Loops are structural recursions or explicit fuel; running out of fuel is a distinct result excluded by the theorem
  statement (a proved bound shows that the fuel given suffices).
* Undefined behaviour (out-of-range read or write, falling off the end of a non-void function, shift by the width) is a
  distinct outcome (`None`/`UB`).
* Function pointers, comparators, element hash functions, refcount oracles are universally quantified arguments.

## Plan per property

| id | modelled | proof method |
|----|----------|--------------|
| C01 C02 C05 C06 | digit lists, base B=2^w; carry/borrow primitives, buffer loops, shrink | value function + induction on digit lists |
| C03 | schoolbook loop, Karatsuba recursion with split point | strong induction on length |
| C04 | digit quotient by binary search, long division, truncated-divisor optimisation, mod, divmod; scaling, trial quotient and splitting for more than 32 digits | loop invariants; strong induction on length for the divide-and-conquer path, termination and independence of the bounds; refutation of the optimisation's exactness and of the long path |
| C07 C10 C11 | sub_one; mixed comparison; mixed addition | refutation by witness; partial result on the unaffected inputs |
| C08 | whole-digit and in-digit shifts | value lemma |
| C09 | constructor, convert_to | value lemma |
| C12 C13 C55 | sign-magnitude operators over the digit-list magnitudes of C01-C11, overload resolution of the rvalue operators, native conversions | case analysis; refutations for the wrong operators |
| C14 C15 C16 C56 C57 | unreduced fractions, unsigned and signed, over the digit lists of C01-C11 | cross multiplication; `Q` as spec |
| C17 C18 | printing and parsing (both native loop and divide & conquer); printing of numbers of any size with the fast division (`NumLong_*`) | strong induction; positional value as spec. Beyond 32 digits: exact in decimal up to 42 digits of 32 bits whenever a text results, total and exact in hexadecimal and binary up to 51, octal up to 39; refuted beyond (wrong decimal text, undefined) |
| C19 | fractional digit loop with repeat detection | closed form of the remainders; text right iff terminating or purely periodic; refuted otherwise |
| C20 | rot/count functions over `w`-bit words | bit-level (`Z.testbit`) spec |
| C21 C22 | hash loops | xor/rotation algebra |
| C23 | insertion, heap, quick, intro sort over arrays | permutation + sortedness invariants |
| C24-C27 | UTF-8/16/32 codecs and size functions | case analysis on code ranges, induction on sequences |
| C28-C30 | Sunday search forward/backward, bitmark searches | window invariants; bounds refuted for the Sunday matcher |
| C31-C33 | rope nodes on a heap (Str_Model.v, Str_Cmp_Model.v), string variables and operations (Str_Api_Model.v); specification on plain sequences in Str_Spec.v | content relation, ownership of handles, per-operation refinement (Str_Read, Str_Apply, Str_Edit, Str_Cut, Str_Obs, Str_Cmp, Str_Merge), a history theorem under a condition per operation (Str_Guard, Str_Api_Proofs), two lists of operations for which the conditions hold by themselves (Str_Class, Str_View); 29 refutations for wrong node operations |
| C34 C35 | bucket lists as linked nodes on a heap, move-to-front lookups, rehash; maps | heap invariant (disjoint list segments) and refinement to a multiset / a function; divergence of self-comparison by induction on fuel |
| C36 | copy-on-write blocks with reference counts | refinement to values; count = number of handles as invariant |
| C37 C38 | heap of counted objects with handle members and weak cells; destruction cascades with fuel | invariant (count = number of handles) by induction over histories and cascades |
| C39 | units with a stack of free slot numbers, byte-range test for membership | permutation invariant (free + live = all slots) over histories |
| C40 | object graph with marks, registered roots, sweep with the iterator advanced first | reachability; invariant over histories; depth-first marker shown to meet the requirement |
| C58 | memory cells with two pointers each, ring through both end nodes | chain predicate with frame lemma; refinement to a sequence |
| C59 | array and string comparisons, elements with any strict total order | induction over the sequences; orders defined by prefixes and first differences |
| C60 | replaceable objects and counting pointers, programs of ten operations plus replacement by address | invariant: exact counters, a rank that falls along replacements; simulation of a world in which variables denote things; refuted for stale pointers |
| C61 | find and contains of strings in four forms of the searched text, memory behind the string explicit | first occurrence from C28's lemmas; refuted for start positions |
| C62 | the replace loops, replace(pos,size), arec with size_t wrap-around | induction along the occurrences; divergence by an invariant; arec by period 2 |
| C63 | starts_with, ends_with, ends_with(ch,count), padding, starts_with of views | case analysis on lists, loop induction; ends_with(ch,count) refuted |
| C64 | float constants, get_precision, get_exponent, make_float on the bits of a number | bit-field lemmas on Z, exact rational values (QArith), monotonicity of the value in the bits; refuted for half precision and out of range |
| C65 | ubigint(float), bigint(float), ubigfloat(float) with its search for a short fraction, ubigfloat to float | computable rounding function proved to round to nearest; monotonicity of rounding; loop invariant on the value; case analysis of the three ways the significand is cut |
| C66 | the literal evaluators (digit blocks, prefixes, separators, point, exponent) on the characters of the literal | invariant of the block accumulation (digits read = finished blocks ++ current block); the wrap-around test is right for each power of the base that fits the word, by computation over those powers; inverse direction by induction on the characters; wrong exponents by comparing readings of the same digits in bases 8, 10, 16 |
| C67 | add_carry and sub_borrow, portable and assembly paths | case analysis on wrap-around for every width |
| C68 | printing and reading of fractions of big integers: exponent form, denominator loops, prime table, the recursive reader | a grammar of numbers with rational values; the printed text is shown to denote the fraction, the reader to follow the grammar; reduced denominators by primes of the radix |
| C69 | printing of built-in floats: guess of a fraction, decomposition, cut to a number of digits, rounding digit by digit while the text reads back; reading through big fractions | the grammar of C68 and the neighbour relation of C65; invariants of the rounding loops (relative error below half a unit), termination by halving; powers of two as radix: nothing is ever lost |
| C70 | texts of NaNs: the default ones by name, the others by their bytes; reading into a block of bytes that may stay unwritten | bytes as base-256 digits; the text between the brackets as joined parts; induction over the parts with the block as a written prefix |
| C71 | nodes in a store by address; four-valued truth; boxed C++ types with their ==, hash and abilities as parameters; reading a box as another type is undefined | case analysis on kinds and levels; lists as an inductive relation |
| C72 | data objects with forwarding, values as addresses, `null_data` as object 0; no counters (C60 has them) | simulation of a world of things by a map from things to objects; ranks for termination |
| C73 | nested lists of statements evaluated over the same state | induction over nested code; every evaluation changes only `null_data` and adds objects |
| C74 | memory as a row of slots (empty, indeterminate, value); the C++ type traits as a record of flags, `if constexpr` as a test of them; outcomes for undefined, lost object, exception, does not compile | loop invariants over the backward loops, for all lawful flags |
| C75 | the same memory with the bits of the values; conversion to `unsigned char` and `wchar_t` of integers and IEEE numbers | modular arithmetic; no float is a fixed point of truncation to its own bits, by exponent ranges |
| C76 | a source as a state with read/end/wait and the contract `delivers`; `unreadable_wrap` with its buffer, size and position; outcomes Fine, Wild (undefined), Dies, Endless | invariant between the buffer and the pending text, induction over the use; the trace against a relational spec |
| C77 | a file as units and a position, `lseek` | the invariant of C76 across a seek |
| C78 | the loop of `endline` over any stream, the uninitialised character as `None` | induction on the text left, generic in the stream |
| C79 | the conversion loop over blocks, on the converters of C25-C28 | loop invariant: units used encode the characters read |
| C80 | a handle as what it holds and how much each coming write takes | induction over the characters |
| C81 | `in_impl_t` with its count of characters given back and the text shown | invariant: the count is the length of the pending text |
| C82 | byte counts modulo 2^64 | from C76 |
| C83 | the text of a row over an arbitrary text of elements | cutting at the first comma or bracket |
| C84 | cells with a callable and a count, function objects as handles, a log of destructions; outcomes FFine, FWild (undefined), FDies (terminate) | invariant: every count is the number of objects holding the cell; refinement to a relational machine without counts |
| C85 | the thread's slot and the global slot; calls through them | the slots are untouched by ordinary steps; the invariant of C84 |
| C86 | the property table number by number, the two-stage lookup, the functions; Unicode's categories as a list of ranges | a checker for ranges (blocks of 32 values share an offset) proved sound, run on every row and every gap of the list; values above 10FFFF by cases; the functions by cases on the category |
| C87 | the same | from C86, by cases on the category |
| C88 | max and min of arguments (right fold) and lists over any three-way comparison; integer types with C++'s conversions | induction over the arguments; first or last best element of a total preorder |
| C89 | views as offset and 64-bit size in a block | list slices; None for every access outside the block |
| C90 | system blocks, memory byte by byte with the size word in front of each block; the answers of the system as arguments under a contract (legal_alloc, legal_realloc, legal_free) | invariant over all histories of a client: system blocks are the client's blocks plus the offset, pairwise apart |
| C91 | the six counters modulo 2^64 | same invariant; separate blocks fit into the address space, so the sums do not wrap |
| C92 | the locale as a record (c32rtomb, mbrtoc32 on the bytes seen so far, MB_LEN_MAX) under the contract `stateless`; both loops; readable memory behind the bytes as an argument; UTF-8 as an instance | induction on the characters spelled; divergence by induction on the fuel; UTF-8 by arithmetic on the bytes |
| C93 | the loops of sqrt_to_new_ε and invsqrt_to_new_ε over exact fractions, the guess and ε_saver as arguments, signed and unsigned subtraction | real analysis of one step (error after a step at most the step, error halved), then induction on the loop; the reals are those of the standard library |
| C94 | the loop of sin over exact fractions; cos with the value of π as an argument | bounds on the Taylor sums of sin by repeated monotonicity, invariant of the loop |
| C95 | the loop of arctan, arccos and arcsin over exact fractions | alternating series of the arc tangent (standard library), invariant of the loop |
| C96 | exp_impl and log_impl over exact fractions, is_close as equality | no term of the series is 0, by induction |
| C97 | the cast over the bits of a number, conversions with their exact domain, intmax_t of any width | truncation of a rational is unique; case analysis of the sign |
| C98 | the constant-evaluation branches of trunc, ceil, floor, is_close, with IEEE rounding of every operation | integer part and fraction of a number are numbers of the format, so that comparison with ε is exact |
| C99 | copy_as_negative, reverse_sign, sub with integral promotion and usual arithmetic conversions (MinMax_Model) | type of the result for every pair of types, then range arithmetic |
| C100 | the two operators over BigInt_Model, conversion to the native type and copy_as_negative of Cast_Model | exactness of short divisions (C04), range of the conversion, case analysis of signs |
| C101 | doubles as significand and exponent with rounding to nearest; the series, the iteration and pow as loops | nearest-number lemmas for the four operations; induction on the series with monotone rounding; the exponents 0..45 all computed; a cycle of two states for the logarithm of 16 |
| C102 | the two unit ranges, between and uniform_in_range over rationals with the rounding of FloatBig_Model and the divisor of C101; words of the generator arbitrary | monotone rounding between numbers of the format; nearest numbers at the upper end of the words |
| C103 | the words of the generator as a function; digits appended and trimmed, the rejection loop with the operations of UBig_Model; undefined shift and endless rejection as outcomes | induction on the digits gives the low bits of the words as a number; induction on the rejections; words spelling a given number |
| C104 | seed, origin and the table as bytes; reads and writes outside are undefined; objects as bytes that may be uninitialised | induction on the sowing and on the filling; the draw computed on the split table; an odd multiplier is invertible modulo 2^64 |
| C105 | the tables of a constant string built by the functions of Range_Model; a table that could not be filled is absent | case distinction on the tables; a reverse index exists only without repetitions, so that first and last position agree |
| C106 | string iterators as (string, index) with ptrdiff_t overflow; pointers as positions with or without the rule that they stay in the array; the loop with fuel | one lemma for loops over a numbering of positions; induction on the steps |
| C107 | positions and values as rationals, two arbitrary rounding functions; the place behind the string as a parameter | monotone roundings that keep integers; floor and ceiling; nonlinear rational arithmetic |
| C108 | two time points and the five calls, each carrying the time it is made at | simulation of a stopwatch, induction on the calls |
| C109 | memory of cells, be_eval as recursion with fuel, exceptions as outcomes | sound and complete for a small-step machine with a stack: induction on the fuel, strong induction on the number of steps |
| C110 | read loops over the stream interface of C75-C78, conversion of a word by the functions of C17 | induction on spaces, word and list of values, from the contract of the stream |
| C111 | heap of nodes with named values, lookups that add missing names, the calls of `namespace_t` on it | invariant of all reachable states; induction on the way outwards |
| C112 | the system as two functions (what can be loaded, what is found), counted openings, objects with counters, variables of the program | invariant of all runs: the counter of an object is the number of variables with it, a library is open as often as there are objects with it |
| C113 | the node-level operations of Table_Model on any number of stacks in one memory | invariant: the stacks own disjoint chains of nodes that together are all of the memory; each operation refines the one on lists |
| C114 | the tree of dependencies as a datatype, the lists and the erasing loops as they are, random numbers as any sequence | induction over trees: the list grows by new packages that can be found; the erasing loop keeps a prefix |
| C115 | blocks of memory, names as pointer and length, the demangler and dladdr as any functions | invariant: each live name has a block of its own, and there are no other blocks; refinement of programs on texts |
| C116 | the counter, the living objects, the supplied copy constructor that does not count | invariant: counter = living less copies, modulo the size of the counter |
| C117 | the constructor, calls and destructor as steps of the library model of C112 | the invariant of C112; variables and handles of objects stay through every step that does not end them |
| C118 | the provider as two numbers, the loop with any body, increments by kind of type | induction over the turns that are left; the body is a parameter |
| C119 | the two systems as lists of what is seen; stderr with its orientation; the array of 2048 units; the converter of C26 | induction over the message for the converter; computation for the stream |
| C120 | the loop with its position, arrays in arrays as a tree | induction over trees with an arbitrary rest behind the text |
| C121 | the class with its three fields, formulas of its operators as a tree | induction over formulas against a set-of-answers reading that has no fields |
| C122 | the frame, the cached pointer and line, the static string with a count of its assignments; programs as nestings of guards | invariant: what is cached belongs to the outermost frame; the count grows with each lookup |
| C123 | names as any texts, dynamic types as a partial function on addresses, the address through the printing of native integers | round trip of C17; uniqueness of the last @ by induction |
| C124 | objects as cells, moving and converting as any functions | induction over the sequence; the places form a bijection |
| C41 | blocks of cells with live/dead objects, allocator with an open choice whether a block moves; the array operations on top | list refinement with a heap invariant (one block per array, no leaks) |
| C42 C43 | rejection loop; LCG | range invariants; order of an affine map modulo 2^w |
| C44-C47 | prime, factorisation, gcd, pow, log | number theory over Z; Lehmer: the matrix is always the identity or the exchange, so that every round is an exact step of Euclid or an exchange; ends by induction on the sum and the digit counter |
| C48 | byte array bit set | testbit spec |
| C49 | `x+=x` with the operand viewing its own storage | outcome `None` once the buffer is reallocated |
| C50 | bit length, trailing zeros, single bit, odd | value lemmas |
| C51 | all-ones / all-zeros query on words | bit-level spec |
| C52 | radix constant per digit width, constructor | case analysis on the width |
| C53 | absolute value | arithmetic |
| C54 | single element search, alphabet index table | induction on the table contents |

## Trusted base

* Coq 8.16.1 kernel (and `vm_compute`, part of the kernel).
* Axioms: every theorem in every `P_*.v` is "Closed under the global context" (its `Print Assumptions` follows it in the
  file), with one exception. The theorems of `P_Approx.v` (C93-C96) speak of the real numbers of the standard library and
  depend on its axioms `ClassicalDedekindReals.sig_forall_dec`, `ClassicalDedekindReals.sig_not_dec`,
  `FunctionalExtensionality.functional_extensionality_dep` and, where sine, cosine or arc tangent occur, on
  `Classical_Prop.classic`. No axiom comes from anywhere else.
* The faithfulness of the transcription: the only link between the theorems and the C++ code is that each definition was
  written by reading the cited lines.
* IEEE 754 arithmetic in the format of the type (round to nearest even, no excess precision, no contraction) and an exact
  std::modf, for C65 and C69 only.
* The list of Unicode categories in Char_Unicode (for C86, C87), written from Python's `unicodedata` (Unicode 14.0.0); its
  4489 code points marked `V15` have the category the table of /repo gives them, no independent source being at hand.
* Oracles (universally quantified, constrained only by the hypotheses shown in the theorem): the floating-point square
  root used by the primality test, the floating-point logarithm that gives the parser's splitting threshold,
  the floating-point logarithm that limits the digits of a printed float (`limit_digits`, assumed only not to be below the logarithm), the bits of the default NaNs (assumed: two different positive NaNs), comparators, element hashes, how short each read or write of the system falls (C76-C82), what a
  callable does and where its parts lie (C84-C85), which constructors throw and what a moved-from object holds (C74), the == and the hash of boxed C++ types and of function objects (C71), the generator output in the range
  functions, the next bucket count of a growing hash table (a floating-point golden ratio; only positivity is assumed),
  whether `realloc` moves a growing block. For strings (record `orc`): whether a node counts as unshared (assumed: a
  shared node never does), the growth of reserved space (assumed: not smaller than asked for), when a small string
  becomes a node, when reading turns a node into an array, whether a compile-time string ends with zero, and which of
  two equal nodes has the higher memory cost (nothing assumed).
* A module-wide listing of assumptions also shows `Coq.ssr.ssrunder.Under_rel.*`: parameters of a module type of the
  standard library's ssreflect plugin, loaded indirectly; no theorem here depends on them.

## What is modelled and what is not

| area | modelled | not modelled |
|------|----------|--------------|
| `H/bignum/bignum/ubigint.hpp` | construction from native unsigned, conversion to native, + - * / % divmod (schoolbook path in UBig_Model, the divide-and-conquer path for more than 32 digits in UBigDiv_Model with the floating-point quotient `size/e` of line 803 as an oracle of known range), ++ --, shifts, comparison (big and native), `x+=x`, bit queries, hash-free parts; digit width is a parameter (8 in debug builds, 32 or 64 otherwise); construction from floats in FloatBig_Model | rvalue overloads (same loops, buffer reuse), operators with the native operand first |
| `H/bignum/bignum/bigint.hpp` | all operators between two big integers, unary minus (both overloads), ++ --, shifts, comparison, hash, native signed conversion, construction from floats, `-=` with a native operand (BigIntNat_Model) | the other operators with native operands, divmod |
| `H/bignum/bignum/ubigfloat.hpp`, `bigfloat.hpp` | all operators between fractions and with unsigned integers, `x/=x`, reciprocal, split, simplify, pow, hash, comparison; conversion from and to floating point (on values, FloatBig_Model) | native signed operands |
| `H/base_defs/bit.hpp`, `H/base_defs/hash.hpp` | rotations, rotation iterator, bit counts, all-ones/all-zeros, sequence hash, merge, repeat | hashing of single objects (element hashes are arguments) |
| `S/char_set/*` UTF | the 8/16/32 codecs, direct 8<->16 conversions, size predictions | (classification: see below) |
| `H/base_defs/sort.hpp` | insertion, heap and quick sort, the selector | iterator adaptors |
| `H/base_defs/math.hpp` | primality, next/previous prime, factorisation, binary, Euclidean and (on unsigned big integers) Lehmer gcd, integer log, factorial, power of big integers, ceil_div, abs | `lehmer_gcd` on signed and built-in integers, floating-point functions, `is_prime_num` on signed or floating types |
| `H/base_defs/bitset.hpp` | single bit and bulk operations, equality, shifts, conversion to and from words, iteration | text output |
| `S/basic_environment/float_info.hpp`, `after_math.hpp` | constants of all five types, taking apart and `make_float` on bit patterns | the selection of the types by the compiler |
| `H/random/defs.hpp` | linear congruential step, choice of the multiplier, sowing step, integer ranges | floating-point ranges, random big integers, entropy collection |
| `H/base_defs/range.hpp` | both substring searches, single element search, set searches, reverse index | numeric ranges |
| `H/numerical_representation/*` | printing and parsing of built-in and big, signed and unsigned integers in any radix; the representations shipped with the library; the expansion of fractions with a repeating group; exponent and fraction notation of big fractions and its reading (FracText_Model, on values); built-in floating-point numbers (FloatText_Model) and NaNs (NanText_Model) | strings are lists of characters |
| `H/base/container/stacks/*`, `hash_table/defs.hpp`, `map/defs.hpp` | both stack classes (add, find with move-to-front, remove, traversal, copy, destruction, moving nodes), hash table add/remove/find/size/traversal/clear/growth with stable and unstable hashes, maps: indexing (const and non-const), shrink, comparison, clear, size, for_each reading and replacing values | copying and moving tables and maps, callbacks that use the container, exceptions other than the one inside map comparison, running out of memory |
| `H/base/container/array/defs.hpp`, `H/base/memory/get/defs.hpp`, `H/base/memory/alloc/defs.hpp` | construction, copy, swap, resize at both ends, all insertions, push_back, remove, indexing, find; block growth and movement; types with and without trivial move / default construction | exceptions, allocation failure, garbage collection hooks, the substring variants of find, iterators |
| `H/base/memory/ptr/ref/*`, `H/base/memory/ptr/ptr/*` | counted and weak handles: all constructors, assignments, swap, reset, release with cascades, locking, null objects | replacement of objects (`replace_able`), handles to types with their own `add_ref`/`cut_ref`, allocation failure |
| `H/base/container/copy_on_write/defs.hpp` | all operations, kept references | exceptions; the class is instantiated nowhere in /repo |
| `H/base_defs/compare.hpp` | `equal`, `compare`, `compare.lexicographical` in all forms, `reverse` | `base_call` for types without `<=>`, different element types, partial orderings, `is_eq` |
| `H/base/memory/other/replace_able.hpp`, `H/base/memory/ptr/ptr/base_ptr_t.hpp` | replacement, chains, catching up, counters, destruction along chains, `unique`, `==` | null object and weak pointers (in the model of C37/C38 without replacement), pointers inside replaceable objects |
| `H/base_defs/list.hpp`, `H/base/memory/other/can_map_all.hpp` | elements, adding, destruction, forward, backward and destroying walks | destruction of the list itself, several lists |
| `H/base/memory/pool/defs.hpp` | units, allocation, release, membership, shrink, size query | arrays (not pooled), destruction of the pool, failing allocation |
| `H/base/memory/gc/*` | marking from registered roots, sweep, root pointer construction/copy/assignment/destruction, success test | several types, the running flag, `shrink` hooks, reference counts of root pointers, null roots; `map_and_mark_for_gc` and `destory_by_gc` are user code and arguments of the model |
| `H/string/defs.hpp`, `H/string/string_data_t/*` | all node kinds (null, array, compile-time, repeated, substring, joined, appended, prepended, inserted, erased, forwarded), small strings, constructors, assignment, append, prepend, concatenation, character assignment, substr, resize, erase, insert, remove, pop, reading by index, as an array and as a C string, hash with its cache, == and <=> with merging of equal nodes; on lists of characters (not on nodes): find, contains, replace, `arec(index, delimiter)`, starts_with, ends_with, padding | iterators, streams, conversion to other character types, allocation failure, threads |
| `H/base_defs/literal_support.hpp`, `H/bignum/bignum/literal.hpp`, `S/basic_environment/pre_math.hpp` | all evaluators on character lists; a failing static_assert is "no value" | the sign branch of `_bigfloat` (never taken: the sign is not part of a literal), execution character sets other than ASCII |
| `S/basic_environment/add_sub_carry.hpp` | the portable path and the x86 and ARM assembly paths | the GCC and MSVC built-ins (specified by their documentation, same as the portable path); the registers the assembly changes without telling the compiler |
| `H/core/base_def/*`, `H/core/nodes/*`, `H/core/special_values/*`, `H/base_defs/logical_bool.hpp` | comparison and hash of nodes (Node_Model), values and their operations, evaluation of lists of statements (Val_Model) | `arec`, `clear`, `be_call`, conversion of C++ objects to nodes (`as_ptr`), `common_node`, `function_node`, `expr` calls, `goto`/`return` exceptions, `core/base_funcs` (a draft that no file includes) |
| `H/base_defs/memory/lifetime/defs.hpp` | all array functions, `construct` and `copy_assign`/`move_assign` of one object (Life_Model) | `copy` (does not compile), the attribute `never_in_array`, arrays as element types, throwing destructors |
| `H/base_stream/unreadable_wrap`, `H/base_stream/base_streams` (get, peek, typed read/write), `H/base_stream/operators` (`>>` of a character, `endline`, `base_array_output`) | Stream_Model | output manipulators other than these, `getline`-like helpers outside these files, locking |
| `H/stream/defs.hpp`, `H/stream/base_fstream`, `S/APIs/streams.hpp` | code conversion of input and output, the echo of `in_impl_t`, file read/write/seek/tell as schedules (Stream_Model) | failing system calls, `is_eof` (idealised as: no unit left), console modes, error streams |
| `H/base/container/function/base_function_t.hpp` | the callable store, `base_function_t` without `noexcept` in its type, as the MSVC branch compiles it (Fun_Model) | the other branch (it has no `get_data` for const objects and does not compile), the `noexcept` variants (the same code), conversions between function types, throwing as the callable, allocation failure, callables that use the function object holding them, data races on the slots |
| `S/char_set/isX.hpp`, `props_data.hpp`, `constexprs.hpp`, `marcos/_defs.hpp` | all classification functions, the whole table, the lookup (Char_Data, Char_Model) | other fields of the table, `char_t` of other widths |
| `H/base_defs/min_max.hpp` | max, min of arguments and lists, for_type (MinMax_Model) | limits of types; integer types of one width and different rank are one type |
| `H/base_defs/array_like.hpp` | views, subview, element access, reverse iteration, zero-terminated arrays (View_Model) | order of reverse iterators, the concepts |
| `H/base_defs/string_view.hpp` | substr (View_Model); searching and starts_with (Find_Model) | |
| `S/APIs/alloc.hpp` | aligned_alloc, realloc, free, get_size_of_alloc with overhead and counters (Alloc_Model) | source locations, the debug library; the system allocator is its contract in Alloc_Spec (any size accepted by aligned_alloc, as glibc does; no block longer than PTRDIFF_MAX) |
| `S/APIs/alloc/default_method/overhead.hpp` | all (Alloc_Model) | |
| `S/APIs/str_code_convert.hpp` | to_char_str, to_char_t_str, UTF-8 (Mb_Model) | encodings with shift states; the overloads that take strings by value; the C library is the contract `stateless` in Mb_Spec |
| `H/base_defs/math.hpp` 203-271, 364-472, 1111-1214 | sqrt, invsqrt, sin, cos, arctan, arccos, arcsin, exp, log for big types over exact fractions (Approx_Model) | native floating point at run time; quick_sqrt and quick_invsqrt with the bit trick (any guess is allowed instead); the series of π_with_ε; tan, cot, sec, csc, arcsec, arccsc; division by zero is one outcome |
| `H/base_defs/math.hpp` 57-121, 203-221, 327-362 | safe_arithmetic_cast, trunc/ceil/floor in constant evaluation, copy_as_negative, reverse_sign, sub of integers (Cast_Model) | the run-time branches (std::trunc, ...); sign of a zero result; copy_as_negative of floats (std::copysign); types of equal width and different rank are one type |
| `H/bignum/bignum/bigint.hpp` 387-396 | / and % with a native dividend (NatDiv_Model) | native types of fewer than 32 bits; + and - with a native operand (between a temporary big integer and a native one the overloads of + are ambiguous) |
| `H/base_defs/math.hpp` 203-209, 224-270, 298-309 | is_close, exp, log, pow of built-in integers in constant expressions (Pow_Model) | exponent range, infinities, not-a-number; run-time versions (std::pow, std::exp, std::log) |
| `H/random/defs.hpp` 257-279, 309-336 | floating-point ranges (RandF_Model) | sign of zero, long double, not_NaN |
| `H/random/defs.hpp` 213-229, 285-308, 325-332 (ubigint), `H/bignum/bignum/ubigint.hpp` 135-140, 1216-1220 | random big integers (BigRand_Model) | bigint |
| `H/random/defs.hpp` 117-212 | generator state, words, objects (Seed_Model) | set_by_time, big-endian machines, the conversion of the bytes into the object |
| `H/base_defs/constexpr_str.hpp` 64-89, 123-208 | tables of constant strings and the searches using them (CStr_Model) | hash(), literals, substr of constant views (C89) |
| `H/base_defs/iterator.hpp`, `H/string/defs.hpp` 507-553, `H/base/container/array/defs.hpp` 155-211, `H/base_defs/array_like.hpp` 78-129 | iterators (Iter_Model) | order of reverse iterators, conversion to pointers |
| `H/string/defs.hpp` 380-460, `H/base_defs/math.hpp` 602-622 | characters at fractional positions (FIdx_Model) | infinities and NaNs as positions |
| `H/timer/defs.hpp` 31-52 | the timer (Timer_Model) | duration_cast, output of durations |
| `H/core/nodes/code_list.hpp` 31-60, `H/core/runtime_exception/core_runtime_internal_helper.hpp` 31-42 | control flow (Ctl_Model) | the nodes that throw; values read later (Val_Model) |
| `H/string/defs.hpp` 1045-1127, `H/_multi/arithmetic_text_io.hpp` 39-130, `H/numerical_representation/representations/bool.hpp` | words, lines, values on text streams (Word_Model) | floating-point numbers, bit sets and pointers on streams, other number formats |
| `H/namespace/defs.hpp` 34-86, `H/core/nodes/common_node.hpp` 45 | namespaces (Scope_Model) | names other than strings, freeing of nodes, variables shared by two names |
| `H/lib_loader/lib_loader.hpp`, `S/APIs/library_load.hpp` 63-110 | libraries (Lib_Model) | Windows variant, error texts, `get_symbol_as` for data, code run at loading, the end of `null_lib` at the end of the program |
| `H/base/container/stacks/base_stack.hpp`, `auto_stack.hpp` | programs on stacks (Stk_Model) | throwing elements, visitors that change the stack, `get_top_hash` |
| `parts/header_file/draft/package_manager/defs.hpp` | choice of packages (Pkg_Model) | null pointers, `rand<size_t>()` (any sequence of numbers; the file is a draft that nothing includes and `rand` is not declared in it) |
| `H/base_defs/type_name.hpp`, `S/APIs/function_name.hpp` 53-60,128-150 | names (Name_Model) | Windows variant, failing `malloc`; `abi::__cxa_demangle` and `dladdr` are any functions, with the length being the size of the block as the C++ ABI says |
| `H/base_defs/count_able.hpp`, `H/base/memory/gc/gc_t/default_method/defs.hpp` 31-33,58-62,85-94 | counting objects (Num_Model) | which objects a collection ends (see C40 for that) |
| `_files/package_symbol_loader/package_symbol_loader.hpp`, `_share/paths.hpp` | making, using and ending the loader, the path (Psl_Model) | the Windows variant, arguments of the functions, `get_program_data_path`, `get_system_drive` |
| `_files/base_defs/other.hpp` (times_provider_t), `_share/_defs.hpp` (times) | loops of a number of turns (Times_Model) | floating-point numbers of turns, `debug_times` |
| `_share/APIs/die.hpp` | `die`, `die_with` for Windows and Linux (Die_Model) | debugger, message boxes, other widths of wchar_t |
| `_files/base_stream/operators/_body.hpp` (arrays) | output of arrays (ArrOut_Model) | the texts of elements (given) |
| `H/base_defs/logical_bool.hpp` | all operators (Node_Model, Lbool_Model) | nothing; `!=` is not provided by the class |
| `S/APIs/alloc/debug_info/source_location_guard.hpp` 38-87 | all (SrcLoc_Model) | threads, the variant without recording; `std::stacktrace` is any function |
| `H/_multi/arithmetic_text_io.hpp` 128-155 | output of pointers and functions (PtrOut_Model) | the names themselves (Name_Model), streams that fail |
| `H/base_defs/other.hpp` 67-95 | `swap` (Swap_Model) | exceptions, overlapping objects |
