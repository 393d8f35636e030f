# Design of the BitLib model

## What is modelled

BitLib (`/repo/include/bitlib`) is a header-only C++17 library that views a
sequence of unsigned words as a sequence of bits, least significant bit first.
The model is a set of total, computable Gallina functions, one per C++
function, over these domains.

* **Words** are integers `x : Z` with `0 <= x < 2^w`, `w` one of 8, 16, 32, 64, 128
  (`valid_w`; 128 is `unsigned __int128`, for which bit_details.hpp has cases of its own
  and which passes the library's `static_assert`s in the GNU dialects). C++ arithmetic is written with an explicit `wrap w x = x mod 2^w`
  wherever the C++ expression converts to the word type. Integer promotion of
  8/16-bit words to `int` is modelled: intermediate values are then plain
  integers (possibly negative), converted back by `wrap`.
* **Undefined behaviour is an outcome.** A computation returns
  `Ok v | UB kind | Assert | Throw | Fuel`. Reading or writing an unmapped word
  is `UB OutOfBounds`. Shifts go through `cshl`/`cshr`, which take a *policy*:
  `Strict17` (C++17 rules: shift count outside the promoted width, or left
  shift of a negative value, is UB), `Strict20` (C++20: only the count rule) and
  `Hw o` (a machine on which an out-of-range shift yields whatever the oracle
  `o` says). Positive theorems hold for every policy under the guard they
  state; refutations exhibit the UB under the strict policies.
* **Memory** is `mem := Z -> option Z`, word address to word. One flat address
  space, so that every aliasing of two ranges is expressible. The hypothesis
  `mapped` only says that the words holding a bit of the range exist; nothing is
  said about other words, so `Ok` is a proof that no other word is needed.
* **Iterators** are pairs (word address, position). Iterator operations model
  the 64-bit `ptrdiff_t`/`size_t` arithmetic with its wraps. Theorems about
  algorithms assume range lengths of at most 2^62 bits.
* **Loops** are structural recursion on a count computed from the C++ bound, or
  fuelled with `Fuel` on exhaustion; theorems exclude `Fuel`.
* **bit_vector** is a list of words and a length. Each member function that calls
  an algorithm places the words at address 0 of a fresh memory, runs the modelled
  algorithm there and reads the words back. The buffer of the std::vector
  (`capacity`, `reserve`, `shrink_to_fit`, reallocation) is left out there and added
  by `CapModel.v`; `FailModel.v` lets its requests for memory fail. `float` arithmetic in `insert` is
  modelled by explicit rounding to 24 significant bits, ties to even.
* **libpopcnt** works on a byte memory; the AVX2, AVX512 and NEON code is modelled
  on vectors of lanes, the choice among them by three booleans (`Cpu`).
* **Streams** are a list of characters and the state and format flags.

## What is trusted

* Coq's kernel (8.16.1).
* The transcription of C++ into Gallina, function by function. Each definition
  carries a comment with the file and lines it transcribes and the
  simplifications made.
* The C++ standard library algorithms the code calls on whole words
  (`std::copy`, `copy_backward`, `move`, `reverse`, `fill`, `equal`, `find_if`,
  `transform`, `swap_ranges`, `std::vector`) are modelled by element-at-a-time
  loops with their standard meaning.
* Compiler builtins (`__builtin_popcount*`, `clz`, `ctz`, `bswap`, 128-bit
  integer arithmetic, AVX and NEON intrinsics) are modelled by their documented
  meaning.

No axiom is trusted: see the remark on `Print Assumptions` below.

## What is not modelled

* Google Highway itself: the vector operations used under `#ifdef BITLIB_HWY` are modelled lane by lane after its documentation (`HwyModel.v`, C49).
* Random-access versus other iterator categories: only the random-access
  overloads (all algorithms require random-access word iterators).
* Template overload resolution and SFINAE; the overload chosen on GCC for
  `unsigned char/short/int/long` is stated in the comments. It is modelled
  only where it is the purpose of the code, in `type_traits.hpp` and
  `linear_overload.hpp` (C64, C65). `debug_utils.hpp` is empty.
* `write_word` with a source wider than the words of the range: the branch calls
  `_bitblend(T, T, T)` with two words and an `int`, so it cannot be instantiated.
  Likewise `bit_value::swap(bit_reference)`, which compares a reference with a bool;
  the constructor of `bit_vector` from an `initializer_list<bit_value>`, whose loop
  variable is a `bit_reference`; and the assignment of a `bit_iterator` of another
  type, which names its private members.
* Threads: C57 interleaves
  reads and writes of words of the algorithms; relaxed memory orders (possible only
  with data races) and `bit_vector` objects shared between threads are outside.
* Comparisons of word iterators of different arrays. Forming iterators outside an array is
  undefined in C62 only; the other properties treat word addresses as integers.
* Signed overflow of `position + n` in iterator arithmetic: stated as hypothesis.

## Files

In `rocq/theories`, in the order of the build:

| File | Content |
|---|---|
| `Base.v` | results, monad, words, shifts, memory |
| `WordOps.v` | `bit-iterator/bit_details.hpp` |
| `IterModel.v` | `bit_iterator.hpp`, distance, `is_within` |
| `RefModel.v` | `bit_reference.hpp`, `bit_value.hpp`, `bit_pointer.hpp`, stream operators |
| `PopcntModel.v` | `libpopcnt.h` |
| `AlgModel.v` | `bit_algorithm_details.hpp`, fill, find, equal, copy, move, copy_backward, count |
| `TransformModel.v`, `ShiftModel.v`, `SwapModel.v`, `ReverseModel.v`, `RotateModel.v` | the header of the same name |
| `RotateCopyModel.v` | `_rotate_via_copy_begin`, `_rotate_via_copy_end` of `rotate.hpp` |
| `CapModel.v` | capacity, reallocation and iterators kept across calls of bit_vector (C56) |
| `ThreadModel.v` | calls of the algorithms interleaved in several threads (C57) |
| `GenericModel.v` | client programs over iterators, references and pointers (C58) |
| `FailModel.v` | bit_vector statement by statement when allocations may fail (C59) |
| `HwyAlgModel.v` | `reverse`, `rotate` in a BITLIB_HWY build (C72) |
| `HwyVecModel.v` | `insert`, `erase`, `resize` of bit_vector in a BITLIB_HWY build (C73) |
| `HwyProgModel.v` | programs in a BITLIB_HWY build (C74) |
| `HwyClientModel.v` | programs over several bit_vectors in a BITLIB_HWY build (C75) |
| `CtorModel.v` | its constructors when allocations may fail (C70) |
| `DataModel.v` | data(), the const versions of begin() and end(), max_size() (C60) |
| `ValueModel.v` | the remaining members of bit_value, programs over values (C61) |
| `PtrModel.v` | the algorithms over checked word iterators (C62) |
| `SeqModel.v` | the algorithms on random access sequences of words that are not arrays: `*it` through a placement of the words; `count.hpp` and the vector loop of `fill.hpp` with `&*it` as a pointer |
| `OverloadModel.v` | `linear_overload.hpp` and `type_traits.hpp` |
| `CpuModel.v` | the choice of instruction sets in `libpopcnt.h` |
| `TraceModel.v` | the algorithms again, as sequences of accesses to words (for C67) |
| `CountTraceModel.v` | count and libpopcnt again, as sequences of reads of bytes (for C67) |
| `ProgModel.v` | client programs that use iterators, references, pointers and the algorithms |
| `StdModel.v` | the standard library's element-by-element loops over bit_iterator and bit_reference, which the algorithms are compared with (C55) |
| `VecModel.v` | `bit_vector.hpp` |
| `TypeModel.v` | the type selectors of `bit_details.hpp` |
| `MixedModel.v` | `get_word`, `write_word` and `swap_ranges` across word types |
| `Spec*.v` | the specification vocabulary used by the theorems |
| `Demo.v` | tactic and example data for the `Example`s |
| `Proof*.v` | lemmas; the first line of each file says about what |
| `Properties_*.v` | the theorems, their `Print Assumptions`, and an `Example` each showing that the hypotheses are met |

`seeded/LOG.jsonl` records the wrong programs that were tried: the model edited
like a realistic bug, and the theorems that no longer proved.

## Properties

Every theorem listed below is followed in its file by `Print Assumptions`; all of
them print "Closed under the global context", so no axiom is used, not even one of
the standard library. Beside each theorem stands an `Example` with a concrete case.
The full statements are in `properties.jsonl`.

### C01 Iterator arithmetic is exact integer arithmetic on bit addresses (proved)

* Model: `iadd`, `isub`, subscript with 64-bit wrap and the truncated-quotient correction
* Proof: integer arithmetic on the quotient and remainder
* Theorems: `C01_iterator_plus`, `C01_iterator_minus`, `C01_iterator_subscript`

### C02 Iterator difference and the six comparisons agree with bit addresses (proved)

* Model: `idiff`, the six comparisons, `distance`
* Proof: integer arithmetic; comparisons by case split on the word addresses
* Theorems: `C02_iterator_difference`, `C02_iterator_comparisons`, `C02_difference_inverts_plus`, `C02_plus_inverts_difference`, `C02_distance`
* Status: distance asserts when last precedes first

### C03 Increment and decrement are unit steps and mutual inverses (proved)

* Model: `iinc`, `idec` and the postfix forms
* Proof: case split on the position; induction on the number of steps
* Theorems: `C03_unit_steps`, `C03_repeated_steps`

### C04 The word-local range test equals the distance test (proved)

* Model: `is_within_ct` (template recursion), `is_within_rt`
* Proof: induction on the bound, arithmetic
* Theorems: `C04_is_within`, `C04_is_within_digits`, `C04_is_within_runtime`

### C05 A bit reference reads and writes exactly its own bit (proved)

* Model: `bit_reference` on memory with its mask
* Proof: bit extensionality of the stored word; positions through `_tzcnt`
* Theorems: `C05_reference_position`, `C05_reference_read`, `C05_reference_set`, `C05_reference_assign`, `C05_reference_compound`, `C05_bit_value`

### C06 Swapping two bit references exchanges the bits even when they alias (proved)

* Model: the three `swap` overloads
* Proof: case split on aliasing, bit extensionality
* Theorems: `C06_reference_swap`, `C06_reference_value_swap`

### C07 get_word returns exactly the requested bits and never reads further than needed (proved)

* Model: `get_word`
* Proof: bit extensionality; reads only mapped words by partial memory
* Theorems: `C07_get_word`

### C08 write_word changes exactly len bits (proved)

* Model: `write_word`
* Proof: bit extensionality of the one or two words written
* Theorems: `C08_write_word`

### C09 fill sets exactly the range (proved)

* Model: `fill`
* Proof: induction on the words, single-word and boundary cases
* Theorems: `C09_fill`

### C10 copy and move are simultaneous assignment for non-overlapping or left-overlapping ranges (proved)

* Model: `copy`, `move`
* Proof: loop invariant relating the written prefix to the original memory
* Theorems: `C10_copy`, `C10_move`

### C11 copy_backward is simultaneous assignment for non-overlapping or right-overlapping ranges (proved)

* Model: `copy_backward`
* Proof: loop invariant on the written suffix
* Theorems: `C11_copy_backward`, `C11_copy_backward_strict_partial`
* Status: full statement on any machine whatever an over-wide shift yields; under the C++ rules one case is undefined (C24)

### C12 equal decides equality of bit sequences (proved)

* Model: `equal`
* Proof: loop invariant, both directions
* Theorems: `C12_equal`

### C13 find returns the first matching bit (proved)

* Model: `find`
* Proof: loop invariant: no matching bit so far; `_tzcnt` gives the first
* Theorems: `C13_find`
* Status: for an empty range with unaligned first, first's word must exist

### C14 count counts the bits of the range (partial)

* Model: `count` over `popcnt`
* Proof: sum over words; partial words by masks; byte sums from C40
* Theorems: `C14_count`, `C14_count_complement`, `C14_count_portable_partial`, `C14_count_portable_overread`, `C14_count_portable_refuted`
* Status: proved on x86 and on ARM with unaligned loads for all widths, and on all targets for 64-bit words; where libpopcnt aligns its reads, proved exactly for the ranges where it holds and shown to overrun the array for the others

### C15 count on an empty range touches no memory (partial)

* Model: `count` with first == last
* Proof: computation of the single-word branch; witness memory
* Theorems: `C15_count_empty_reads`, `C15_count_empty_partial`, `C15_count_empty_refuted`
* Status: the property is false: refuted for every empty range whose word is not readable; where the word is readable the result is proved to be 0

### C16 Unary transform applies the operation bit by bit (proved)

* Model: `transform` (unary)
* Proof: as copy, with a bitwise word function `f` characterised by a function on bits
* Theorems: `C16_transform_unary`

### C17 Binary transform combines two ranges bit by bit (proved)

* Model: `transform` (binary)
* Proof: as C16 with a second source
* Theorems: `C17_transform_binary`

### C18 shift_left moves the bits toward first (proved)

* Model: `shift_left`
* Proof: loop invariants for the aligned and the unaligned path
* Theorems: `C18_shift_left`, `C18_shift_left_strict_partial`, `C18_shift_left_no_shift`
* Status: full statement on any machine whatever an over-wide shift yields; under the C++ rules the whole-single-word case is undefined (C24)

### C19 shift_right moves the bits toward last (proved)

* Model: `shift_right`
* Proof: loop invariants for the aligned and the unaligned path
* Theorems: `C19_shift_right`, `C19_shift_right_strict_partial`, `C19_shift_right_no_shift`
* Status: full statement on any machine whatever an over-wide shift yields; under the C++ rules the whole-single-word case is undefined (C24)

### C20 swap_ranges exchanges two disjoint bit ranges (proved)

* Model: `swap_ranges` with all alignment cases
* Proof: invariant over both ranges; witness for the self swap
* Theorems: `C20_swap_ranges`, `C20_swap_ranges_twice`, `C20_self_swap_clears_refuted`

### C21 reverse reverses the range and nothing else (proved)

* Model: `reverse`
* Proof: composition of word reversal, `shift_*` and the boundary blends
* Theorems: `C21_reverse`, `C21_reverse_strict_partial`, `C21_reverse_twice`
* Status: full statement on any machine whatever an over-wide shift yields; under the C++ rules a range that ends with its word and starts inside it is undefined (C24)

### C22 rotate is a cyclic shift (partial)

* Model: `rotate` with the block-swap recursion, including the 32-bit quotient
* Proof: induction on the remaining length; a block swap over overlapping ranges is shown to slide the short block along (`ProofSwapOver.v`); for the unfit lengths the recursion is shown to be a permutation that differs from the rotation in some bit (`ProofRotateAll.v`)
* Theorems: `C22_rotate_partial`, `C22_rotate_exact`, `C22_rotate_permutes`, `C22_rotate_refuted`
* Status: False without a bound on the length (C22_rotate_refuted): rotate.hpp:138,164 keep a quotient in an unsigned int. C22_rotate_exact decides every length: the full statement holds exactly when no such quotient reaches 2^32. C22_rotate_permutes covers every length: defined, right iterator, a permutation of the range. rotate inside a single 128-bit word is decided in C69.

### C23 rotate accepts n_first == last (partial)

* Model: `rotate` with n_first == last
* Proof: computation of the branch taken; complete case split
* Theorems: `C23_rotate_all_partial`, `C23_rotate_all_overread`, `C23_rotate_all_undefined`, `C23_rotate_all_last`, `C23_rotate_all_refuted`
* Status: the property is false: proved where it holds, and the three ways it fails are proved for all remaining ranges

### C24 No algorithm executes an undefined shift (partial)

* Model: all algorithms under the strict policies
* Proof: from the algorithm theorems, plus the exact undefined cases
* Theorems: `C24_undefined_shift_refuted`, `C24_shift_left_partial`, `C24_shift_right_partial`, `C24_reverse_partial`, `C24_copy_backward_partial`, `C24_others`, `C24_transform`
* Status: False as stated (C24_undefined_shift_refuted). For shift_left, shift_right, reverse and copy_backward the exact set of undefined valid calls is proved under every policy; every other algorithm is proved defined for all valid calls under the C++17 rules. rotate inside a single 128-bit word is decided in C69.

### C25 Results do not depend on what an over-wide shift produces (proved)

* Model: all algorithms under `Hw o`
* Proof: policy refinement by induction over the monadic code; equal outcomes for two oracles from the algorithm theorems
* Theorems: `C25_language_rules`, `C25_shift_left`, `C25_shift_right`, `C25_reverse`, `C25_copy_backward`
* Status: All calls that C++17 defines have the same outcome under every policy; the calls that are undefined (shift_left, shift_right, reverse, copy_backward, see C24) give equal outcomes for any two oracles. rotate inside a single 128-bit word is decided in C69.

### C26 Population, leading-zero and trailing-zero counts (proved)

* Model: `_popcnt`, `_lzcnt`, `_tzcnt`, builtin and generic versions
* Proof: induction on the bits
* Theorems: `C26_popcnt`, `C26_lzcnt`, `C26_tzcnt`

### C27 Parallel deposit and extract are inverse on the mask (proved)

* Model: `_pdep`, `_pext`
* Proof: loop invariant over the mask bits
* Theorems: `C27_pdep`, `C27_pext`, `C27_pext_pdep`, `C27_pdep_pext`

### C28 Bit and byte reversal (proved)

* Model: `_bitswap`, `_byteswap`
* Proof: swap network: each stage moves bit i to i xor 2^k
* Theorems: `C28_bitswap`, `C28_bitswap_twice`, `C28_byteswap`

### C29 Carry, borrow and double-word multiplication are exact (proved)

* Model: `_addcarry`, `_subborrow`, `_mulx`
* Proof: arithmetic modulo 2^w; half-word products; witness for a carry of a wide type
* Theorems: `C29_addcarry`, `C29_subborrow`, `C29_wide_carry_refuted`, `C29_mulx`

### C30 Double-precision shifts (partial)

* Model: `_shld`, `_shrd`
* Proof: bit extensionality; witnesses for count 0
* Theorems: `C30_shld_partial`, `C30_shrd_partial`, `C30_big_count`, `C30_big_count_undefined`, `C30_middle_count`, `C30_zero_count_undefined`, `C30_zero_count_refuted`
* Status: Every count is decided: the statement is proved for counts from 1 to twice the width under the C++ rules and for all counts from 1 on any machine; C30_middle_count and C30_big_count_undefined tell which larger counts the language leaves undefined. A count of zero on words of 32 bits or more is undefined under the C++ rules and gives a wrong word on a real machine (refuted)

### C31 Field extract, blend, exchange and compare (partial)

* Model: `_bextr`, `_bitblend`, `_bitexch`, `_bitcmp`
* Proof: bit extensionality
* Theorems: `C31_bextr_partial`, `C31_bextr_undefined`, `C31_bitblend_partial`, `C31_bitblend_undefined`, `C31_bitblend_mask`, `C31_bitexch`, `C31_bitexch_same_start`, `C31_bitexch_mask`, `C31_bitexch_mask_alias`, `C31_bitcmp_partial`
* Status: proved for all operands except a field of a whole word under the C++ rules, which is undefined; proved for all operands on any machine for blend and exchange

### C32 bit_vector is a sequence of bits under every history of operations (partial)

* Model: 21 `bit_vector` calls, run as a history
* Proof: each call refines its meaning on `list bool`; induction on the history; under the language rules each call is defined or its shift is one whole word, which is undefined by C24
* Theorems: `C32_language_rules`, `C32_history`, `C32_language_rules_refuted`, `C32_insert_front_undefined`
* Status: Proved for all histories of 21 kinds of calls on any machine, with lengths up to 2^24 for bulk inserts and 2^32 for erase(first,last) and resize (C36, C37 show these limits are real). Under the C++ rules C32_language_rules decides every such history: it is defined exactly when no shift covers one whole word; otherwise it executes an undefined shift (refuted by a history of eight calls).

### C33 at() throws exactly when out of range (proved)

* Model: `at`
* Proof: case split
* Theorems: `C33_at`

### C34 Growing resize appends zeros (partial)

* Model: `resize`
* Proof: bits of the extended storage; witness history; for growing histories the invariant that the storage beyond size() is zero
* Theorems: `C34_growing_history_partial`, `C34_clean_start`, `C34_resize_grow_refuted`, `C34_resize_exact`, `C34_resize_grow_partial`
* Status: The property is false: refuted by a three-call history. What resize does is proved exactly, and the property is proved for vectors whose storage beyond size() is zero and for all histories from such vectors that remove nothing except by clear.

### C35 resize with a value fills the new bits (partial)

* Model: `resize(n, value)`
* Proof: the value is unused; witness
* Theorems: `C35_resize_value_refuted`, `C35_value_ignored`
* Status: The property is false: refuted, and proved that the value never has an effect.

### C36 Word count is sufficient for every size (partial)

* Model: `word_count(unsigned)`
* Proof: arithmetic modulo 2^32
* Theorems: `C36_word_count`, `C36_word_count_refuted`, `C36_short_storage`
* Status: The property is false for counts of 2^32 and more: proved sufficient exactly for smaller counts, and the out-of-bounds access it causes is proved for every larger count below 2^62.

### C37 Bulk insert always makes enough room (partial)

* Model: `float` room test in `insert`
* Proof: exactness of float below 2^24; uniqueness of rounding above; an insertion on short storage is compared with the same insertion on a longer one whose last word it would have to change (ProofFrame: every algorithm behaves alike on a larger memory)
* Theorems: `C37_insert_count_exact`, `C37_insert_range_exact`, `C37_room_decided`, `C37_insert_count_undefined`, `C37_insert_range_undefined`, `C37_insert_count_partial`, `C37_insert_range_partial`, `C37_insert_refuted`, `C37_full_count`, `C37_full_range`
* Status: Proved up to 2^24 bits and refuted beyond. C37_insert_count_exact and C37_insert_range_exact decide every size: the insertion is right exactly when the storage computed in float holds the new length, and runs out of bounds otherwise; C37_room_decided shows that the only other case is an undefined conversion to unsigned int.

### C38 String construction and debug_string are inverse (partial)

* Model: string constructor, `debug_string`
* Proof: induction on the string and on the bits
* Theorems: `C38_from_string`, `C38_debug_string`, `C38_text`, `C38_round_trip`, `C38_debug_overflow`
* Status: Proved for all strings, and for all vectors below 2^31 bits; debug_string of any longer vector overflows an int, which is proved.

### C39 Constructors build the requested sequence (proved)

* Model: all constructors
* Proof: induction on the source
* Theorems: `C39_count`, `C39_fill`, `C39_bit_range`, `C39_bool_range`, `C39_initializer_list`, `C39_word_range`, `C39_copy_move`
* Status: initializer_list of bit_value is the same loop as that of bool and is not modelled separately; the sources of ranges lie outside the new storage.

### C40 libpopcnt counts the bits of any buffer (partial)

* Model: `popcnt` for x86 (plain, POPCNT, AVX2, AVX512), NEON, portable
* Proof: Harley-Seal carry-save invariant, lane sums, byte sums
* Theorems: `C40_popcount64`, `C40_popcnt_x86`, `C40_popcnt_neon`, `C40_popcnt_aligned_partial`, `C40_popcnt_aligned_overread`, `C40_popcnt_aligned_refuted`
* Status: proved for every buffer on x86 and on ARM with unaligned loads; on the targets that align their reads proved exactly for the buffers where it holds, and shown to overrun the buffer for the others

### C41 Padded read (proved)

* Model: `_padded_read`
* Proof: bit extensionality
* Theorems: `C41_padded_read`

### C42 Bit pointers behave like pointers into an array of bits (proved)

* Model: `bit_pointer`
* Proof: reduction to C01-C03 through `_tzcnt(mask)`
* Theorems: `C42_pointer_construct`, `C42_pointer_offset`, `C42_pointer_step`, `C42_pointer_compare`, `C42_pointer_address`

### C43 Stream extraction consumes at most one bit character (proved)

* Model: `operator>>`, `operator<<` for bits
* Proof: case analysis on characters and flags
* Theorems: `C43_extract_char`, `C43_extract_end`, `C43_round_trip`, `C43_extract_reference`

### C44 Algorithms compose (partial)

* Model: two algorithms in sequence
* Proof: corollaries of the algorithm theorems; counting lemmas for permutations
* Theorems: `C44_copy_then_equal`, `C44_rotate_back_partial`, `C44_shift_back`, `C44_reverse_count`, `C44_rotate_count`, `C44_swap_ranges_count`, `C44_find_count`, `C44_fill_count_find`
* Status: rotate_back needs both rotations to be among the lengths of C22_rotate_exact; everything else is unrestricted. rotate inside a single 128-bit word is decided in C69.

### C45 Word-level shifts used inside the algorithms (proved)

* Model: `word_shift_left`, `word_shift_right`
* Proof: loop invariants
* Theorems: `C45_word_shift_left`, `C45_word_shift_right`

### C46 Type selectors (partial)

* Model: `_narrowest_type`, `_widest_type`, `_narrower_type`, `_wider_type` as functions on type names
* Proof: induction on the argument list, case analysis
* Theorems: `C46_digits`, `C46_narrowest`, `C46_widest`, `C46_narrower`, `C46_wider_never`, `C46_wider_refuted`
* Status: _narrowest_type, _widest_type and _narrower_type proved; false of _wider_type, which is proved never to yield a wider type

### C47 get_word into another word type (partial)

* Model: `get_word<T>` with its loop and assertion
* Proof: loop invariant: the low `offset` bits are in place
* Theorems: `C47_get_word_as_partial`, `C47_wide_asserts`, `C47_get_word_as_refuted`
* Status: Proved for all types and lengths with assertions off, and with assertions on for lengths up to the digits of the range's words; every longer read asserts (refuted).

### C48 write_word from a narrower word type (partial)

* Model: `write_word` with a source narrower than the words
* Proof: bit extensionality; `_bitblend` for every start on any machine
* Theorems: `C48_narrow_source_effect`, `C48_narrow_source_partial`, `C48_narrow_source_refuted`
* Status: The property is false: refuted. What the call leaves behind is proved exactly for all calls on any machine, and under the C++ rules for fields within the source's digits.

### C49 The Highway build does what the plain build does (partial)

* Model: the `BITLIB_HWY` blocks of `fill`, `find`, `transform`, `shift_left`, `shift_right`; vectors as lists of words, alignment as arithmetic on byte addresses
* Proof: each algorithm is proved once over its word stage; the scalar stage and the vector stage (alignment loop, vector loop, scalar rest) both meet the stage's contract; for shift_right under the rules of the language the pointers formed while aligning are described by `looked_at` (`SpecPoint.v`) and the call is undefined exactly when one of them lies outside the array
* Theorems: `C49_fill`, `C49_find`, `C49_transform_not`, `C49_shift_left`, `C49_shift_left_strict_partial`, `C49_shift_right`, `C49_shift_right_strict_partial`, `C49_no_shift`, `C49_shift_right_pointer_refuted`, `C49_long_vectors_refuted`, `C49_transform_overlap_refuted`, `C49_shift_right_inside_partial`, `C49_shift_right_undefined`, `C49_shift_right_short_array`
* Status: Proved for all vector lengths that divide 64 bytes (SSE, AVX2, AVX-512, NEON) and all addresses, on any machine, and under the C++ rules with the exclusion of C24. Refuted for longer vectors (misaligned store). Under the C++ rules shift_right is false of short arrays (C49_shift_right_pointer_refuted, C49_shift_right_short_array): it forms pointers in front of the array. C49_shift_right_undefined says exactly for which calls, C49_shift_right_inside_partial proves all others. A destination inside the source is outside C16; there the builds differ (refuted).

### C50 mask(), constructors for a whole word, and the functions that move an iterator (proved)

* Model: `mask`, the one-argument constructors, `operator+(n, it)`, `advance`, `next`
* Proof: bit extensionality; reduction to C01
* Theorems: `C50_mask`, `C50_first_bit`, `C50_moves`

### C51 Programs over several bit_vectors (proved)

* Model: statements over a list of `bit_vector`s: constructors, copy and move assignment, `std::swap`, members, algorithms on ranges, `debug_string`; the vectors are placed 2^60 words apart in one memory
* Proof: each algorithm's theorem is transported to the pooled memory and read back as lists; induction on the program. `C51_statement_rules`, `C51_program_rules`: under the language's shift rules a statement is defined exactly if its precondition holds for those rules; otherwise the program acts as on lists up to it and then executes an undefined shift
* Theorems: `C51_programs`, `C51_statement_rules`, `C51_program_rules`
* Status: The restrictions named in the statement are hypotheses (cpre); the cited properties decide what happens without them. Sizes of bulk insertions are limited to 2^24 as in C37. Elements vacated by shift_left and shift_right are unspecified.

### C52 A shift leaves zeros in the elements it vacates (partial)

* Model: `shift_left`, `shift_right`, both builds
* Proof: the loop invariants of C18 and C19 already fix every bit of the range; read off for the vacated part
* Theorems: `C52_shift_left_zero_partial`, `C52_shift_left_kept`, `C52_shift_left_zero_refuted`, `C52_shift_right_zero_partial`, `C52_shift_right_kept`, `C52_shift_right_zero_refuted`, `C52_shift_right_inside_refuted`, `C52_shift_left_builds`, `C52_shift_right_builds`
* Status: Proved for ranges inside one word, refuted for longer ones. The contents are decided exactly: over several words the vacated elements keep their values, except that shift_right by a multiple of the word length copies the bits in front of the range into it (so what the range holds can depend on bits outside it, refuted). Both builds leave the same bits.

### C53 Null bit pointers (partial)

* Model: `bit_pointer` null constructors, conversion to bool, `==`, `!=`
* Proof: case analysis; witness
* Theorems: `C53_null_pointer_partial`, `C53_null_equal_refuted`
* Status: Refuted for two null pointers made in different ways: bit_pointer() has mask 0 and bit_pointer(p) for a null word pointer p has mask 1, so they have different positions and compare unequal. The rest is proved for both kinds.

### C54 Rotation through an array on the stack (partial)

* Model: `_rotate_via_copy_begin`, `_rotate_via_copy_end`; the stack array is a block of words with arbitrary contents, accesses beyond it are undefined
* Proof: the filling loop equals a copy of words whose number is computed from the short int; composed with the theorems about the shifts and copy
* Theorems: `C54_copy_begin_partial`, `C54_copy_end_partial`, `C54_copy_begin_overrun`, `C54_copy_end_overrun`, `C54_assertion_refuted`, `C54_copy_begin_long`, `C54_copy_end_long`
* Status: Proved when the array has room for the position in the first word plus k bits and that is less than 2^15 + digits. Refuted otherwise, and decided: if the assertion holds but the position does not fit, the function writes past the array (C54_*_overrun); if the count does not fit short int, the result contains bits of array words never written (C54_*_long). The shift rules of the language restrict whole single words as in C24. With an empty part the word of first (n_first) is read, so it must exist.

### C55 Same behaviour as the standard algorithms (partial)

* Model: the standard's loops over `*`, `++`, `--`, `!=`, `<` of bit_iterator and reads, assignments and swaps of bit_reference (`std::rotate` as three reversals, the shifts as a move forwards or backwards)
* Proof: loop invariants by induction on the number of rounds; both families meet the same description of every bit, which determines the memory
* Theorems: `C55_fill`, `C55_copy`, `C55_move`, `C55_copy_backward_partial`, `C55_swap_ranges`, `C55_reverse_partial`, `C55_rotate_partial`, `C55_transform`, `C55_transform2`, `C55_find`, `C55_count_partial`, `C55_equal`, `C55_copy_backward_refuted`, `C55_reverse_refuted`, `C55_rotate_refuted`, `C55_count_refuted`, `C55_shift_left_partial`, `C55_shift_right_partial`, `C55_shift_none`, `C55_shift_refuted`
* Status: Proved for fill, copy, move, swap_ranges, transform, find and equal on everything the standard allows (disjoint ranges or the permitted overlap). Refuted, and proved outside the named cases, for: copy_backward and reverse (undefined shift under the language's rules, C11 and C24), rotate with n_first = last and with parts of more than 2^32 (C22, C23), count on an empty range behind the last word (C15) and on targets where libpopcnt reads too far (C14). shift_left and shift_right agree but for the vacated bits, which the standard leaves unspecified (see C52); refuted for the shifts of exactly one whole word under the language's rules (C18, C19).

### C56 Capacity and iterators kept across calls (partial)

* Model: `capacity`, `reserve`, `shrink_to_fit` and the buffer behind every member function; how much room a new buffer gets is a parameter; an iterator kept by the client is the serial number of the buffer and a position
* Proof: a bound on the number of words after each call (at most as many as before or just enough for the new length), induction on the history; the room at least doubles with every buffer
* Theorems: `C56_capacity`, `C56_reserve_partial`, `C56_reserve_truncates`, `C56_reserve_refuted`, `C56_held_iterator_partial`, `C56_held_iterator_refuted`, `C56_reallocations`
* Status: size() <= capacity() is proved for every history of C32 and the bound on reallocations for every history that adds bits one at a time. reserve is proved below 2^32 bits and refuted beyond (word_count takes an unsigned int; C56_reserve_truncates decides it). Iterators kept within capacity() are proved for the histories of C32, whose bulk insertions are limited to 2^24 bits, and refuted beyond: the float computation of C37 may add more words than needed and so move the storage.

### C57 Calls in several threads (proved)

* Model: a call as a sequence of reads and writes of words (`thread`), the interleavings of several threads over one memory (`pstep`), data races
* Proof: every model function is shown to be such a sequence (`ProofSteps.v`); a call that returns on the memory cut down to its words behaves the same whatever the other words are (`ProofFrame.v`); invariant over the interleaving: each thread still computes its result on its words. For the race: the first write of one thread to a word of the other's trace. C57_count_bytes: count as a sequence of reads of bytes (`CountTraceModel.v`) next to any threads that do not write to them; invariant over the interleaving (`ProofCountPar.v`)
* Theorems: `C57_count_bytes`, `C57_threads`, `C57_steps`, `C57_shared_word`, `C57_lost_update`, `C57_disjoint_bits_refuted`
* Status: Each call satisfies the precondition under which C01-C24 prove it, on a range that is not empty. The accesses take effect one at a time in program order (what the C++ memory model guarantees without data races). C57_disjoint_bits_refuted: with different bits of a shared word the claim is false. count reads whole words in C57_threads and single bytes in C57_count_bytes.

### C58 Programs written against bit iterators (proved)

* Model: a client program as a possibly infinite tree of operations (`client`), run on the model of iterators, references and pointers (`exec`) and on arrays of booleans (`sexec` in `SpecGeneric.v`)
* Proof: simulation: one operation keeps the correspondence of variables with places and of bits with elements (`sstep_ok`, from the facts behind C01-C06 and C42), induction on the number of operations; two widths agree because both follow the arrays
* Theorems: `C58_programs`, `C58_widths`
* Status: Streams, null pointers and assignment from words (C43, C53, C05) are not among the operations of a program. A place outside [begin, end] counts as not allowed, as in the standard.

### C59 Failing allocations (partial)

* Model: the member functions of bit_vector statement by statement on `word_vector`, `length_` and the buffer, with an allocator that may refuse any request (`FailModel.v`); an exception leaves behind what the statements before it did
* Proof: each function either runs as in VecModel and CapModel or stops at its only request, which comes before the first change (`xstep_ref`); that a refused call exceeds capacity() follows from the word counts of C56; induction over the client
* Theorems: `C59_call_partial`, `C59_client_partial`, `C59_resize`, `C59_assign_broken`, `C59_assign_refuted`
* Status: Proved for all calls and clients except a copy assignment that needs a larger buffer with a std::vector that gives its buffer away before it asks for the new one, as libc++ does: then the words are gone while length_ stays (C59_assign_broken for every such call, refuted). Sizes are bounded as in C32. Constructors: C70.

### C60 The words behind a bit vector and the ends of its range (partial)

* Model: `data`, `begin`, `end`, `cbegin`, `cend`, `max_size`; reading and writing words through the pointer
* Proof: bits of the word list; witnesses
* Theorems: `C60_data_read`, `C60_data_write`, `C60_ends`, `C60_max_size_partial`, `C60_max_size_refuted`, `C60_data_empty_refuted`
* Status: Proved for vectors that are not empty, and for the ends of every vector. The agreement of the two versions of data() on empty vectors is refuted: the one tests length_, the other the number of words, and a vector can have words without elements. max_size() is proved for the default allocator and refuted for allocators that admit 2^64 / digits words or more, where the product wraps.

### C61 bit_value is a boolean value type (proved)

* Model: the members of `bit_value` not used by the other properties, programs over variables and references (`vexec`, `vprun`), and the same programs over bools (`SpecValue.v`)
* Proof: each statement keeps the array equal to the bits of the memory (from the facts behind C05); induction on the program
* Theorems: `C61_value_programs`, `C61_position_assert`
* Status: swap(bit_reference) as a member of bit_value (bit_value.hpp:285-294) is not among the statements: it compares a reference with a bool, which no comparison operator accepts as bit_value(bool) is explicit, so it cannot be instantiated. The same exchange written as first[i].swap(x) or swap(x, first[i]) is.

### C62 Word iterators stay inside their arrays (partial)

* Model: the algorithms with every computed word iterator checked against its array (`PtrModel.v`); accesses through the iterators are checked by the memory of the plain functions
* Proof: a relation between the checked and the plain function (`sim`: same result in every memory, and a fact about the result) with one rule per operation, so that the contents of the memory play no part; its counterpart `breaks` for the failing calls; induction on the loops
* Theorems: `C62_fill`, `C62_find`, `C62_equal`, `C62_copy`, `C62_swap_ranges`, `C62_transform1`, `C62_transform2`, `C62_count`, `C62_count_end_refuted`, `C62_copy_backward`, `C62_copy_backward_up`, `C62_copy_backward_refuted`, `C62_shift_left`, `C62_shift_right`, `C62_shift_right_refuted`, `C62_reverse`, `C62_reverse_refuted`, `C62_rotate`, `C62_rotate_inside`, `C62_rotate_refuted`
* Status: Proved for fill, find, equal, copy, move, swap_ranges and transform. Refuted, and decided call by call, for count, copy_backward, shift_left, shift_right, reverse and rotate (which follows the steps of Euclid's algorithm, so that the condition is an inductive predicate on the lengths of the parts).

### C63 Words need not lie one after the other (partial)

* Model: where the words are, as a function from positions to addresses; a call as its sequence of reads and writes (ThreadModel) made at those addresses; count and the vector loop of fill again, with pointers where the code uses pointers (`SeqModel.v`)
* Proof: induction on the sequence of accesses: memory and array stay equal word by word (`via_like`); count on adjacent words is count on an array; a memory with a single one for the converse
* Theorems: `C63_algorithms_partial`, `C63_every_call`, `C63_count_partial`, `C63_count_wrong`, `C63_count_refuted`, `C63_fill_vectors_partial`, `C63_fill_vectors_refuted`
* Status: Proved for every call except count, in the build without BITLIB_HWY. False of count (refuted), which hands &*it to libpopcnt: proved where the words of the range are adjacent, and shown to be wrong for some contents as soon as one of the words it reads is not in the range. In the build with vectors the whole words of fill are decided in the same way (proved for adjacent words, refuted otherwise); the vector loops of find, transform and the shifts, which also start at &*it, are not modelled on such sequences.

### C64 A linear overload calls the first function that accepts the arguments (partial)

* Model: `linear_overload`: the test for a valid call, the choice between the four call operators, the recursion over N, `overload_linearly`; a function object is the set of argument lists it accepts as an lvalue and as an rvalue, and its effect (`OverloadModel.v`)
* Proof: induction on the template recursion: the function reached is the first one the test accepts
* Theorems: `C64_first`, `C64_lvalues`, `C64_ill_formed`, `C64_refuted`, `C64_size`
* Status: Proved for function objects without a ref-qualified operator() and for all function objects passed to overload_linearly as lvalues. False in general (refuted): the test for a valid call is made on an rvalue of the tuple, the call on an lvalue, so a function held by value with an lvalue-qualified operator() is passed over; C64_ill_formed tells exactly which calls do not compile.

### C65 The type traits tell bits and iterator categories (partial)

* Model: the traits of `type_traits.hpp` on a small grammar of types, with the inheritance of the iterator tags (`OverloadModel.v`)
* Proof: case analysis on the type and the two categories
* Theorems: `C65_is_bit`, `C65_level`, `C65_chain`, `C65_qualified`, `C65_output_refuted`
* Status: Everything but the last clause is proved. is_output_iterator_v denies every iterator whose category is stronger than output, a pointer to a mutable object among them (refuted).

### C66 libpopcnt uses only instructions the machine has (partial)

* Model: the macros of `libpopcnt.h`, `run_cpuid`, `get_xcr0`, `get_cpuid` and the conditions of `popcnt`; a machine is the registers cpuid and xgetbv return (`CpuModel.v`)
* Proof: the masks are turned into bits (`has_mask_spec`), then case analysis on the macros and the bits; the count from C40
* Theorems: `C66_total`, `C66_sound`, `C66_complete`, `C66_popcnt_refuted`, `C66_leaf_refuted`, `C66_count`
* Status: Proved for machines whose cpuid has leaf 7. False (refuted) of older ones, whose answer to the missing leaf is taken for that of leaf 7 as get_cpuid does not ask for the highest leaf, and of the popcnt instruction on a machine without OSXSAVE, where get_cpuid drops the flag it has found.

### C67 The algorithms read and write a number of words linear in the words of the range (proved)

* Model: the algorithms once more, text for text, as sequences of reads and writes (`TraceModel.v`); C67_same ties them to the model of the other properties. count and libpopcnt as sequences of reads of bytes (`CountTraceModel.v`), tied by C67_count_same
* Proof: a small logic of access counts with one rule per operation (`within`, `used`, `spends` in `ProofCost*.v`), induction on the loops; the rules need no assumption on the memory; for rotate the parts shrink by what was swapped, so that the swaps sum up; for count the lists of addresses of consecutive steps are put together (`goes`, `partly` in `ProofCountTrace.v`), and likewise the words written (`ups`, `downs` in `ProofWrites.v`)
* Theorems: `C67_same`, `C67_fill`, `C67_find`, `C67_find_stops`, `C67_equal`, `C67_equal_stops`, `C67_copy`, `C67_copy_backward`, `C67_transform`, `C67_transform2`, `C67_swap_ranges`, `C67_shift`, `C67_reverse`, `C67_rotate`, `C67_count_same`, `C67_popcnt`, `C67_count`, `C67_fill_writes`, `C67_copy_writes`, `C67_copy_backward_writes`, `C67_find_reads`
* Status: The scalar build (no BITLIB_HWY); count's bytes wherever libpopcnt keeps to its buffer (always with unaligned loads; C40 says when otherwise).

### C68 Programs that mix iterators, references and the algorithms behave as on arrays of booleans (proved)

* Model: the programs of C58 with the algorithms as further operations (`ProgModel.v`), run on arrays of booleans in `SpecProg.v`
* Proof: one lemma per operation from the theorems on the single algorithms, restated for the elements of an array; induction on the number of operations
* Theorems: `C68_programs`, `C68_widths`
* Status: Excluded as not allowed, though std allows them: rotate with the end of the range as its middle (C23) and count on an empty range (C15). Empty arrays are not passed to algorithms.

### C69 rotate works inside words of 128 bits (partial)

* Model: `rotate`, `rotate_one_word` at `w = 128`; the functions of bit_details.hpp with their cases for unsigned __int128 (`_byteswap`, `_mulx`, and the fall-back from builtins to loops in `_popcnt`, `_lzcnt`, `_tzcnt`)
* Proof: the mask is computed bit by bit; memories with a single one as counterexamples; on machines the run is described with whatever mask the machine makes (`machine_mask` in `SpecMask.v`), and every bit of it is probed by a memory with a single one
* Theorems: `C69_rotate_exact`, `C69_rotate_cut`, `C69_rotate_undefined`, `C69_rotate_refuted`, `C69_rotate_machines_refuted`, `C69_rotate_machine_exact`, `C69_rotate_machine`
* Status: False of ranges inside one 128-bit word (C69_rotate_refuted). C69_rotate_exact decides for every call of every width under the rules of the language whether C22 holds; C69_rotate_cut and C69_rotate_undefined say what the remaining calls do. On machines with their own results for shifts by 64 or more C69_rotate_machine_exact decides every call with n_first before last, and C69_rotate_machine says what the wrong ones do. The theorems of the other properties are stated for 128-bit words too, except C49 (no vectors of such words) and C68.

### C70 A constructor builds the vector or leaves nothing behind (partial)

* Model: the constructors statement by statement on word_vector and length_, as C59 does for the other members; noexcept turns an exception into the end of the program (`CtorModel.v`)
* Proof: each constructor asks once, for words whose number is computed, and then runs the algorithm of C39 on them (`builds`); the initializer_list by induction from C59
* Theorems: `C70_construct_partial`, `C70_move_terminates`, `C70_move_refuted`, `C70_words`, `C70_room`, `C70_room_refuted`, `C70_program_partial`
* Status: Bits, exceptions and the client are proved for all constructors. False (refuted) of the move constructor: its parameter is a const rvalue, so it copies, and C70_move_terminates shows that every refused move of a vector with words ends the program. False (refuted) of the storage: from bit iterators, bools and strings one word per bit is made; C70_words and C70_room give the exact numbers. bit_vector(other, alloc) is declared and not defined.

### C71 swap_ranges exchanges ranges of different word types (partial)

* Model: the if constexpr of `swap_ranges` (`swap_ranges_mixed` in `MixedModel.v`)
* Proof: unfolding; no word is touched
* Theorems: `C71_swap_ranges_partial`, `C71_same_digits`, `C71_swap_ranges_refuted`
* Status: False: C71_swap_ranges_partial decides every call. With different numbers of digits only empty ranges are swapped, every other call is undefined (refuted); with equal numbers it is C20 (C71_same_digits).

### C72 reverse and rotate in the Highway build do what they do in the plain build (partial)

* Model: `reverse`, `rotate` with the shifts as parameters (`HwyAlgModel.v`); with the scalar shifts they are the functions of the plain build
* Proof: the proofs of C21 and C22 are made once for all shifts that meet the contract of shift_left and shift_right (`good_left`, `good_right` in `ProofWith.v`); the vector shifts meet it on machines. Under the rules of the language (`ProofHwyAlgLang.v`): each function calls shift_right at most once, for a range that `rotate_shift` (`SpecPoint.v`) computes from the two lengths; the run is split at that call (`shape`), which C49 decides, and with the vector version at that call only the contract holds
* Theorems: `C72_reverse`, `C72_reverse_same`, `C72_rotate_exact`, `C72_rotate_same`, `C72_rotate_pointer_refuted`, `C72_reverse_pointer_refuted`, `C72_reverse_inside_partial`, `C72_reverse_undefined`, `C72_rotate_inside_partial`, `C72_rotate_undefined`, `C72_rotate_room_partial`
* Status: Proved on every machine: C72_reverse, C72_rotate_exact (the quotients of C22_rotate_exact) and C72_reverse_same, C72_rotate_same (the two builds agree on every call). Under the rules of the language false (refuted): shift_right of this build forms a pointer in front of the array. Which calls do is decided exactly: C72_reverse_inside_partial and C72_rotate_inside_partial prove the others right, C72_reverse_undefined and C72_rotate_undefined are equivalences.

### C73 bit_vector in the Highway build does what it does in the plain build (partial)

* Model: `insert`, `erase`, `resize` once more with the shifts and fill of that build; the byte address of the storage is given with every call (`HwyVecModel.v`)
* Proof: both builds of a shift leave the same words (they meet the same description, which determines the memory); a run on equal memories ends alike (`alike`, from the access sequences of C57); induction on the history, result from C32
* Theorems: `C73_history`, `C73_history_same`, `C73_history_strict_partial`, `C73_history_undefined`, `C73_far_inside`, `C73_insert_pointer_refuted`
* Status: Proved on every machine (C73_history, C73_history_same). Under the rules of the language false of insertions that look at an address in front of the storage (C73_insert_pointer_refuted); C73_history_strict_partial proves all other histories and C73_history_undefined that these are undefined. resize(n, value) is the subject of C34; its fill is empty in both builds (resize_val_hwy_same).

### C74 Programs in the Highway build behave as on arrays of booleans (proved)

* Model: the programs of C68 with the vector versions of fill, find, the shifts, reverse and rotate (`HwyProgModel.v`; `SpecHwyProg.v` for the rules of the language)
* Proof: each operation agrees with that of the plain build on every memory (C49, C72, C73); then as C68. Under the C++20 rules an operation agrees if the addresses its shift to the right looks at are not in front of its array, and is undefined otherwise (reverse_hwy_pointer, rotate_hwy_pointer, shift_right_pointer)
* Theorems: `C74_programs`, `C74_builds`, `C74_programs_language`, `C74_programs_undefined`
* Status: On machines ([Hw o]) for words of up to 64 bits; under the C++20 rules for words of fewer than 32 bits, where the programs that form a pointer in front of an array are characterised. Exclusions as in C68, and transform with std::bit_not.

### C75 Programs over several bit_vectors in the Highway build do what they do on lists (partial)

* Model: the programs of C51 with the vector versions of fill, find, the shifts, reverse and rotate, and with `insert`, `erase`, `resize` as in C73 (`HwyClientModel.v`); the byte address of the storage comes with every statement
* Proof: each statement agrees with that of the plain build (C49, C72, C73: `alike`), result from C51. Under the rules of the language: the 64 words in front of each storage are unmapped, so the pointer lemmas of C49, C72 and C73 apply (`alg_front`, `cstep_front`); induction on the program
* Theorems: `C75_programs`, `C75_programs_same`, `C75_programs_strict_partial`, `C75_statement_undefined`, `C75_program_rules`
* Status: Proved on every machine (C75_programs, C75_programs_same). Under the rules of the language false of statements that look at an address in front of the storage: C75_statement_undefined proves that exactly those are undefined, C75_programs_strict_partial proves all programs without them, and C75_program_rules says of every program that it runs as on lists up to the first one. Exclusions as in C51.

### C76 While a call runs every word holds its old or its final value (partial)

* Model: the access sequences of C67 (`TraceModel.v`) and the states between their steps (`psteps`)
* Proof: a thread whose writes all go to different words leaves each word at its old value up to the one write and at its final value from then on (`old_or_new`, induction on the steps); that the writes differ follows from the orders of C67, and for shift_right from a logic of descending writes (`falls`). C76_shift_left_outside: every write keeps the bits outside of what the word holds at that moment (`stays` in `ProofOutside.v`); C76_swap_ranges_outside: the same for two ranges (`keeps` in `ProofSwapOutside.v`), and so for two of rotate's branches (`ProofRotateOutside.v`). The refutations run a few accesses by computation (`after`)
* Theorems: `C76_fill`, `C76_copy`, `C76_shift_right`, `C76_fill_bits`, `C76_copy_bits`, `C76_copy_backward_bits`, `C76_transform_bits`, `C76_shift_right_bits`, `C76_swap_ranges_refuted`, `C76_swap_ranges_outside`, `C76_shift_left_refuted`, `C76_shift_left_outside`, `C76_rotate_refuted`, `C76_rotate_one_word_outside_partial`, `C76_rotate_halves_outside_partial`, `C76_reverse_refuted`
* Status: Proved of fill, copy, move, copy_backward, both transforms and shift_right (C76_fill, C76_copy, C76_shift_right; for single bits C76_fill_bits, C76_copy_bits, C76_copy_backward_bits, C76_transform_bits, C76_shift_right_bits). Refuted with witnesses for swap_ranges, shift_left, rotate and reverse; of shift_left and swap_ranges C76_shift_left_outside and C76_swap_ranges_outside prove that bits outside the ranges never change (of rotate only C76_rotate_one_word_outside_partial, for a range in one word, and C76_rotate_halves_outside_partial, for two equal halves of more than a word; for other rotations it is not decided, a search found no counterexample). The accesses are those of the scalar build, one word each, in program order; a compiler may reorder or split them where no other thread may look.
