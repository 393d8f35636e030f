{
 "claims": [
  {
   "property": "C01",
   "status": "proved",
   "theorems": [
    "C01_iterator_plus",
    "C01_iterator_minus",
    "C01_iterator_subscript"
   ],
   "note": ""
  },
  {
   "property": "C02",
   "status": "proved",
   "theorems": [
    "C02_iterator_difference",
    "C02_iterator_comparisons",
    "C02_difference_inverts_plus",
    "C02_plus_inverts_difference",
    "C02_distance"
   ],
   "note": "distance asserts when last precedes first"
  },
  {
   "property": "C03",
   "status": "proved",
   "theorems": [
    "C03_unit_steps",
    "C03_repeated_steps"
   ],
   "note": ""
  },
  {
   "property": "C04",
   "status": "proved",
   "theorems": [
    "C04_is_within",
    "C04_is_within_digits",
    "C04_is_within_runtime"
   ],
   "note": ""
  },
  {
   "property": "C05",
   "status": "proved",
   "theorems": [
    "C05_reference_position",
    "C05_reference_read",
    "C05_reference_set",
    "C05_reference_assign",
    "C05_reference_compound",
    "C05_bit_value"
   ],
   "note": ""
  },
  {
   "property": "C06",
   "status": "proved",
   "theorems": [
    "C06_reference_swap",
    "C06_reference_value_swap"
   ],
   "note": ""
  },
  {
   "property": "C07",
   "status": "proved",
   "theorems": [
    "C07_get_word"
   ],
   "note": ""
  },
  {
   "property": "C08",
   "status": "proved",
   "theorems": [
    "C08_write_word"
   ],
   "note": ""
  },
  {
   "property": "C09",
   "status": "proved",
   "theorems": [
    "C09_fill"
   ],
   "note": ""
  },
  {
   "property": "C10",
   "status": "proved",
   "theorems": [
    "C10_copy",
    "C10_move"
   ],
   "note": ""
  },
  {
   "property": "C11",
   "status": "proved",
   "theorems": [
    "C11_copy_backward",
    "C11_copy_backward_strict_partial"
   ],
   "note": "full statement on any machine whatever an over-wide shift yields; under the C++ rules one case is undefined (C24)"
  },
  {
   "property": "C12",
   "status": "proved",
   "theorems": [
    "C12_equal"
   ],
   "note": ""
  },
  {
   "property": "C13",
   "status": "proved",
   "theorems": [
    "C13_find"
   ],
   "note": "for an empty range with unaligned first, first's word must exist"
  },
  {
   "property": "C14",
   "status": "partial",
   "theorems": [
    "C14_count",
    "C14_count_complement",
    "C14_count_portable_partial",
    "C14_count_portable_overread",
    "C14_count_portable_refuted"
   ],
   "note": "proved on x86 and on ARM with unaligned loads for all widths, and on all targets for 64-bit words; where libpopcnt aligns its reads, proved exactly for the ranges where it holds and shown to overrun the array for the others"
  },
  {
   "property": "C15",
   "status": "partial",
   "theorems": [
    "C15_count_empty_reads",
    "C15_count_empty_partial",
    "C15_count_empty_refuted"
   ],
   "note": "the property is false: refuted for every empty range whose word is not readable; where the word is readable the result is proved to be 0"
  },
  {
   "property": "C16",
   "status": "proved",
   "theorems": [
    "C16_transform_unary"
   ],
   "note": ""
  },
  {
   "property": "C17",
   "status": "proved",
   "theorems": [
    "C17_transform_binary"
   ],
   "note": ""
  },
  {
   "property": "C18",
   "status": "proved",
   "theorems": [
    "C18_shift_left",
    "C18_shift_left_strict_partial",
    "C18_shift_left_no_shift"
   ],
   "note": "full statement on any machine whatever an over-wide shift yields; under the C++ rules the whole-single-word case is undefined (C24)"
  },
  {
   "property": "C19",
   "status": "proved",
   "theorems": [
    "C19_shift_right",
    "C19_shift_right_strict_partial",
    "C19_shift_right_no_shift"
   ],
   "note": "full statement on any machine whatever an over-wide shift yields; under the C++ rules the whole-single-word case is undefined (C24)"
  },
  {
   "property": "C20",
   "status": "proved",
   "theorems": [
    "C20_swap_ranges",
    "C20_swap_ranges_twice",
    "C20_self_swap_clears_refuted"
   ],
   "note": ""
  },
  {
   "property": "C21",
   "status": "proved",
   "theorems": [
    "C21_reverse",
    "C21_reverse_strict_partial",
    "C21_reverse_twice"
   ],
   "note": "full statement on any machine whatever an over-wide shift yields; under the C++ rules a range that ends with its word and starts inside it is undefined (C24)"
  },
  {
   "property": "C22",
   "status": "partial",
   "theorems": [
    "C22_rotate_partial",
    "C22_rotate_exact",
    "C22_rotate_permutes",
    "C22_rotate_refuted"
   ],
   "note": "False without a bound on the length (C22_rotate_refuted): rotate.hpp:138,164 keep a quotient in an unsigned int. C22_rotate_exact decides every length: the full statement holds exactly when no such quotient reaches 2^32. C22_rotate_permutes covers every length: defined, right iterator, a permutation of the range. rotate inside a single 128-bit word is decided in C69."
  },
  {
   "property": "C23",
   "status": "partial",
   "theorems": [
    "C23_rotate_all_partial",
    "C23_rotate_all_overread",
    "C23_rotate_all_undefined",
    "C23_rotate_all_last",
    "C23_rotate_all_refuted"
   ],
   "note": "the property is false: proved where it holds, and the three ways it fails are proved for all remaining ranges"
  },
  {
   "property": "C24",
   "status": "partial",
   "theorems": [
    "C24_undefined_shift_refuted",
    "C24_shift_left_partial",
    "C24_shift_right_partial",
    "C24_reverse_partial",
    "C24_copy_backward_partial",
    "C24_others",
    "C24_transform"
   ],
   "note": "False as stated (C24_undefined_shift_refuted). For shift_left, shift_right, reverse and copy_backward the exact set of undefined valid calls is proved under every policy; every other algorithm is proved defined for all valid calls under the C++17 rules. rotate inside a single 128-bit word is decided in C69."
  },
  {
   "property": "C25",
   "status": "proved",
   "theorems": [
    "C25_language_rules",
    "C25_shift_left",
    "C25_shift_right",
    "C25_reverse",
    "C25_copy_backward"
   ],
   "note": "All calls that C++17 defines have the same outcome under every policy; the calls that are undefined (shift_left, shift_right, reverse, copy_backward, see C24) give equal outcomes for any two oracles. rotate inside a single 128-bit word is decided in C69."
  },
  {
   "property": "C26",
   "status": "proved",
   "theorems": [
    "C26_popcnt",
    "C26_lzcnt",
    "C26_tzcnt"
   ],
   "note": ""
  },
  {
   "property": "C27",
   "status": "proved",
   "theorems": [
    "C27_pdep",
    "C27_pext",
    "C27_pext_pdep",
    "C27_pdep_pext"
   ],
   "note": ""
  },
  {
   "property": "C28",
   "status": "proved",
   "theorems": [
    "C28_bitswap",
    "C28_bitswap_twice",
    "C28_byteswap"
   ],
   "note": ""
  },
  {
   "property": "C29",
   "status": "proved",
   "theorems": [
    "C29_addcarry",
    "C29_subborrow",
    "C29_wide_carry_refuted",
    "C29_mulx"
   ],
   "note": ""
  },
  {
   "property": "C30",
   "status": "partial",
   "theorems": [
    "C30_shld_partial",
    "C30_shrd_partial",
    "C30_big_count",
    "C30_big_count_undefined",
    "C30_middle_count",
    "C30_zero_count_undefined",
    "C30_zero_count_refuted"
   ],
   "note": "Every count is decided: the statement is proved for counts from 1 to twice the width under the C++ rules and for all counts from 1 on any machine; C30_middle_count and C30_big_count_undefined tell which larger counts the language leaves undefined. A count of zero on words of 32 bits or more is undefined under the C++ rules and gives a wrong word on a real machine (refuted)"
  },
  {
   "property": "C31",
   "status": "partial",
   "theorems": [
    "C31_bextr_partial",
    "C31_bextr_undefined",
    "C31_bitblend_partial",
    "C31_bitblend_undefined",
    "C31_bitblend_mask",
    "C31_bitexch",
    "C31_bitexch_same_start",
    "C31_bitexch_mask",
    "C31_bitexch_mask_alias",
    "C31_bitcmp_partial"
   ],
   "note": "proved for all operands except a field of a whole word under the C++ rules, which is undefined; proved for all operands on any machine for blend and exchange"
  },
  {
   "property": "C32",
   "status": "partial",
   "theorems": [
    "C32_language_rules",
    "C32_history",
    "C32_language_rules_refuted",
    "C32_insert_front_undefined"
   ],
   "note": "Proved for all histories of 21 kinds of calls on any machine, with lengths up to 2^24 for bulk inserts and 2^32 for erase(first,last) and resize (C36, C37 show these limits are real). Under the C++ rules C32_language_rules decides every such history: it is defined exactly when no shift covers one whole word; otherwise it executes an undefined shift (refuted by a history of eight calls)."
  },
  {
   "property": "C33",
   "status": "proved",
   "theorems": [
    "C33_at"
   ],
   "note": ""
  },
  {
   "property": "C34",
   "status": "partial",
   "theorems": [
    "C34_growing_history_partial",
    "C34_clean_start",
    "C34_resize_grow_refuted",
    "C34_resize_exact",
    "C34_resize_grow_partial"
   ],
   "note": "The property is false: refuted by a three-call history. What resize does is proved exactly, and the property is proved for vectors whose storage beyond size() is zero and for all histories from such vectors that remove nothing except by clear."
  },
  {
   "property": "C35",
   "status": "partial",
   "theorems": [
    "C35_resize_value_refuted",
    "C35_value_ignored"
   ],
   "note": "The property is false: refuted, and proved that the value never has an effect."
  },
  {
   "property": "C36",
   "status": "partial",
   "theorems": [
    "C36_word_count",
    "C36_word_count_refuted",
    "C36_short_storage"
   ],
   "note": "The property is false for counts of 2^32 and more: proved sufficient exactly for smaller counts, and the out-of-bounds access it causes is proved for every larger count below 2^62."
  },
  {
   "property": "C37",
   "status": "partial",
   "theorems": [
    "C37_insert_count_exact",
    "C37_insert_range_exact",
    "C37_room_decided",
    "C37_insert_count_undefined",
    "C37_insert_range_undefined",
    "C37_insert_count_partial",
    "C37_insert_range_partial",
    "C37_insert_refuted",
    "C37_full_count",
    "C37_full_range"
   ],
   "note": "Proved up to 2^24 bits and refuted beyond. C37_insert_count_exact and C37_insert_range_exact decide every size: the insertion is right exactly when the storage computed in float holds the new length, and runs out of bounds otherwise; C37_room_decided shows that the only other case is an undefined conversion to unsigned int."
  },
  {
   "property": "C38",
   "status": "partial",
   "theorems": [
    "C38_from_string",
    "C38_debug_string",
    "C38_text",
    "C38_round_trip",
    "C38_debug_overflow"
   ],
   "note": "Proved for all strings, and for all vectors below 2^31 bits; debug_string of any longer vector overflows an int, which is proved."
  },
  {
   "property": "C39",
   "status": "proved",
   "theorems": [
    "C39_count",
    "C39_fill",
    "C39_bit_range",
    "C39_bool_range",
    "C39_initializer_list",
    "C39_word_range",
    "C39_copy_move"
   ],
   "note": "initializer_list of bit_value is the same loop as that of bool and is not modelled separately; the sources of ranges lie outside the new storage."
  },
  {
   "property": "C40",
   "status": "partial",
   "theorems": [
    "C40_popcount64",
    "C40_popcnt_x86",
    "C40_popcnt_neon",
    "C40_popcnt_aligned_partial",
    "C40_popcnt_aligned_overread",
    "C40_popcnt_aligned_refuted"
   ],
   "note": "proved for every buffer on x86 and on ARM with unaligned loads; on the targets that align their reads proved exactly for the buffers where it holds, and shown to overrun the buffer for the others"
  },
  {
   "property": "C41",
   "status": "proved",
   "theorems": [
    "C41_padded_read"
   ],
   "note": ""
  },
  {
   "property": "C42",
   "status": "proved",
   "theorems": [
    "C42_pointer_construct",
    "C42_pointer_offset",
    "C42_pointer_step",
    "C42_pointer_compare",
    "C42_pointer_address"
   ],
   "note": ""
  },
  {
   "property": "C43",
   "status": "proved",
   "theorems": [
    "C43_extract_char",
    "C43_extract_end",
    "C43_round_trip",
    "C43_extract_reference"
   ],
   "note": ""
  },
  {
   "property": "C44",
   "status": "partial",
   "theorems": [
    "C44_copy_then_equal",
    "C44_rotate_back_partial",
    "C44_shift_back",
    "C44_reverse_count",
    "C44_rotate_count",
    "C44_swap_ranges_count",
    "C44_find_count",
    "C44_fill_count_find"
   ],
   "note": "rotate_back needs both rotations to be among the lengths of C22_rotate_exact; everything else is unrestricted. rotate inside a single 128-bit word is decided in C69."
  },
  {
   "property": "C45",
   "status": "proved",
   "theorems": [
    "C45_word_shift_left",
    "C45_word_shift_right"
   ],
   "note": ""
  },
  {
   "property": "C46",
   "status": "partial",
   "theorems": [
    "C46_digits",
    "C46_narrowest",
    "C46_widest",
    "C46_narrower",
    "C46_wider_never",
    "C46_wider_refuted"
   ],
   "note": "_narrowest_type, _widest_type and _narrower_type proved; false of _wider_type, which is proved never to yield a wider type"
  },
  {
   "property": "C47",
   "status": "partial",
   "theorems": [
    "C47_get_word_as_partial",
    "C47_wide_asserts",
    "C47_get_word_as_refuted"
   ],
   "note": "Proved for all types and lengths with assertions off, and with assertions on for lengths up to the digits of the range's words; every longer read asserts (refuted)."
  },
  {
   "property": "C48",
   "status": "partial",
   "theorems": [
    "C48_narrow_source_effect",
    "C48_narrow_source_partial",
    "C48_narrow_source_refuted"
   ],
   "note": "The property is false: refuted. What the call leaves behind is proved exactly for all calls on any machine, and under the C++ rules for fields within the source's digits."
  },
  {
   "property": "C49",
   "status": "partial",
   "theorems": [
    "C49_fill",
    "C49_find",
    "C49_transform_not",
    "C49_shift_left",
    "C49_shift_left_strict_partial",
    "C49_shift_right",
    "C49_shift_right_strict_partial",
    "C49_no_shift",
    "C49_shift_right_pointer_refuted",
    "C49_long_vectors_refuted",
    "C49_transform_overlap_refuted",
    "C49_shift_right_inside_partial",
    "C49_shift_right_undefined",
    "C49_shift_right_short_array"
   ],
   "note": "Proved for all vector lengths that divide 64 bytes (SSE, AVX2, AVX-512, NEON) and all addresses, on any machine, and under the C++ rules with the exclusion of C24. Refuted for longer vectors (misaligned store). Under the C++ rules shift_right is false of short arrays (C49_shift_right_pointer_refuted, C49_shift_right_short_array): it forms pointers in front of the array. C49_shift_right_undefined says exactly for which calls, C49_shift_right_inside_partial proves all others. A destination inside the source is outside C16; there the builds differ (refuted)."
  },
  {
   "property": "C50",
   "status": "proved",
   "theorems": [
    "C50_mask",
    "C50_first_bit",
    "C50_moves"
   ],
   "note": ""
  },
  {
   "property": "C51",
   "status": "proved",
   "theorems": [
    "C51_programs",
    "C51_statement_rules",
    "C51_program_rules"
   ],
   "note": "The restrictions named in the statement are hypotheses (cpre); the cited properties decide what happens without them. Sizes of bulk insertions are limited to 2^24 as in C37. Elements vacated by shift_left and shift_right are unspecified."
  },
  {
   "property": "C52",
   "status": "partial",
   "theorems": [
    "C52_shift_left_zero_partial",
    "C52_shift_left_kept",
    "C52_shift_left_zero_refuted",
    "C52_shift_right_zero_partial",
    "C52_shift_right_kept",
    "C52_shift_right_zero_refuted",
    "C52_shift_right_inside_refuted",
    "C52_shift_left_builds",
    "C52_shift_right_builds"
   ],
   "note": "Proved for ranges inside one word, refuted for longer ones. The contents are decided exactly: over several words the vacated elements keep their values, except that shift_right by a multiple of the word length copies the bits in front of the range into it (so what the range holds can depend on bits outside it, refuted). Both builds leave the same bits."
  },
  {
   "property": "C53",
   "status": "partial",
   "theorems": [
    "C53_null_pointer_partial",
    "C53_null_equal_refuted"
   ],
   "note": "Refuted for two null pointers made in different ways: bit_pointer() has mask 0 and bit_pointer(p) for a null word pointer p has mask 1, so they have different positions and compare unequal. The rest is proved for both kinds."
  },
  {
   "property": "C54",
   "status": "partial",
   "theorems": [
    "C54_copy_begin_partial",
    "C54_copy_end_partial",
    "C54_copy_begin_overrun",
    "C54_copy_end_overrun",
    "C54_assertion_refuted",
    "C54_copy_begin_long",
    "C54_copy_end_long"
   ],
   "note": "Proved when the array has room for the position in the first word plus k bits and that is less than 2^15 + digits. Refuted otherwise, and decided: if the assertion holds but the position does not fit, the function writes past the array (C54_*_overrun); if the count does not fit short int, the result contains bits of array words never written (C54_*_long). The shift rules of the language restrict whole single words as in C24. With an empty part the word of first (n_first) is read, so it must exist."
  },
  {
   "property": "C55",
   "status": "partial",
   "theorems": [
    "C55_fill",
    "C55_copy",
    "C55_move",
    "C55_copy_backward_partial",
    "C55_swap_ranges",
    "C55_reverse_partial",
    "C55_rotate_partial",
    "C55_transform",
    "C55_transform2",
    "C55_find",
    "C55_count_partial",
    "C55_equal",
    "C55_copy_backward_refuted",
    "C55_reverse_refuted",
    "C55_rotate_refuted",
    "C55_count_refuted",
    "C55_shift_left_partial",
    "C55_shift_right_partial",
    "C55_shift_none",
    "C55_shift_refuted"
   ],
   "note": "Proved for fill, copy, move, swap_ranges, transform, find and equal on everything the standard allows (disjoint ranges or the permitted overlap). Refuted, and proved outside the named cases, for: copy_backward and reverse (undefined shift under the language's rules, C11 and C24), rotate with n_first = last and with parts of more than 2^32 (C22, C23), count on an empty range behind the last word (C15) and on targets where libpopcnt reads too far (C14). shift_left and shift_right agree but for the vacated bits, which the standard leaves unspecified (see C52); refuted for the shifts of exactly one whole word under the language's rules (C18, C19)."
  },
  {
   "property": "C56",
   "status": "partial",
   "theorems": [
    "C56_capacity",
    "C56_reserve_partial",
    "C56_reserve_truncates",
    "C56_reserve_refuted",
    "C56_held_iterator_partial",
    "C56_held_iterator_refuted",
    "C56_reallocations"
   ],
   "note": "size() <= capacity() is proved for every history of C32 and the bound on reallocations for every history that adds bits one at a time. reserve is proved below 2^32 bits and refuted beyond (word_count takes an unsigned int; C56_reserve_truncates decides it). Iterators kept within capacity() are proved for the histories of C32, whose bulk insertions are limited to 2^24 bits, and refuted beyond: the float computation of C37 may add more words than needed and so move the storage."
  },
  {
   "property": "C57",
   "status": "proved",
   "theorems": [
    "C57_count_bytes",
    "C57_threads",
    "C57_steps",
    "C57_shared_word",
    "C57_lost_update",
    "C57_disjoint_bits_refuted"
   ],
   "note": "Each call satisfies the precondition under which C01-C24 prove it, on a range that is not empty. The accesses take effect one at a time in program order (what the C++ memory model guarantees without data races). C57_disjoint_bits_refuted: with different bits of a shared word the claim is false. count reads whole words in C57_threads and single bytes in C57_count_bytes."
  },
  {
   "property": "C58",
   "status": "proved",
   "theorems": [
    "C58_programs",
    "C58_widths"
   ],
   "note": "Streams, null pointers and assignment from words (C43, C53, C05) are not among the operations of a program. A place outside [begin, end] counts as not allowed, as in the standard."
  },
  {
   "property": "C59",
   "status": "partial",
   "theorems": [
    "C59_call_partial",
    "C59_client_partial",
    "C59_resize",
    "C59_assign_broken",
    "C59_assign_refuted"
   ],
   "note": "Proved for all calls and clients except a copy assignment that needs a larger buffer with a std::vector that gives its buffer away before it asks for the new one, as libc++ does: then the words are gone while length_ stays (C59_assign_broken for every such call, refuted). Sizes are bounded as in C32. Constructors: C70."
  },
  {
   "property": "C60",
   "status": "partial",
   "theorems": [
    "C60_data_read",
    "C60_data_write",
    "C60_ends",
    "C60_max_size_partial",
    "C60_max_size_refuted",
    "C60_data_empty_refuted"
   ],
   "note": "Proved for vectors that are not empty, and for the ends of every vector. The agreement of the two versions of data() on empty vectors is refuted: the one tests length_, the other the number of words, and a vector can have words without elements. max_size() is proved for the default allocator and refuted for allocators that admit 2^64 / digits words or more, where the product wraps."
  },
  {
   "property": "C61",
   "status": "proved",
   "theorems": [
    "C61_value_programs",
    "C61_position_assert"
   ],
   "note": "swap(bit_reference) as a member of bit_value (bit_value.hpp:285-294) is not among the statements: it compares a reference with a bool, which no comparison operator accepts as bit_value(bool) is explicit, so it cannot be instantiated. The same exchange written as first[i].swap(x) or swap(x, first[i]) is."
  },
  {
   "property": "C62",
   "status": "partial",
   "theorems": [
    "C62_fill",
    "C62_find",
    "C62_equal",
    "C62_copy",
    "C62_swap_ranges",
    "C62_transform1",
    "C62_transform2",
    "C62_count",
    "C62_count_end_refuted",
    "C62_copy_backward",
    "C62_copy_backward_up",
    "C62_copy_backward_refuted",
    "C62_shift_left",
    "C62_shift_right",
    "C62_shift_right_refuted",
    "C62_reverse",
    "C62_reverse_refuted",
    "C62_rotate",
    "C62_rotate_inside",
    "C62_rotate_refuted"
   ],
   "note": "Proved for fill, find, equal, copy, move, swap_ranges and transform. Refuted, and decided call by call, for count, copy_backward, shift_left, shift_right, reverse and rotate (which follows the steps of Euclid's algorithm, so that the condition is an inductive predicate on the lengths of the parts)."
  },
  {
   "property": "C63",
   "status": "partial",
   "theorems": [
    "C63_algorithms_partial",
    "C63_every_call",
    "C63_count_partial",
    "C63_count_wrong",
    "C63_count_refuted",
    "C63_fill_vectors_partial",
    "C63_fill_vectors_refuted"
   ],
   "note": "Proved for every call except count, in the build without BITLIB_HWY. False of count (refuted), which hands &*it to libpopcnt: proved where the words of the range are adjacent, and shown to be wrong for some contents as soon as one of the words it reads is not in the range. In the build with vectors the whole words of fill are decided in the same way (proved for adjacent words, refuted otherwise); the vector loops of find, transform and the shifts, which also start at &*it, are not modelled on such sequences."
  },
  {
   "property": "C64",
   "status": "partial",
   "theorems": [
    "C64_first",
    "C64_lvalues",
    "C64_ill_formed",
    "C64_refuted",
    "C64_size"
   ],
   "note": "Proved for function objects without a ref-qualified operator() and for all function objects passed to overload_linearly as lvalues. False in general (refuted): the test for a valid call is made on an rvalue of the tuple, the call on an lvalue, so a function held by value with an lvalue-qualified operator() is passed over; C64_ill_formed tells exactly which calls do not compile."
  },
  {
   "property": "C65",
   "status": "partial",
   "theorems": [
    "C65_is_bit",
    "C65_level",
    "C65_chain",
    "C65_qualified",
    "C65_output_refuted"
   ],
   "note": "Everything but the last clause is proved. is_output_iterator_v denies every iterator whose category is stronger than output, a pointer to a mutable object among them (refuted)."
  },
  {
   "property": "C66",
   "status": "partial",
   "theorems": [
    "C66_total",
    "C66_sound",
    "C66_complete",
    "C66_popcnt_refuted",
    "C66_leaf_refuted",
    "C66_count"
   ],
   "note": "Proved for machines whose cpuid has leaf 7. False (refuted) of older ones, whose answer to the missing leaf is taken for that of leaf 7 as get_cpuid does not ask for the highest leaf, and of the popcnt instruction on a machine without OSXSAVE, where get_cpuid drops the flag it has found."
  },
  {
   "property": "C67",
   "status": "proved",
   "theorems": [
    "C67_same",
    "C67_fill",
    "C67_find",
    "C67_find_stops",
    "C67_equal",
    "C67_equal_stops",
    "C67_copy",
    "C67_copy_backward",
    "C67_transform",
    "C67_transform2",
    "C67_swap_ranges",
    "C67_shift",
    "C67_reverse",
    "C67_rotate",
    "C67_count_same",
    "C67_popcnt",
    "C67_count",
    "C67_fill_writes",
    "C67_copy_writes",
    "C67_copy_backward_writes",
    "C67_find_reads"
   ],
   "note": "The scalar build (no BITLIB_HWY); count's bytes wherever libpopcnt keeps to its buffer (always with unaligned loads; C40 says when otherwise)."
  },
  {
   "property": "C68",
   "status": "proved",
   "theorems": [
    "C68_programs",
    "C68_widths"
   ],
   "note": "Excluded as not allowed, though std allows them: rotate with the end of the range as its middle (C23) and count on an empty range (C15). Empty arrays are not passed to algorithms."
  },
  {
   "property": "C69",
   "status": "partial",
   "theorems": [
    "C69_rotate_exact",
    "C69_rotate_cut",
    "C69_rotate_undefined",
    "C69_rotate_refuted",
    "C69_rotate_machines_refuted",
    "C69_rotate_machine_exact",
    "C69_rotate_machine"
   ],
   "note": "False of ranges inside one 128-bit word (C69_rotate_refuted). C69_rotate_exact decides for every call of every width under the rules of the language whether C22 holds; C69_rotate_cut and C69_rotate_undefined say what the remaining calls do. On machines with their own results for shifts by 64 or more C69_rotate_machine_exact decides every call with n_first before last, and C69_rotate_machine says what the wrong ones do. The theorems of the other properties are stated for 128-bit words too, except C49 (no vectors of such words) and C68."
  },
  {
   "property": "C70",
   "status": "partial",
   "theorems": [
    "C70_construct_partial",
    "C70_move_terminates",
    "C70_move_refuted",
    "C70_words",
    "C70_room",
    "C70_room_refuted",
    "C70_program_partial"
   ],
   "note": "Bits, exceptions and the client are proved for all constructors. False (refuted) of the move constructor: its parameter is a const rvalue, so it copies, and C70_move_terminates shows that every refused move of a vector with words ends the program. False (refuted) of the storage: from bit iterators, bools and strings one word per bit is made; C70_words and C70_room give the exact numbers. bit_vector(other, alloc) is declared and not defined."
  },
  {
   "property": "C71",
   "status": "partial",
   "theorems": [
    "C71_swap_ranges_partial",
    "C71_same_digits",
    "C71_swap_ranges_refuted"
   ],
   "note": "False: C71_swap_ranges_partial decides every call. With different numbers of digits only empty ranges are swapped, every other call is undefined (refuted); with equal numbers it is C20 (C71_same_digits)."
  },
  {
   "property": "C72",
   "status": "partial",
   "theorems": [
    "C72_reverse",
    "C72_reverse_same",
    "C72_rotate_exact",
    "C72_rotate_same",
    "C72_rotate_pointer_refuted",
    "C72_reverse_pointer_refuted",
    "C72_reverse_inside_partial",
    "C72_reverse_undefined",
    "C72_rotate_inside_partial",
    "C72_rotate_undefined",
    "C72_rotate_room_partial"
   ],
   "note": "Proved on every machine: C72_reverse, C72_rotate_exact (the quotients of C22_rotate_exact) and C72_reverse_same, C72_rotate_same (the two builds agree on every call). Under the rules of the language false (refuted): shift_right of this build forms a pointer in front of the array. Which calls do is decided exactly: C72_reverse_inside_partial and C72_rotate_inside_partial prove the others right, C72_reverse_undefined and C72_rotate_undefined are equivalences."
  },
  {
   "property": "C73",
   "status": "partial",
   "theorems": [
    "C73_history",
    "C73_history_same",
    "C73_history_strict_partial",
    "C73_history_undefined",
    "C73_far_inside",
    "C73_insert_pointer_refuted"
   ],
   "note": "Proved on every machine (C73_history, C73_history_same). Under the rules of the language false of insertions that look at an address in front of the storage (C73_insert_pointer_refuted); C73_history_strict_partial proves all other histories and C73_history_undefined that these are undefined. resize(n, value) is the subject of C34; its fill is empty in both builds (resize_val_hwy_same)."
  },
  {
   "property": "C74",
   "status": "proved",
   "theorems": [
    "C74_programs",
    "C74_builds",
    "C74_programs_language",
    "C74_programs_undefined"
   ],
   "note": "On machines ([Hw o]) for words of up to 64 bits; under the C++20 rules for words of fewer than 32 bits, where the programs that form a pointer in front of an array are characterised. Exclusions as in C68, and transform with std::bit_not."
  },
  {
   "property": "C75",
   "status": "partial",
   "theorems": [
    "C75_programs",
    "C75_programs_same",
    "C75_programs_strict_partial",
    "C75_statement_undefined",
    "C75_program_rules"
   ],
   "note": "Proved on every machine (C75_programs, C75_programs_same). Under the rules of the language false of statements that look at an address in front of the storage: C75_statement_undefined proves that exactly those are undefined, C75_programs_strict_partial proves all programs without them, and C75_program_rules says of every program that it runs as on lists up to the first one. Exclusions as in C51."
  },
  {
   "property": "C76",
   "status": "partial",
   "theorems": [
    "C76_fill",
    "C76_copy",
    "C76_shift_right",
    "C76_fill_bits",
    "C76_copy_bits",
    "C76_copy_backward_bits",
    "C76_transform_bits",
    "C76_shift_right_bits",
    "C76_swap_ranges_refuted",
    "C76_swap_ranges_outside",
    "C76_shift_left_refuted",
    "C76_shift_left_outside",
    "C76_rotate_refuted",
    "C76_rotate_one_word_outside_partial",
    "C76_rotate_halves_outside_partial",
    "C76_reverse_refuted"
   ],
   "note": "Proved of fill, copy, move, copy_backward, both transforms and shift_right (C76_fill, C76_copy, C76_shift_right; for single bits C76_fill_bits, C76_copy_bits, C76_copy_backward_bits, C76_transform_bits, C76_shift_right_bits). Refuted with witnesses for swap_ranges, shift_left, rotate and reverse; of shift_left and swap_ranges C76_shift_left_outside and C76_swap_ranges_outside prove that bits outside the ranges never change (of rotate only C76_rotate_one_word_outside_partial, for a range in one word, and C76_rotate_halves_outside_partial, for two equal halves of more than a word; for other rotations it is not decided, a search found no counterexample). The accesses are those of the scalar build, one word each, in program order; a compiler may reorder or split them where no other thread may look."
  }
 ]
}