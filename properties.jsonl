{"id": "C01", "title": "Iterator arithmetic is exact integer arithmetic on bit addresses", "statement": "For a bit_iterator it whose underlying word iterator is b and position is q, it + n and it - n designate exactly the bit n places after / before it (negative n included): the result's word index and position are the unique pair with 0 <= position < digits encoding (b*digits+q) +/- n; the position assertion in the constructor never fires; it[n] designates the same bit as *(it+n).", "quantifier": "every unsigned word type of 8, 16, 32, 64 or 128 bits; every iterator; every signed 64-bit n for which position +/- n does not overflow ptrdiff_t", "why_tests_cant": "The floor-division correction for negative offsets depends on n and the position jointly, over 2^64 offsets; the unsigned/signed mix only shows for extreme n.", "anchors": ["include/bitlib/bit-iterator/bit_iterator.hpp: operator+, operator-, operator[], operator+=, operator-="]}
{"id": "C02", "title": "Iterator difference and the six comparisons agree with bit addresses", "statement": "lhs - rhs is the signed difference of the two bit addresses, ==, !=, <, <=, >, >= are exactly the integer comparisons of the bit addresses, and (it + n) - it == n, (a - b) + b == a; bit::distance(a,b) == b - a.", "quantifier": "every unsigned word type of 8, 16, 32, 64 or 128 bits; all pairs of iterators; for the difference, at least one word inside the range of ptrdiff_t", "why_tests_cant": "Universally quantified over pairs of positions and the wrap-around of the mixed size_t/ptrdiff_t expression; a total-order claim is about all triples.", "anchors": ["include/bitlib/bit-iterator/bit_iterator.hpp: operator-, operator==, operator<, ...", "include/bitlib/bit-algorithms/bit_algorithm_details.hpp: distance"]}
{"id": "C03", "title": "Increment and decrement are unit steps and mutual inverses", "statement": "++it designates the next bit, --it the previous one, --(++it) == it and ++(--it) == it, n increments equal it + n and n decrements equal it - n.", "quantifier": "every unsigned word type of 8, 16, 32, 64 or 128 bits; every iterator and every n >= 0 (for + and -, at least one word inside the range of ptrdiff_t)", "why_tests_cant": "Induction over n; a test only visits a finite number of steps and start positions.", "anchors": ["include/bitlib/bit-iterator/bit_iterator.hpp: operator++, operator--"]}
{"id": "C04", "title": "The word-local range test equals the distance test", "statement": "is_within<N>(first,last) returns true exactly when distance(first,last) <= N, for the compile-time version used by fill and rotate, and the run-time version agrees.", "quantifier": "every unsigned word type of 8, 16, 32, 64 or 128 bits; every first <= last and every non-negative N (in particular N = digits)", "why_tests_cant": "The compile-time version is a recursive case split on word boundaries; correctness is needed for each pair of positions and each distance.", "anchors": ["include/bitlib/bit-algorithms/bit_algorithm_details.hpp: is_within"]}
{"id": "C05", "title": "A bit reference reads and writes exactly its own bit", "statement": "Every operation of bit_reference (assignment from bit_value / bit_reference / word, set(b), set, reset, flip, &=, |=, ^=, conversion to bool) reads only the referenced bit and changes that bit to the documented value; every other bit of the word and every other word is unchanged; position() and mask() return the constructor's position.", "quantifier": "every unsigned word type of 8, 16, 32, 64 or 128 bits; every memory content, word address, position < digits and operand", "why_tests_cant": "The frame (all other bits unchanged) ranges over all word values.", "anchors": ["include/bitlib/bit-iterator/bit_reference.hpp: operator=, assign, operator&=, operator|=, operator^=, operator bool, set, reset, flip, position, mask"]}
{"id": "C06", "title": "Swapping two bit references exchanges the bits even when they alias", "statement": "swap(lhs, rhs) and lhs.swap(rhs) leave lhs holding the old bit of rhs and vice versa and nothing else changes, including when both refer to the same word or to the very same bit; swapping with a bit_value exchanges the bit and the value.", "quantifier": "every unsigned word type of 8, 16, 32, 64 or 128 bits; every memory content and every pair of references, aliased or not", "why_tests_cant": "Needs every aliasing configuration for every content.", "anchors": ["include/bitlib/bit-iterator/bit_reference.hpp: bit_reference::swap, swap"]}
{"id": "C07", "title": "get_word returns exactly the requested bits and never reads further than needed", "statement": "get_word(first,len) returns a word whose k-th bit, k < len, is the bit k places after first; it reads the second underlying word only if the requested bits extend into it, so it is safe at the end of an array.", "quantifier": "every unsigned word type of 8, 16, 32, 64 or 128 bits; every memory, every first, every 1 <= len <= digits with only the words holding requested bits readable", "why_tests_cant": "Boundary condition position + len versus digits must be right for each pair and each content; an over-read by one word is invisible to value checks.", "anchors": ["include/bitlib/bit-algorithms/bit_algorithm_details.hpp: get_word"]}
{"id": "C08", "title": "write_word changes exactly len bits", "statement": "write_word(src,it,len) sets the bit k places after it to bit k of src for k < len and leaves every other bit unchanged; it touches the second word only if necessary. This holds when the source word type and the destination word type have the same width.", "quantifier": "every unsigned word type of 8, 16, 32, 64 or 128 bits; every memory, iterator, src and 1 <= len <= digits", "why_tests_cant": "Frame plus boundary for every position/len pair and content.", "anchors": ["include/bitlib/bit-algorithms/bit_algorithm_details.hpp: write_word"]}
{"id": "C09", "title": "fill sets exactly the range", "statement": "After fill(first,last,b) every bit of [first,last) is b and every bit outside is unchanged; only words holding a bit of the range are accessed; an empty range accesses nothing.", "quantifier": "every unsigned word type of 8, 16, 32, 64 or 128 bits; every memory and every range of any length and alignment", "why_tests_cant": "Unbounded lengths and all alignments of both ends; frame condition over all contents.", "anchors": ["include/bitlib/bit-algorithms/fill.hpp: fill"]}
{"id": "C10", "title": "copy and move are simultaneous assignment for non-overlapping or left-overlapping ranges", "statement": "copy(first,last,d) (and move) sets bit d+k to the ORIGINAL bit first+k for every k < last-first, changes nothing else, returns d + (last-first), and accesses only words holding source or destination bits. Holds when the destination does not overlap the source or starts at or before it (same memory, any relative alignment).", "quantifier": "every unsigned word type of 8, 16, 32, 64 or 128 bits; every memory, source range, destination, any overlap with d <= first or disjoint", "why_tests_cant": "Correct overlap handling depends on the relative alignment and on the interleaving of word reads and writes for arbitrarily long ranges.", "anchors": ["include/bitlib/bit-algorithms/copy.hpp: copy", "include/bitlib/bit-algorithms/move.hpp: move"]}
{"id": "C11", "title": "copy_backward is simultaneous assignment for non-overlapping or right-overlapping ranges", "statement": "copy_backward(first,last,d_last) sets bit d_last-1-k to the ORIGINAL bit last-1-k for every k < last-first, changes nothing else, returns d_last-(last-first). Holds when the destination does not overlap the source or ends at or after it.", "quantifier": "every unsigned word type of 8, 16, 32, 64 or 128 bits; every memory, range and destination with d_last >= last or disjoint; any machine, whatever it makes of an over-wide shift (what the language leaves undefined is the subject of C24)", "why_tests_cant": "As C10, in the other direction.", "anchors": ["include/bitlib/bit-algorithms/copy_backward.hpp: copy_backward"]}
{"id": "C12", "title": "equal decides equality of bit sequences", "statement": "equal(first,last,d) returns true iff the bit sequences are identical, modifies nothing, and reads only words holding bits of the two ranges.", "quantifier": "every unsigned word type of 8, 16, 32, 64 or 128 bits; every memory and every pair of ranges (overlapping allowed)", "why_tests_cant": "Both directions of the equivalence over all contents: garbage bits outside the ranges must never influence the verdict.", "anchors": ["include/bitlib/bit-algorithms/equal.hpp: equal"]}
{"id": "C13", "title": "find returns the first matching bit", "statement": "find(first,last,b) returns the first position in [first,last) whose bit is b, or last if there is none; it modifies nothing and reads only words holding bits of the range.", "quantifier": "every unsigned word type of 8, 16, 32, 64 or 128 bits; every memory and range, both values of b", "why_tests_cant": "Minimality over unbounded ranges; garbage bits before first and after last in the boundary words must be ignored.", "anchors": ["include/bitlib/bit-algorithms/find.hpp: find"]}
{"id": "C14", "title": "count counts the bits of the range", "statement": "count(first,last,b) returns the number of bits equal to b in [first,last), for every non-empty range and every empty range whose word is readable; count of ones plus count of zeros is the distance.", "quantifier": "every unsigned word type of 8, 16, 32, 64 or 128 bits; every memory and range", "why_tests_cant": "Unbounded length, all alignments, all contents.", "anchors": ["include/bitlib/bit-algorithms/count.hpp: count", "include/bitlib/bit-algorithms/libpopcnt.h: popcnt"]}
{"id": "C15", "title": "count on an empty range touches no memory", "statement": "count(it,it,b) returns 0 without reading memory (it may be the end of an array or of an empty vector).", "quantifier": "every unsigned word type of 8, 16, 32, 64 or 128 bits; every iterator and memory", "why_tests_cant": "The stray read returns a right value on most memory layouts; only an access-level argument shows it.", "anchors": ["include/bitlib/bit-algorithms/count.hpp: count"]}
{"id": "C16", "title": "Unary transform applies the operation bit by bit", "statement": "For a word operation that acts bitwise through a boolean function f, transform(first,last,d,op) sets bit d+k to f(original bit first+k), changes nothing else and returns d+(last-first); in-place use (d == first) and left overlap are allowed.", "quantifier": "every unsigned word type of 8, 16, 32, 64 or 128 bits; every memory, range, destination and every bitwise word operation", "why_tests_cant": "Quantifies over operations, contents, alignments and overlap.", "anchors": ["include/bitlib/bit-algorithms/transform.hpp: transform (unary)"]}
{"id": "C17", "title": "Binary transform combines two ranges bit by bit", "statement": "For a word operation that acts bitwise through a boolean function f, transform(first1,last1,first2,d,op) sets bit d+k to f(original first1+k, original first2+k), changes nothing else and returns d+(last1-first1); the destination may coincide with or left-overlap either source.", "quantifier": "every unsigned word type of 8, 16, 32, 64 or 128 bits; every memory, two ranges, destination, and every bitwise binary word operation", "why_tests_cant": "As C16 with three relative alignments.", "anchors": ["include/bitlib/bit-algorithms/transform.hpp: transform (binary)"]}
{"id": "C18", "title": "shift_left moves the bits toward first", "statement": "shift_left(first,last,n) with 0 < n < last-first sets bit first+k to the original bit first+n+k for k < last-first-n, returns last-n, and changes nothing outside [first,last); n <= 0 returns last and n >= last-first returns first, both without changing memory.", "quantifier": "every unsigned word type of 8, 16, 32, 64 or 128 bits; every memory, range and signed 64-bit n; any machine, whatever it makes of an over-wide shift (what the language leaves undefined is the subject of C24)", "why_tests_cant": "Five code paths selected by alignment of first, last and middle; each overlaps source and destination.", "anchors": ["include/bitlib/bit-algorithms/shift.hpp: shift_left", "include/bitlib/bit-algorithms/bit_algorithm_details.hpp: word_shift_left"]}
{"id": "C19", "title": "shift_right moves the bits toward last", "statement": "shift_right(first,last,n) with 0 < n < last-first sets bit first+n+k to the original bit first+k, returns first+n, and changes nothing outside [first,last); n <= 0 returns first and n >= last-first returns last, both without changing memory.", "quantifier": "every unsigned word type of 8, 16, 32, 64 or 128 bits; every memory, range and signed 64-bit n; any machine, whatever it makes of an over-wide shift (what the language leaves undefined is the subject of C24)", "why_tests_cant": "As C18.", "anchors": ["include/bitlib/bit-algorithms/shift.hpp: shift_right", "include/bitlib/bit-algorithms/bit_algorithm_details.hpp: word_shift_right"]}
{"id": "C20", "title": "swap_ranges exchanges two disjoint bit ranges", "statement": "swap_ranges(first1,last1,first2) exchanges bit first1+k with bit first2+k for every k, changes nothing else, and returns first2+(last1-first1), for any two disjoint ranges, including ranges that share underlying words.", "quantifier": "every unsigned word type of 8, 16, 32, 64 or 128 bits; every memory and every pair of disjoint equal-length ranges, any alignment", "why_tests_cant": "XOR-exchange on aliased words is only right for disjoint bit masks; needs every relative alignment and length.", "anchors": ["include/bitlib/bit-algorithms/swap_ranges.hpp: swap_ranges", "include/bitlib/bit-iterator/bit_details.hpp: _bitexch"]}
{"id": "C21", "title": "reverse reverses the range and nothing else", "statement": "reverse(first,last) sets bit first+k to the original bit last-1-k and changes nothing outside the range; applying it twice restores the memory.", "quantifier": "every unsigned word type of 8, 16, 32, 64 or 128 bits; every memory and range; any machine, whatever it makes of an over-wide shift (what the language leaves undefined is the subject of C24)", "why_tests_cant": "Unaligned ranges are reversed by reversing whole words, shifting, then repairing the boundary words: correctness at both ends is content dependent.", "anchors": ["include/bitlib/bit-algorithms/reverse.hpp: reverse", "include/bitlib/bit-iterator/bit_details.hpp: _bitswap"]}
{"id": "C22", "title": "rotate is a cyclic shift", "statement": "rotate(first,n_first,last) with n_first != last makes [first,last) equal to the original [n_first,last) followed by the original [first,n_first), changes nothing outside and returns first + (last - n_first).", "quantifier": "every unsigned word type of 8, 16, 32, 64 or 128 bits (rotate inside a single 128-bit word: C69); every memory and every first <= n_first < last", "why_tests_cant": "Multi-stage block-swap loop whose termination and correctness need an invariant; arbitrary lengths.", "anchors": ["include/bitlib/bit-algorithms/rotate.hpp: rotate, _rotate_via_raw"]}
{"id": "C23", "title": "rotate accepts n_first == last", "statement": "rotate(first,last,last) leaves memory unchanged and returns first, as std::rotate does, for every range.", "quantifier": "every unsigned word type of 8, 16, 32, 64 or 128 bits (rotate inside a single 128-bit word: C69); every range", "why_tests_cant": "The repository's tests never pass n_first == last; the failure depends on alignment of last.", "anchors": ["include/bitlib/bit-algorithms/rotate.hpp: rotate"]}
{"id": "C24", "title": "No algorithm executes an undefined shift", "statement": "No call of the public algorithms on valid ranges executes a shift by at least the (promoted) operand width or a left shift of a negative value.", "quantifier": "every unsigned word type of 8, 16, 32, 64 or 128 bits (rotate inside a single 128-bit word: C69); every valid call", "why_tests_cant": "The undefined shift's value is multiplied away, so observable results look right; only a semantics with UB as an outcome exposes it.", "anchors": ["include/bitlib/bit-iterator/bit_details.hpp: _bitblend, _bextr, _shld, _shrd", "include/bitlib/bit-algorithms/shift.hpp", "include/bitlib/bit-algorithms/copy_backward.hpp", "include/bitlib/bit-algorithms/reverse.hpp"]}
{"id": "C25", "title": "Results do not depend on what an over-wide shift produces", "statement": "On any machine where an over-wide shift yields some value, the algorithms return the specified result whatever that value is.", "quantifier": "every shift-result oracle, every unsigned word type of 8, 16, 32, 64 or 128 bits (rotate inside a single 128-bit word: C69), every valid call", "why_tests_cant": "Quantifies over machine behaviours a test host cannot vary.", "anchors": ["include/bitlib/bit-iterator/bit_details.hpp: _bitblend"]}
{"id": "C26", "title": "Population, leading-zero and trailing-zero counts", "statement": "_popcnt(x) is the number of one bits, _lzcnt(x) the number of zero bits above the highest one (digits for 0), _tzcnt(x) the number of zero bits below the lowest one (digits for 0); intrinsic-based and portable versions agree.", "quantifier": "every unsigned word type of 8, 16, 32, 64 or 128 bits; every word value", "why_tests_cant": "2^64 values.", "anchors": ["include/bitlib/bit-iterator/bit_details.hpp: _popcnt, _lzcnt, _tzcnt"]}
{"id": "C27", "title": "Parallel deposit and extract are inverse on the mask", "statement": "_pext(x,m) packs the bits of x selected by m, in order, into the low bits; _pdep(x,m) scatters the low bits of x to the positions of m, in order, zero elsewhere; _pext(_pdep(x,m),m) == x truncated to popcount(m) bits and _pdep(_pext(x,m),m) == x & m.", "quantifier": "every unsigned word type of 8, 16, 32, 64 or 128 bits; every word and every mask", "why_tests_cant": "2^128 pairs.", "anchors": ["include/bitlib/bit-iterator/bit_details.hpp: _pdep, _pext"]}
{"id": "C28", "title": "Bit and byte reversal", "statement": "_bitswap(x) has bit k equal to bit digits-1-k of x; _byteswap(x) has byte k equal to byte sizeof-1-k of x; both are involutions.", "quantifier": "every unsigned word type of 8, 16, 32, 64 or 128 bits; every word value", "why_tests_cant": "2^64 values; the byte case relies on magic multiplication constants.", "anchors": ["include/bitlib/bit-iterator/bit_details.hpp: _bitswap, _byteswap"]}
{"id": "C29", "title": "Carry, borrow and double-word multiplication are exact", "statement": "_addcarry returns the sum modulo 2^digits and the exact carry; _subborrow the difference modulo 2^digits and the exact borrow; _mulx the exact double-width product in (hi, lo).", "quantifier": "every unsigned word type of 8, 16, 32, 64 or 128 bits; all operand words and every carry that fits an unsigned char (with intrinsics a wider carry is cut to its low byte: refuted)", "why_tests_cant": "2^128 operand pairs; carry detection is wrong only at wrap-around boundaries.", "anchors": ["include/bitlib/bit-iterator/bit_details.hpp: _addcarry, _subborrow, _mulx"]}
{"id": "C30", "title": "Double-precision shifts", "statement": "_shld(dst,src,cnt) is the high word and _shrd(dst,src,cnt) the low word of the concatenated 2*digits-bit value shifted by cnt, for every cnt.", "quantifier": "every unsigned word type of 8, 16, 32, 64 or 128 bits; all words, every cnt", "why_tests_cant": "cnt = 0 and cnt >= digits are boundary cases where C++ shifts are undefined.", "anchors": ["include/bitlib/bit-iterator/bit_details.hpp: _shld, _shrd"]}
{"id": "C31", "title": "Field extract, blend, exchange and compare", "statement": "_bextr(x,s,l) is the l-bit field of x at s; _bitblend(a,b,s,l) takes the l bits at s from b and the rest from a; _bitexch exchanges the selected fields and nothing else; _bitcmp is 1 exactly when the two fields are equal.", "quantifier": "every unsigned word type of 8, 16, 32, 64 or 128 bits; all words, every start and length with start + len <= digits", "why_tests_cant": "All values and all field positions.", "anchors": ["include/bitlib/bit-iterator/bit_details.hpp: _bextr, _bitblend, _bitexch, _bitcmp"]}
{"id": "C32", "title": "bit_vector is a sequence of bits under every history of operations", "statement": "Starting from any constructor, after any finite sequence of push_back, pop_back, insert (three forms), erase (two forms), element writes, clear, shrinking resize, copy assignment and swap-free moves, reading the vector yields exactly the sequence obtained by performing the same operations on an abstract list of bits; size() is its length and returned iterators designate the right index.", "quantifier": "every unsigned word type of 8, 16, 32, 64 or 128 bits; every finite history, every content, lengths below the documented 32-bit/float limits", "why_tests_cant": "Histories are unbounded; the storage (spare words, stale bits beyond size()) depends on the whole history.", "anchors": ["include/bitlib/bit-containers/bit_vector.hpp: push_back, pop_back, insert, erase, clear, resize, operator[], operator="]}
{"id": "C33", "title": "at() throws exactly when out of range", "statement": "at(pos) refers to bit pos if pos < size() and throws std::out_of_range otherwise, in which case nothing changes; it never reads outside storage.", "quantifier": "every unsigned word type of 8, 16, 32, 64 or 128 bits; every reachable vector and every 64-bit pos", "why_tests_cant": "All histories and all positions.", "anchors": ["include/bitlib/bit-containers/bit_vector.hpp: at, operator[], front, back"]}
{"id": "C34", "title": "Growing resize appends zeros", "statement": "resize(count) with count > size() appends value-initialised (zero) bits, as std::vector does.", "quantifier": "every unsigned word type of 8, 16, 32, 64 or 128 bits; every reachable vector and count", "why_tests_cant": "Stale bits in the last partial word depend on history (e.g. pop_back or a ones-filled constructor).", "anchors": ["include/bitlib/bit-containers/bit_vector.hpp: resize(size_type)"]}
{"id": "C35", "title": "resize with a value fills the new bits", "statement": "resize(count,value) with count > size() appends count - size() bits equal to value.", "quantifier": "every unsigned word type of 8, 16, 32, 64 or 128 bits; every reachable vector, count and value", "why_tests_cant": "Tests in the repository do not look at the appended bits.", "anchors": ["include/bitlib/bit-containers/bit_vector.hpp: resize(size_type, const value_type&)"]}
{"id": "C36", "title": "Word count is sufficient for every size", "statement": "The number of words allocated by bit_vector(count), resize, reserve and erase is at least ceil(count/digits) for every size_t count.", "quantifier": "every unsigned word type of 8, 16, 32, 64 or 128 bits; every 64-bit count", "why_tests_cant": "Needs counts of 2^32 and more, whose allocations no unit test performs.", "anchors": ["include/bitlib/bit-containers/bit_vector.hpp: word_count"]}
{"id": "C37", "title": "Bulk insert always makes enough room", "statement": "insert(pos,count,value) and insert(pos,first,last) enlarge the storage whenever size()+count exceeds the capacity in words, so that no write goes past the storage.", "quantifier": "every unsigned word type of 8, 16, 32, 64 or 128 bits; every size and count", "why_tests_cant": "The comparison is made in float; it is exact below 2^24 bits and rounds above.", "anchors": ["include/bitlib/bit-containers/bit_vector.hpp: insert(const_iterator, size_type, const value_type&), insert(const_iterator, iterator, iterator)"]}
{"id": "C38", "title": "String construction and debug_string are inverse", "statement": "bit_vector(s) holds exactly the '0'/'1' characters of s in order, ignoring all others; debug_string() shows the bits in order with separators only, so bit_vector(v.debug_string()) equals v.", "quantifier": "every unsigned word type of 8, 16, 32, 64 or 128 bits; every string, every vector", "why_tests_cant": "All strings, all lengths (separator placement depends on position modulo 8 and digits).", "anchors": ["include/bitlib/bit-containers/bit_vector.hpp: bit_vector(std::string_view), debug_string"]}
{"id": "C39", "title": "Constructors build the requested sequence", "statement": "bit_vector(count), bit_vector(count,b), the bit-iterator range, bool range, word range, initializer-list, copy and move constructors produce the documented sequence; move assignment leaves the source empty.", "quantifier": "every unsigned word type of 8, 16, 32, 64 or 128 bits; every argument below 2^32 bits", "why_tests_cant": "All lengths, contents and alignments of the source range.", "anchors": ["include/bitlib/bit-containers/bit_vector.hpp: bit_vector constructors, range_constructor, operator=(bit_vector&&)"]}
{"id": "C40", "title": "libpopcnt counts the bits of any buffer", "statement": "popcnt(data,size) returns the number of one bits in the size bytes at data and reads nothing outside them, on the x86 paths (scalar, POPCNT, AVX2, AVX512 Harley-Seal), on the ARM NEON path and on the portable path.", "quantifier": "every byte buffer of every length and every alignment of data", "why_tests_cant": "Carry-save-adder trees, block tails and alignment prologues over all lengths, alignments and contents.", "anchors": ["include/bitlib/bit-algorithms/libpopcnt.h: popcount64, popcnt, popcnt_avx2, popcnt_avx512, vpadalq"]}
{"id": "C41", "title": "Padded read", "statement": "_padded_read(first,last,b) for first != last returns a word whose bits inside [first,last) (cut at the end of first's word) are the memory bits and whose other bits are b; it reads only first's word.", "quantifier": "every unsigned word type of 8, 16, 32, 64 or 128 bits; every memory, range and pad value", "why_tests_cant": "Four cases times all positions and contents.", "anchors": ["include/bitlib/bit-algorithms/bit_algorithm_details.hpp: _padded_read"]}
{"id": "C42", "title": "Bit pointers behave like pointers into an array of bits", "statement": "bit_pointer arithmetic (+, -, ++, --, [], difference, comparisons) satisfies the laws C01-C03 although the position is stored as a one-bit mask; &ref yields a pointer p with *p the same bit; a null bit pointer converts to false and every other to true.", "quantifier": "every unsigned word type of 8, 16, 32, 64 or 128 bits; every pointer and every offset that does not overflow ptrdiff_t", "why_tests_cant": "All offsets and positions; position is recovered by counting trailing zeros of the mask.", "anchors": ["include/bitlib/bit-iterator/bit_pointer.hpp", "include/bitlib/bit-iterator/bit_reference.hpp: operator&, position"]}
{"id": "C43", "title": "Stream extraction consumes at most one bit character", "statement": "operator>> on bit_value/bit_reference reads one character: '0'/'1' sets the bit and succeeds; any other character is put back, failbit is set and the bit is unchanged; end of input sets eofbit and failbit; operator<< then operator>> round-trips any bit and any sequence of bits.", "quantifier": "every input stream content and stream state, every bit", "why_tests_cant": "All stream contents/histories.", "anchors": ["include/bitlib/bit-iterator/bit_value.hpp: operator>>, operator<<", "include/bitlib/bit-iterator/bit_reference.hpp: operator>>, operator<<"]}
{"id": "C44", "title": "Algorithms compose", "statement": "After copy, equal on source and destination returns true; rotate by k then by length-k restores the range; shift_left after shift_right by n restores the surviving bits; count of ones is preserved by reverse, rotate and swap_ranges; find(...) == last exactly when count is 0.", "quantifier": "every unsigned word type of 8, 16, 32, 64 or 128 bits (rotate inside a single 128-bit word: C69); every memory and range", "why_tests_cant": "Laws over all inputs; they also cross-check the individual specifications.", "anchors": ["include/bitlib/bit-algorithms/copy.hpp", "include/bitlib/bit-algorithms/equal.hpp", "include/bitlib/bit-algorithms/rotate.hpp", "include/bitlib/bit-algorithms/shift.hpp", "include/bitlib/bit-algorithms/reverse.hpp", "include/bitlib/bit-algorithms/count.hpp", "include/bitlib/bit-algorithms/find.hpp"]}
{"id": "C45", "title": "Word-level shifts used inside the algorithms", "statement": "word_shift_left(first,last,n) / word_shift_right move whole words by n places with the return values of std::shift_left / std::shift_right and do not touch words outside the range.", "quantifier": "every word memory, range and signed n", "why_tests_cant": "Unbounded ranges, overlapping moves.", "anchors": ["include/bitlib/bit-algorithms/bit_algorithm_details.hpp: word_shift_left, word_shift_right"]}
{"id": "C46", "title": "Type selectors", "statement": "_narrowest_type / _widest_type select one of the argument types with the fewest / most digits; _narrower_type<T> is the widest standard unsigned type with fewer digits than T (T if there is none); _wider_type<T> is the narrowest one with more digits than T (T if there is none).", "quantifier": "every non-empty list of standard unsigned types; every standard unsigned type", "why_tests_cant": "The selectors run at compile time and are used only through the carry and multiply primitives, which still give right answers when a selector is wrong; argument lists are unbounded.", "anchors": ["include/bitlib/bit-iterator/bit_details.hpp: _narrowest_type, _widest_type, _narrower_type, _wider_type"]}
{"id": "C47", "title": "get_word into another word type", "statement": "get_word<T>(first,len) returns, for every T and every len up to the digits of T (the default length), a T whose k-th bit, k < len, is the bit k places after first, whatever the word type of the range.", "quantifier": "every unsigned word type of 8, 16, 32, 64 or 128 bits for T and for the range; every memory, iterator and length; assertions on or off", "why_tests_cant": "All pairs of types, positions, lengths and contents; tests use only the word type of the range.", "anchors": ["include/bitlib/bit-algorithms/bit_algorithm_details.hpp: get_word"]}
{"id": "C48", "title": "write_word from a narrower word type", "statement": "write_word(src,it,len) with a source type narrower than the words of the range changes exactly the len bits from it on.", "quantifier": "every unsigned word type of 8, 16, 32, 64 or 128 bits for the range and every narrower source type; every memory, iterator, source and length", "why_tests_cant": "All pairs of types, positions, lengths and contents; tests use only the word type of the range.", "anchors": ["include/bitlib/bit-algorithms/bit_algorithm_details.hpp: write_word"]}
{"id": "C49", "title": "The Highway build does what the plain build does", "statement": "With BITLIB_HWY defined, fill, find, transform with bit_not, shift_left and shift_right have the effects stated in C09, C13, C16, C18 and C19, for every vector length and every byte address of the array.", "quantifier": "every unsigned word type of 8, 16, 32 or 64 bits; every memory, range, vector length and address of the array", "why_tests_cant": "The vector loops are entered only for long ranges and depend on the address modulo 64 and on the machine's vector length; the test build leaves them out by default.", "anchors": ["include/bitlib/bit-algorithms/fill.hpp: fill", "include/bitlib/bit-algorithms/find.hpp: find", "include/bitlib/bit-algorithms/transform.hpp: transform", "include/bitlib/bit-algorithms/shift.hpp: shift_left, shift_right"]}
{"id": "C50", "title": "mask(), constructors for a whole word, and the functions that move an iterator", "statement": "it.mask() has exactly the bit set that it designates, so *it.base() & it.mask() is non-zero exactly when the bit is one; an iterator, reference or pointer made from a word designates its lowest bit; n + it, it += n, advance(it,n) and next(it,n) all designate the bit n places after it.", "quantifier": "every unsigned word type of 8, 16, 32, 64 or 128 bits; every word, position and offset for which position + n fits ptrdiff_t", "why_tests_cant": "All positions, contents and offsets (negative ones round towards the lower word).", "anchors": ["include/bitlib/bit-iterator/bit_iterator.hpp: mask, operator+, operator+=", "include/bitlib/bit-iterator/bit_reference.hpp: bit_reference(word_type&)", "include/bitlib/bit-iterator/bit_pointer.hpp: bit_pointer(word_type*)", "include/bitlib/bit-algorithms/bit_algorithm_details.hpp: advance, next"]}
{"id": "C51", "title": "Programs over several bit_vectors", "statement": "A program that constructs bit_vectors (from strings, fills, ranges and copies of each other), copies, moves and exchanges them (also with themselves, and uses the moved-from ones again), calls their members and calls algorithms on ranges of them - each call meeting the standard's precondition and the restriction that C11, C14, C15, C21-C24, C32, C36-C38 show to be necessary - sees the values, prints the text and ends with the contents that the same program has on lists of booleans; vectors a statement does not name are left alone. In particular the example program of README.md prints what README.md says. Under the shift rules of the language the same holds up to the first statement whose call the rules leave undefined, and that statement executes an undefined shift.", "quantifier": "every unsigned word type of 8, 16, 32, 64 or 128 bits (rotate inside a single 128-bit word: C69); every program of 11 kinds of statements (14 algorithms, 21 member functions), every number of vectors, every content, target and shift rule", "why_tests_cant": "Programs compose without bound; the effect of one call is the input of the next, and a stray write into a neighbouring vector shows only if that vector is looked at later.", "anchors": ["README.md: Usage", "include/bitlib/bit-containers/bit_vector.hpp: bit_vector", "include/bitlib/bit-algorithms/bit_algorithm.hpp"]}
{"id": "C52", "title": "A shift leaves zeros in the elements it vacates", "statement": "After shift_left by n the last n elements of the range, and after shift_right by n the first n, are 0, as in the picture of README.md (the code that would do it is commented out); in any case the range holds afterwards only what follows from its contents before, and both builds leave the same bits.", "quantifier": "every unsigned word type of 8, 16, 32, 64 or 128 bits; every memory, range and 0 < n < length", "why_tests_cant": "All contents and lengths: a test on a range within one word sees zeros, longer ranges keep old elements, and a shift by whole words brings in bits from outside the range.", "anchors": ["README.md: Iterators", "include/bitlib/bit-algorithms/shift.hpp: shift_left, shift_right"]}
{"id": "C53", "title": "Null bit pointers", "statement": "A null bit_pointer converts to false; all null bit_pointers compare equal to each other; none compares equal to a pointer to a bit.", "quantifier": "every unsigned word type of 8, 16, 32, 64 or 128 bits; every pointer to a bit, every null pointer the constructors make", "why_tests_cant": "All addresses and positions; the tests construct no null bit pointer.", "anchors": ["include/bitlib/bit-iterator/bit_pointer.hpp: bit_pointer(), bit_pointer(word_type*), operator bool, operator==, operator!="]}
{"id": "C54", "title": "Rotation through an array on the stack", "statement": "_rotate_via_copy_begin<It, B> and _rotate_via_copy_end<It, B>, whenever their assertion k <= B*digits holds for the k bits carried over, rotate the range like std::rotate, return the new position of the bit at first, and write nothing outside the range and their own array of B words.", "quantifier": "every unsigned word type of 8, 16, 32, 64 or 128 bits; every memory, range, split point (also an empty part), array size and initial array content", "why_tests_cant": "Nothing in the library or its tests instantiates these templates; the failures need a part that starts inside a word and fills the array, or parts of 32768 bits and more.", "anchors": ["include/bitlib/bit-algorithms/rotate.hpp: _rotate_via_copy_begin, _rotate_via_copy_end"]}
{"id": "C55", "title": "Same behaviour as the standard algorithms", "statement": "fill, copy, move, copy_backward, swap_ranges, reverse, rotate, transform, find, count, equal and the shifts (but for the elements they vacate), called on bit iterators, return the value and leave the memory that the standard library's element-by-element algorithm of the same name returns and leaves when it is called with the same iterators.", "quantifier": "every unsigned word type of 8, 16, 32, 64 or 128 bits (rotate inside a single 128-bit word: C69); every memory, range, destination allowed by the standard, value, bitwise function, target and shift rule", "why_tests_cant": "The tests compare the two families on random vectors only; boundary positions, empty ranges and overlaps are not enumerated.", "anchors": ["README.md: Usage", "include/bitlib/bit-algorithms/bit_algorithm.hpp", "include/bitlib/bit-iterator/bit_iterator.hpp: operator*, operator++, operator--, operator!=, operator<", "include/bitlib/bit-iterator/bit_reference.hpp: operator=, operator bool, swap", "test/src/test-copy.cpp", "test/src/test-rotate.cpp"]}
{"id": "C56", "title": "Capacity and iterators kept across calls", "statement": "size() never exceeds capacity(). After reserve(n) there is room for n bits and the bits are unchanged. As long as a history of calls stays within capacity() bits (and does not call shrink_to_fit or move-assign), the storage is not moved, so an iterator begin() + i taken before it reads and writes bit i afterwards. Adding bits one at a time moves the storage only logarithmically often.", "quantifier": "every unsigned word type of 8, 16, 32, 64 or 128 bits; every vector, history, held position and every growth policy a conforming std::vector may have", "why_tests_cant": "Histories are unbounded, the growth policy belongs to the standard library in use, and the failures need 2^28 or 2^32 bits.", "anchors": ["include/bitlib/bit-containers/bit_vector.hpp: reserve, capacity, shrink_to_fit, push_back, insert, erase, resize, operator=", "include/bitlib/bit-containers/bit_vector.hpp: begin, word_count"]}
{"id": "C57", "title": "Calls in several threads", "statement": "Calls of the algorithms and operations on single bits made in several threads at the same time, such that no word holds bits of two of the calls unless neither of them modifies anything: however their reads and writes of words are interleaved, there is no data race, every execution ends with all calls returned, and the answers and the memory are those of making the calls one after the other. It is not enough that the calls are about different bits: if one changes a word that the other uses, there is an execution with a data race, and assignments can be lost.", "quantifier": "every unsigned word type of 8, 16, 32, 64 or 128 bits (rotate inside a single 128-bit word: C69); every number of threads, every interleaving, every memory and range, 14 algorithms and 4 operations on bits", "why_tests_cant": "Interleavings cannot be enumerated by running the code; a lost update needs two threads between the read and the write of the same boundary word.", "anchors": ["include/bitlib/bit-algorithms/bit_algorithm.hpp", "include/bitlib/bit-iterator/bit_reference.hpp: operator=, set, reset, flip, swap", "include/bitlib/bit-algorithms/fill.hpp: fill"]}
{"id": "C58", "title": "Programs written against bit iterators", "statement": "A program that works with bits only through bit iterators, bit references and bit pointers (movement, distance, comparison, dereference, assignment, flip, compound assignment, swap, taking and following addresses), in any order, with any control flow and any number of arrays that may share words, does what the same program does on arrays of booleans: as long as it does nothing that is not allowed there, nothing undefined happens, it returns the same result after the same number of operations or runs on just as long, the bits have the values of the elements and no other bit changes. The word type and the position of the arrays in the words are not visible in the result.", "quantifier": "every unsigned word type of 8, 16, 32, 64 or 128 bits; every program (including ones that do not end), result type, memory, number and position of arrays of at most 2^62 bits, assignment of variables and shift rule", "why_tests_cant": "Generic code is an open-ended set of programs; tests run a few standard algorithms on a few vectors.", "anchors": ["include/bitlib/bit-iterator/bit_iterator.hpp", "include/bitlib/bit-iterator/bit_reference.hpp", "include/bitlib/bit-iterator/bit_pointer.hpp", "README.md: Usage"]}
{"id": "C59", "title": "Failing allocations", "statement": "When the allocator refuses a request for memory (std::bad_alloc, std::length_error), the call of push_back, insert, resize, reserve, shrink_to_fit or copy assignment that made it throws and leaves the vector exactly as it was before the call; a client that catches the exception can go on. A call that fits into capacity() never fails; pop_back, erase, clear, a resize that does not enlarge, move assignment and element access never do.", "quantifier": "every unsigned word type of 8, 16, 32, 64 or 128 bits; every vector, call, history of calls of a client that reacts to exceptions in any way, and every allocator and growth policy", "why_tests_cant": "Which request is refused depends on the machine; tests would have to inject failures at every allocation of every history.", "anchors": ["include/bitlib/bit-containers/bit_vector.hpp: push_back, insert, erase, resize, reserve, shrink_to_fit, clear, operator=, at", "include/bitlib/bit-containers/bit_vector.hpp: word_vector, length_"]}
{"id": "C60", "title": "The words behind a bit vector and the ends of its range", "statement": "For a bit vector that is not empty, data() and data() const return the address at which begin() points; element i is bit i mod digits of the word data()[i / digits], and a word written through data() shows in exactly the elements of that word. begin(), end(), their const versions, cbegin() and cend() designate the same two positions, which are size() apart. For an empty vector the two versions of data() agree. size() never exceeds max_size().", "quantifier": "every unsigned word type of 8, 16, 32, 64 or 128 bits; every vector, element, word index and word value; every max_size() of the word storage", "why_tests_cant": "All contents and sizes; the disagreement needs a vector emptied in a particular way, and max_size() wraps only with allocators the tests do not use.", "anchors": ["include/bitlib/bit-containers/bit_vector.hpp: data, begin, end, cbegin, cend, size, max_size"]}
{"id": "C61", "title": "bit_value is a boolean value type", "statement": "A program over bit_value variables and the bits of an array (default construction, construction and assignment from a bool, from the lowest bit of a word, from a given bit of a word, from a reference and from the constants; bitwise operators and compound assignments on values and references; swap, set, reset, flip; the six comparisons; conversion to bool) prints what the same program prints over variables and arrays of type bool, with false < true, leaves the same values, and changes no other bit. A position outside the word fails the assertion.", "quantifier": "every unsigned word type of 8, 16, 32, 64 or 128 bits; every program, with statements chosen by what was printed, every assignment of variables, memory, array of at most 2^62 bits and shift rule", "why_tests_cant": "Programs and word values are unbounded; tests evaluate single operators on a few values.", "anchors": ["include/bitlib/bit-iterator/bit_value.hpp", "include/bitlib/bit-iterator/bit_reference.hpp: operator=, operator&=, operator|=, operator^=, swap"]}
{"id": "C62", "title": "Word iterators stay inside their arrays", "statement": "For ranges inside arrays of words, no algorithm computes a word iterator that is neither at a word of its array nor right behind the last one, nor takes the address of a word that does not exist: over checked iterators (as in the debug modes of the standard libraries) fill, find, count, equal, copy, move, copy_backward, swap_ranges, transform, shift_left, shift_right, reverse and rotate do the same as over unchecked ones. Where this fails - count of a range that starts inside the last word and ends with the array, copy_backward to the beginning of an array, shift_right, reverse and rotate of ranges that start in the first word of the array, shifts by counts that lead outside - exactly the failing calls are named.", "quantifier": "every unsigned word type of 8, 16, 32, 64 or 128 bits; every array, range, operand, memory, shift rule; shift counts of at most 2^62 in absolute value", "why_tests_cant": "An iterator in front of an array is not observable on common machines; it needs a checking standard library and the particular alignments.", "anchors": ["include/bitlib/bit-algorithms/shift.hpp: shift_left, shift_right", "include/bitlib/bit-algorithms/reverse.hpp: reverse", "include/bitlib/bit-algorithms/rotate.hpp: rotate", "include/bitlib/bit-algorithms/copy_backward.hpp: copy_backward", "include/bitlib/bit-algorithms/count.hpp: count", "include/bitlib/bit-algorithms/bit_algorithm_details.hpp: is_within, word_shift_left, word_shift_right", "include/bitlib/bit-iterator/bit_iterator.hpp: operator+, operator-"]}
{"id": "C63", "title": "Words need not lie one after the other", "statement": "The algorithms give on the words of any random access sequence (a std::deque, an array read backwards) the result they give on an array with the same words: the same value, the same words afterwards, and no word outside the sequence is changed.", "quantifier": "every unsigned word type of 8, 16, 32, 64 or 128 bits; every placement of the words in memory, every call of the algorithms and of the operations on references, every contents", "why_tests_cant": "The tests use std::vector only, whose words are adjacent; whether &*it is used as the start of an array cannot be seen from them.", "anchors": ["include/bitlib/bit-iterator/bit_iterator.hpp: bit_iterator, operator*", "include/bitlib/bit-iterator/bit_details.hpp: _cv_iterator_traits", "include/bitlib/bit-algorithms/count.hpp: count", "include/bitlib/bit-algorithms/fill.hpp: fill"]}
{"id": "C64", "title": "A linear overload calls the first function that accepts the arguments", "statement": "Calling a linear_overload runs exactly one function, the first one in the list that can be called with the given arguments, and yields its result and its effect; if no function can be called with them, the call does nothing. size() and max_size() are the number of functions and empty() tells whether it is zero.", "quantifier": "Every list of function objects with arbitrary sets of accepted arguments, arbitrary effects and results, held by value or by reference; every argument list", "why_tests_cant": "There is no test; which overload is chosen depends on the types of all functions together.", "anchors": ["include/bitlib/bit-iterator/linear_overload.hpp: linear_overload::operator(), overload_linearly"]}
{"id": "C65", "title": "The type traits tell bits and iterator categories", "statement": "is_bit_v holds exactly of bit, bit_value and bit_reference. is_input_iterator_v, is_forward_iterator_v, is_bidirectional_iterator_v and is_random_access_iterator_v hold exactly of the iterators whose category is at least as strong; is_iterator_v holds of all iterators; is_output_iterator_v holds of every iterator that can be written through.", "quantifier": "Every type: the bit types, classes with iterator members of each category, pointers, other types, const types and references", "why_tests_cant": "There is no test of the traits.", "anchors": ["include/bitlib/bit-algorithms/type_traits.hpp: is_bit, is_iterator, is_forward_iterator, is_bidirectional_iterator, is_random_access_iterator, is_input_iterator, is_output_iterator"]}
{"id": "C66", "title": "libpopcnt uses only instructions the machine has", "statement": "On x86, whichever instruction sets the compiler can generate and the program was compiled for, popcnt compiles, its run-time check executes no instruction the processor lacks, and an instruction set is used only if the processor has it and the operating system saves its registers; a build that can use all of them uses all that are there. Whatever is chosen, the count is the same.", "quantifier": "Every combination of compiler macros, every machine (all values of the registers of cpuid and of XCR0, with at least the leaves 0 to 7), every buffer below 2^61 bytes", "why_tests_cant": "The tests run on one machine with one set of compiler flags.", "anchors": ["include/bitlib/bit-algorithms/libpopcnt.h: get_cpuid, get_xcr0, run_cpuid, popcnt"]}
{"id": "C67", "title": "The algorithms read and write a number of words linear in the words of the range", "statement": "However the range lies in its words and whatever they hold, each call makes at most the following number of accesses, T being the number of words that hold bits of the destination (of the first range for find, swap_ranges, shifts, reverse and rotate): fill 2 reads and T writes; find T+1 reads and none behind the word of its answer, no writes; equal 3T reads, and when the ranges differ at some bit 3 reads for each word of the second range up to that of the difference, no writes; copy, move, copy_backward and transform of one range 3T reads and T writes; transform of two ranges 5T reads and T writes; swap_ranges 12T reads and 6T writes; shift_left 2T+12 reads and T+5 writes; shift_right 2T+10 reads and T+5 writes; reverse 4T+16 reads and 3T+7 writes; rotate 60T+20 reads and 30T+10 writes. count reads every byte of the words of its range exactly once, in ascending order, and writes nothing; so does libpopcnt with its buffer. fill, copy, move and transform write every word of their destination exactly once, in ascending order, copy_backward in descending order, and no other word. find reads the words of its range from the first one on in ascending order, all before that of its answer and none behind it, at most the last one twice. In particular none of them works bit by bit on the whole words of its range.", "quantifier": "every unsigned word type of 8, 16, 32, 64 or 128 bits; every range of at most 2^62 bits, every destination, operand, shift count, shift rule, operator and memory (also memory in which the call fails); count on x86 and on ARM with unaligned loads, where the words of the range exist and the range is not empty", "why_tests_cant": "Tests observe results, not accesses; a benchmark measures single sizes and alignments, and rotate's work depends on both parts' lengths.", "anchors": ["include/bitlib/bit-algorithms/fill.hpp: fill", "include/bitlib/bit-algorithms/find.hpp: find", "include/bitlib/bit-algorithms/equal.hpp: equal", "include/bitlib/bit-algorithms/copy.hpp: copy", "include/bitlib/bit-algorithms/move.hpp: move", "include/bitlib/bit-algorithms/copy_backward.hpp: copy_backward", "include/bitlib/bit-algorithms/transform.hpp: transform", "include/bitlib/bit-algorithms/swap_ranges.hpp: swap_ranges", "include/bitlib/bit-algorithms/shift.hpp: shift_left, shift_right", "include/bitlib/bit-algorithms/reverse.hpp: reverse", "include/bitlib/bit-algorithms/rotate.hpp: rotate", "include/bitlib/bit-algorithms/count.hpp: count", "include/bitlib/bit-algorithms/libpopcnt.h: popcnt"]}
{"id": "C68", "title": "Programs that mix iterators, references and the algorithms behave as on arrays of booleans", "statement": "Take any program that moves iterators, pointers and references to bits about, reads and writes single bits, and calls fill, reverse, rotate, the shifts (followed by a fill of what they vacate), copy, move, copy_backward, swap_ranges, both transforms, count, find and equal on ranges and with results it has computed, deciding on what to do next by what it has been told. As long as it only does what is allowed on arrays of booleans, nothing undefined happens, it is told the same, returns the same result after the same number of operations or goes on just as long, leaves the same elements, and changes no other bit. Hence the word type, the machine and the place of the arrays in memory cannot be observed.", "quantifier": "every unsigned word type of 8, 16, 32 or 64 bits; programs of any length, also endless ones; any number of disjoint arrays below 2^32 bits each anywhere in memory; x86 and ARM (unaligned loads) builds; every machine's own shift rule, or the C++20 rules for words below 32 bits", "why_tests_cant": "A test runs one call on fresh data; what a call leaves behind for the next (bits behind the range, iterators returned) shows only in combinations, of which there are infinitely many.", "anchors": ["include/bitlib/bit-iterator/bit_iterator.hpp: bit_iterator", "include/bitlib/bit-iterator/bit_reference.hpp: bit_reference", "include/bitlib/bit-algorithms/fill.hpp: fill", "include/bitlib/bit-algorithms/find.hpp: find", "include/bitlib/bit-algorithms/count.hpp: count", "include/bitlib/bit-algorithms/equal.hpp: equal", "include/bitlib/bit-algorithms/copy.hpp: copy", "include/bitlib/bit-algorithms/move.hpp: move", "include/bitlib/bit-algorithms/copy_backward.hpp: copy_backward", "include/bitlib/bit-algorithms/transform.hpp: transform", "include/bitlib/bit-algorithms/swap_ranges.hpp: swap_ranges", "include/bitlib/bit-algorithms/shift.hpp: shift_left, shift_right", "include/bitlib/bit-algorithms/reverse.hpp: reverse", "include/bitlib/bit-algorithms/rotate.hpp: rotate"]}
{"id": "C69", "title": "rotate works inside words of 128 bits", "statement": "With unsigned __int128 as the word type, rotate on a range inside one word does what C22 says. As this is false (the mask of rotate.hpp:224 has 64 bits), which calls are right: a range that is the whole word, or has fewer than 64 bits and lies in the lower 64; what the others do: with fewer than 64 bits and a start below bit 64 the bits of the range at positions 64 and above are cleared before the rotation, otherwise a shift by 64 or more of a 64-bit value is executed, whose result depends on the machine: no machine is right about a range with bits beyond the lower 64. Ranges over several words, and all other algorithms, behave on 128-bit words as on the others.", "quantifier": "words of 128 bits; every memory, range and first < n_first <= last (n_first < last where C22 is decided)", "why_tests_cant": "The repository tests 8- to 64-bit words only; bits are lost only for ranges across the middle of a word.", "anchors": ["include/bitlib/bit-algorithms/rotate.hpp: rotate", "include/bitlib/bit-iterator/bit_details.hpp: _byteswap, _mulx, _popcnt, _lzcnt, _tzcnt"]}
{"id": "C70", "title": "A constructor builds the vector or leaves nothing behind", "statement": "Every constructor of bit_vector (default, count, count and value, bit iterators, bool range, word range, initializer lists, string, copy, move) either yields exactly the bits asked for, in storage that can hold them, or throws the exception of the allocator that refused it; it asks for storage only if there is something to store. The move constructor, being noexcept, never fails. No constructor asks for more words than the bits need. A program that goes on with the vector so built and survives further refusals sees a std::vector<bool>.", "quantifier": "every unsigned word type of 8, 16, 32, 64 or 128 bits; every source (below 2^32 bits for counts), every allocator, growth policy of std::vector, shift rule and client", "why_tests_cant": "Tests do not make allocations fail and do not look at capacity(); the cost of one word per bit and the termination of the program appear with no assertion to fail.", "anchors": ["include/bitlib/bit-containers/bit_vector.hpp: bit_vector (constructors), range_constructor, push_back"]}
{"id": "C71", "title": "swap_ranges exchanges ranges of different word types", "statement": "swap_ranges, declared for two kinds of iterators, exchanges the bits of two disjoint ranges also when their words have different numbers of digits.", "quantifier": "every pair of word types of 8, 16, 32, 64 or 128 bits; every memory, range and second start", "why_tests_cant": "The tests use the same container type for both ranges; the call compiles and runs off the end of the function without a value to compare.", "anchors": ["include/bitlib/bit-algorithms/swap_ranges.hpp: swap_ranges"]}
{"id": "C72", "title": "reverse and rotate in the Highway build do what they do in the plain build", "statement": "With BITLIB_HWY defined, reverse and rotate, which call the vectorised shift_left and shift_right, have the effects stated in C21 and C22, for every vector length and every byte address of the array: same result, same memory as the plain build.", "quantifier": "every unsigned word type of 8, 16, 32 or 64 bits; every memory, range and middle; every vector length dividing 64 bytes and every address of the array; every machine's shift rule (under the rules of the language: where it is false)", "why_tests_cant": "The vector loops inside reverse and rotate are entered only for long ranges whose rotation leaves a short part, and depend on the address modulo 64 and on the machine's vector length; the test build leaves them out by default.", "anchors": ["include/bitlib/bit-algorithms/reverse.hpp: reverse", "include/bitlib/bit-algorithms/rotate.hpp: rotate", "include/bitlib/bit-algorithms/shift.hpp: shift_left, shift_right"]}
{"id": "C73", "title": "bit_vector in the Highway build does what it does in the plain build", "statement": "With BITLIB_HWY defined, every history of calls on a bit_vector (insert, erase and all other members), with its storage anywhere in memory and moved by every reallocation, is told what std::vector<bool> would tell it and leaves the same elements, and indeed the same words, bits behind the end included, as the plain build.", "quantifier": "every unsigned word type of 8, 16, 32 or 64 bits; every history of legal calls as in C32; every vector length dividing 64 bytes, every address of the storage during each call; every machine's shift rule (under the rules of the language: insertions that look at no address in front of the storage, which are exactly the defined ones)", "why_tests_cant": "Histories are unbounded; the vector loops run only when the moved part is long, and the address of the storage changes with each reallocation.", "anchors": ["include/bitlib/bit-containers/bit_vector.hpp: insert, erase, resize", "include/bitlib/bit-algorithms/shift.hpp: shift_left, shift_right", "include/bitlib/bit-algorithms/fill.hpp: fill"]}
{"id": "C74", "title": "Programs in the Highway build behave as on arrays of booleans", "statement": "The programs of C68, which mix iterators, references, pointers and the algorithms and decide by what they are told, do in a build with BITLIB_HWY what they do on arrays of booleans: same answers, same result after the same number of operations, same elements, no other bit changed. Whether the macro is defined cannot be observed, not even in the words left behind. Under the C++20 rules such a program is undefined exactly if one of its calls looks at the address of a word in front of the array it works on; the others behave as on machines.", "quantifier": "every unsigned word type of 8, 16, 32 or 64 bits (fewer than 32 under the C++20 rules); programs of any length, also endless ones; any number of disjoint arrays below 2^32 bits; every vector length dividing 64 bytes and every byte address of memory; x86 and ARM (unaligned loads); every machine's shift rule; transform with function objects other than std::bit_not (C49)", "why_tests_cant": "The vector loops depend on length, alignment and vector length of every call, and what one call leaves behind is the input of the next; no test runs programs, and the test build has no vectors by default.", "anchors": ["include/bitlib/bit-algorithms/fill.hpp: fill", "include/bitlib/bit-algorithms/find.hpp: find", "include/bitlib/bit-algorithms/shift.hpp: shift_left, shift_right", "include/bitlib/bit-algorithms/reverse.hpp: reverse", "include/bitlib/bit-algorithms/rotate.hpp: rotate", "include/bitlib/bit-iterator/bit_iterator.hpp: bit_iterator", "include/bitlib/bit-iterator/bit_reference.hpp: bit_reference"]}
{"id": "C75", "title": "Programs over several bit_vectors in the Highway build do what they do on lists", "statement": "With BITLIB_HWY defined, a program that constructs, copies, moves and exchanges bit_vectors, calls their members and applies the algorithms to ranges of them, each with its precondition, sees the values and ends with the contents that the same program has on lists of booleans, wherever the storages lie during each statement and whatever the vector length of the machine; the words of the storages, bits behind the last elements included, are those of the plain build. Under the rules of the language a statement is undefined exactly if it looks at the address of a word in front of the storage it works on; a program runs as on lists up to the first such statement.", "quantifier": "every unsigned word type of 8, 16, 32 or 64 bits; every program of statements as in C51, on any number of vectors; every vector length dividing 64 bytes, every address of each storage; x86 and ARM; every machine's shift rule, and both rules of the language", "why_tests_cant": "Which vector loop runs depends on lengths, on addresses that change with every reallocation and on the machine; programs are unbounded, and the test build has no vectors by default.", "anchors": ["include/bitlib/bit-containers/bit_vector.hpp: bit_vector, insert, erase, operator=", "include/bitlib/bit-algorithms/shift.hpp: shift_left, shift_right", "include/bitlib/bit-algorithms/fill.hpp: fill", "include/bitlib/bit-algorithms/find.hpp: find", "include/bitlib/bit-algorithms/reverse.hpp: reverse", "include/bitlib/bit-algorithms/rotate.hpp: rotate"]}
{"id": "C76", "title": "While a call runs every word holds its old or its final value", "statement": "Whoever looks at the memory between two accesses of a running call (another thread, a signal handler, a debugger) finds in every word either the value it had before the call or the value it has after it; so no bit outside the range changes even for a moment, and a call broken off at any point leaves every word as before or as after the call. This holds of fill, copy, move, copy_backward, both transforms and shift_right, also where source and destination overlap. It is false of swap_ranges, shift_left and rotate, which write some words in several steps, and of reverse, which for a while changes even bits that are not in its range; shift_left and swap_ranges, though, change no bit outside their ranges at any moment, nor does rotate for a range in one word or two equal halves of more than a word.", "quantifier": "every unsigned word type of 8, 16, 32, 64 or 128 bits; every range of at most 2^62 bits, destination, operator, shift count, shift rule and memory on which the call returns, and every moment of the call", "why_tests_cant": "A test sees the memory only after the call has returned; the moments between two accesses are not observable from a single thread.", "anchors": ["include/bitlib/bit-algorithms/fill.hpp: fill", "include/bitlib/bit-algorithms/copy.hpp: copy", "include/bitlib/bit-algorithms/move.hpp: move", "include/bitlib/bit-algorithms/copy_backward.hpp: copy_backward", "include/bitlib/bit-algorithms/transform.hpp: transform", "include/bitlib/bit-algorithms/shift.hpp: shift_left, shift_right", "include/bitlib/bit-algorithms/swap_ranges.hpp: swap_ranges", "include/bitlib/bit-algorithms/rotate.hpp: rotate", "include/bitlib/bit-algorithms/reverse.hpp: reverse"]}
