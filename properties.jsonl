{"id": "C01", "title": "UTF-8 encoding round trip", "statement": "For every Unicode scalar value, encoding it as UTF-8 succeeds and produces the byte sequence RFC 3629 prescribes; decoding that sequence, followed by any other bytes, returns exactly that scalar value and consumes exactly the bytes that were produced. Every surrogate and every number above U+10FFFF is refused by the encoder.", "quantifier": "every code point (all 2^32 char32_t values) and every byte string that follows it", "why_tests_cant": "There are over a million scalar values and unboundedly many suffixes; the existing tests sample a handful.", "anchors": ["asteria/src/utils.cpp: utf8_encode, utf8_decode", "asteria/src/library/string.cpp: std_string_utf8_encode, std_string_utf8_decode"]}
{"id": "C02", "title": "UTF-16 encoding round trip", "statement": "For every Unicode scalar value, encoding it as UTF-16 yields one or two 16-bit units; decoding them, followed by any other units, returns the same scalar and consumes exactly those units. Decoding never accepts an unpaired surrogate.", "quantifier": "every code point and every following sequence of 16-bit units", "why_tests_cant": "Surrogate arithmetic is exercised on a few samples only.", "anchors": ["asteria/src/utils.cpp: utf16_encode, utf16_decode"]}
{"id": "C03", "title": "UTF-8 validation decides well-formedness", "statement": "std.string.utf8_validate(text) returns true exactly when the text is well-formed UTF-8 (a concatenation of RFC 3629 encodings of scalar values).", "quantifier": "every byte string of every length", "why_tests_cant": "The set of ill-formed strings is infinite; a test can only try known-bad examples.", "anchors": ["asteria/src/utils.cpp: utf8_decode", "asteria/src/library/string.cpp: std_string_utf8_validate"]}
{"id": "C04", "title": "Negative and out-of-range array subscripts", "statement": "For every array and every 64-bit signed subscript, reading a[i] yields the i-th element from the front when 0 <= i < n, the element n+i when -n <= i < 0, and null otherwise; writing through a[i] stores the value at that position, keeps every pre-existing element reachable in order, pads with exactly as many nulls as are needed (at the end for i >= n, at the front for i < -n), and changes no other element.", "quantifier": "every array, every signed 64-bit index, every value", "why_tests_cant": "Index arithmetic mixes signs and sizes; boundary combinations are unbounded.", "anchors": ["asteria/utils.hpp: Wrapped_Index, wrap_array_index", "asteria/src/runtime/subscript.cpp: do_apply_*"]}
{"id": "C05", "title": "Reference path laws", "statement": "For every root value and every chain of subscripts (array index, object key, head, tail): after writing a value through a reference that opens the chain, reading through the same chain of index/key subscripts yields that value; reads never change the root; removing an element returns the value a read would have returned and a subsequent read of an object key yields null; sibling elements not on the path keep their values.", "quantifier": "every value tree, every subscript chain of every length", "why_tests_cant": "Paths nest arbitrarily and interleave with arrays being extended at either end.", "anchors": ["asteria/src/runtime/reference.cpp: do_dereference_readonly_slow, dereference_mutable, dereference_unset", "asteria/src/runtime/subscript.cpp"]}
{"id": "C06", "title": "Laws of value comparison", "statement": "Comparing two script values yields less, equal, greater or unordered such that: swapping the operands swaps less and greater and keeps equal and unordered; equality is reflexive on values free of NaN, functions, opaques and objects, and transitive; less is irreflexive and transitive; mixed integer/real comparison agrees with the exact mathematical order of the two numbers (no rounding), and arrays compare lexicographically.", "quantifier": "every pair and triple of values of any type and depth", "why_tests_cant": "Transitivity over mixed int/real values near 2^53..2^63 and over nested arrays involves infinitely many triples.", "anchors": ["asteria/src/value.cpp: do_compare_partial_slow, compare_total", "asteria/details/value.ipp"]}
{"id": "C07", "title": "Checked integer arithmetic", "statement": "On integers, unary -, ++, --, abs and binary +, -, *, /, % either return the exact mathematical result (division truncating toward zero, remainder with the sign of the dividend) or throw an exception, and they throw exactly when the exact result (for % the quotient) is not representable in 64 signed bits or the divisor is zero.", "quantifier": "every pair of 64-bit signed integers", "why_tests_cant": "2^128 operand pairs; overflow corner cases (INT64_MIN / -1) are easily missed.", "anchors": ["asteria/src/runtime/air_node.cpp: xop_add, xop_sub, xop_mul, xop_div, xop_mod, xop_neg, xop_inc, xop_dec, xop_abs"]}
{"id": "C08", "title": "Modular and saturating integer arithmetic", "statement": "__addm/__subm/__mulm return the representative of the exact result modulo 2^64 in the signed 64-bit range; __adds/__subs/__muls return the exact result clamped to that range. They never throw on integers.", "quantifier": "every pair of 64-bit signed integers", "why_tests_cant": "2^128 operand pairs.", "anchors": ["asteria/src/runtime/air_node.cpp: xop_addm, xop_subm, xop_mulm, xop_adds, xop_subs, xop_muls", "asteria/rocket/fwd.hpp: addm, subm, mulm"]}
{"id": "C09", "title": "Integer shifts and bit counting", "statement": "For every integer x and every non-negative shift count n of any magnitude: x <<< n keeps the low 64 bits of x*2^n, x >>> n is the unsigned quotient by 2^n, x >> n is floor(x / 2^n), x << n is exactly x*2^n or throws exactly when that is not representable; negative counts throw. __lzcnt, __tzcnt and __popcnt return the number of leading zeros, trailing zeros (64 for zero) and one bits.", "quantifier": "every 64-bit signed value and every 64-bit count", "why_tests_cant": "Counts >= 64 and negative values are separate regimes; the product space cannot be enumerated.", "anchors": ["asteria/src/runtime/air_node.cpp: xop_sll, xop_srl, xop_sla, xop_sra, xop_lzcnt, xop_tzcnt, xop_popcnt"]}
{"id": "C10", "title": "Compound assignment with itself", "statement": "For every integer x and every compound assignment operator, executing `x op= x` leaves in x the value of `x op x` evaluated on the old value of x.", "quantifier": "every integer value and every integer compound operator", "why_tests_cant": "Aliasing of the two operands only shows for particular operators and operand values.", "anchors": ["asteria/src/runtime/air_node.cpp: xop_sll and the other assigning operators", "asteria/src/compiler/infix_element.cpp: extract"]}
{"id": "C11", "title": "Quoted strings read back", "statement": "For every byte string, the double-quoted literal produced by the library's string quoting (used when dumping values) is accepted by the tokenizer as one string literal whose value is exactly the original bytes.", "quantifier": "every byte string of every length", "why_tests_cant": "All 256 byte values in all adjacent combinations (hex escapes followed by digits) matter.", "anchors": ["asteria/src/utils.cpp: c_quote", "asteria/src/compiler/token_stream.cpp: do_accept_string_literal"]}
{"id": "C12", "title": "Integer formatting and parsing round trip", "statement": "For every 64-bit signed integer and each base 2, 10 and 16, the text produced by formatting is accepted entirely by the corresponding number parser and parses to exactly the same integer with no overflow or underflow indication.", "quantifier": "every int64 value and every supported base", "why_tests_cant": "2^64 values; INT64_MIN and digit-count boundaries are special.", "anchors": ["asteria/src/rocket/ascii_numput.cpp: put_BI, put_DI, put_XI", "asteria/src/rocket/ascii_numget.cpp: parse_BI, parse_DI, parse_XI, cast_I", "asteria/src/library/numeric.cpp: std_numeric_format, std_numeric_parse"]}
{"id": "C13", "title": "Hexadecimal codec", "statement": "std.string.hex_decode(std.string.hex_encode(s, d)) == s for every string s and every delimiter d made of whitespace (or absent); hex_decode accepts exactly the texts made of digit pairs with optional whitespace between pairs and returns the denoted bytes, throwing on everything else.", "quantifier": "every byte string and whitespace delimiter; every input text to the decoder", "why_tests_cant": "Unbounded inputs; rejection must hold for every malformed text.", "anchors": ["asteria/src/library/string.cpp: std_string_hex_encode, std_string_hex_decode"]}
{"id": "C14", "title": "Base-32 codec", "statement": "std.string.base32_decode(std.string.base32_encode(s)) == s for every byte string s, the encoded length is 8*ceil(n/5), all output is from the RFC 4648 alphabet with the prescribed padding.", "quantifier": "every byte string of every length", "why_tests_cant": "All five length residues with all byte patterns.", "anchors": ["asteria/src/library/string.cpp: std_string_base32_encode, std_string_base32_decode"]}
{"id": "C15", "title": "Base-64 codec", "statement": "std.string.base64_decode(std.string.base64_encode(s)) == s for every byte string s, the encoded length is 4*ceil(n/3), all output is from the RFC 4648 alphabet with the prescribed padding.", "quantifier": "every byte string of every length", "why_tests_cant": "All three length residues with all byte patterns.", "anchors": ["asteria/src/library/string.cpp: std_string_base64_encode, std_string_base64_decode"]}
{"id": "C16", "title": "URL and query-string codecs", "statement": "std.string.url_decode(std.string.url_encode(s)) == s and std.string.url_query_decode(std.string.url_query_encode(s)) == s for every byte string s; the encoded text consists only of unreserved characters and %XX escapes (plus '+' for query strings).", "quantifier": "every byte string", "why_tests_cant": "All byte values in all contexts.", "anchors": ["asteria/src/library/string.cpp: std_string_url_encode, std_string_url_decode, std_string_url_query_encode, std_string_url_query_decode"]}
{"id": "C17", "title": "Substring search finds the first match", "statement": "std.string.find(text, pattern) returns the smallest offset at which the pattern occurs in the text, and null exactly when it does not occur; std.string.rfind returns the largest such offset; the search never reads outside the text.", "quantifier": "every text and every pattern of every length (including empty ones), every start/length pair", "why_tests_cant": "The implementation is a Boyer-Moore-Horspool variant with word-at-a-time skipping; correctness of skipping depends on the interplay of all bytes.", "anchors": ["asteria/src/library/string.cpp: BMH_Searcher, do_find_opt, std_string_find, std_string_rfind"]}
{"id": "C18", "title": "Replace, explode and implode", "statement": "std.string.replace substitutes every non-overlapping leftmost occurrence of a non-empty pattern and copies all other bytes; std.string.implode(std.string.explode(s, d), d) == s for every string s and every delimiter d.", "quantifier": "every text, pattern, replacement and delimiter", "why_tests_cant": "Unbounded combinations of overlapping occurrences.", "anchors": ["asteria/src/library/string.cpp: std_string_replace, std_string_explode, std_string_implode"]}
{"id": "C19", "title": "Array sorting is a stable sort", "statement": "For every array and every comparator that is a consistent total preorder, std.array.sort returns a permutation of the input, ordered by the comparator, with equal elements in their original order; std.array.usort returns the sorted sequence with exactly one (the first) representative of each equivalence class.", "quantifier": "every array of every length, every total preorder", "why_tests_cant": "Bottom-up merging with odd block sizes; stability over all inputs.", "anchors": ["asteria/src/library/array.cpp: do_merge_blocks, std_array_sort, std_array_usort"]}
{"id": "C20", "title": "Sorting with an arbitrary comparator is safe", "statement": "Whatever ordering results a user-supplied comparator returns (even inconsistent ones, but never unordered), std.array.sort terminates and returns a permutation of its input; if any comparison is unordered or throws, the call throws and the source array is unchanged.", "quantifier": "every array and every comparator function, including non-transitive and stateful ones", "why_tests_cant": "User comparators are arbitrary functions.", "anchors": ["asteria/src/library/array.cpp: do_merge_blocks, std_array_sort"]}
{"id": "C21", "title": "Binary search on sorted arrays", "statement": "On every array sorted by a consistent total preorder and every target: lower_bound returns the number of elements less than the target, upper_bound the number of elements not greater than it, equal_range the subrange of elements equal to it, and binary_search the index of an equal element exactly when one exists.", "quantifier": "every sorted array, target and total preorder", "why_tests_cant": "All lengths and all duplicate patterns.", "anchors": ["asteria/src/library/array.cpp: do_bsearch, do_bound, std_array_binary_search, std_array_lower_bound, std_array_upper_bound, std_array_equal_range"]}
{"id": "C22", "title": "Slicing", "statement": "For strings and arrays and every start index (negative counts from the end) and optional length: slice returns exactly the subsequence of positions p with max(0,start') <= p < min(n, start'+length), where start' is the start index counted from the beginning; replace_slice returns the input with exactly that subsequence replaced; neither ever accesses a position outside the sequence, also when start+length overflows.", "quantifier": "every sequence, every signed 64-bit start and length", "why_tests_cant": "Integer overflow and negative offsets beyond the length give many regimes.", "anchors": ["asteria/src/library/string.cpp: do_slice, std_string_slice, std_string_replace_slice", "asteria/src/library/array.cpp: do_slice, std_array_slice, std_array_replace_slice"]}
{"id": "C23", "title": "Array rotation and shuffling", "statement": "std.array.rotate(data, shift) moves the element at index i to index (i + shift) mod n for every 64-bit shift; std.array.shuffle(data, seed) returns a permutation of the data which is a function of the seed only.", "quantifier": "every array, every shift, every seed", "why_tests_cant": "The in-place rotation works by cyclic block swaps for arbitrary gcds.", "anchors": ["asteria/rocket/fwd.hpp: rotate", "asteria/src/library/array.cpp: std_array_rotate, std_array_shuffle"]}
{"id": "C24", "title": "Bit rotation of m-bit integers", "statement": "For every width 0 <= m <= 64, every shift and every value, rotl and rotr return the m-bit rotation of the low m bits; rotr(m, rotl(m, x, n), n) equals x mod 2^m (as a signed 64-bit representation).", "quantifier": "every width, value and 64-bit shift count", "why_tests_cant": "65 * 2^128 inputs.", "anchors": ["asteria/src/library/numeric.cpp: std_numeric_rotl, std_numeric_rotr"]}
{"id": "C25", "title": "Packing and unpacking binary integers", "statement": "For every list of integers and each of the widths 8, 16, 32, 64 and both byte orders, unpack(pack(xs)) returns each integer reduced to that width and sign-extended (so xs itself when in range), the packed length is the element count times the width, and unpack throws exactly when the length is not a multiple of the width.", "quantifier": "every list of 64-bit integers; every byte string for unpack", "why_tests_cant": "Unbounded lists and values.", "anchors": ["asteria/src/library/numeric.cpp: std_numeric_pack_i8 ... std_numeric_unpack_i64le"]}
{"id": "C26", "title": "Date/time formatting round trip", "statement": "For every timestamp in the supported range and every whole-minute UTC offset, parsing the text produced by formatting (with milliseconds and offset) returns the original timestamp, and the formatted text is the proleptic Gregorian calendar date and time of that instant.", "quantifier": "every millisecond timestamp from 1970 to 9998 and every offset", "why_tests_cant": "2.5*10^14 timestamps; leap year and month-boundary logic.", "anchors": ["asteria/src/library/chrono.cpp: do_format_with_ms, std_chrono_format, std_chrono_parse"]}
{"id": "C27", "title": "CSV round trip", "statement": "std.csv.parse(std.csv.format(rows)) returns the same rows of strings for every array of arrays of strings.", "quantifier": "every table of byte strings", "why_tests_cant": "Cells may contain any mix of commas, quotes, and newlines.", "anchors": ["asteria/src/library/csv.cpp: std_csv_format, std_csv_parse"]}
{"id": "C28", "title": "INI round trip", "statement": "std.ini.parse(std.ini.format(obj)) returns the same object for every object of sections and string values which std.ini.format accepts.", "quantifier": "every configuration object accepted by the formatter", "why_tests_cant": "Values may contain any bytes.", "anchors": ["asteria/src/library/ini.cpp: std_ini_format, std_ini_parse"]}
{"id": "C29", "title": "JSON strings round trip", "statement": "For every string that is well-formed UTF-8, the JSON string literal produced by std.json.format is accepted by std.json.parse and parses to exactly the same string, consuming exactly the literal.", "quantifier": "every well-formed UTF-8 string", "why_tests_cant": "Escapes, control characters and surrogate pairs in all combinations.", "anchors": ["asteria/src/library/json.cpp: do_escape_string_utf16, do_token, do_load_next"]}
{"id": "C30", "title": "JSON parser reads input without memory errors", "statement": "For every byte string given to std.json.parse, reading the next character stores into its internal buffer only bytes that fit.", "quantifier": "every byte string", "why_tests_cant": "Attacker-chosen bytes; only lead bytes 0xFC..0xFF trigger the bad path.", "anchors": ["asteria/src/library/json.cpp: do_load_next"]}
{"id": "C31", "title": "Hash maps behave like finite maps", "statement": "Any sequence of insertions, assignments, lookups and erasures on an object (hash map with linear probing and backward-shift deletion) gives the same results as on a mathematical finite map, for every hash function and growth pattern; iteration visits each key exactly once.", "quantifier": "every operation history, every key set, every hash function", "why_tests_cant": "Probe-chain repair after erase depends on the whole table layout, including wrap-around.", "anchors": ["asteria/rocket/details/cow_hashmap.ipp", "asteria/rocket/xhashtable.hpp", "asteria/src/llds/variable_hashmap.cpp", "asteria/src/llds/reference_dictionary.cpp"]}
{"id": "C32", "title": "Copy-on-write isolation", "statement": "Copies of arrays are independent: for every history of copies and mutations, each variable's observable value equals what it would be if every copy were deep, and storage is released exactly when the last owner goes away, every element is destroyed exactly once and none is read after it was moved or destroyed.", "quantifier": "every history of copy, move, assign, append, insert, erase, pop, write, resize, reserve and destroy operations over any number of vectors, including arguments that alias elements of the vector", "why_tests_cant": "Sharing patterns are unbounded; a missed unshare is only visible for particular histories.", "anchors": ["asteria/rocket/details/cow_vector.ipp", "asteria/rocket/cow_vector.hpp"]}
{"id": "C33", "title": "Garbage collection never frees a reachable variable", "statement": "For every heap of variables and references (with arbitrary cycles) whose reference counts are exact, a collection pass never clears a variable that can be reached from outside the collector.", "quantifier": "every finite object graph and every set of external references", "why_tests_cant": "Trial deletion over arbitrary graphs.", "anchors": ["asteria/src/runtime/garbage_collector.cpp: do_collect_generation"]}
{"id": "C34", "title": "Garbage collection reclaims all unreachable variables", "statement": "For every heap, a collection pass over a generation clears every tracked variable that is not reachable from outside (from any external reference or from a variable tracked elsewhere), moves every other one to the next generation or leaves it in the oldest one, and terminates.", "quantifier": "every finite object graph", "why_tests_cant": "Completeness over arbitrary cyclic graphs.", "anchors": ["asteria/src/runtime/garbage_collector.cpp: do_collect_generation"]}
{"id": "C35", "title": "Memory pool hands out exclusive blocks under concurrency", "statement": "For every number of threads and every interleaving of allocations and deallocations, a block handed out by the allocator is not handed out again before it is freed, has at least the requested size, and no block is lost from the pool accounting.", "quantifier": "every interleaving of atomic steps of any number of threads, every request size", "why_tests_cant": "Lock-free code: failures depend on the schedule.", "anchors": ["asteria/src/rocket/xmemory.cpp: xmemalloc, xmemfree, xmemclean"]}
{"id": "C36", "title": "Sequence repetition", "statement": "s * n and n * s for a string or array s and integer n >= 0 yield s repeated n times; negative n throws; the doubling copy never reads an uninitialised element.", "quantifier": "every sequence and count", "why_tests_cant": "Binary doubling with odd remainders.", "anchors": ["asteria/src/runtime/air_node.cpp: do_duplicate_sequence, xop_mul"]}
{"id": "C37", "title": "Deferred expressions run exactly once, last-in first-out", "statement": "However a scope is left (falling off the end, break, continue, return, exception, with deferred expressions that may throw themselves), each deferred expression registered in it is executed exactly once, in reverse order of registration, before the enclosing scope continues; the propagated exception is the last one thrown.", "quantifier": "every program built from blocks, defers, throws and returns, every nesting depth", "why_tests_cant": "All combinations of exits and throwing deferred expressions.", "anchors": ["asteria/src/runtime/executive_context.cpp: do_on_scope_exit_normal_slow, do_on_scope_exit_exceptional_slow", "asteria/src/runtime/air_node.cpp: do_execute_block"]}
{"id": "C38", "title": "Tail calls are observably ordinary calls and do not nest", "statement": "Replacing an ordinary call in return position by a proper tail call changes neither the result nor the order of effects (including deferred expressions of all elided frames), and any chain of tail calls is executed with bounded native stack depth.", "quantifier": "every chain length and every set of deferred expressions", "why_tests_cant": "Unbounded chains.", "anchors": ["asteria/src/runtime/reference.cpp: do_use_function_result_slow", "asteria/src/runtime/executive_context.cpp"]}
{"id": "C39", "title": "Operator precedence and associativity", "statement": "A sequence of tokens is accepted as an expression exactly when it belongs to a stratified grammar of eleven levels; the instructions emitted are the operands from left to right and each operator after its operands, as the grammar groups them: tighter levels first, equal levels from the left, assignments and ?: from the right; the right operand of &&, ||, ?? and the branches of ?: only inside a branch. The reading is unique and the parser always terminates.", "quantifier": "every sequence of tokens of every length", "why_tests_cant": "Unbounded expressions; the stack reduction rule must be right for all precedence patterns.", "anchors": ["asteria/src/compiler/infix_element.cpp", "asteria/src/compiler/statement_sequence.cpp: do_accept_expression"]}
{"id": "C40", "title": "Streaming FNV-1a hasher", "statement": "For every partition of the input into update calls, and any copying of the hasher object in between, the final checksum equals the one-shot FNV-1a-32 hash of the concatenation, and finishing resets the hasher; mutations of one copy never affect another.", "quantifier": "every byte string, every partition into chunks, every copy history", "why_tests_cant": "Unbounded histories.", "anchors": ["asteria/src/library/checksum.cpp: FNV1a32_Hasher, std_checksum_fnv1a32"]}
{"id": "C41", "title": "Random numbers stay in range", "statement": "For every generator output, std.numeric.random() returns a real in [0,1) (or in the half-open interval between 0 and the limit).", "quantifier": "every 64-bit generator state output", "why_tests_cant": "2^64 outputs; the boundary 1.0 must be excluded.", "anchors": ["asteria/src/library/numeric.cpp: std_numeric_random"]}
{"id": "C42", "title": "Hexadecimal and binary formatting of reals is exact", "statement": "For every finite double, formatting in base 2 or 16 and parsing the text returns a bit-identical double.", "quantifier": "every finite double", "why_tests_cant": "2^64 values incl. subnormals.", "anchors": ["asteria/src/rocket/ascii_numput.cpp: put_BD, put_XD", "asteria/src/rocket/ascii_numget.cpp: parse_BD, parse_XD, cast_D"]}
{"id": "C43", "title": "Correct rounding of binary and hexadecimal literals", "statement": "For every hexadecimal or binary floating-point literal, the parsed double is the correctly rounded (nearest, ties to even) value of the literal.", "quantifier": "every literal of any length and exponent", "why_tests_cant": "Rounding with sticky digits at every exponent including subnormals.", "anchors": ["asteria/src/rocket/ascii_numget.cpp: cast_D"]}
{"id": "C44", "title": "Loop and switch control flow", "statement": "break and continue (plain or targeted at switch/while/for) transfer control to the innermost matching enclosing statement and are never observed outside it; switch executes from the first matching clause on, or from the default clause if none matches, falling through until a break.", "quantifier": "every program of nested loops, switches and blocks", "why_tests_cant": "Unbounded nesting and all combinations of statuses.", "anchors": ["asteria/src/runtime/air_node.cpp: switch_statement, do_while_statement, while_statement, for_statement"]}
{"id": "C45", "title": "Substring search of the shared string type", "statement": "For every text, pattern and starting position, cow_string::find(from, pattern) returns the smallest offset not less than the start at which the pattern occurs, and cow_string::rfind(to, pattern) the largest offset not greater than `to`; npos exactly when there is none; nothing is read outside the text.", "quantifier": "every text, pattern (of every length, including those above 256 bytes) and position", "why_tests_cant": "The hashed offset table is 64 entries of 8 or 64 bits; collisions and lengths near 256 are unbounded families.", "anchors": ["asteria/rocket/cow_string.hpp: find, rfind", "asteria/rocket/details/cow_string.ipp: do_boyer_moore_horspool_search"]}
{"id": "C46", "title": "Byte-set searches, trimming, padding, case and translation", "statement": "find_any_of/find_not_of (and the reverse ones) return the first (last) position in the range whose byte is (is not) in the set, or null; trim, triml and trimr remove exactly the longest margins of bytes of the set; padl and padr add the largest whole number of paddings which does not exceed the length; to_upper and to_lower change ASCII letters only; translate maps or deletes each byte by its first position in the inputs; compare, starts_with and ends_with agree with byte-wise lexicographic order, prefixes and suffixes.", "quantifier": "every string, byte set, range, padding and length", "why_tests_cant": "Sets of bytes, ranges and lengths are unbounded; case conversion is branch-free arithmetic on signed characters.", "anchors": ["asteria/src/library/string.cpp: do_find_of_opt, std_string_trim, std_string_padl, std_string_to_upper, std_string_translate, std_string_compare", "asteria/rocket/xascii.hpp", "asteria/rocket/xstring.hpp"]}
{"id": "C47", "title": "Replacing a part of a shared string", "statement": "For every string, range and replacement, replace/insert/erase (append followed by two rotations of the buffer including its terminator) yields the bytes before the range, the replacement and the bytes after it, followed by a null terminator.", "quantifier": "every string, range and replacement", "why_tests_cant": "Two in-place rotations with unequal block lengths; unbounded sizes.", "anchors": ["asteria/rocket/cow_string.hpp: replace, do_swizzle_unchecked", "asteria/rocket/fwd.hpp: rotate"]}
{"id": "C48", "title": "Copy-on-write strings behave as if copied deeply", "statement": "For every program that creates, copies, moves, assigns, cuts, appends to, pops from, writes into, reserves and destroys any number of strings, each string reads as it would if every copy were deep, followed by a null character; no statement is undefined; a block of storage is kept exactly as long as a string owns it.", "quantifier": "every program over any number of strings, every content of fresh memory", "why_tests_cant": "Sharing patterns are unbounded, and a wrong byte shows only for particular histories.", "anchors": ["asteria/rocket/cow_string.hpp", "asteria/rocket/details/cow_string.ipp"]}
{"id": "C50", "title": "JSON documents round trip", "statement": "For every value, std.json.format (with any indentation of blanks) produces a text which std.json.parse, also when followed by white space, reads as the same value up to the documented losses (integers become reals, strings are repaired to UTF-8, non-finite reals, functions and opaque values become null) if at most 32 non-empty containers are nested, keys stay distinct and no number overflows; otherwise it throws an exception. A value without those losses comes back unchanged.", "quantifier": "every value, every indentation, every conversion of numbers that writes numbers of RFC 8259", "why_tests_cant": "Values nest without bound and both directions are state machines with explicit stacks; the limit of nesting exists only in one direction.", "anchors": ["asteria/src/library/json.cpp: do_print_to, do_format_scalar, do_parse_from, do_token"]}
{"id": "C51", "title": "Longest punctuator, whole names", "statement": "The tokenizer accepts exactly the documented punctuators, and of those the input starts with, the longest. A name extends over all letters, digits and underscores; it is a keyword if and only if it is spelled like one.", "quantifier": "every input text, every documented punctuator and keyword", "why_tests_cant": "Every overlap of sixty punctuators and every text after them matters; tests cover pairs that occur in programs.", "anchors": ["asteria/src/compiler/token_stream.cpp: do_accept_punctuator", "asteria/src/compiler/token_stream.cpp: do_accept_identifier_or_keyword", "asteria/compiler/enums.hpp: Punctuator, Keyword"]}
{"id": "C52", "title": "Laid-out source reads as its tokens", "statement": "A source text made of tokens written as documented, with white space, line comments and block comments between them, is taken apart into exactly those tokens, in order; a sign belongs to a number exactly where no value precedes it.", "quantifier": "every sequence of tokens, every layout in spaces, lines and comments", "why_tests_cant": "The meaning of a character depends on the previous token and on open comments, over texts of any length.", "anchors": ["asteria/src/compiler/token_stream.cpp: reload", "asteria/src/compiler/token_stream.cpp: do_accept_numeric_literal", "asteria/src/compiler/token_stream.cpp: do_may_infix_operators_follow"]}
{"id": "C53", "title": "The tokenizer is total", "statement": "For every source text, reading tokens terminates, and never runs into undefined behaviour.", "quantifier": "every byte string", "why_tests_cant": "The failing texts are malformed in a way the UTF-8 check lets through; samples of well-formed text never show it.", "anchors": ["asteria/src/compiler/token_stream.cpp: reload"]}
{"id": "C54", "title": "Block comments end at the first end mark", "statement": "A block comment extends from its start mark to the first end mark after it; tokens after that are read as usual.", "quantifier": "every comment text and every text after it", "why_tests_cant": "Only comments with further stars go wrong, and the effect is that code after them silently disappears.", "anchors": ["asteria/src/compiler/token_stream.cpp: reload (block comments)"]}
{"id": "C55", "title": "Character classes", "statement": "Each character mask of the table used by the tokenizer and the library contains exactly the characters its name promises.", "quantifier": "every character, every mask", "why_tests_cant": "The classes are spread over a table of 128 hand-written entries.", "anchors": ["asteria/src/utils.cpp: cmask_table", "asteria/utils.hpp: cmask_"]}
{"id": "C56", "title": "String literals stand for the bytes they spell", "statement": "A double-quoted literal is accepted if and only if it consists of ordinary characters and the documented escape sequences, and then its value is the concatenation of what these stand for; between single quotation marks every character stands for itself.", "quantifier": "every input text; both kinds of quotation marks", "why_tests_cant": "Each escape may be followed by anything, code points reach over six digits, and surrogates must be refused.", "anchors": ["asteria/src/compiler/token_stream.cpp: do_accept_string_literal"]}
{"id": "C49", "title": "Compiled expressions compute what the expressions mean", "statement": "For every set of functions whose bodies are expression statements and a return statement, for every environment (variables, names, operators that are not folded, native functions, exceptions), every amount of fuel and both settings of proper tail calls, running the code generated at an optimisation level gives the same result, the same exception and the same world as evaluating the expression units directly, one stack per expression, without constant folding and without the alternative stack. Levels 0 and 1 agree. Arguments passed without 'ref' arrive as temporary values.", "quantifier": "all well-formed expressions of any size, all nestings of branches, calls, variadic calls, imports and catch, all worlds", "why_tests_cant": "The alternative stack is shared by all calls of a function; whether a nested call, a throwing argument or a catch leaves it in order depends on combinations which a suite does not enumerate, and tests run at one optimisation level only.", "anchors": ["asteria/src/compiler/expression_unit.cpp:20-392", "asteria/src/compiler/statement_sequence.cpp:359-373", "asteria/src/compiler/statement.cpp:541-590", "asteria/src/runtime/air_node.cpp:137-168", "asteria/src/runtime/instantiated_function.cpp:49-97", "asteria/runtime/executive_context.hpp:91-116"]}
{"id": "C57", "title": "Operators with a constant operand, and on strings and arrays", "statement": "An operator whose right operand is a constant is compiled to a special form; it gives the same value, throws in the same cases and assigns in the same way as the general form, for every left operand. == null and != null are tests for null. Logical shifts of a string or array keep its length and move its elements; arithmetic shifts append or remove elements at the end; a negative count throws. &, | and ^ of strings work byte by byte, & on the shorter length, | and ^ on the longer one with zeroes for missing bytes.", "quantifier": "all operators that have a special form, all left operands, all 64-bit constants; all strings, arrays and counts", "why_tests_cant": "The special forms repeat some twenty operators for all operand types; a slip in one pair of cases shows only with that operator, that type and an optimising compiler.", "anchors": ["asteria/src/runtime/air_node.cpp:2947-4095", "asteria/src/runtime/air_node.cpp:4907-5895", "asteria/src/compiler/expression_unit.cpp:236-287", "doc/quick-guide.md:793-850"]}
{"id": "C58", "title": "A native function chooses the first overload that takes its arguments", "statement": "For every list of overloads and every list of arguments, reading the overloads one after the other through Argument_Reader chooses the first whose parameters take the arguments from left to right (a required parameter needs a value of its type, integers pass for reals, an optional one also takes null or nothing, leftover arguments are refused unless the overload is variadic, and then they are given in order). An argument that cannot be read makes the call fail only if all earlier ones fit. A saved state resumes as if the beginning had been read again, every overload tried is listed once, and nothing can be read after the end.", "quantifier": "all lists of fewer than 2^32 - 1 parameters, all lists of fewer than 2^32 arguments, all reader states, all functions from references to values", "why_tests_cant": "Overload resolution multiplies the parameter kinds, the argument kinds, missing and null arguments and the order of overloads; the index from the top of the stack is computed in wrapping 32-bit arithmetic. Tests call a few bindings.", "anchors": ["asteria/src/runtime/argument_reader.cpp:15-576", "asteria/runtime/argument_reader.hpp"]}
{"id": "C59", "title": "Rounding of decimal literals", "statement": "A decimal literal, written with any number of digits before and after the point and any exponent, is read as the integer it denotes or as one of the two doubles around its value (infinity above the largest); it is the nearer one unless the value lies within 1/32 of their distance from their mean, and a literal whose value is a double is read as that double.", "quantifier": "every decimal literal and every amount of white space around it", "why_tests_cant": "Wrong roundings happen for about one literal in 10^4, and the range of exponents is served by a table of 652 constants, any of which may be wrong.", "anchors": ["asteria/src/rocket/ascii_numget.cpp: parse_DD, cast_D, decimal_multipliers", "asteria/src/library/numeric.cpp: std_numeric_parse"]}
{"id": "C60", "title": "Decimal formatting of reals", "statement": "std.numeric.format writes every finite real in decimal as a well-formed literal with the real's sign whose value differs from the real by less than half the distance to the next double; the real is therefore the one nearest to what is written unless it is a power of two. Reading the text back gives the same real or one next to it. A literal of at most fifteen digits is read and written as the same number unless it is almost in the middle of two doubles, and a real which has at most fifteen digits is always written exactly and read back. Zeroes and infinities are read back.", "quantifier": "all 2^64 bit patterns, all option combinations for decimal, all literals of at most fifteen digits", "why_tests_cant": "the 633-entry table of rounded powers of ten and the digit search apply to 2^64 reals; errors appear only in rare positions", "anchors": ["asteria/src/rocket/ascii_numput.cpp: put_Dec, do_frexp10_17, decimal_multipliers", "asteria/src/library/numeric.cpp: std_numeric_format"]}
{"id": "C61", "title": "Names mean what lexical scoping says, in closures too", "statement": "A script whose names have been resolved to static depths, whose blocks have been generated in place where possible and whose functions and deferred expressions bind the references around them when they are created, prints, returns and throws what the source says with lexical scoping and shared mutable variables: closures share the variables they capture, each round of a loop and each call has its own, switch clauses see names they jumped over as uninitialised, deferred expressions run in reverse order at the end of their scope. No depth is ever out of range.", "quantifier": "all programs of the modelled subset (variables, references, functions, calls, all statements but assert), all globals, all numbers of calls and rounds", "why_tests_cant": "depths are assigned at compile time and used at run time by different code in four places (generation, rebinding, solidification, execution); only some nestings of functions in loops in switches are ever tested", "anchors": ["asteria/src/compiler/expression_unit.cpp: generate_code of local references", "asteria/src/compiler/statement.cpp: generate_code", "asteria/src/runtime/air_node.cpp: rebind_opt, solidify", "asteria/src/runtime/air_optimizer.cpp: reload, create_function", "asteria/src/runtime/instantiated_function.cpp", "asteria/src/runtime/executive_context.cpp"]}
{"id": "C62", "title": "The collector sees the references that code holds", "statement": "Collecting variables from the code of a function finds every reference bound into that code, each as often as it is bound there, however deeply it is nested in statements, inner functions and deferred expressions; it never finds more than there are, so that no variable in use is taken for garbage.", "quantifier": "all code, all functions made by code generation and any number of bindings", "why_tests_cant": "a collector that misses a reference in one kind of statement leaks cycles only through that statement; one that finds too many frees live variables much later", "anchors": ["asteria/src/runtime/air_node.cpp: collect_variables and the collectors in solidify"]}
{"id": "C63", "title": "Variable_HashMap and Reference_Dictionary are finite maps", "statement": "A program that makes, swaps, clears and destroys any number of Variable_HashMaps or Reference_Dictionaries and inserts, finds, writes, erases, merges and extracts entries of them sees, in every result, finite maps: insert keeps the first value of a key and says whether it was new; erase gives the value that was there and removes only it; merge_into adds exactly the entries with non-null values whose keys are missing; extract_variable takes a non-null value and loses nothing but null pointers, and returns false exactly when no non-null value is left; growing a table loses nothing. The list of occupied buckets is never broken, no null pointer is followed, no assertion fails, storage goes back to the pool that it came from, and std::bad_alloc is thrown only when the buckets would take two gigabytes.", "quantifier": "for all sequences of operations on any number of maps, all keys, values, hash functions and sizes of buckets", "why_tests_cant": "Whether relocation after an erase keeps every colliding key reachable, and every list pointer consistent, depends on the hash values of addresses and on the whole history of the table.", "anchors": ["asteria/src/llds/variable_hashmap.cpp:10-234", "asteria/src/llds/reference_dictionary.cpp:10-199", "asteria/details/variable_hashmap.ipp:10-47", "asteria/rocket/xhashtable.hpp:11-38", "asteria/llds/variable_hashmap.hpp:13-110"]}
{"id": "C64", "title": "Scripts are exactly the grammar of statements; jumps stay inside what they leave", "statement": "For every sequence of tokens: reloading it as a script succeeds exactly when it is a sequence of statements of the documented grammar, and the statements produced are the ones the grammar assigns to it; the grammar is unambiguous (an else or __ifcomplete belongs to the nearest statement that can take it, an opening brace begins a block and not an object, func begins a definition where declarations may stand). Otherwise it is refused; the parser never runs forever. In an accepted script every break and continue is inside a statement it can leave, within the same function, and a switch has at most one default. reload_oneline accepts exactly the expressions.", "quantifier": "all sequences of tokens", "why_tests_cant": "The set of token sequences is infinite and nesting is unbounded; dangling else and jump scopes depend on the context at any depth, and refusals must be shown for every sequence outside the grammar.", "anchors": ["asteria/src/compiler/statement_sequence.cpp:387-1600", "asteria/src/compiler/statement_sequence.cpp:2742-2801"]}
{"id": "C65", "title": "Storage shared by threads is counted exactly, destroyed once and copied on write", "statement": "For any number of threads which copy, assign, exchange, clear, read and change variables (cow_vector, cow_string, cow_hashmap, refcnt_ptr) sharing reference-counted storage, each variable being protected by a lock for one writer or several readers, and for every interleaving: no storage is touched after its destruction; the count is always the number of references; storage is destroyed by exactly one thread, after the last reference is gone, ordered after every access to it; no storage is lost; every variable behaves as a plain value which no operation on another variable changes; and there is no data race.", "quantifier": "all finite schedules of all operations of any number of threads on any number of variables and blocks, with any addresses given by the allocator", "why_tests_cant": "Whether a relaxed load suffices depends on the happens-before relation, which tests on x86 cannot observe; a destruction that comes too early needs one of exponentially many interleavings.", "anchors": ["asteria/rocket/reference_counter.hpp:42-88", "asteria/rocket/details/refcnt_ptr.ipp:84-129", "asteria/rocket/details/cow_vector.ipp:249-273", "asteria/rocket/details/cow_vector.ipp:362-372", "asteria/rocket/details/cow_vector.ipp:512-525", "asteria/rocket/details/cow_vector.ipp:142-158"]}
{"id": "C66", "title": "Configuration files are read exactly as the grammar says", "statement": "std.system.load_conf returns an object if and only if the file is well-formed UTF-8 (a byte order mark may come first) whose text splits into tokens, white space and comments according to a lexical grammar, and the tokens form members whose keys are unique within each object, with values nested in at most 32 brackets; it returns just the members of that derivation, in order, with escape sequences replaced. Numbers without a point are the integer parts of their values and are refused outside 64 bits; numbers with a point are the reals that std.numeric.parse gives and are refused if infinite. The behaviour is defined for every file.", "quantifier": "all files, as sequences of bytes of any length", "why_tests_cant": "The scanner is a hand-written state machine over arbitrary bytes with look-ahead and tables; reading past a table or a buffer shows only for particular last characters or malformed bytes, and goes unnoticed without instrumentation.", "anchors": ["asteria/src/library/system.cpp:475-1086", "asteria/src/utils.cpp: utf8_encode", "rocket/ascii_numget.cpp:1395-1869"]}
{"id": "C67", "title": "std.string.format composes exactly what its template says", "statement": "For every template, all values and every state of the system, std.string.format(templ, ...) returns the concatenation of what the pieces of the template put and throws exactly if the template does not match its grammar ('$$', '$N', '${name}' and other characters); the text of arguments is never looked at for placeholders; every text without null characters has a template that puts it; templates that do not refer to themselves can be joined; '${N}' puts the Nth argument; '${time}' puts the local time and offset; '${errno}' puts the shortest decimal text of errno.", "quantifier": "all templates (byte strings, null characters included), all lists of values, all values of errno, all times in the years 0 to 9999 and offsets up to a day", "why_tests_cant": "Templates, arguments and clock states are unbounded, and whether an argument can smuggle in a placeholder, or a template is read in two ways, is a question about all of them.", "anchors": ["asteria/rocket/tinyfmt.hpp:686-859", "asteria/rocket/details/tinyfmt.ipp:9-81", "asteria/src/library/string.cpp:1650-1671", "asteria/rocket/cow_string.hpp:1168-1178", "asteria/src/rocket/ascii_numput.cpp:1415-1498"]}
{"id": "C68", "title": "A log record is one line and has no control characters that act on a terminal", "statement": "For every message, the record that std.debug.logf, std.debug.dump and fatal errors write to standard error consists of the local time, the place in the source, the message with its control characters replaced by their names, and one line feed, which is the last byte; its only other control characters are tabs and ESC E, so that no message can forge a record or act on a terminal.", "quantifier": "all messages (byte strings), all file and function names, all source lines, all local times in the years 1000 to 9999", "why_tests_cant": "That no message whatsoever can forge a line is a statement about all byte strings; tests try the ones somebody thought of.", "anchors": ["asteria/src/utils.cpp:50-154", "asteria/src/library/debug.cpp:11-33"]}
{"id": "C69", "title": "A value prints as one line from which plain data can be recovered", "statement": "Value::print_to terminates on every value, however deep, and writes exactly the recursively defined text: arrays as '[ a, b ]', objects as '{ \"k\": v }', strings as literals with escapes, integers in decimal; if reals, opaque objects and functions print as visible ASCII then so does the whole value; two different values made of null, booleans, integers, strings, arrays and objects never print alike, and the text of one ends at a place that does not depend on what follows it unless that is a digit.", "quantifier": "all values of any depth and size below 2^63, whatever reals, opaque objects and functions print", "why_tests_cant": "The nesting of values is unbounded and the printer replaces recursion by a stack of iterators; that no two of infinitely many values print alike is out of reach of tests.", "anchors": ["asteria/src/value.cpp:420-536", "asteria/src/utils.cpp:12-46", "asteria/src/utils.cpp:418-461", "asteria/src/rocket/ascii_numput.cpp:1358-1365", "asteria/rocket/tinyfmt.hpp:280-340"]}
{"id": "C70", "title": "A dump of a value is laid out as described and determines plain data", "statement": "Value::dump(indent, hanging) terminates on every value and writes exactly the recursively defined text, with types, sizes, indexes or keys, one line for each element and one for the end of each container that is not empty, indented by hanging + indent * depth spaces, or all in one line if indent is zero; two different values made of null, booleans, integers, strings, arrays and objects are never dumped alike with the same arguments.", "quantifier": "all values of any depth and size below 2^63, all indents and hangings with hanging + indent * depth below 2^64, whatever reals, opaque objects and functions print", "why_tests_cant": "Indentation depends on the depth of the stack at each of four places where lines are broken; values, indents and depths are unbounded.", "anchors": ["asteria/src/value.cpp:13-31", "asteria/src/value.cpp:546-679"]}
{"id": "C71", "title": "std.array.find, rfind, count and exclude test each element of the slice once and in order", "statement": "For every array, slice and target, whether a value or a predicate that keeps state and may throw: find and find_not test the elements of the slice from the first one on and return the position, in the whole array, of the first that matches (or does not), testing none after it; rfind and rfind_not do so from the last one on; count and exclude (and the _not variants) test every element of the slice exactly once in order, even though exclude erases elements during the search, and return the number of matches and the array without them, with everything outside of the slice unchanged; an exception ends the search.", "quantifier": "all arrays of less than 2^63 elements of any type, all 64-bit integers or none for the start and the length, all callbacks with any state", "why_tests_cant": "Callbacks with effects can observe order and number of calls, and the erasing loop keeps iterators over an array that changes; no finite set of callbacks and arrays covers that.", "anchors": ["asteria/src/library/array.cpp:62-84", "asteria/src/library/array.cpp:287-383"]}
{"id": "C72", "title": "std.array.max_of, min_of and generate return what their definitions say", "statement": "For a consistent comparator, max_of and min_of return the first of the greatest or least elements that are not null, or null if there is none; generate calls its generator with 0, 1, 2 and so on and the element before, and returns as many elements as requested unless the generator throws; it throws without calling the generator if the length is negative or exceeds the greatest size of an array.", "quantifier": "all arrays of any elements, all total preorders, all generators with any state, all 64-bit lengths", "why_tests_cant": "Which of several equal elements is returned, and what a generator with effects is given, are statements about all arrays, orders and generators.", "anchors": ["asteria/src/library/array.cpp:529-583", "asteria/rocket/cow_vector.hpp:331-345", "asteria/rocket/details/cow_vector.ipp:329-349"]}
{"id": "C73", "title": "Numbers are rounded to the right integer or not at all", "statement": "std.numeric.round, floor, ceil and trunc (and the operators __round, __floor, __ceil, __trunc) turn a finite real into the real that is the nearest integer, the next lower one, the next higher one or the next one toward zero, halfway cases going away from zero. The result can be held exactly, and its sign bit is that of the argument. NaN and infinities stay as they are. The variants that give integers give exactly that integer if 64 bits can hold it, and throw otherwise. There is exactly one such integer. Integers, and reals that are integral, are left alone. abs gives the absolute value, and throws for the least integer only.", "quantifier": "for all reals that a double can hold, all integers of 64 bits, and all four directions", "why_tests_cant": "The edge cases are halfway values, negative zero, values next to the bounds of 64 bits, and every exponent; tests try a handful of the 2^64 reals.", "anchors": ["asteria/src/library/numeric.cpp:56-247", "asteria/src/utils.cpp:182-198", "asteria/src/runtime/air_node.cpp:2705-2959"]}
{"id": "C74", "title": "The greatest and least argument, and clamping", "statement": "std.numeric.max gives the first of the greatest arguments that are not null, and min the first of the least, if they can all be compared with each other; null if there are none. clamp gives the lower bound if the value is below it, else the upper bound if the value is above it, else the value; if the bounds are in order the result is between them. An exception is thrown if the value cannot be compared with a bound that is looked at.", "quantifier": "for all lists of values that can be compared, and all values and bounds", "why_tests_cant": "Arguments may mix integers, reals, strings and arrays, and the comparison of integers with reals must be exact for the result to be the greatest; orders of arguments multiply the cases.", "anchors": ["asteria/src/library/numeric.cpp:121-151", "asteria/src/value.cpp:332-418", "doc/standard-library.md:1363-1388"]}
{"id": "C75", "title": "Removing a directory tree", "statement": "If nothing at or below a path is protected, std.filesystem.remove_recursive removes the path and everything below it, leaves everything else as it was and in place, and returns how many paths were removed (zero if the path does not exist). Whatever is protected, it terminates, and if it does not throw then everything below the path is gone. Nothing that is not below the path is ever removed, even if it throws part-way.", "quantifier": "for all trees of files and directories, all paths, and all sets of paths that cannot be removed", "why_tests_cant": "The stack of pending entries is processed in an order that depends on the shape of the tree; a directory must be removed after all it contains; trees are unbounded in depth and width, and a mistake destroys data that was not to be touched.", "anchors": ["asteria/src/library/filesystem.cpp:21-32", "asteria/src/library/filesystem.cpp:155-284"]}
{"id": "C76", "title": "Reading, writing and copying files", "statement": "std.filesystem.read returns the bytes from the offset on, no more than the limit, however few bytes each system call transfers; stream passes the same bytes to the callback in non-empty blocks that follow one another, each with its absolute offset, and returns their number. write cuts the file at the offset, or extends it with zeroes up to it, and puts all data there; append puts all data at the end, and is refused if exclusive and the file exists; copy to another path makes a file with the same contents and leaves the original. Other files are unchanged. If a system call fails an exception is thrown, and a prefix of the data has been passed or written. Negative offsets and missing files throw and change nothing. Copying a file onto itself empties it (refuted).", "quantifier": "for all files, offsets, limits, data and buffer sizes, and all sequences of short or failing reads and writes", "why_tests_cant": "Short reads and writes and errors part-way cannot be provoked at will with ordinary files, and the batch size doubles from 2 MiB, so that tests with small files never run a loop twice.", "anchors": ["asteria/src/library/filesystem.cpp:34-52", "asteria/src/library/filesystem.cpp:417-664", "doc/standard-library.md:2047-2100"]}
{"id": "C77", "title": "Standard input and output", "statement": "Lines written with std.io.putln are read back by std.io.getln one by one, after which null is returned. getln returns the characters before the first LF, or up to the end of input, in UTF-8, and null only if there is nothing left; it throws at a read error or a character that is not a Unicode scalar value. putc and putln write the characters of a string in order and return their number (with the LF); if the string is malformed or a write fails they throw, and exactly the characters before that have been written. putc writes an integer if and only if it is a scalar value. read returns the bytes that are there but no more than the limit (clamped to 0 and 2^31-1), leaves the others, and returns null only if nothing was read because of the end of input.", "quantifier": "for all texts, lists of lines, inputs, limits, and positions of read and write errors", "why_tests_cant": "All lists of lines and characters are covered, including errors in the middle of a text; the size of batches depends on what has been read.", "anchors": ["asteria/src/library/io.cpp:72-96", "asteria/src/library/io.cpp:124-220", "asteria/src/library/io.cpp:248-279", "doc/standard-library.md:2698-2777"]}
{"id": "C78", "title": "Random UUIDs", "statement": "std.system.random_uuid returns 36 characters that are a UUID of version 4 and variant 1 according to RFC 4122, in lower case with hyphens in the right places; every such UUID is the result for some random bits; two results are equal if and only if the 122 bits that are used are equal, so that all such UUIDs are equally likely if all bits are.", "quantifier": "for all pairs of 64-bit numbers and all UUIDs", "why_tests_cant": "That every one of 2^122 UUIDs can be produced, and is equally likely, cannot be seen from any number of samples.", "anchors": ["asteria/src/library/system.cpp:100-157", "doc/standard-library.md:368-375"]}
{"id": "C79", "title": "Importing scripts that import each other", "statement": "Importing a file that is being loaded, under whatever name, is refused with an exception; so imports are never nested deeper than there are files, and importing terminates however files import each other. Files end in the reverse order of their beginning. A file that has ended, normally or by an exception, can be imported again, and after an import no file is locked. If flock fails, however, the file stays locked for ever (refuted).", "quantifier": "for all sets of files, contents, and graphs of imports, with exceptions caught or not", "why_tests_cant": "All import graphs are covered, including cycles through several names of one file and exceptions at every depth; a failing flock can hardly be provoked.", "anchors": ["asteria/src/runtime/module_loader.cpp:24-65", "asteria/runtime/module_loader.hpp:41-139", "asteria/src/runtime/air_node.cpp:4478-4531"]}
{"id": "C80", "title": "The stack of references", "statement": "A program that pushes, pops, clears, changes and reads elements from either end gives on a Reference_Stack what it gives on a list, whatever reallocations happen, in release and in debug mode. Every element is constructed once and destroyed once, and none is used outside of its lifetime; undefined behaviour (a failed assertion) happens only if the program asks for an element that is not there. Computing the new capacity does not wrap around, and std::bad_alloc from the limit can happen only in programs with about half as many operations as the limit allows elements.", "quantifier": "for all element types, contents, sizes of elements above one byte, programs of any length, and both build modes", "why_tests_cant": "Growth near the limit takes gigabytes, and a slot that is constructed twice or never destroyed is silent.", "anchors": ["asteria/llds/reference_stack.hpp:11-136", "asteria/src/llds/reference_stack.cpp:10-63", "asteria/src/rocket/xmemory.cpp:25-93"]}
{"id": "C81", "title": "Linear buffers as queues", "statement": "A program that puts, reserves and accepts, takes back, discards, peeks at and gets characters reads from a linear_buffer what it reads from a first-in-first-out queue, whether the contents are moved to the beginning of the storage or to a larger one, in release and in debug mode. It never reads a character that was not written and never leaves the storage. Single characters are given as numbers from 0 to 255, and -1 is given only at the end. length_error can be thrown only if the program asks for more than max_size() characters.", "quantifier": "for all programs of any length, all characters, all limits, and both build modes", "why_tests_cant": "Moving happens only for certain sequences of puts and gets; debug builds, which are what tests run, fill memory and so do other things than release builds.", "anchors": ["asteria/rocket/linear_buffer.hpp:151-386", "asteria/rocket/details/linear_buffer.ipp:86-152"]}
{"id": "C82", "title": "Streams on strings", "statement": "Writing to a tinyfmt_str puts the characters at the offset (in append mode, at the end), fills a gap beyond the end with zeroes and moves the offset behind them; putc is putn of one character. Reading gives as many characters as there are from the offset on, and moves the offset behind them. Seeking gives exactly the offset asked for, and fails exactly if it is negative or not an int64_t. What was written can be read back. That writing keeps what follows is refuted: the rest of the string is lost, even if nothing is written.", "quantifier": "for all strings, offsets, modes, directions, limits and characters", "why_tests_cant": "Offsets near 2^63 and beyond the end, and limits that cannot be allocated, are all covered; the loss of the rest is seen only by tests that overwrite in the middle.", "anchors": ["asteria/rocket/tinyfmt_str.hpp:208-378", "asteria/rocket/cow_string.hpp:485-491"]}
{"id": "C83", "title": "The guard against stack overflow", "statement": "Copying a Recursion_Sentry succeeds if the copy is less than 1 MiB away from the base address, in either direction, and fails if it is further away. So if every call takes at least f bytes of stack, calls that pass the sentry on are nested less than 1 MiB / f deep, and recursion that takes less than 1 MiB is never refused.", "quantifier": "for all addresses, frame sizes and chains of calls", "why_tests_cant": "Addresses cannot be chosen in tests; the comparison of two shifts must be right for all differences.", "anchors": ["asteria/recursion_sentry.hpp:10-82", "asteria/src/recursion_sentry.cpp:9-17"]}
{"id": "C84", "title": "Backtraces of runtime errors", "statement": "The frames of a Runtime_Error are in the order in which they were pushed, except that the frames of the error that was being handled when it was thrown come right after its first catch or defer frame, or last if it has none. The message lists every frame on its own line, numbered from 1 on, with numbers aligned to the right in a column as wide as the number of frames, and with values of more than 80 characters cut to 60 and the number of characters left out; the column's buffer is never overrun.", "quantifier": "for all errors, nested errors and sequences of frames", "why_tests_cant": "The column reuses one buffer for all lines, so it is right only because numbers never get shorter; the order depends on every interleaving of handlers and frames.", "anchors": ["asteria/src/runtime/runtime_error.cpp:14-79", "asteria/runtime/runtime_error.hpp:26-130"]}
