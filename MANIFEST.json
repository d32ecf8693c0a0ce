{
 "claims": [
  {
   "property": "C01",
   "status": "proved",
   "theorems": [
    "C01_permissive_decode_total",
    "C01_string_encode_rejects",
    "C01_string_roundtrip",
    "C01_utf8_encode",
    "C01_utf8_roundtrip"
   ],
   "note": ""
  },
  {
   "property": "C02",
   "status": "proved",
   "theorems": [
    "C02_utf16_decode_strict",
    "C02_utf16_encode",
    "C02_utf16_roundtrip",
    "C02_utf16_validate"
   ],
   "note": ""
  },
  {
   "property": "C03",
   "status": "partial",
   "theorems": [
    "C03_validate_accepts_exactly_loose",
    "C03_validate_accepts_wf_partial",
    "C03_validate_refuted",
    "C03_validate_terminates"
   ],
   "note": "False as stated: utf8_validate accepts \"\\xC3\\x28\" (C03_validate_refuted). Proved: every well-formed text is accepted, the validator terminates, and the exact accepted language."
  },
  {
   "property": "C04",
   "status": "partial",
   "theorems": [
    "C04_read_partial",
    "C04_read_refuted",
    "C04_write_partial",
    "C04_write_refuted"
   ],
   "note": "Refuted for the empty array with subscript INT64_MAX or INT64_MIN, where Wrapped_Index overflows a signed integer; proved for every other array and subscript."
  },
  {
   "property": "C05",
   "status": "proved",
   "theorems": [
    "C05_copy",
    "C05_read_after_write",
    "C05_siblings",
    "C05_unset_index",
    "C05_unset_key_is_null",
    "C05_unset_returns_read",
    "C05_unset_throws_unchanged",
    "C05_write_defined"
   ],
   "note": "Objects are association lists with distinct keys (hash tables are C31). Whether a vector can grow is an arbitrary function `room`. Sibling preservation is stated for chains that agree on index and key subscripts and then differ in keys, or in indices of the same sign."
  },
  {
   "property": "C06",
   "status": "proved",
   "theorems": [
    "C06_compare",
    "C06_equal_transitive",
    "C06_exact_numbers",
    "C06_less_irreflexive",
    "C06_less_transitive",
    "C06_reflexive",
    "C06_swap",
    "C06_total"
   ],
   "note": "Doubles are sign/mantissa/exponent triples and the rounding mode set around the conversions is taken to be in force (FE_DOWNWARD). The explicit stack of compare_partial is modelled; its length is bounded only by memory."
  },
  {
   "property": "C07",
   "status": "proved",
   "theorems": [
    "C07_abs",
    "C07_add",
    "C07_dec",
    "C07_div",
    "C07_div_zero",
    "C07_inc",
    "C07_mod",
    "C07_mul",
    "C07_neg",
    "C07_sub"
   ],
   "note": "Integer branches of the operators; messages of the exceptions are not modelled."
  },
  {
   "property": "C08",
   "status": "proved",
   "theorems": [
    "C08_addm",
    "C08_adds",
    "C08_mulm",
    "C08_muls",
    "C08_subm",
    "C08_subs"
   ],
   "note": "Integer operands only, as the code requires."
  },
  {
   "property": "C09",
   "status": "proved",
   "theorems": [
    "C09_lzcnt",
    "C09_popcnt",
    "C09_sla",
    "C09_sll",
    "C09_sra",
    "C09_srl",
    "C09_tzcnt"
   ],
   "note": "Integer operands only; shifts of strings and arrays are not modelled."
  },
  {
   "property": "C10",
   "status": "partial",
   "theorems": [
    "C10_self_assign_partial",
    "C10_self_assign_refuted"
   ],
   "note": "False for <<<= (C10_self_assign_refuted: x=1 gives 4 instead of 2); proved for every other integer compound operator."
  },
  {
   "property": "C11",
   "status": "proved",
   "theorems": [
    "C11_injective",
    "C11_literal",
    "C11_printable",
    "C11_source"
   ],
   "note": "Also as a whole source text; the literal is printable ASCII and quoting is injective."
  },
  {
   "property": "C12",
   "status": "proved",
   "theorems": [
    "C12_format",
    "C12_language",
    "C12_parse_complete",
    "C12_parse_refuted",
    "C12_parse_sound",
    "C12_put",
    "C12_put_get",
    "C12_put_refuted",
    "C12_rejects",
    "C12_roundtrip"
   ],
   "note": "Also the exact text, the exact set of literals read as integers (C12_parse_sound, C12_parse_complete), and two findings: hexadecimal literals with more than 64 bits of significand may be read as a real of another value (C12_parse_refuted), and 64 binary digits with zero padding write before the buffer (C12_put_refuted; no caller asks for 64). Texts of 2^60 bytes and exponents of 10^18 and more are excluded, where signed arithmetic overflows (C43_exponent_refuted)."
  },
  {
   "property": "C13",
   "status": "proved",
   "theorems": [
    "C13_hex_decode_exact",
    "C13_hex_decode_total",
    "C13_hex_encode",
    "C13_hex_roundtrip"
   ],
   "note": ""
  },
  {
   "property": "C14",
   "status": "proved",
   "theorems": [
    "C14_base32_decode_exact",
    "C14_base32_decode_total",
    "C14_base32_encode",
    "C14_base32_length",
    "C14_base32_roundtrip"
   ],
   "note": "Also the exact language of the decoder."
  },
  {
   "property": "C15",
   "status": "proved",
   "theorems": [
    "C15_base64_decode_exact",
    "C15_base64_decode_total",
    "C15_base64_encode",
    "C15_base64_length",
    "C15_base64_roundtrip"
   ],
   "note": "Also the exact language of the decoder."
  },
  {
   "property": "C16",
   "status": "proved",
   "theorems": [
    "C16_decode_total",
    "C16_url_decode_exact",
    "C16_url_encode",
    "C16_url_query_decode_exact",
    "C16_url_query_encode",
    "C16_url_query_roundtrip",
    "C16_url_roundtrip"
   ],
   "note": "Also the exact language of the decoders."
  },
  {
   "property": "C17",
   "status": "proved",
   "theorems": [
    "C17_find",
    "C17_rfind"
   ],
   "note": "The ranges are those of C22. Byte order of the eight-byte loads is taken as little-endian."
  },
  {
   "property": "C18",
   "status": "proved",
   "theorems": [
    "C18_explode_segments",
    "C18_implode",
    "C18_implode_explode",
    "C18_replace",
    "C18_replace_empty_pattern",
    "C18_replace_unique"
   ],
   "note": "Segments given to implode are strings."
  },
  {
   "property": "C19",
   "status": "proved",
   "theorems": [
    "C19_is_sorted",
    "C19_ksort",
    "C19_sort_stable",
    "C19_usort_first"
   ],
   "note": "Also ksort and is_sorted. Elements are an arbitrary type; value comparison itself is C06."
  },
  {
   "property": "C20",
   "status": "proved",
   "theorems": [
    "C20_search_in_range",
    "C20_sort_permutes",
    "C20_throws_iff",
    "C20_usort_selects"
   ],
   "note": "The source array is passed by value; sharing of storage is C32."
  },
  {
   "property": "C21",
   "status": "proved",
   "theorems": [
    "C21_binary_search",
    "C21_equal_range",
    "C21_lower_bound",
    "C21_upper_bound"
   ],
   "note": ""
  },
  {
   "property": "C22",
   "status": "proved",
   "theorems": [
    "C22_replace_slice",
    "C22_slice"
   ],
   "note": "cow_string::replace is modelled as a list operation; cow_vector::erase/insert are built on the modelled rotation."
  },
  {
   "property": "C23",
   "status": "proved",
   "theorems": [
    "C23_rotate",
    "C23_shuffle"
   ],
   "note": "Without a seed the initial state comes from the global generator, an argument of the model."
  },
  {
   "property": "C24",
   "status": "proved",
   "theorems": [
    "C24_inverse",
    "C24_rotl",
    "C24_rotr",
    "C24_width_checked"
   ],
   "note": ""
  },
  {
   "property": "C25",
   "status": "proved",
   "theorems": [
    "C25_concat",
    "C25_layout",
    "C25_length",
    "C25_unpack_pack",
    "C25_unpack_total"
   ],
   "note": "Integers of 8 to 64 bits; the floating-point packers are not modelled."
  },
  {
   "property": "C26",
   "status": "proved",
   "theorems": [
    "C26_calendar",
    "C26_defined_refuted",
    "C26_format",
    "C26_format_limits",
    "C26_format_throws",
    "C26_local",
    "C26_local_refuted",
    "C26_moment",
    "C26_overrun",
    "C26_parse",
    "C26_round_trip",
    "C26_round_trip_limits"
   ],
   "note": "gmtime_r and timegm are assumed to compute the Gregorian calendar; local time and other C library answers are arbitrary. Also the exact language of the parser, and two refutations: reading past the end, and local offsets with seconds."
  },
  {
   "property": "C27",
   "status": "partial",
   "theorems": [
    "C27_defined",
    "C27_empty_refuted",
    "C27_lines_refuted",
    "C27_round_trip_partial",
    "C27_rows_refuted"
   ],
   "note": "Refuted as stated: a row ending in a quoted cell makes a quotation mark at the start of the next row ordinary text; empty lines and CR LF within a cell are lost; a row with one empty cell comes back empty. Proved: exactly which tables come back (an equivalence), and that the parser has no undefined behaviour for any text."
  },
  {
   "property": "C28",
   "status": "partial",
   "theorems": [
    "C28_collision_refuted",
    "C28_newline_refuted",
    "C28_round_trip_partial",
    "C28_undefined_partial"
   ],
   "note": "Refuted as stated for keys or values with a line feed and for a byte order mark at the start of the first key; proved that exactly the other accepted objects of strings and sections come back, and exactly which texts make the parser violate its assertion (a section named like a string at the root)."
  },
  {
   "property": "C29",
   "status": "proved",
   "theorems": [
    "C29_any_string",
    "C29_literal",
    "C29_string"
   ],
   "note": "Every string of bytes: well-formed UTF-8 comes back exactly, anything else repaired to U+FFFD; the literal is one token and what follows is left unread."
  },
  {
   "property": "C30",
   "status": "partial",
   "theorems": [
    "C30_defined_partial",
    "C30_load_partial",
    "C30_overrun_refuted",
    "C30_shift_refuted",
    "C30_terminates"
   ],
   "note": "False as stated: C30_overrun_refuted (0xFC and five bytes overflow char tbytes[4]) and C30_shift_refuted (0xFF shifts by -1). C30_load_partial says exactly when do_load_next is undefined; without bytes from 0xFC on the parser is defined; it always terminates."
  },
  {
   "property": "C31",
   "status": "proved",
   "theorems": [
    "C31_insert_unknown_refuted",
    "C31_maps",
    "C31_reserve",
    "C31_step"
   ],
   "note": "For every key type with decidable equality, every hash function, every history of operations over any number of maps sharing storage: maps behave as finite maps with deep copies, no operation is undefined, blocks are released exactly. Also C31_insert_unknown_refuted: inserting a range with iterators that do not tell their distance (never done by the interpreter) loses elements. One thread; copies, moves, hashing and comparison do not throw. Variable_HashMap and Reference_Dictionary, which repeat the algorithm, are not modelled."
  },
  {
   "property": "C32",
   "status": "proved",
   "theorems": [
    "C32_step",
    "C32_vectors"
   ],
   "note": "For every history of operations over any number of vectors of any element type: vectors behave as with deep copies, no operation is undefined (arguments may be elements of the vector itself), blocks and elements are released exactly. One thread; reference counts do not overflow; element copies and moves do not throw. Move assignment exchanges contents, which the specification states."
  },
  {
   "property": "C33",
   "status": "partial",
   "theorems": [
    "C33_assert_refuted",
    "C33_safe_partial",
    "C33_shared_refuted",
    "C33_temporary_refuted"
   ],
   "note": "False: a variable is cleared although it can be reached when a function that captures it is shared between a variable that looks unreachable and a variable of an older generation (C33_shared_refuted) or a temporary value (C33_temporary_refuted); an assertion fails when a variable is held by no collector map (C33_assert_refuted). Proved when no reference is shared in that way. One pass over one generation; the cascade of releases when values are destroyed is not modelled."
  },
  {
   "property": "C34",
   "status": "proved",
   "theorems": [
    "C34_complete",
    "C34_exact"
   ],
   "note": "A pass over one generation clears exactly the variables that are not held from elsewhere, promotes the others, terminates and violates no assertion, for every memory with exact reference counts and every order of the hash maps."
  },
  {
   "property": "C35",
   "status": "partial",
   "theorems": [
    "C35_exclusive_partial",
    "C35_no_leak_partial",
    "C35_race_free_partial",
    "C35_safe_partial",
    "C35_size_refuted"
   ],
   "note": "For every number of threads and every schedule whose requests are of at most 2^63 bytes (or overflow and throw). Refuted for requests between 2^63 and 2^64 bytes, which pass the check for overflow and then shift 1 by 64. Atomic operations are sequentially consistent in the model."
  },
  {
   "property": "C36",
   "status": "proved",
   "theorems": [
    "C36_duplicate"
   ],
   "note": "Memory exhaustion is not modelled."
  },
  {
   "property": "C37",
   "status": "proved",
   "theorems": [
    "C37_deferred"
   ],
   "note": "With proper tail calls disabled; with them enabled see C38. Worlds, references and expressions are abstract; deferred expressions are arbitrary expressions that may call, throw and defer again."
  },
  {
   "property": "C38",
   "status": "partial",
   "theorems": [
    "C38_depth",
    "C38_depth_throw",
    "C38_order_refuted",
    "C38_same_partial",
    "C38_value_refuted",
    "C38_void_refuted"
   ],
   "note": "Refuted as stated by three programs (order of deferred expressions of nested scopes; a discarded value is returned; a reference is returned where a value should be). Proved for programs whose tail calls are all by value, or all discarded, and in which no scope with deferred expressions encloses another one: what tail calls compute is what ordinary calls compute. The converse (that a program which terminates with ordinary calls also does with tail calls) is missing. The bound on the native depth is proved for every program whose calls are all tail calls outside try blocks."
  },
  {
   "property": "C39",
   "status": "proved",
   "theorems": [
    "C39_complete",
    "C39_exact",
    "C39_group_left",
    "C39_group_right",
    "C39_sound",
    "C39_total",
    "C39_unambiguous"
   ],
   "note": "do_accept_expression and everything below it, on sequences of tokens: sound and complete against a grammar with eleven levels, terminating, unambiguous. Closure expressions (func, [](){...}) are single opaque tokens; scope limits on recursion depth are not modelled."
  },
  {
   "property": "C40",
   "status": "proved",
   "theorems": [
    "C40_digest_text",
    "C40_file",
    "C40_history",
    "C40_history_any",
    "C40_oneshot"
   ],
   "note": "FNV-1a is modelled bit by bit. For CRC-32, Adler-32, MD5 and SHA the functions of zlib and OpenSSL are arbitrary functions that take bytes chunk by chunk; everything around them is proved."
  },
  {
   "property": "C41",
   "status": "partial",
   "theorems": [
    "C41_limit_partial",
    "C41_limit_refuted",
    "C41_rejects",
    "C41_rounding",
    "C41_uniform",
    "C41_unit"
   ],
   "note": "False for limits of magnitude at most 2^-1022, where the product may round to the limit itself (C41_limit_refuted); proved for every other limit and without one, and that all multiples of 2^-53 are equally likely. Generator outputs are arbitrary 32-bit numbers (ISAAC itself is not modelled); IEEE 754 conversion and multiplication are modelled as rounding to nearest, which is proved to be the nearest."
  },
  {
   "property": "C42",
   "status": "proved",
   "theorems": [
    "C42_nan",
    "C42_rejects",
    "C42_roundtrip",
    "C42_text"
   ],
   "note": "As the property says for the readers of reals. numeric.parse returns an integer of the same value if the text has no point, so -0.0 comes back as the integer 0. Infinities and NaNs are covered; the payload of a NaN is not kept."
  },
  {
   "property": "C43",
   "status": "partial",
   "theorems": [
    "C43_exponent_refuted",
    "C43_nearest_partial",
    "C43_nearest_refuted",
    "C43_special"
   ],
   "note": "False for values above 2^-1075 by less than one part in 2^60, which are rounded to zero instead of the least positive double (C43_nearest_refuted); proved for every other literal with an exponent below 10^18 and a text shorter than 2^60 bytes. Larger exponents overflow a signed integer (C43_exponent_refuted)."
  },
  {
   "property": "C44",
   "status": "proved",
   "theorems": [
    "C44_complete",
    "C44_contained",
    "C44_deterministic",
    "C44_sound"
   ],
   "note": "Soundness and completeness of the generated code against a big-step semantics; for the machine without proper tail calls (see C38)."
  },
  {
   "property": "C45",
   "status": "partial",
   "theorems": [
    "C45_find_from_partial",
    "C45_find_from_refuted",
    "C45_find_from_start",
    "C45_rfind"
   ],
   "note": "find(from, pattern) with from > 0 returns the offset relative to `from` (C45_find_from_refuted); proved for from = 0, for rfind, and up to that shift for every from."
  },
  {
   "property": "C46",
   "status": "proved",
   "theorems": [
    "C46_compare",
    "C46_ends_with",
    "C46_find_of",
    "C46_pad",
    "C46_rfind_of",
    "C46_starts_with",
    "C46_to_lower",
    "C46_to_upper",
    "C46_translate",
    "C46_trim",
    "C46_triml",
    "C46_trimr"
   ],
   "note": "reserve() throws above an arbitrary maximum size; memory exhaustion is not modelled."
  },
  {
   "property": "C47",
   "status": "proved",
   "theorems": [
    "C47_replace"
   ],
   "note": "The string owns its storage; sharing is C32."
  },
  {
   "property": "C48",
   "status": "partial",
   "theorems": [
    "C48_append_overflow_refuted",
    "C48_step_partial",
    "C48_strings_partial",
    "C48_strings_refuted",
    "C48_tame_step_partial",
    "C48_tame_strings_partial"
   ],
   "note": "Refuted in general: append() and pop_back() use the start of the owned block even when the string begins elsewhere (after substr() of a tail, or after assigning a literal), which yields wrong text (C48_strings_refuted) or writes outside the block (C48_append_overflow_refuted). Proved for all programs that append to and pop from strings at the start of their block, and for all programs without those two statements. One thread; reference counts do not overflow."
  },
  {
   "property": "C50",
   "status": "proved",
   "theorems": [
    "C50_depth_refuted",
    "C50_identity",
    "C50_round_trip",
    "C50_trailing"
   ],
   "note": "The conversion of numbers (put_DD, parse_DD, cast_D) is an argument of the model, of which only the grammar of its output is assumed. C50_depth_refuted: a value nested 33 deep is written but not read back."
  },
  {
   "property": "C51",
   "status": "proved",
   "theorems": [
    "C51_longest",
    "C51_name",
    "C51_no_name",
    "C51_none"
   ],
   "note": "Both directions; the spelling is taken from the comments in enums.hpp."
  },
  {
   "property": "C52",
   "status": "proved",
   "theorems": [
    "C52_bom",
    "C52_conflict",
    "C52_shebang",
    "C52_text"
   ],
   "note": "Conversion of digits to a number is a parameter."
  },
  {
   "property": "C53",
   "status": "partial",
   "theorems": [
    "C53_checked",
    "C53_terminates",
    "C53_validated_refuted",
    "C53_well_formed"
   ],
   "note": "Terminates on every text; defined on every well-formed UTF-8 text. Refuted for texts that merely pass the check for UTF-8."
  },
  {
   "property": "C54",
   "status": "partial",
   "theorems": [
    "C54_first_end_refuted",
    "C54_first_star_partial",
    "C54_opens_partial"
   ],
   "note": "Refuted: only the first star on each line is looked at. The exact rule is proved."
  },
  {
   "property": "C55",
   "status": "partial",
   "theorems": [
    "C55_blank_refuted",
    "C55_classes",
    "C55_control_refuted"
   ],
   "note": "space, alpha, digit, xdigit, namei, name proved; blank and cntrl refuted."
  },
  {
   "property": "C56",
   "status": "proved",
   "theorems": [
    "C56_literal",
    "C56_raw",
    "C56_unique"
   ],
   "note": "Both directions; the value is unique."
  },
  {
   "property": "C49",
   "status": "partial",
   "theorems": [
    "C49_by_value_partial",
    "C49_by_value_refuted",
    "C49_catch_refuted",
    "C49_functions_partial",
    "C49_level2_refuted",
    "C49_optimised_partial",
    "C49_unoptimised"
   ],
   "note": "Proved for all bodies at level 0, and at the other levels for bodies in which no catch contains a call on the alternative stack; the rest is refuted (C49_catch_refuted: after catch(f(1/0)) the function returns a wrong reference). Level 2 leaves out the checks of arguments (C49_level2_refuted). By-value arguments are temporaries if they end in a name or a call; f(a[0]) passes a reference at every level (C49_by_value_refuted). Other statements than expressions and return are in C44."
  },
  {
   "property": "C57",
   "status": "proved",
   "theorems": [
    "C57_bitwise",
    "C57_booleans",
    "C57_complement",
    "C57_constant",
    "C57_folded",
    "C57_inverse",
    "C57_lengthen",
    "C57_negative",
    "C57_null",
    "C57_shift_left",
    "C57_shift_right",
    "C57_shorten",
    "C57_string_complement",
    "C57_sum",
    "C57_xor_back"
   ],
   "note": "Real arithmetic is an arbitrary function. Limits of memory and of the length of a sequence are not modelled."
  },
  {
   "property": "C58",
   "status": "proved",
   "theorems": [
    "C58_ended",
    "C58_load",
    "C58_overload",
    "C58_resolve",
    "C58_save",
    "C58_variadic",
    "C58_variadic_values"
   ],
   "note": "References are elements of any type with a partial function to values."
  },
  {
   "property": "C59",
   "status": "partial",
   "theorems": [
    "C59_close_partial",
    "C59_exact",
    "C59_nearest_refuted",
    "C59_reader_partial"
   ],
   "note": "Correct rounding, which the reader does not have, is missing (C59_nearest_refuted: 0.71381); proved is that a wrong rounding happens only next to the mean of two doubles."
  },
  {
   "property": "C60",
   "status": "partial",
   "theorems": [
    "C60_again_partial",
    "C60_again_refuted",
    "C60_exact",
    "C60_nearest_partial",
    "C60_power_refuted",
    "C60_special",
    "C60_trip_partial",
    "C60_trip_refuted",
    "C60_written"
   ],
   "note": "Exact round trip, which the formatter does not have, is missing (C60_trip_refuted, C60_power_refuted, C60_again_refuted)."
  },
  {
   "property": "C61",
   "status": "proved",
   "theorems": [
    "C61_functions",
    "C61_names_mean_what_scoping_says",
    "C61_same_names_in_for_each_refuted"
   ],
   "note": "Proved for the subset of ScopeModel: integers, arrays by index in for-each, no member access, no structured bindings, proper tail calls not distinguished, no optimisation (C57), labels other than the innermost target not modelled. for-each with the same name for key and value is excluded and C61_same_names_in_for_each_refuted shows what it does."
  },
  {
   "property": "C62",
   "status": "partial",
   "theorems": [
    "C62_for_refuted",
    "C62_never_too_many",
    "C62_references_found_partial",
    "C62_sources_partial"
   ],
   "note": "False for the body of a for statement in a function or deferred expression that has not been created yet (C62_for_refuted: collect_variables omits code_body, so cycles through it leak); proved for all other code and that never too many are found."
  },
  {
   "property": "C63",
   "status": "proved",
   "theorems": [
    "C63_finite_maps",
    "C63_variable_hashmap"
   ],
   "note": "Release builds: debug builds reallocate for every insert. Keys are compared by value; pointers within a table are indices; the order of extraction is left open."
  },
  {
   "property": "C64",
   "status": "proved",
   "theorems": [
    "C64_exact",
    "C64_jumps",
    "C64_oneline",
    "C64_refuses",
    "C64_total",
    "C64_unambiguous"
   ],
   "note": "Theorems on the parser of statements over the parser of expressions of C39; closures are one opaque token and the limit on native recursion is left out."
  },
  {
   "property": "C65",
   "status": "partial",
   "theorems": [
    "C65_acquire_race_free",
    "C65_count",
    "C65_destroy",
    "C65_live",
    "C65_over",
    "C65_race_free_refuted",
    "C65_races_partial",
    "C65_safe",
    "C65_values"
   ],
   "note": "Everything is proved except freedom from data races, which is false: reference_counter::unique is a relaxed load, so a change in place is not ordered after reads by a thread which has dropped its reference (C65_race_free_refuted). These are the only races (C65_races_partial), and with an acquire load there would be none (C65_acquire_race_free)."
  },
  {
   "property": "C66",
   "status": "partial",
   "theorems": [
    "C66_comment_refuted",
    "C66_end_refuted",
    "C66_exact",
    "C66_fuel",
    "C66_integer",
    "C66_last_refuted",
    "C66_overflow_refuted",
    "C66_prefix_refuted",
    "C66_real",
    "C66_safe_partial",
    "C66_single_refuted",
    "C66_table_refuted"
   ],
   "note": "Accepted files and their values exactly (C66_exact, C66_integer, C66_real). Defined behaviour is refuted (a number at the end of the file, a number before a character above U+00FF, a prefix without digits, a lead byte from FC on) and proved for the other texts below U+0100 that end with a line feed (C66_safe_partial). Hexadecimal integers with significands from 2^64 on are left to number_value. The values of decimal reals are those of std.numeric.parse, which is not proved to round correctly."
  },
  {
   "property": "C67",
   "status": "partial",
   "theorems": [
    "C67_acceptance",
    "C67_append",
    "C67_exact",
    "C67_limit_refuted",
    "C67_name_refuted",
    "C67_number",
    "C67_quote",
    "C67_refused",
    "C67_unambiguous",
    "C67_utc_refuted"
   ],
   "note": "Proved for at most 655349 arguments (C67_exact, C67_refused, C67_number); the others cannot be referred to (C67_limit_refuted). The time in UTC is followed by a null byte and a stray zero (C67_utc_refuted), and names without a meaning put '(no arg)' although the documentation says that they are refused (C67_name_refuted). What values other than strings print is a parameter."
  },
  {
   "property": "C68",
   "status": "partial",
   "theorems": [
    "C68_c1_refuted",
    "C68_exact",
    "C68_injective_refuted",
    "C68_logf",
    "C68_one_line",
    "C68_shown",
    "C68_verbatim_refuted"
   ],
   "note": "C68_exact, C68_one_line and C68_logf for the control characters of ASCII. The control characters from 0x80 to 0x9F, among them the 8-bit introducer of terminal sequences, are written as they are (C68_c1_refuted). The record does not identify the message (C68_injective_refuted), nor need it contain it (C68_verbatim_refuted). The result of write() is not modelled."
  },
  {
   "property": "C69",
   "status": "partial",
   "theorems": [
    "C69_delimited",
    "C69_exact",
    "C69_injective",
    "C69_real_refuted",
    "C69_total",
    "C69_visible"
   ],
   "note": "Distinctness holds without reals, opaque objects and functions only: the real 1 prints like the integer 1 (C69_real_refuted). The texts of reals, opaque objects and functions are parameters; objects are printed in the order of their list."
  },
  {
   "property": "C70",
   "status": "proved",
   "theorems": [
    "C70_exact",
    "C70_injective",
    "C70_lines",
    "C70_total"
   ],
   "note": "The texts of reals, opaque objects and functions are parameters; objects are dumped in the order of their list; indentation that overflows 64 bits is outside the theorems."
  },
  {
   "property": "C71",
   "status": "proved",
   "theorems": [
    "C71_count",
    "C71_count_pure",
    "C71_exclude",
    "C71_exclude_pure",
    "C71_find",
    "C71_rfind",
    "C71_unique"
   ],
   "note": "The test of an element is a parameter with state: a call of the predicate and the truth of its result, or the comparison with a value, which has a model of its own (C06)."
  },
  {
   "property": "C72",
   "status": "partial",
   "theorems": [
    "C72_generate",
    "C72_generate_length",
    "C72_max",
    "C72_min",
    "C72_unordered_refuted"
   ],
   "note": "Contrary to the documentation, elements that are unordered with the first one are not ignored: an exception is thrown (C72_unordered_refuted). The greatest size of an array is a parameter below 2^63."
  },
  {
   "property": "C73",
   "status": "proved",
   "theorems": [
    "C73_abs_integer",
    "C73_abs_real",
    "C73_exists",
    "C73_integer",
    "C73_integral",
    "C73_round",
    "C73_unique"
   ],
   "note": "The four functions of the C library are taken to be what the C standard says. The signs and payloads of NaNs are not modelled, so std.numeric.sign is not covered."
  },
  {
   "property": "C74",
   "status": "partial",
   "theorems": [
    "C74_between",
    "C74_clamp",
    "C74_clamp_refuted",
    "C74_max",
    "C74_min",
    "C74_never_throws",
    "C74_unordered_refuted"
   ],
   "note": "The documentation says that max, min and clamp throw if some arguments are unordered; this is refuted by C74_unordered_refuted and C74_clamp_refuted: max and min never throw (C74_never_throws) and their result then depends on the order of the arguments, and clamp does not look at the upper bound if the value is below the lower one. Everything else is proved."
  },
  {
   "property": "C75",
   "status": "proved",
   "theorems": [
    "C75_complete",
    "C75_gone",
    "C75_only",
    "C75_result"
   ],
   "note": "Nobody else changes the tree meanwhile; symbolic links are plain entries."
  },
  {
   "property": "C76",
   "status": "proved",
   "theorems": [
    "C76_append",
    "C76_copy",
    "C76_copy_self_refuted",
    "C76_read",
    "C76_refused",
    "C76_stream",
    "C76_unreadable",
    "C76_write"
   ],
   "note": "Copying a file onto itself is refuted: C76_copy_self_refuted. Permissions and changes by other processes are not modelled."
  },
  {
   "property": "C77",
   "status": "proved",
   "theorems": [
    "C77_getln",
    "C77_getln_error",
    "C77_line_exists",
    "C77_lines",
    "C77_putc_integer",
    "C77_putc_string",
    "C77_putln",
    "C77_read"
   ],
   "note": "Which strings count as characters is as loose as the decoder is, see C03. Conversion between wide characters and bytes is done by the C library and left out."
  },
  {
   "property": "C78",
   "status": "proved",
   "theorems": [
    "C78_all",
    "C78_same",
    "C78_shape",
    "C78_text"
   ],
   "note": "Whether RAND_bytes succeeds is not checked by the code and not modelled."
  },
  {
   "property": "C79",
   "status": "proved",
   "theorems": [
    "C79_import",
    "C79_leak_refuted",
    "C79_nested",
    "C79_unique"
   ],
   "note": "That a file is unlocked if flock fails is refuted: C79_leak_refuted. Scripts are finite sequences of actions."
  },
  {
   "property": "C80",
   "status": "proved",
   "theorems": [
    "C80_real",
    "C80_stack"
   ],
   "note": "Programs end with the destructor; lifetimes are part of the model (UB), so the equality with lists covers them. C80_real uses the sizes that the allocator of XmemModel gives."
  },
  {
   "property": "C81",
   "status": "proved",
   "theorems": [
    "C81_bounded",
    "C81_queue",
    "C81_total"
   ],
   "note": "Characters of type char. Writing a part of a buffer to itself is not covered; neither are copying and swapping."
  },
  {
   "property": "C82",
   "status": "proved",
   "theorems": [
    "C82_overwrite_refuted",
    "C82_read",
    "C82_read_back",
    "C82_read_one",
    "C82_seek",
    "C82_write",
    "C82_write_one"
   ],
   "note": "That writing keeps the rest of the string is refuted: C82_overwrite_refuted."
  },
  {
   "property": "C83",
   "status": "proved",
   "theorems": [
    "C83_boundary",
    "C83_depth",
    "C83_limit",
    "C83_no_false_alarm"
   ],
   "note": "Addresses are below 2^63. At a distance of exactly 1 MiB it depends on the direction: C83_boundary."
  },
  {
   "property": "C84",
   "status": "proved",
   "theorems": [
    "C84_message",
    "C84_order",
    "C84_order_unique"
   ],
   "note": "format is taken as concatenation; fewer than 2^63 frames and characters"
  }
 ]
}