# Design

A machine-checked model (Rocq/Coq 8.16.1) of parts of asteria. The C++ is read
as text; nothing is built or run. The theorems are about the model; the link
to the code is the citation (file and lines) on every definition.

## Layout

`rocq/theories/` holds, for each domain `X`:

- `XModel.v`: Gallina transcription of the C++ functions, each definition with
  the cited file and lines and the simplifications made. No proofs.
- `XSpec.v`: the independent specification used in the theorem statements
  (sometimes placed in the theorem file when it is a few lines).
- `XProofs.v`: lemmas.
- `XProps.v`: only the property theorems, each closed by `exact`, each with
  `Print Assumptions`, and beside each an `Example` which meets its hypotheses.

Conventions. Bytes, code units and machine words are `N` or `Z` with explicit
range predicates; wrap-around is written as `mod 2^64` where the code relies on
it. A C++ exception is an explicit result (`None` or an error constructor).
Undefined behaviour is a distinct result (`UB`) whenever the code could reach
it. Loops are structural recursion or explicit fuel, and running out of fuel is
a distinct result which the theorems exclude.

## Plan per property

| id | model | proof |
|----|-------|-------|
| C01 | `utf8_encode`, `utf8_decode` over byte lists | case split on the four ranges, div/mod arithmetic |
| C02 | `utf16_encode`, `utf16_decode` | same |
| C03 | `utf8_validate` loop | completeness by induction; the soundness half is expected to be false (the continuation-byte test uses `\|\|`), a `_refuted` witness |
| C04 | `wrap_array_index`, subscript application on arrays | arithmetic and list lemmas |
| C05 | value trees, `Subscript::apply_*`, reference path walking | induction on the path |
| C06 | `compare_partial` on value trees with reals as (sign, exponent, mantissa) or NaN/inf | induction on values |
| C07-C09 | operator bodies on int64 with builtins for overflow | `lia`, bit lemmas |
| C10 | assigning operators over a store of cells where operands may alias | expected false for `<<<=`: `_refuted`; true for the rest |
| C11 | `c_quote` table; tokenizer's escape reader | induction on the string, 256-case sweep |
| C12 | digit writers; digit collector and `cast_I` | induction on digits |
| C13-C16 | codec loops of `library/string.cpp` | induction on groups, byte sweeps |
| C17 | `BMH_Searcher` loop with its word-skip stage | loop invariant: no match before the cursor |
| C18 | replace/explode/implode on top of search | induction |
| C19-C20 | `do_merge_blocks` and the doubling driver, with an oracle comparator | invariant on blocks |
| C21 | `do_bsearch`, `do_bound` | loop invariants |
| C22 | slice index arithmetic with explicit int64 | case analysis |
| C23 | `rotate` in-place algorithm as buffer mutation; LCG shuffle | loop invariant |
| C24 | rotl/rotr arithmetic | bit extensionality |
| C25 | pack/unpack loops | induction |
| C26 | `chrono.cpp` with the C library as an argument; the calendar as "tomorrow" from 1970-01-01 | closed form of the day number, case analysis of the reader |
| C27 | CSV formatter and line-based parser | `_refuted` plus a `_partial` class of tables |
| C28 | INI formatter and parser | `_refuted` plus `_partial` |
| C29-C30 | JSON string escaping, reader | induction; `_refuted` for the buffer |
| C31 | bucket array with linear probing and backward-shift erase, any hash | refinement to a finite map |
| C32 | heap of reference-counted storages, handles, unshare-before-write | refinement to deep copies |
| C33-C34 | five-phase collector on a finite graph | invariants on the phases |
| C35 | atomic steps of push/pop on a shared stack pool | invariant over interleavings |
| C36 | `do_duplicate_sequence` | loop invariant |
| C37-C38 | scope-exit functions over an effect trace | induction on programs |
| C39 | infix element stack reduction | invariant on the stack |
| C40 | FNV-1a hasher with COW opaque | refinement |
| C41 | integer part of the ratio computation | arithmetic |
| C42-C43 | mantissa writers and `cast_D` on integers | arithmetic on dyadic rationals |
| C44 | status propagation through statement nodes | induction against a big-step semantics |
| C49, C57 | `generate_code` of expression units, the nodes they become, one function frame with two stacks; the environment is an argument | simulation against an evaluator that has no code, induction on units and on fuel |
| C59 | `parse_D` and `cast_D` with their table | one sweep over the 652 entries; truncated products bounded against exact fractions |
| C60 | `format_real` in base 10 with `do_frexp10_17` and its table | one sweep over the 633 entries and one over the 2046 exponents; the digits kept lie in the interval of the real |
| C61 | source and code of a subset of the language, generation, rebinding, execution over a store of variables | a big-step meaning with environments; closures related by the snapshot of the environment that rebinding has put into their code; composition of rebinds |
| C62 | `collect_variables` of nodes and of solidified code | the references of a term listed by recursion; equal up to permutation |
| C63 | buckets with links, values and a head; programs over any number of tables | ring invariant (one list of indices describes all links); every step simulates the tables of C31 on the occupied buckets |
| C64 | acceptors over lists of tokens, with scope flags and fuel; expressions from C39 | a grammar whose statements carry the tokens that would still belong to them; soundness by inversion, completeness by mutual induction on the grammar, totality by counting the tokens that are left |
| C65 | threads, variables and blocks; every access is recorded with the set of accesses that happen before it | invariant over interleavings: the count is the number of handles, a trace of every access is found at some handle or at the count, writes are known wherever a handle is |
| C66 | a stream of decoded characters that may end in an error, a scanner per character, a stack of open containers | two grammars (of characters, with what may follow a token; of tokens, with the depth); soundness by strong induction, completeness by mutual induction; undefined behaviour traced back to its token |
| C67 | a cursor in the template, placeholders, digits in a buffer of 36 bytes | a grammar of templates with pieces, each of which puts a text; the loop satisfies it by strong induction, and the grammar is unambiguous |
| C68 | a string that is appended to byte by byte, then stripped | a relation for bytes, stripping, and an inductive predicate for printable text |
| C69 | a machine with a stack of iterators | mutually inductive relations over values, lists of elements and of fields |
| C70 | the same machine with indentation; spaces written 32 at a time | the same with depths and indexes; a count of lines |
| C71 | loops over offsets with a callback that has state; erasing while searching | an inductive relation for testing elements one after another; the part of the array before the cursor, what is left of the slice and the rest as invariant |
| C72 | one pass with the best element so far; a loop that appends | the first of the best elements; an inductive relation for generation |
| C73 | reals as sign, mantissa and exponent; division with remainder by a power of two | inequalities of rational numbers around the integer; both sides scaled to integers |
| C74 | one pass with the partial comparison of C06; two total comparisons | the first of the extremes; the elements before it are worse and those after it not better |
| C75 | a tree as a list of paths; the stack of the traversal | what was removed is the part below the path, as a relation between lists; a measure over the stack and what is left |
| C76 | files as byte lists; an oracle that says how much each system call transfers, or that it fails | `firstn` and `skipn`; what is left to be transferred as an invariant of each loop; reading as the concatenation of streaming |
| C77 | streams as lists of characters or errors, UTF-8 of C01 | lines by a relation to the first LF, texts by `rfc3629`; induction over the loops; the bytes read as `firstn` and `skipn` |
| C78 | two numbers to 36 characters | RFC 4122 as 32 hexadecimal digits; a number and its digits determine each other |
| C79 | a table of locked files; scripts as lists of actions | a big-step relation that passes the files being loaded down; the table is that list; lists without repetition are no longer than the list of files |
| C80 | cells that hold an object or are raw, with misuse of either as UB; the allocator's rounding from XmemModel | programs on lists; the cells are the list followed by raw cells; bounds of `size * 2 \| 17` below 2^31 |
| C81 | storage as cells that may be unwritten, two offsets; the fills of debug builds | a relation on queues, which is total for proper commands; the storage is a prefix, the queue, and a suffix |
| C82 | strings as lists, an int64 offset, three mode flags | the character at each position after writing; lemmas on `nth_error` of `firstn`, `skipn` and `resize` |
| C83 | sentries as two addresses; chains of calls as lists of addresses | distance from the base; shifts as divisions; induction on the chain |
| C84 | an error as its frames and the insertion index; pushes as a list; the number column as a buffer | where nested frames go as an inductive relation with a unique result; decimals of Fmt; the buffer stays blanks and a number no longer than the next |
| C58 | the reader's state (text, count, two flags), saved states, the list of overloads | an overload is judged by one pass over parameters and arguments; invariant: after k parameters the next argument is the k-th, unless an earlier one did not fit |
| C51-C54, C56 | the acceptors and the line loop of the tokenizer | table sweeps; tokens laid out in lines, induction on the layout |
| C55 | `cmask_table` | sweep over 128 entries |
| C50 | `do_print_to` and `do_parse_from` with their stacks | both against a recursive rendering; fuel by a measure |

## Trusted base

1. Coq's kernel (8.16.1) with its conversion machine; `vm_compute` is used in
   finite sweeps and examples.
2. `Print Assumptions` stands under every property theorem. Its result is
   "Closed under the global context" for all of them: no axiom is used, not
   even of the standard library. Sections with `Variable` or `Hypothesis` are
   closed, so these become ordinary premises of the theorems.
3. The transcription of the C++ into Gallina. Each definition cites its source.
   Nothing checks this link mechanically; `seeded/LOG.jsonl` records what
   happens to the theorems when definitions are edited as by a mistake.
4. Things outside the code which the models take as given:
   - two's complement integers with arithmetic right shift, a little-endian
     host, IEEE 754 doubles with rounding to nearest, ties to even;
   - memory allocation succeeds below `max_size()`; reference counts do not
     overflow (except in C65); one thread (except in the models of the storage
     pool, C35, and of shared storage, C65);
   - a failed `ASTERIA_ASSERT` or `ROCKET_ASSERT` is undefined behaviour, as in
     release builds;
   - messages of exceptions and source locations are left out;
   - foreign functions are parameters: zlib and OpenSSL (C40), the random
     generator (C41), hash functions (C31, C63), comparators of `usort` (C19-C21),
     `put_DD` and `parse_DD` in C29, C30 and C50, the conversion of a numeric
     literal to its value (C52 to C54);
   - the world, references into it, name lookup, native functions and the
     operators that are not folded are parameters in C49;
   - `gmtime_r` and `timegm` compute the Gregorian calendar (`calendar` in
     `ChronoSpec`) from the day before 1970 to the end of 9999-01-01 and for the
     years 0 to 9999; `localtime_r` and `mktime` are arbitrary (C26).

## What is modelled

| model | code | left out |
|-------|------|----------|
| `UtfModel` | `utils.cpp`: `utf8_*`, `utf16_*`; `std.string.utf8_encode/decode` | |
| `CodecModel` | `library/string.cpp`: hex, base32, base64, url, url_query codecs | capacity hints |
| `SearchModel` | `library/string.cpp`: `find`, `rfind`, `replace`, `explode`, `implode`, `BMH_Searcher`; `cow_string` search | regular expressions |
| `StrModel` | `library/string.cpp`: byte sets, trim, pad, case, translate, compare | |
| `SeqModel` | slices, `rotate`, `shuffle`, `do_duplicate_sequence` | the string and array shifts (see `OperModel`) |
| `SortModel` | `library/array.cpp`: sort family, binary search family | `max_of`, `min_of`, generators |
| `BinNumModel` | `library/numeric.cpp`: `rotl`, `rotr`, integer pack and unpack | packing of reals |
| `IntOpsModel` | `air_node.cpp`: integer branches of the operators | real, string and array operands |
| `RefModel` | `subscript.cpp`, `reference.cpp`: reading, writing, removing through paths | random subscripts |
| `ValueModel` | `value.cpp`: `compare_partial` | printing |
| `NumGetModel`, `NumPutModel`, `NumTables` | `ascii_numget.cpp`, `ascii_numput.cpp` with the two tables of powers of ten; `std.numeric.parse/format` | `put_DF` of floats; `mulh128` for compilers without 128-bit integers |
| `ScopeModel` | `expression_unit.cpp` (name resolution, closures), `statement.cpp` (`generate_code`), `air_node.cpp` (`rebind_opt`, `is_terminator`, execution of statements), `air_optimizer.cpp`, `executive_context.cpp`, `instantiated_function.cpp` | types other than null, integer, string, array and function; member access, structured bindings, `assert`, `import`, `catch` expressions, variadic arguments, `this` and the other predefined references, tail calls as such, labels that skip a level, optimisation, hooks, recursion limit |
| `CollectModel` | `air_node.cpp`: `collect_variables` and the collectors of solidified nodes | as `ScopeModel`; what is found through a reference is C34 |
| `RandModel` | `std.numeric.random` | ISAAC |
| `SumModel` | `library/checksum.cpp`: hashers, FNV-1a | CRC-32, Adler-32, MD5, SHA themselves |
| `CowVecModel`, `CowStrModel`, `HashModel` | `cow_vector`, `cow_string`, `cow_hashmap` with their storage | iterators as objects, threads |
| `LinkModel` | `variable_hashmap.cpp`, `reference_dictionary.cpp`, with `xhashtable.hpp` and the size classes of `xmemory.cpp` | debug builds, destructors of values |
| `GcModel` | `garbage_collector.cpp`: one pass; `Variable_HashMap` as a set (it is one, C63) | the destruction of released values |
| `ExprModel` | `statement_sequence.cpp`: expressions; `infix_element.cpp` | closures (opaque), recursion limit |
| `StmtModel` | `statement_sequence.cpp`: statements, `reload`, `reload_oneline` | as `ExprModel`; source locations |
| `CsvModel` | `library/csv.cpp` | printing of values other than strings (given), files |
| `IniModel` | `library/ini.cpp` | printing of values other than strings (given), files; insertion order stands for hash order |
| `JsonModel` | `library/json.cpp` | conversion of numbers to and from text (given), files; insertion order stands for hash order |
| `TokModel` | `token_stream.cpp`; `c_quote`, `cmask_table` in `utils.cpp` | lines and columns of tokens, interning of names, the value of a numeric literal (given) |
| `ChronoModel` | `library/chrono.cpp`: `format`, `format_ms`, `parse` | the clocks |
| `XmemModel` | `rocket/xmemory.cpp`, for any number of threads | weak memory orders (atomic steps are sequentially consistent), debug fill, sanitizer hints |
| `RcModel` | `reference_counter.hpp`, `refcnt_ptr.ipp` and the storage handles of the containers, for any number of threads, with happens-before | stale values of relaxed loads, elements (one datum per block), references between blocks, weak references |
| `ConfModel` | `library/system.cpp`: `load_conf`, with decoding, comments, tokens and values | opening the file and read errors (its bytes are given), columns in messages; the byte order mark is looked for before the first token instead of at it; pointers to open containers are a stack of containers with a hole |
| `FmtModel` | `rocket/tinyfmt.hpp`: `formatv`; `rocket/details/tinyfmt.ipp`; `std.string.format`; `utils.cpp`: `write_log_to_stderr`; `std.debug.logf` | characters other than `char`; what values other than strings print (a parameter); changes of errno and the clock during a call; the result of `write()` |
| `PrintModel` | `value.cpp`: `do_break_line`, `Value::print_to`, `Value::dump` | what reals, opaque objects and functions print (parameters); the order of the hash table of an object (its list); sinks that fail |
| `FindModel` | `array.cpp`: `do_find_opt`, `std_array_find`, `_find_not`, `_rfind`, `_rfind_not`, `_count`, `_count_not`, `_exclude`, `_exclude_not`, `_max_of`, `_min_of`, `_generate` | what callbacks do (parameters with state); sharing of arrays (`CowVecModel`); running out of memory |
| `RoundModel` | `numeric.cpp`: `std_numeric_abs`, `_max`, `_min`, `_clamp`, `_round`, `_floor`, `_ceil`, `_trunc` and the variants with `i`; `utils.cpp`: `safe_double_to_int64`; the operators in `air_node.cpp` with these names | `round`, `floor`, `ceil`, `trunc` and `llrint` of the C library (taken to be what the C standard says on the exact number); payloads and signs of NaNs; the assigning forms of the operators |
| `RemoveModel` | `filesystem.cpp`: `RM_Disp`, `RM_Element`, `std_filesystem_remove_recursive` | the system calls (which paths cannot be removed is a parameter); other processes; the target of symbolic links |
| `FileModel` | `filesystem.cpp`: `do_write_loop`, `std_filesystem_read`, `_stream`, `_write`, `_append`, `_copy` | the system calls (the result of each read and write is an oracle; opening fails only as the comment says); permissions and `fchmod`; several names of one file; changes by other processes or by the callback; callbacks that throw |
| `StdioModel` | `io.cpp`: `do_write_utf8_common`, `std_io_getc`, `_getln`, `_putc`, `_putln`, `_read` | the C library (what it reads and where it fails is a parameter); conversion between wide characters and bytes; orientation of streams and `freopen`; `_putf`, `_putfln` (which compose as C67 says, then write like `_putc`), `_write`, `_flush` |
| `UuidModel` | `system.cpp`: `std_system_random_uuid` | `RAND_bytes` (its output is a parameter; its result is not checked by the code) |
| `ImportModel` | `module_loader.cpp`: `do_lock_stream`, `do_unlock_stream`; `module_loader.hpp`: `Unique_Stream`; the import expression in `air_node.cpp` | resolution of paths (`get_real_path`, the directory of the importing file); compilation of the imported file; arguments and results; what scripts do otherwise; threads |
| `StackModel` | `reference_stack.hpp`, `reference_stack.cpp`: `do_reallocate`, `do_clear`, `push`, `pop`, `top`, `bottom` and their `mut_` forms, `clear`, the destructor | `swap` and moving; what a Reference is (moving it bitwise is allowed); failing `operator new` |
| `LinbufModel` | `linear_buffer.hpp`: all reading and writing functions; `details/linear_buffer.ipp`: `reserve` | allocators, copying, moving, swapping; other character types; sources inside of the buffer itself; failing allocation; `memcpy` of nothing from a null pointer counts as allowed |
| `StrStreamModel` | `tinyfmt_str.hpp`: `seek`, `getn`, `getc`, `putn`, `putc` | strings are values; other character types; setting and extracting the string; sources inside of the string itself |
| `SentryModel` | `recursion_sentry.hpp`: `do_validate_stack_usage`, construction, copying | which functions copy a sentry; how much stack they use; `set_base` |
| `BacktraceModel` | `runtime_error.cpp`: `do_backtrace`, `do_insert_frame`; the constructors and `push_frame_*` of `runtime_error.hpp` | texts of types, locations and values; `format` as concatenation; which functions push frames |
| `OperModel` | `air_node.cpp`: binary operators on values and their forms for a 32-bit constant | real arithmetic (given), largest lengths |
| `CompModel` | `expression_unit.cpp`, `return` in `statement.cpp`, expression nodes in `air_node.cpp`, the two stacks, `Instantiated_Function` | references that are not temporaries, operators with other operands, names and closures (given); hooks, recursion limit, statements other than expressions and `return` |
| `ArgModel` | `argument_reader.cpp` | references (any type, with a partial function to values), the text of the error |
| `FlowModel` | `statement.cpp`, statements in `air_node.cpp`, scope exit, functions, tail calls | what expressions do (arbitrary functions), hooks |

Not modelled at all: the file system, process and I/O libraries, the REPL,
`simple_script`, zlib bindings, regular expressions, module loading, error
messages.

## Findings

Found while modelling or proving; the first column names the theorem which
exhibits it, or says that it was only read.

| where | what |
|-------|------|
| C03_validate_refuted | `utf8_validate` (and the decoder) accept any byte as a continuation: the test `c < 0x80 \|\| c > 0xC0` is written so that it never refuses. |
| C04_read_refuted, C04_write_refuted | `Wrapped_Index` overflows a signed integer for the empty array with subscript INT64_MAX or INT64_MIN. |
| C10_self_assign_refuted | `x <<<= x` reads the right operand after changing the left one. In the same way `a[$] += a[0]` may read through a dangling reference (read only). |
| C12_put_refuted | `ascii_numput` with 64 binary digits of precision writes one byte before its buffer (no caller does this). |
| C12_parse_refuted | hexadecimal literals with more than 64 bits and a negative exponent are read as another value. |
| C27_rows_refuted | CSV: after a row that ends in a quoted cell, a quotation mark at the start of the next row is ordinary text, because `quote_allowed` is not set again: `[["a,b"],["c,d"]]` does not come back. |
| C28_collision_refuted | INI: `a=1` followed by `[a]` violates an assertion, which is undefined behaviour in release builds; exactly such texts do (C28_undefined_partial). |
| C28_newline_refuted | INI: a value with a line feed is written as it is and comes back as several entries. |
| C27_lines_refuted, C27_empty_refuted | CSV: empty lines, a leading line feed and CR LF within a cell are lost; `[""]` comes back as `[]`. |
| C30_overrun_refuted, C30_shift_refuted | JSON: a lead byte 0xFC to 0xFE makes `do_load_next` copy up to six bytes into `char tbytes[4]`; 0xFF shifts by -1. Exactly these do (C30_load_partial). |
| C50_depth_refuted | JSON: nothing limits the depth when writing, but more than 32 non-empty containers are not read back. |
| C50_ex_keys, C29_ex_loss | JSON: bytes that are not UTF-8 are written as U+FFFD, so keys may become equal, and then the text is refused. |
| C30_ex_lax | JSON: a comma before the closing bracket is accepted. |
| C53_validated_refuted | tokenizer: a string literal that ends in a lone lead byte passes the check for UTF-8 (see C03), but then the character decoder takes the closing quotation mark into the character, and an assertion in `consume` fails. |
| C54_first_end_refuted | tokenizer: in a block comment only the first star of each line is looked at, so `/* 2 * 3 */` and `/***/` stay open and the code after them disappears. |
| C55_blank_refuted, C55_control_refuted | `cmask_table`: the line feed counts as blank, and the tab does not count as a control character (nothing uses the two masks). |
| C26_defined_refuted | `std.chrono.parse` compares two bytes without looking for the end, so it reads past the terminator exactly for texts that end where two digits are due, such as the empty one (C26_overrun). |
| C26_local_refuted | `std.chrono.format` in local time writes the offset in minutes; where it has seconds (Monrovia before 1972) the text means another moment. |
| C33_shared_refuted, C33_temporary_refuted | the collector clears variables which are still reachable, when a function that captures them is shared between a variable that looks unreachable and an older generation or a temporary. |
| C33_assert_refuted | the assertion on counts fails when a variable was dropped while garbage of an older generation refers to it. |
| C35_size_refuted | `xmemalloc` of more than 2^63 bytes passes the check for overflow, then shifts 1 by 64 and uses the pool behind the last one. |
| C35 (note) | `xmemfree` does not reset `data` and `count` as its comment says; with `element_size` 0 the count returned may be smaller than the one asked for. |
| C63_ex_pool | `do_clear(true)` of both tables tells `xmemfree` one bucket less than was allocated; the size class is the same for every table that exists, so nothing goes wrong. |
| C65_race_free_refuted | `reference_counter::unique` loads the count with `memory_order_relaxed`. When a thread reads shared storage and drops its reference, and another one then finds its own reference unique and changes the storage in place, the change is not ordered after the read: a data race by the rules of C++. With `memory_order_acquire` there is none (C65_acquire_race_free). |
| C66_end_refuted | `std.system.load_conf`: a number at the very end of the file (`a=1` without a line feed) makes the scanner look up `valid_digits[(uint32_t) -1]`. |
| C66_table_refuted | the same table, of 256 elements, is read at any character that follows a number, such as U+3000. |
| C66_prefix_refuted | `a=0x;` is passed to the number parser as `0x`, of which it takes only `0`; `ROCKET_ASSERT(n == token.size())` fails. |
| C66_overflow_refuted | a lead byte from FC on makes the decoder read five or more bytes into `char tbytes[4]` on the stack. |
| C66_single_refuted | in single quotation marks only the lowest eight bits of each character are kept: `'Ł'` is `"A"`. |
| C66_comment_refuted | `/* x **/` is not closed, for the asterisk before the last is taken along with the last. |
| C66_last_refuted | `\U10FFFF` is refused (`>=` instead of `>`). |
| C66_ex_integer | `15e-1` is read as the integer 1 without an error. |
| C67_utc_refuted | `std.string.format("${time:utc}")`: `memcpy(stemp + 30, "UTC", 4)` writes a null byte into the text, of which all 35 bytes are put: it ends with `UTC`, a null byte and `0`. The same happens to `${time}` where the offset is zero. |
| C67_name_refuted | `std.string.format("${foo}")` is `"(no arg)"`; the documentation says that invalid placeholders throw. |
| C67_limit_refuted | arguments from number 655350 on cannot be referred to. |
| C68_c1_refuted | the log neutralizes control characters below 0x20 and 0x7F only; the byte 0x9B, which introduces sequences on 8-bit terminals, is written as it is. |
| C68_verbatim_refuted | the documentation of `std.debug.logf` says that it writes what `std.string.format` composes; carriage returns are dropped, other control characters replaced, blanks at the end removed, and a header is put before the text. |
| C69_real_refuted | `std.string.format`, the logs and everything else that uses `print_to` write the real 1 as `1`, like the integer; a printed value that is read as source text can change its type. `dump` tells them apart. |
| C72_unordered_refuted | the documentation of `std.array.max_of` and `min_of` says that elements which are unordered with the first one are ignored silently; `compare_total` throws an exception. The same holds for `is_sorted`, which is documented to return false. `std.array.generate` with a negative length throws as well, because it is converted to an unsigned size that is reserved. |
| C74_unordered_refuted, C74_clamp_refuted | the documentation of `std.numeric.max`, `min` and `clamp` says that an exception is thrown if some arguments are unordered. `max` and `min` use `compare_partial` and never throw; `max(1, nan, 2)` is 2 but `max(nan, 1, 2)` is NaN. `clamp(0, 1, nan)` is 1. Bounds in the wrong order are not refused either (`C74_ex_reversed`). |
| C76_copy_self_refuted | `std.filesystem.copy(p, p)` succeeds and leaves the file empty: the destination is opened with `O_TRUNC` after the source and before anything is read (filesystem.cpp:610-627). The same holds for two names of one file, by links. The documentation does not mention it. |
| C78_shape | the documentation of `std.system.random_uuid` says that the variant digit is any of `8` to `f`; it is any of `8` to `b`, which is what RFC 4122 demands. |
| C79_leak_refuted | if `flock` fails (for example because a signal interrupts it), `do_lock_stream` throws after the key was inserted and does not remove it. Every later import of the file is refused as recursive (module_loader.cpp:43-53), and the file stays open. The comment in `Unique_Stream::reset` says that there shall be no effect if an exception is thrown. |
| C82_overwrite_refuted | `tinyfmt_str::putn` and `putc` call `resize(off + n)` without checking that the string is shorter, so writing in the middle of a string drops everything behind (tinyfmt_str.hpp:339, 373). After `set_string("hello")`, which sets the offset to zero, printing "J" gives "J" and not "Jello"; writing an empty string gives an empty string. The comment speaks only of extending, and tinyfmt_file keeps the rest. |
| C38_order_refuted | with proper tail calls, deferred expressions of an outer scope run before those of an inner one. |
| C38_void_refuted | with proper tail calls, `func f() { g(); return; }` may return the value of `g`. |
| C38_value_refuted | with proper tail calls, `return g();` may return a reference to a variable. |
| C49_catch_refuted | at the default level, a call whose argument throws leaves the two stack pointers swapped; `catch(f(1 / 0))` goes on with them, so that `return 42` afterwards returns whatever was on the other stack. |
| C49_level2_refuted | at level 2 `check_argument` is left out, so `f(x)` passes `x` by reference and void values are passed on. |
| C49_by_value_refuted | `f(a[0])`, `f(++x)` and other arguments that end in an operator are passed by reference, contrary to the guide. |
| C41_limit_refuted | `std.numeric.random(limit)` may return `limit` if it is subnormal. |
| C59_nearest_refuted | decimal literals are not always rounded to the nearest double: the product with the power of ten is truncated to 64 bits, so `0.71381` becomes 0x3fe6d78811b1d92c although ...2b is nearer (only next to the mean of two doubles, C59_close_partial). |
| C60_trip_refuted | `parse(format(x))` may be a neighbour of `x`: 8.558685484750778e+189 is the nearest to 0x675ebc190638c253 but is read as the next double (the reader rounds wrongly). |
| C60_power_refuted | for a power of two the interval below it is taken twice as wide, so 0x0040000000000000 is written 1.780059086805761e-307, which is nearer to the double below. |
| C60_again_refuted | the literal `0.71381` is printed as `0.7138100000000001`. |
| C61_same_names_in_for_each_refuted | `for each(x, x -> a)` is accepted; the key and the value are then one reference, the variable `a` is overwritten with 0 and made immutable, and an exception is thrown. |
| C62_for_refuted | `AIR_Node::collect_variables` leaves out the body of a `for` statement (air_node.cpp:676-687), so a reference bound there in a function that is still to be created is not counted: a cycle through it is never collected. |
| (C61) | code after a terminator is not generated and its names are not declared, so in `case 0: break; var x = 1; case 1: return x;` the last `x` is one further out. |
| (C61) | a function or deferred expression that mentions a name which `switch` jumped over throws when it is created, not when it is used. |
| (not modelled) | `Reference::pop_subscript` (reference.hpp:199-218) is `noexcept` but throws if the reference is not dereferenceable, which ends the process. |
| (not modelled) | the binding of `std.numeric.is_infinity` gives its name as `std.numeric.is_finite` (numeric.cpp:1013-1015), which shows in error messages. |
| C43_nearest_refuted | literals just above 2^-1075 become zero. |
| C43_exponent_refuted | long exponents overflow a signed integer. |
| C42 (note) | `parse(format(-0.0))` is the integer 0. |
| C45_find_from_refuted | `cow_string::find(from, str)` returns an offset relative to `from`. |
| C48_strings_refuted, C48_append_overflow_refuted | `append` and `pop_back` of a string which does not start at its block corrupt it. |
| C31_insert_unknown_refuted | `cow_hashmap::insert(first, last)` with unknown distance drops elements. |
| read only | decimal literals are not always correctly rounded (0.71381), and printing does not always round-trip. |
| read only | `cow_hashmap::erase(first, last)` on a map without storage fails an assertion; move assignment of the containers exchanges contents; `do_clear(true)` of `Variable_HashMap` and `Reference_Dictionary` passes a wrong count to `xmemfree`. |
| read only | at optimisation level 1 and above, an exception from an argument inside `catch(...)` leaves the two stacks of the context exchanged. |
| read only | INT64_MIN % -1 throws. |
