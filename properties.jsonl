{"id": "C01", "title": "UTF-8 encode/decode round trip", "statement": "Encoding any sequence of code points below 0x200000 to UTF-8 succeeds, produces exactly the number of bytes announced by the size query, and decoding those bytes yields the original code points in order.", "quantifier": "every finite sequence of code points below 0x200000", "why_tests_cant": "2^21 code points and unbounded sequence lengths; element-width and boundary interactions cannot be enumerated.", "anchors": ["core/kos_utf8.c:KOS_utf8_encode_32,KOS_utf8_calc_buf_size_32,KOS_utf8_get_len,KOS_utf8_decode_32"]}
{"id": "C02", "title": "UTF-8 decoder stays in bounds and is self-consistent", "statement": "For every byte string, the length query and the decoder never read past the given bytes; if the length query accepts the bytes, the decoder writes exactly that many code points.  Every well-formed UTF-8 text is accepted.", "quantifier": "every finite byte string", "why_tests_cant": "Byte strings are unbounded; over-read and mis-count bugs hide in rare truncated or malformed sequences.", "anchors": ["core/kos_utf8.c:KOS_utf8_get_len,KOS_utf8_decode_8,KOS_utf8_decode_16,KOS_utf8_decode_32", "core/kos_utf8_internal.h"]}
{"id": "C03", "title": "Integer text parsing returns the written value or an error", "statement": "Parsing an integer text (decimal, 0x, 0b, optional sign, '_' separators) returns the mathematical value of the digits for decimal texts which fit the signed 64-bit range, the two's complement value of the bit pattern for 0x and 0b texts of at most 64 bits, and an error for every other text.  (Texts with a minus sign and magnitude 2^63 are covered by C42.)", "quantifier": "every finite text", "why_tests_cant": "Texts are unbounded and the overflow boundary must be exact for every digit combination.", "anchors": ["core/kos_misc.c:kos_parse_int"]}
{"id": "C04", "title": "Index normalisation and slicing agree with list slicing", "statement": "For every 64-bit begin/end index (negative counts from the end, out-of-range is clamped) slicing an array, a string or a buffer returns exactly the elements i with begin<=i<end of the original, in order, and never touches memory outside it.", "quantifier": "every container size and every pair of 64-bit indices", "why_tests_cant": "2^128 index pairs times all sizes.", "anchors": ["core/kos_utils.c:kos_fix_index", "core/kos_array.c:KOS_array_slice", "core/kos_string.c:KOS_string_slice", "core/kos_buffer.c:KOS_buffer_slice"]}
{"id": "C05", "title": "Array insert is list splice", "statement": "array.insert_array(begin,end,src) replaces the destination elements in [begin,end) with the source elements, leaving the others untouched and in order, also when source and destination are the same array, and never reads outside the arrays.  The same holds for KOS_array_insert with a part of the source, except when a non-empty part of the same array is inserted which lies behind the replaced part and is shorter than it (covered by C46).", "quantifier": "every destination, source and 64-bit indices, including source == destination", "why_tests_cant": "Overlap and size-delta cases are unbounded; the faulty index arithmetic shows up only for particular overlaps.", "anchors": ["core/kos_array.c:KOS_array_insert"]}
{"id": "C06", "title": "Array sequential operations refine a list", "statement": "Any sequence of push, pop, write, read, resize, fill and reserve on an array behaves like the same sequence on a plain list (new slots read as void; capacity changes are unobservable).", "quantifier": "every finite operation sequence with every argument", "why_tests_cant": "Histories are unbounded; capacity growth depends on the whole history.", "anchors": ["core/kos_array.c:KOS_array_push,KOS_array_pop,KOS_array_resize,KOS_array_read,KOS_array_write,KOS_array_reserve,KOS_array_fill"]}
{"id": "C07", "title": "Concurrent array access loses no completed write", "statement": "Any number of threads read, write and compare-and-swap elements of an array while its storage is grown by reserve. The operations they complete, in the order of completion, form a legal sequence of operations on the list of elements: every read returns the value of the last completed write or successful compare-and-swap of this element, so no completed write is lost. If only one thread at a time grows the array, no access is outside of a storage.", "quantifier": "every initial array, every number of threads and operations, every sequentially consistent interleaving of the atomic steps including spurious failures of weak compare-and-swap, any number of storage replacements", "why_tests_cant": "Interleavings are astronomically many; races appear only under specific schedules.", "anchors": ["core/kos_array.c:KOS_array_read,KOS_array_write,KOS_array_cas,KOS_array_reserve,copy_buf,resize_storage"]}
{"id": "C08", "title": "Object properties refine finite maps", "statement": "Any sequence of property set, get and delete on any objects behaves like the same sequence on finite maps keyed by string content, across any number of internal table growths and regardless of hash collisions; an operation which raises an exception changes nothing or is done completely. No operation accesses memory outside of a table or loops forever.", "quantifier": "every finite operation sequence and every assignment of hashes to keys", "why_tests_cant": "Collision patterns, tombstones and growth points depend on the whole history.", "anchors": ["core/kos_object.c:KOS_get_property_with_depth,KOS_set_property,KOS_delete_property,resize_prop_table,salvage_item,copy_table"]}
{"id": "C09", "title": "Concurrent property set survives table growth", "statement": "If one thread completes a property set while another thread grows the property table, a later get of this property (with no delete) returns a value written to it.", "quantifier": "every interleaving of the atomic steps", "why_tests_cant": "The losing window is a few instructions wide between publishing the key and its hash.", "anchors": ["core/kos_object.c:KOS_set_property,set_property,salvage_item,copy_table,resize_prop_table,KOS_get_property_with_depth"]}
{"id": "C10", "title": "Ordered tree operations", "statement": "After any sequence of insertions and deletions the tree holds exactly the inserted and not deleted items, in-order walk is sorted, find returns an item iff it is present, and the height stays logarithmic (red-black invariants).", "quantifier": "every finite sequence of insert/delete/find", "why_tests_cant": "Rebalancing has many cases reached only by particular histories.", "anchors": ["core/kos_red_black.c:kos_red_black_insert,kos_red_black_delete,kos_red_black_find,kos_red_black_walk"]}
{"id": "C11", "title": "Random integers stay in the requested range and are unbiased", "statement": "For every generator made from a seed or from entropy and used in any way, random.integer(min, max) returns after finitely many rounds a value from min to max, both included; the raw numbers which are not thrown away are split evenly between the results; every generator runs through all 2^64 states of its stream; random.float() is m/2^52 with 0 <= m < 2^52; exactly the invalid ranges are rejected.", "quantifier": "every generator state and every 64-bit min<=max", "why_tests_cant": "2^128 generator states and all ranges.", "anchors": ["core/kos_misc.c:kos_rng_random_range,kos_rng_random", "modules/kos_mod_random.c:rand_integer,rand_float"]}
{"id": "C12", "title": "Constant folding equals run-time evaluation", "statement": "For every unary/binary operator and constant operands, if the compiler folds the expression the result equals what the virtual machine computes for the same operands at run time.", "quantifier": "every operator and every pair of integer/float/boolean/void/string constants", "why_tests_cant": "2^128 operand pairs per operator, including signed zeros, NaN and overflow.", "anchors": ["core/kos_compiler_optim.c:optimize_binary_op,optimize_unary_op", "core/kos_vm.c"]}
{"id": "C13", "title": "Dead-code removal preserves program behaviour", "statement": "Removing code which the compiler considers unreachable never changes the observable behaviour (trace of effects and final result) of a program built from blocks, if, while, repeat, for-in, switch, try/catch, defer, break, continue, return and throw.", "quantifier": "every program and every outcome of its conditions", "why_tests_cant": "Programs are unbounded trees; only particular nestings expose a wrong terminal classification.", "anchors": ["core/kos_compiler_optim.c:scope,if_stmt,repeat_stmt,while_stmt,for_in_stmt,switch_stmt,try_stmt"]}
{"id": "C14", "title": "Positional argument binding", "statement": "Calling a function with positional arguments binds parameter i to argument i, missing trailing parameters to their own declared default, and the remaining arguments, in order, to the ellipsis parameter, when at most 32 parameters are in use; the call fails exactly if a required parameter in use has no argument. Built-in functions get the arguments followed by the missing default values.", "quantifier": "every function signature and every argument list", "why_tests_cant": "Signatures with more than 32 parameters switch to a different representation; combinations are unbounded.", "anchors": ["core/kos_compiler_args.c:update_arguments", "core/kos_compiler.c:gen_function", "core/kos_vm.c:init_registers,set_default_args_for_handler,prepare_call"]}
{"id": "C15", "title": "Named argument binding", "statement": "A call with named arguments binds each named value to the parameter of that name, fills unspecified parameters with their own defaults, and fails exactly for a missing required or an unknown name, as long as object.prototype has no property of that name; the number of parameters does not matter.", "quantifier": "every signature and every argument object", "why_tests_cant": "Number of subsets of parameters grows exponentially.", "anchors": ["core/kos_vm.c:get_named_args"]}
{"id": "C16", "title": "Call stack is LIFO", "statement": "Frames behave as a list: after any sequence of calls, returns and writes the current frame has exactly the registers, catch information and return information it should have; a backtrace finds the frames in order; variables of outer functions remain accessible after they return; the depth counts the frames plus at most one per frame and exceeds the limit by at most 2; a push rejected for depth leaves the stack unchanged.", "quantifier": "every interleaving of pushes and pops, every frame size", "why_tests_cant": "Frame sizes make stack chunks spill at different points for each history.", "anchors": ["core/kos_stack.c:kos_stack_push,kos_stack_pop,kos_walk_stack", "core/kos_vm.c:set_closure_stack_size,read_stack,write_stack,prepare_call"]}
{"id": "C17", "title": "Generator life cycle", "statement": "As long as no call is rejected for lack of stack, a generator is recorded as running exactly while it executes, re-entering it then raises an exception, a finished generator stays finished, failed calls keep the state, and a loop over it sees exactly the values it yields.", "quantifier": "every sequence of calls to a generator, including calls failing by stack overflow", "why_tests_cant": "Failure points in the middle of the call protocol are not reached by ordinary tests.", "anchors": ["core/kos_vm.c:prepare_call,finish_call,kos_call_function,execute", "core/kos_utils.c:KOS_iterator_next"]}
{"id": "C18", "title": "Array sort is a correct sort", "statement": "array.sort() returns a permutation of the array; in ascending mode it is ordered by key with elements of equal keys kept in their original relative order, in descending mode it is ordered by descending key.  (Stability of descending mode is covered by C44.)", "quantifier": "every array, every key function whose keys are totally preordered, both directions", "why_tests_cant": "All permutations and tie patterns of unbounded arrays.", "anchors": ["modules/kos_mod_base.c:sort,sort_range,is_less_for_sort,expand_for_sort,copy_sort_results"]}
{"id": "C19", "title": "pack/unpack are inverse and memory safe", "statement": "For every format string and every list of values for which the total room (old size + sum of size*count + bytes of strings) is below 2^32-64: buffer.pack appends exactly the bytes which the format grammar assigns to the values (endianness, padding, truncation, zero fill, UTF-8), or raises an exception if a value is missing or has a wrong type, or the string is not a format; buffer.unpack returns exactly the values which the format assigns to the bytes, or raises an exception if there are none; unpack with the same format at the old size returns the packed values whenever each value is exactly representable in its field. No access is outside of the buffer's storage.", "quantifier": "every format string, every value list, every buffer", "why_tests_cant": "Format counts and sizes multiply in 32 bits; overflow needs specific huge counts.", "anchors": ["modules/kos_mod_base.c:process_pack_format,pack_format,unpack_format,pack_format_get_count"]}
{"id": "C20", "title": "Regular expression character class is the union of its ranges", "statement": "A class [a-bc-d...] never matches a character outside of the listed ranges, and it matches every character in a listed range provided that the ranges are given in any order without overlaps, or more generally that no range lies inside an earlier one that is not topmost; [^...] is the complement.  \\d and \\w denote exactly the decimal digits and the word characters.  (Arbitrary overlaps are covered by C45.)", "quantifier": "every list of ranges and every character", "why_tests_cant": "Range lists are unbounded; only specific overlap orders go wrong.", "anchors": ["modules/kos_mod_re.c:add_class_range,match_class,parse_class"]}
{"id": "C21", "title": "Regular expression matching agrees with the declarative semantics and terminates", "statement": "For every regular expression which compiles and every range of a string which ends before position 65535, the search terminates without an access out of bounds and returns the first match (leftmost position, then greedy/lazy priority, alternatives from left to right) defined by the backtracking semantics, with the group positions of that match, where an unbounded repetition means at most 65535 repetitions. It returns void iff no match exists, and if no repeated expression matches the empty text then the bound has no effect. A class matches as described in C20.", "quantifier": "every regular expression and every subject string", "why_tests_cant": "Both the expression and the subject are unbounded; backtracking paths grow exponentially.", "anchors": ["modules/kos_mod_re.c:match_string,emit_multiplicity,parse_alternative_match_seq,parse_group,push_possibility,pop_possibility,re_find"]}
{"id": "C22", "title": "datetime conversion is exact", "statement": "Decoding a UTC timestamp gives the proleptic Gregorian date and time of that instant, encoding the decoded fields gives back the timestamp, and only valid calendar dates are accepted.", "quantifier": "every representable timestamp; every year/month/day/time combination", "why_tests_cant": "2^64 timestamps, leap-year and century rules, floating point year estimate.", "anchors": ["modules/datetime.kos"]}
{"id": "C23", "title": "JSON dump/parse round trip", "statement": "Parsing the text dumped from any JSON-representable value yields an equal value, and only valid JSON texts are accepted.", "quantifier": "every finite value and every text", "why_tests_cant": "Values are unbounded trees and strings contain arbitrary characters.", "anchors": ["modules/json.kos:parse,dump", "modules/kos_mod_kos.c:raw_lexer"]}
{"id": "C24", "title": "Quoted string representation parses back", "statement": "The quoted representation of a string inside a stringified array or object, read back as a string literal, denotes the same string.", "quantifier": "every string over all code points", "why_tests_cant": "1.1 million code points and unbounded strings; escapes are width dependent.", "anchors": ["core/kos_utils.c:vector_append_str", "core/kos_utf8.c"]}
{"id": "C25", "title": "String scan and strip", "statement": "string.scan(set, pos, inclusive) with a non-empty set finds the first position at or after the start (rscan: the last at or before) whose character is in the set, or is not in the set when inclusive is false and either the string has 8-bit elements or all its characters fit the element width of the set; -1 if there is none.  strip, lstrip and rstrip then remove exactly the leading and trailing characters of the set.  (Wider characters are covered by C51.)", "quantifier": "every string, set, start position and direction, all character widths", "why_tests_cant": "Character-width combinations interact with masks; strings are unbounded.", "anchors": ["core/kos_string.c:KOS_string_scan", "modules/base.kos:strip,lstrip,rstrip"]}
{"id": "C26", "title": "String find returns the nearest occurrence", "statement": "string.find returns the first position at or after the start where the pattern occurs and string.rfind the last position at or before a void or non-negative start, or -1 if there is none, for all combinations of character widths; starts_with and ends_with decide prefix and suffix.  (Negative start positions of rfind are covered by C52.)", "quantifier": "every text, pattern, position and direction", "why_tests_cant": "Unbounded strings and width mixes.", "anchors": ["core/kos_string.c:KOS_string_find"]}
{"id": "C27", "title": "String ordering is a total order on code points", "statement": "Comparing two strings gives equality exactly when they have the same characters, regardless of element width or memory placement.  The sign of the comparison is that of the lexicographic order, which is a total order, except for two strings with elements of the same width above 8 bits whose data has the same non-zero offset from an 8-byte boundary (covered by C50).", "quantifier": "every pair and triple of strings, every element width and storage alignment", "why_tests_cant": "Result depends on pointer alignment of string data, which tests do not control.", "anchors": ["core/kos_string.c:KOS_string_compare,KOS_string_compare_slice,compare_slice"]}
{"id": "C28", "title": "Comparison of numbers follows their values", "statement": "Comparing two numbers gives the order of their mathematical values if both are integers or the integers have at most 53 bits; for any numbers a result less or greater is never wrong and < is transitive; <= is < or ==, and != is not ==.", "quantifier": "every triple of integers and floats", "why_tests_cant": "2^192 triples; failures need integers above 2^53.", "anchors": ["core/kos_utils.c:KOS_compare"]}
{"id": "C29", "title": "range and iota enumerate arithmetic progressions", "statement": "range(begin,end,step) yields exactly begin, begin+step, ... below (above, for negative step) end and then stops; iota yields consecutive integers.", "quantifier": "every begin, end and step such that the term after the last one is a 64-bit integer", "why_tests_cant": "Wrap-around happens only within one step of the 64-bit limits.", "anchors": ["modules/base.kos:range", "modules/iter.kos:iota"]}
{"id": "C30", "title": "iproduct enumerates the Cartesian product", "statement": "iproduct and product yield every tuple of the Cartesian product exactly once in odometer order (first argument fastest), also when arguments are generators.", "quantifier": "every list of finite lists", "why_tests_cant": "Number and sizes of lists are unbounded.", "anchors": ["modules/iter.kos"]}
{"id": "C31", "title": "Buffer operations refine a byte list and stay in bounds", "statement": "Any sequence of buffer resize, reserve, append (make_room), fill, copy, slice, element read and write behaves as on a byte list and never accesses memory outside the allocated capacity, as long as the buffer holds at most INT_MAX bytes and appended data is not empty (see C48, C49).  The constructor concatenates the bytes of its arguments.", "quantifier": "every operation sequence and every 32-bit size", "why_tests_cant": "Capacity rounding wraps only for sizes near 2^32.", "anchors": ["core/kos_buffer.c"]}
{"id": "C32", "title": "String construction operations", "statement": "Concatenation (total length below 2^32), repetition, reversal, indexing and construction from code points of strings denote the corresponding list operations on code points, for all element widths; they raise an exception exactly when the result would exceed 65535 characters, and a string made from code points has the narrowest elements.  Case conversion maps each character as long as it stays within the element width.  (See C53, C56 for the exceptions.)", "quantifier": "every string and count", "why_tests_cant": "Width promotions depend on all characters.", "anchors": ["core/kos_string.c:KOS_string_add_n,KOS_string_repeat,KOS_string_reverse,KOS_string_slice"]}
{"id": "C33", "title": "Equal strings hash equally", "statement": "Two strings with the same characters have the same hash, whatever their internal element width, storage or construction history.", "quantifier": "every string and every representation", "why_tests_cant": "Every string admits several representations, and mismatch would only lose properties on some of them.", "anchors": ["core/kos_string.c:KOS_string_get_hash"]}
{"id": "C34", "title": "Floating point text parsing is correctly rounded", "statement": "Parsing a decimal floating-point text returns the double nearest to the written value, or an error when it overflows.", "quantifier": "every finite decimal text", "why_tests_cant": "Texts are unbounded; wrong roundings occur for specific halfway and denormal values.", "anchors": ["core/kos_misc.c:kos_parse_double"]}
{"id": "C35", "title": "Integer to text to integer round trip", "statement": "The decimal text produced for any 64-bit integer other than -2^63 parses back to the same integer (-2^63 is covered by C42).", "quantifier": "every 64-bit integer", "why_tests_cant": "2^64 values; the extreme one takes a special path.", "anchors": ["core/kos_utils.c:int_to_str", "core/kos_misc.c:kos_parse_int"]}
{"id": "C36", "title": "split and join are inverse", "statement": "string.split(sep, max_split) yields the parts between the leftmost non-overlapping occurrences of sep, at most max_split of them; joining them with sep gives the original string, and no part contains sep when the split count is unlimited.  split() yields the maximal runs of characters which are not white space (characters below U+10000).  split_lines yields the lines, and with kept ends they concatenate to the original.", "quantifier": "every string and every non-empty separator", "why_tests_cant": "Unbounded strings with overlapping separator occurrences.", "anchors": ["modules/base.kos:split,split_lines,join"]}
{"id": "C37", "title": "Bytecode operand encoding round trip", "statement": "Every operand value emitted by the compiler in variable-length form decodes to the same value in the virtual machine, consuming exactly the emitted bytes, whatever follows.", "quantifier": "every 32-bit operand value and every byte suffix", "why_tests_cant": "2^32 values per operand kind and arbitrary contexts.", "anchors": ["core/kos_compiler.c:write_instr", "core/kos_vm.c:load_uimm,load_simm"]}
{"id": "C38", "title": "Temporary allocations never overlap", "statement": "All blocks handed out by the memory pool are disjoint, aligned and at least as large as requested until the pool is destroyed, and growing a vector preserves its contents.", "quantifier": "every sequence of allocation sizes", "why_tests_cant": "Histories are unbounded; block boundary cases depend on running totals.", "anchors": ["core/kos_memory.c:KOS_mempool_alloc,KOS_vector_reserve,KOS_vector_resize"]}
{"id": "C39", "title": "Native value conversion is value preserving", "statement": "Converting a number to an integer keeps integers and rounds floats inside the 64-bit range down; an integer is stored into a native field exactly when it is in the range of its type, reading it back gives the same integer, and an array field takes the first elements of an array and never writes more than the field.", "quantifier": "every number and every native type", "why_tests_cant": "All 64-bit values times all types.", "anchors": ["core/kos_utils.c:KOS_extract_native_value,KOS_get_integer"]}
{"id": "C40", "title": "Garbage collection preserves the reachable object graph", "statement": "After a garbage collection every object reachable from the roots is still present with the same contents, all references to it denote the same object, and only unreachable objects are reclaimed.", "quantifier": "every object graph, every root set, every placement of objects on pages", "why_tests_cant": "Object graphs are unbounded; evacuation decisions depend on heap layout.", "anchors": ["core/kos_heap.c:mark_roots,gray_to_black,mark_object_black,evacuate,update_child_ptrs"]}
{"id": "C41", "title": "Ill-formed UTF-8 is rejected", "statement": "Bytes that are not well-formed UTF-8 (Unicode standard, table 3-7: overlong forms, surrogates, values above U+10FFFF) are rejected when a string is created from them.", "quantifier": "every finite byte string", "why_tests_cant": "Byte strings are unbounded and ill-formed classes overlap with accepted prefixes.", "anchors": ["core/kos_utf8.c:KOS_utf8_get_len"]}
{"id": "C42", "title": "Parsing the most negative integer is well defined", "statement": "Parsing \"-9223372036854775808\", which is the text printed for the most negative integer, is free of undefined behaviour and returns that integer.", "quantifier": "every text denoting -2^63", "why_tests_cant": "Compilers which wrap silently hide the signed overflow, so a test passes although the program is undefined.", "anchors": ["core/kos_misc.c:kos_parse_int"]}
{"id": "C43", "title": "An integer text contains at least one digit", "statement": "A text without any digit, such as \"_\" or \"0x_\", is not accepted as an integer.", "quantifier": "every text", "why_tests_cant": "Texts are unbounded.", "anchors": ["core/kos_misc.c:kos_parse_int"]}
{"id": "C44", "title": "Descending sort is stable", "statement": "array.sort(reverse=true) keeps elements of equal keys in their original relative order.", "quantifier": "every array and every total preorder on keys", "why_tests_cant": "Arrays are unbounded.", "anchors": ["modules/kos_mod_base.c:is_less_for_sort", "modules/kos_mod_base.c:sort_range"]}
{"id": "C45", "title": "Overlapping class ranges in any order", "statement": "A class [a-bc-d...] matches every character of every listed range whatever the order or overlap of ranges.", "quantifier": "every list of ranges", "why_tests_cant": "The number and order of ranges is unbounded.", "anchors": ["modules/kos_mod_re.c:add_class_range"]}
{"id": "C46", "title": "Inserting a shorter, later part of the same array", "statement": "KOS_array_insert which replaces a part of an array by a shorter, non-empty part of the same array located behind it is list splice and stays within the array.", "quantifier": "every array and every pair of parts", "why_tests_cant": "Arrays are unbounded and no caller in the interpreter uses these arguments yet.", "anchors": ["core/kos_array.c:KOS_array_insert"]}
{"id": "C47", "title": "array.cas rejects positions outside of the array", "statement": "array.cas(pos, old, new) with a position outside of the array raises an exception and leaves the array unchanged.", "quantifier": "every array and every 64-bit position", "why_tests_cant": "2^64 positions.", "anchors": ["modules/kos_mod_base.c:array_cas"]}
{"id": "C48", "title": "Empty data converts to an empty buffer", "statement": "buffer(\"\"), buffer(buffer()) and appending no data to an empty buffer succeed and give an empty buffer.", "quantifier": "every argument list of the constructor", "why_tests_cant": "This is a corner of an unbounded input space; the documentation promises concatenation for all arguments.", "anchors": ["modules/kos_mod_base.c:buffer_constructor", "core/kos_buffer.c:KOS_buffer_make_room"]}
{"id": "C49", "title": "Buffer sizes near 2^32 are rejected or honoured", "statement": "A buffer operation which would make the buffer larger than 2^32-64 bytes either fails or allocates enough storage; it never leaves a buffer larger than its storage.", "quantifier": "every size", "why_tests_cant": "Needs more than 4GB of memory in a test.", "anchors": ["core/kos_buffer.c:KOS_buffer_reserve", "modules/kos_mod_base.c:buffer_constructor"]}
{"id": "C50", "title": "String order does not depend on the placement of data", "statement": "The sign of the comparison of two strings is that of the lexicographic order of their characters also for slices of other strings.", "quantifier": "every pair of strings and slices", "why_tests_cant": "The result depends on the alignment of both strings and on single bytes of the characters.", "anchors": ["core/kos_string.c:compare_slice", "core/kos_string.c:KOS_string_slice"]}
{"id": "C51", "title": "Scanning for characters outside of a set considers all characters", "statement": "string.scan(set, pos, false) finds the first character not in the set, whatever the widths of the string and of the set; strip never removes a character that is not in the set.", "quantifier": "every string and set", "why_tests_cant": "Depends on the element widths of both strings.", "anchors": ["core/kos_string.c:KOS_string_scan", "modules/base.kos:strip"]}
{"id": "C52", "title": "Negative rfind positions count from the end of the string", "statement": "string.rfind(pattern, pos) with negative pos finds the last occurrence starting at or before size + pos.", "quantifier": "every string, pattern and negative position", "why_tests_cant": "Unbounded inputs; the result is right for many of them.", "anchors": ["modules/kos_mod_base.c:find_dir"]}
{"id": "C53", "title": "Concatenation of any number of strings is checked for length", "statement": "Concatenation of an array of strings gives the concatenated text or raises an exception if it is longer than 65535 characters, for any number of strings, and never writes outside of the new string.", "quantifier": "every array of strings", "why_tests_cant": "The failure needs an array of 65538 long strings.", "anchors": ["core/kos_string.c:KOS_string_add"]}
{"id": "C54", "title": "A computed string hash is never zero", "statement": "The hash computed for a string is not 0, as asserted, so that it can be told from a hash which is not computed yet.", "quantifier": "every string", "why_tests_cant": "Only rare strings hash to 0.", "anchors": ["core/kos_string.c:KOS_string_get_hash"]}
{"id": "C55", "title": "The ascii property depends on the characters only", "statement": "string.ascii is true exactly when all characters are below 128; equal strings have the same ascii property.", "quantifier": "every string and every way to construct it", "why_tests_cant": "Depends on the history of the string.", "anchors": ["modules/kos_mod_base.c:get_string_ascii", "core/kos_string.c:KOS_string_slice"]}
{"id": "C56", "title": "Case conversion depends on the characters only", "statement": "Upper or lower case conversion of equal strings gives equal strings, and maps each character of the basic multilingual plane by towupper or towlower.", "quantifier": "every string, element width and locale", "why_tests_cant": "Depends on the locale and on the element width.", "anchors": ["core/kos_string.c:KOS_string_uppercase", "core/kos_string.c:KOS_string_lowercase"]}
{"id": "C57", "title": "Setting a property succeeds while memory is available", "statement": "Setting a property of an object which can have properties succeeds, or calls the setter, whenever larger tables can be allocated.", "quantifier": "every object state, name and value", "why_tests_cant": "Needs eleven names with equal 32-bit hashes.", "anchors": ["core/kos_object.c:KOS_set_property,set_property"]}
{"id": "C58", "title": "A failed property set changes nothing", "statement": "If setting a property raises an exception, the properties of the object are as before.", "quantifier": "every object state and allocation failure", "why_tests_cant": "Needs allocation failures at chosen points.", "anchors": ["core/kos_object.c:KOS_set_property,need_resize,resize_prop_table"]}
{"id": "C59", "title": "Reading a property follows the prototype chain", "statement": "Reading a property returns the value from the nearest object of the prototype chain which has the property, or raises an exception if none has it; objects of the chain without own properties are skipped.", "quantifier": "every state, object and name", "why_tests_cant": "Depends on the histories of all objects of the chain.", "anchors": ["core/kos_object.c:KOS_get_property_with_depth,find_valid_prototype,find_property"]}
{"id": "C60", "title": "Shallow walks are consistent under modification", "statement": "A shallow walk over an object, interleaved with any operations on any objects, returns only properties which the object has at that moment, never a name twice, and by its end every name which the object had all the time.", "quantifier": "every state, object and interleaving of fewer than 2^31 operations", "why_tests_cant": "Table growth during the walk moves properties to other tables.", "anchors": ["core/kos_object.c:kos_new_object_walk,kos_object_walk"]}
{"id": "C61", "title": "Deep walks return exactly the visible properties", "statement": "A deep walk returns every name which a read of the object or its prototypes finds, with this value, once.", "quantifier": "every state and object", "why_tests_cant": "Depends on deleted properties of all objects of the chain.", "anchors": ["core/kos_object.c:kos_object_walk"]}
{"id": "C62", "title": "Property tables are bounded by the number of properties", "statement": "The capacity of the property table of an object is bounded by a multiple of the largest number of properties it had.", "quantifier": "every sequence of operations", "why_tests_cant": "Needs long sequences of sets and deletes of fresh names.", "anchors": ["core/kos_object.c:resize_prop_table,need_resize"]}
{"id": "C63", "title": "Jumps reach their targets after operand sizes are chosen", "statement": "The final step of code generation succeeds for every program and its result decodes to the same instructions, where each jump leads to the instruction it was recorded for, and the table of source lines refers to the same instructions.", "quantifier": "every program, jump pattern and line table below 2^25 bytes of code", "why_tests_cant": "Lengthening one jump can lengthen others; programs needing many passes are rare.", "anchors": ["core/kos_compiler.c:update_jumps,update_imm_size,write_jump_offs"]}
{"id": "C64", "title": "Addresses map to the last line recorded before them", "statement": "For a table of lines with increasing offsets, the line of an address is that of the last entry at or before the address.", "quantifier": "every table and every address not below the first entry", "why_tests_cant": "Depends on the position of the address between all entries.", "anchors": ["core/kos_entity.c:KOS_function_addr_to_line"]}
{"id": "C65", "title": "Pool blocks have the requested size", "statement": "A block returned by the memory pool for a request of n bytes has n bytes inside of one allocated buffer.", "quantifier": "every pool state and every size_t n", "why_tests_cant": "Needs requests of more than 4 GiB.", "anchors": ["core/kos_memory.c:KOS_mempool_alloc,alloc_large"]}
{"id": "C66", "title": "A for loop over range binds the values of range", "statement": "The loop which the compiler emits for `for x in range(...)` with a constant step runs its body for the values which the function range yields, in order.", "quantifier": "every begin and end, every constant step other than 0", "why_tests_cant": "The loop and the function are separate implementations; all argument values cannot be tried.", "anchors": ["core/kos_compiler.c:for_range", "modules/base.kos:range"]}
{"id": "C67", "title": "Slices of generators", "statement": "Slicing a generator with non-negative bounds yields elements begin to end-1 of those the generator yields, and does not resume it further.", "quantifier": "every generator, finite or not, and all bounds", "why_tests_cant": "Generators and bounds are unbounded.", "anchors": ["modules/base.kos:generator.prototype.slice"]}
{"id": "C68", "title": "zip yields rows up to the shortest input", "statement": "zip of two or more iterables yields as many arrays as the shortest iterable has elements, array i holding element i of each.", "quantifier": "every list of finite iterables", "why_tests_cant": "Number and lengths of inputs are unbounded.", "anchors": ["modules/base.kos:zip"]}
{"id": "C69", "title": "array.insert with an iterator is splice", "statement": "Inserting the elements of an iterable which is not an array replaces exactly the elements in the range; get(index, default) gives the element or the default.", "quantifier": "every array, range and finite source", "why_tests_cant": "The elements are stored by two different mechanisms depending on their number.", "anchors": ["modules/base.kos:array.prototype.insert,get_value_from_array"]}
{"id": "C70", "title": "buffer.insert is splice", "statement": "Inserting a buffer into another one at a position within it replaces exactly the bytes in the range.", "quantifier": "every buffer, range and source of at most INT_MAX bytes", "why_tests_cant": "Moving the tail up or down depends on three sizes.", "anchors": ["modules/base.kos:buffer.prototype.insert"]}
{"id": "C71", "title": "hex prints the 64-bit pattern", "statement": "hex(value, n) is 0x followed by the hexadecimal digits of the two's complement pattern, at least n and otherwise as few as possible, and parsing it gives value.", "quantifier": "every 64-bit integer and every n from 0 to 16", "why_tests_cant": "2^64 values.", "anchors": ["modules/base.kos:hex"]}
{"id": "C72", "title": "join, ljust, rjust and zfill", "statement": "join puts the separator between consecutive elements; the justification functions give strings of the requested size which keep the original characters, zfill after the sign.", "quantifier": "every list of strings, every string and size", "why_tests_cant": "Unbounded inputs.", "anchors": ["modules/base.kos:join,string.prototype.ljust,string.prototype.rjust,string.prototype.zfill"]}
{"id": "C73", "title": "range and iota end without overflow", "statement": "range and iota yield the terms of their progressions and end without a signed overflow.", "quantifier": "every begin, end and step in the 64-bit range", "why_tests_cant": "Wrap-around happens only within one step of the 64-bit limits.", "anchors": ["modules/base.kos:range", "modules/iter.kos:iota", "core/kos_vm.c:add_integer"]}
{"id": "C74", "title": "A for loop over an empty range does not run", "statement": "The loop emitted for `for x in range(...)` runs its body for the values which range yields, also for a step of 0.", "quantifier": "every begin, end and constant step", "why_tests_cant": "Step 0 makes the test hang.", "anchors": ["core/kos_compiler.c:for_range"]}
{"id": "C75", "title": "buffer.insert at any position and from any buffer", "statement": "Inserting bytes into a buffer places them at the given position, or at the end for positions behind it, also when the source is the buffer itself.", "quantifier": "every buffer, position and source", "why_tests_cant": "Depends on positions out of range and on aliasing.", "anchors": ["modules/base.kos:buffer.prototype.insert"]}
{"id": "C76", "title": "Equality of numbers is exact and transitive", "statement": "Two numbers compare equal exactly if they have the same mathematical value, and arrays of numbers are ordered without cycles.", "quantifier": "every pair of integers and floats", "why_tests_cant": "Only integers above 2^53 compared with floats are affected.", "anchors": ["core/kos_utils.c:compare_float,get_float,compare_array"]}
{"id": "C77", "title": "Comparison of arbitrary values", "statement": "Comparison of any two values terminates, also for arrays which contain themselves; exchanging the operands exchanges less and greater; without self-containing arrays two values are equal exactly if they are structurally equal; arrays without common parts are ordered lexicographically.", "quantifier": "every heap of arrays and every pair of values", "why_tests_cant": "Object graphs are unbounded and may be cyclic.", "anchors": ["core/kos_utils.c:compare,compare_array"]}
{"id": "C78", "title": "The order of nested arrays does not depend on addresses", "statement": "The result of comparing two arrays which contain no cycles depends only on their contents.", "quantifier": "every pair of arrays", "why_tests_cant": "An array has to be nested in the other operand, and the result changes with the addresses chosen by the allocator.", "anchors": ["core/kos_utils.c:compare_array"]}
{"id": "C79", "title": "Native limits", "statement": "Every number which a native type can represent is accepted, no other, and no number leads to undefined behaviour.", "quantifier": "every number and native integer type", "why_tests_cant": "Only values at the limits of the types, size_t fields and NaN are affected.", "anchors": ["core/kos_utils.c:int_limits,KOS_get_integer,KOS_extract_native_value"]}
{"id": "C80", "title": "Default values of functions with more than 32 parameters", "statement": "Missing trailing parameters get their own declared default for every number of parameters.", "quantifier": "every function signature and every argument list", "why_tests_cant": "Needs functions with more than 32 parameters in use and a call with 31 or more arguments.", "anchors": ["core/kos_vm.c:init_registers"]}
{"id": "C81", "title": "Unknown named arguments are always rejected", "statement": "A named argument which is not the name of a parameter raises an exception.", "quantifier": "every function and every name", "why_tests_cant": "Only names which happen to be properties of object.prototype are affected.", "anchors": ["core/kos_vm.c:get_named_args"]}
{"id": "C82", "title": "A call does not modify the caller's argument array", "statement": "Calling a built-in function with an array of arguments leaves the array unchanged.", "quantifier": "every built-in function and array", "why_tests_cant": "Tests look at the result of the call, not at the array passed.", "anchors": ["core/kos_vm.c:set_default_args_for_handler"]}
{"id": "C83", "title": "Out of memory during a call leaves the caller's frames intact", "statement": "When a call fails because there is no memory for the stack, the cleanup of the call leaves the frames of the callers as they were.", "quantifier": "every stack state and every failing allocation", "why_tests_cant": "Allocation failures are not injected at this point with a reentrant frame on top.", "anchors": ["core/kos_stack.c:kos_stack_push,push_new_stack", "core/kos_vm.c:prepare_call"]}
{"id": "C84", "title": "Stack depth accounting is exact", "statement": "The depth never exceeds its limit, and pushing and popping a frame restores the depth.", "quantifier": "every sequence of calls and returns", "why_tests_cant": "The depth drifts by one only when a frame does not fit in the current chunk.", "anchors": ["core/kos_stack.c:kos_stack_push,kos_stack_pop"]}
{"id": "C85", "title": "A generator survives a call rejected for lack of stack", "statement": "A call to a generator which fails by stack overflow leaves the generator in its previous state.", "quantifier": "every generator state and every later sequence of calls", "why_tests_cant": "Needs a stack overflow exactly at the call of the generator, and another call later.", "anchors": ["core/kos_vm.c:prepare_call"]}
{"id": "C86", "title": "Loops over a finished generator are empty", "statement": "Iterating over a finished generator gives no values and no exception, in loops as well as in library functions.", "quantifier": "every finished generator", "why_tests_cant": "Tests loop over a generator once.", "anchors": ["core/kos_vm.c:execute", "core/kos_utils.c:KOS_iterator_next"]}
{"id": "C87", "title": "Exceptions thrown by a generator reach the loop", "statement": "If the code of a generator throws an exception, the loop over the generator throws it.", "quantifier": "every generator and every exception", "why_tests_cant": "Only the exception generator_end is lost, which a body gets by calling another finished generator.", "anchors": ["core/kos_vm.c:execute,kos_call_function"]}
{"id": "C88", "title": "pack and unpack never leave the storage, for any format", "statement": "buffer.pack and buffer.unpack touch only the storage of the buffer, whatever sizes and counts occur in the format string.", "quantifier": "all buffers, format strings and arguments", "why_tests_cant": "the failing formats have sizes whose product wraps around 2^32; tests use small sizes", "anchors": ["modules/kos_mod_base.c:pack_format,unpack_format"]}
{"id": "C89", "title": "A failed pack leaves the buffer unchanged", "statement": "When buffer.pack raises an exception, the buffer keeps its bytes, or has at least only defined bytes.", "quantifier": "all buffers, format strings and arguments", "why_tests_cant": "tests check that an exception is raised and not the contents of the buffer afterwards", "anchors": ["modules/kos_mod_base.c:pack_format", "core/kos_buffer.c:KOS_buffer_make_room"]}
{"id": "C90", "title": "Packing a buffer into itself or an empty string works for every buffer", "statement": "A buffer packed into itself contributes the bytes it had before the field, filled up with zeros; an empty string contributes no bytes. Both hold for every buffer, including an empty one.", "quantifier": "all buffers and field sizes", "why_tests_cant": "needs an empty buffer without storage, or packing into itself, which tests do not combine", "anchors": ["modules/kos_mod_base.c:pack_format", "core/kos_buffer.c:KOS_buffer_make_room"]}
{"id": "C91", "title": "unpack reads forward", "statement": "buffer.unpack reads the bytes from left to right, and each byte for at most one directive; padding beyond the end of the buffer is rejected.", "quantifier": "all buffers, formats and positions", "why_tests_cant": "needs a padding count close to 2^32", "anchors": ["modules/kos_mod_base.c:unpack_format"]}
{"id": "C92", "title": "random.integer has no signed overflow", "statement": "random.integer(min, max) computes its result without signed overflow (undefined behaviour in C) for every range.", "quantifier": "all generator states and 64-bit min <= max", "why_tests_cant": "on usual compilers the overflow wraps around and gives the expected value, so tests pass", "anchors": ["modules/kos_mod_random.c:rand_integer"]}
{"id": "C93", "title": "Seeded generators give the documented numbers", "statement": "A generator made from a seed gives the numbers shown for this seed in the documentation.", "quantifier": "the documented examples for seeds 42 and 100", "why_tests_cant": "documentation examples are not tested", "anchors": ["modules/kos_mod_random.c:random_ctor,rand_integer,rand_float", "core/kos_misc.c:kos_rng_init_seed,pcg_random"]}
{"id": "C94", "title": "The lexer is total and stays in its text", "statement": "For any bytes the lexer ends with the tokens or with an error, and it never reads a byte outside of the given text; the same holds for each single token and for the continuation of a string after an expression.", "quantifier": "all byte sequences and positions", "why_tests_cant": "reads beyond the end depend on the last bytes of a file, e.g. an unfinished UTF-8 character or escape sequence", "anchors": ["core/kos_lexer.c:kos_lexer_next_token,prefetch_next"]}
{"id": "C95", "title": "Tokens tile the source text and have the forms of the grammar", "statement": "The texts of the tokens, one after the other, are the whole text (without a byte order mark) up to the TT_EOF token; every text has the form which the grammar gives to the type of the token: white space, ends of lines, comments, identifiers, keywords, numbers, strings, operators and separators.", "quantifier": "all byte sequences which are accepted", "why_tests_cant": "tests have single tokens with known results; this is about all texts", "anchors": ["core/kos_lexer.c:kos_lexer_next_token", "doc/grammar.md:50-419"]}
{"id": "C96", "title": "Words, operators and strings are found", "statement": "Where a word, an operator or a string of the grammar starts, the lexer gives a token with exactly this text: words up to the first other character, as a keyword exactly if it is one; the longest operator; strings up to the first unescaped quote.", "quantifier": "all texts of these forms, whatever follows them", "why_tests_cant": "infinitely many words and strings", "anchors": ["core/kos_lexer.c:kos_lexer_next_token,collect_identifier,find_keyword,collect_operator,collect_string"]}
{"id": "C97", "title": "The longest operator wins", "statement": "The lexer matches as many characters as possible as one operator (doc/grammar.md:415-419), for every text.", "quantifier": "all texts", "why_tests_cant": "the failing texts >==, >=> and >>== are not valid in expressions and not in the tests", "anchors": ["core/kos_lexer.c:collect_operator", "doc/grammar.md:380-419"]}
{"id": "C98", "title": "Line and column of tokens", "statement": "The line of a token is one more than the number of line ends before it (CR LF is one), its column is one more than the number of characters since the last line end; a tab moves to the next tab stop.", "quantifier": "all texts which are accepted", "why_tests_cant": "error positions are tested for short ASCII texts only", "anchors": ["core/kos_lexer.c:prefetch_next,retract"]}
{"id": "C99", "title": "Malformed UTF-8 is rejected", "statement": "A text which is not well-formed UTF-8 is rejected; white space tokens consist of the white space characters of the grammar.", "quantifier": "all byte sequences", "why_tests_cant": "needs particular malformed sequences whose first bits look like white space", "anchors": ["core/kos_lexer.c:prefetch_next", "doc/grammar.md:71-83"]}
{"id": "C100", "title": "Comments end and exponents are numbers", "statement": "A block comment token ends with */, and the exponent of a number has the form which the grammar gives.", "quantifier": "all accepted texts", "why_tests_cant": "accepting wrong texts is seldom tested", "anchors": ["core/kos_lexer.c:collect_block_comment,collect_decimal", "doc/grammar.md:100-121,227-276"]}
{"id": "C101", "title": "Quoting writes exactly the quoted form", "statement": "Appending a quoted string to a text adds a quote, the string with quotes and backslashes escaped and all characters other than printable ASCII as hexadecimal escapes, a quote and a terminating 0; it accesses only bytes of the buffer, and the result does not depend on uninitialised bytes. A string with a code from 0x200000 is rejected.", "quantifier": "every string, every text before it, every contents of new memory", "why_tests_cant": "the in-place expansion goes backwards and overlaps its input; all lengths and mixtures of widths matter", "anchors": ["core/kos_utils.c:vector_append_str,make_quoted_str"]}
{"id": "C102", "title": "Every number text in range is accepted and only number texts are", "statement": "Floating-point parsing accepts every text made of a sign, digits with at most one dot and an exponent part whenever the written value is finite, however the value is split between digits and exponent part, and accepts no other text.", "quantifier": "every text", "why_tests_cant": "Texts are unbounded and the refused ones need an unusual split between digits and exponent.", "anchors": ["core/kos_misc.c:kos_parse_double"]}
{"id": "C103", "title": "Floating-point parsing ends and keeps its asserted invariants", "statement": "For every text floating-point parsing ends with a value or an error code, and the mantissa given to the division step and returned by it has its top bit set, as asserted in the code.", "quantifier": "every text", "why_tests_cant": "The loops run a data-dependent number of times; asserts are only checked for the texts tried.", "anchors": ["core/kos_misc.c:kos_parse_double,divide_by_10"]}
{"id": "C104", "title": "Constant folding rejects only expressions which fail", "statement": "Compilation of an expression of constants fails in the optimizer only if evaluating the expression at run time would raise the same error.", "quantifier": "every expression of operators, constants and opaque parts", "why_tests_cant": "Operators are nested without bound and the failing part may be one that is never evaluated.", "anchors": ["core/kos_compiler_optim.c:operator_token,optimize_binary_op,optimize_unary_op,add_strings"]}
{"id": "C105", "title": "A loaded constant is the requested number", "statement": "The instruction generated to load a number loads exactly this number, whatever constants the module already has.", "quantifier": "every number and every tree of constants", "why_tests_cant": "The tree of constants may have any shape and content, including NaN constants which break its order.", "anchors": ["core/kos_compiler.c:gen_load_number,numbers_compare_item,is_sint8,add_constant"]}
{"id": "C106", "title": "Operators on integers follow their arithmetic definition", "statement": "For all 64-bit integers, + - * give the exact result or are undefined on overflow, / and % truncate and fail only for a zero divisor or an overflowing quotient, shifts by any count multiply or divide by the power of two, and a float operand of a bitwise operator is replaced by its floor or rejected.", "quantifier": "every operator and every pair of 64-bit integers; every finite double", "why_tests_cant": "2^128 operand pairs per operator, with special shift counts and limits.", "anchors": ["core/kos_vm.c:add_integer,sub_integer,mul_integer,div_integer,mod_integer", "core/kos_utils.c:KOS_get_integer"]}
{"id": "C107", "title": "A condition is compiled to a jump that is taken according to its truth", "statement": "The code generated for the condition of if, while, repeat, assert or ?: jumps exactly if the condition has the required truth value, and evaluates the same operands in the same order as the condition read with short-circuit && and ||.", "quantifier": "every condition built from !, &&, || and operands, every value and effect of the operands, both jump directions", "why_tests_cant": "Conditions nest without bound; a wrong target shows only for particular nestings and values of the operands.", "anchors": ["core/kos_compiler.c:gen_cond_jump_inner,gen_cond_jump"]}
{"id": "C108", "title": "The code of a function follows its control flow statements", "statement": "The instructions generated for a function body evaluate the same expressions with the same effects in the same order as its statements (sequences, if, while, repeat, for-in, switch with fallthrough, break, continue, return, throw, try/catch, try/defer), and end in the same way: at the end, by returning or by throwing the same value, or never.", "quantifier": "every function body built from these statements, every meaning of expressions including exceptions, every number of loop iterations", "why_tests_cant": "Statements nest without bound; a wrong exception handler shows only if an exception is thrown later, after particular nestings of loop, switch and try were left by break, continue or fallthrough.", "anchors": ["core/kos_compiler.c:process_scope,if_stmt,gen_return,return_stmt,throw_op,repeat,while_stmt,for_in,restore_catch,break_continue_fallthrough,switch_stmt,try_stmt", "core/kos_vm.c:execute (JUMP, CATCH, CANCEL, THROW, RETURN, cleanup)"]}
{"id": "C109", "title": "A finalizer is called at most once", "statement": "During a garbage collection the finalizer of an unreachable object, module or buffer storage is called at most once for each of them.", "quantifier": "every heap, every set of roots, every interleaving of the marking threads, every point at which memory runs out", "why_tests_cant": "The second call needs an unreachable module on a page on which an allocation fails in the middle of an evacuation.", "anchors": ["core/kos_heap.c:finalize_object,mark_unused_objects_opaque,evacuate"]}
{"id": "C110", "title": "A collection counts the pages it keeps", "statement": "The number of kept pages reported by a garbage collection is the number of pages which were not evacuated because they were almost full of live objects.", "quantifier": "every heap and every set of roots", "why_tests_cant": "Depends on the number of live slots of a page coinciding with the value of a flag.", "anchors": ["core/kos_heap.c:evacuate", "modules/kos_mod_kos.c:collect_garbage"]}
{"id": "C111", "title": "The mark bitmap stores one color per slot", "statement": "Marking a slot changes the color of this slot only and reports whether the color changed; clearing a page resets exactly its allocated slots; and the search for the next marked slot finds the first slot in the range which is not white, for both implementations of find_first_set.", "quantifier": "every bitmap, every slot and every range of slots of a page", "why_tests_cant": "A mistake in the masks shows only for particular positions of a slot in its word and particular contents of the neighbouring words.", "anchors": ["core/kos_heap.c:get_mark_location,advance_marking,find_first_set,skip_white,get_marking,set_mark_state_loc,clear_page_mark_state,set_marking_in_pages"]}
{"id": "C112", "title": "The regular expression compiler accepts exactly the grammar", "statement": "Compilation of any text terminates. It succeeds iff the text belongs to the grammar of regular expressions (alternatives, sequences, single characters, escapes, classes, anchors, capturing and non-capturing groups, greedy and lazy quantifiers with ordered counts up to 65535) and the generated code has at most 32767 words; otherwise it throws. The compiled object has one group for each capturing parenthesis.", "quantifier": "every text", "why_tests_cant": "Texts are unbounded; nesting, quantifier counts and the code size limit interact, a wrong offset shows only for particular sizes of nested parts.", "anchors": ["modules/kos_mod_re.c:parse_re,parse_alternative_match_seq,parse_match_seq,parse_single_match,parse_escape_seq,parse_class,parse_group,parse_number,emit_multiplicity,emit_instr"]}
{"id": "C113", "title": "The documented regular expression syntax is accepted", "statement": "Every expression which matches the grammar documented at the beginning of kos_mod_re.c is accepted by the compiler, and nothing else.", "quantifier": "every text", "why_tests_cant": "The test suite uses only the implemented subset.", "anchors": ["modules/kos_mod_re.c:parse_escape_seq,parse_match_seq,parse_alternative_match_seq"]}
{"id": "C114", "title": "Group positions at the end of the longest string", "statement": "A group which took part in a match is reported with its positions also if it begins or ends at position 65535, the end of a string of the maximum length.", "quantifier": "every expression and every string", "why_tests_cant": "Needs a string of exactly 65535 characters and a group which ends at its end.", "anchors": ["modules/kos_mod_re.c:match_string,re_find"]}
{"id": "C115", "title": "Growing by several threads stays inside the storage", "statement": "If several threads grow an array at the same time, no thread accesses a slot outside of a storage.", "quantifier": "every interleaving of the atomic steps of any number of threads", "why_tests_cant": "The window is between the check of the capacity by one thread and the linking of the new storage, with a complete growth by another thread in between.", "anchors": ["core/kos_array.c:KOS_array_reserve,resize_storage,copy_buf"]}
{"id": "C116", "title": "Resizing while another thread grows the storage", "statement": "After a thread has completed making an array longer, the new elements are readable, also if another thread grew the storage at the same time.", "quantifier": "every interleaving of the atomic steps", "why_tests_cant": "The window is between reading the storage pointer and filling the new elements in KOS_array_resize.", "anchors": ["core/kos_array.c:KOS_array_resize,KOS_array_reserve,copy_buf"]}
{"id": "C117", "title": "Concurrent property access is memory safe and invents no values", "statement": "Any number of threads set, delete and get properties of one object, while the property table is grown and copied by any of them. No access is outside of a table, no assertion fails, a get never returns a reserved or closed slot, and a get which returns a value returns one which some thread set under this name before.", "quantifier": "every hash function, every number of threads up to 10^9, every sequentially consistent interleaving of the atomic steps including failed allocations and spurious failures of weak compare-and-swap, any number of table replacements", "why_tests_cant": "Depends on the order of a few instructions in copying threads; the number of interleavings is unbounded.", "anchors": ["core/kos_object.c:KOS_set_property,set_property,KOS_get_property_with_depth,find_property,resize_prop_table,help_copy_table,copy_table,salvage_item"]}
{"id": "C118", "title": "The expression parser accepts exactly the expression grammar", "statement": "Parsing of any token sequence as an expression terminates. If it succeeds, the consumed tokens are a phrase of the expression grammar and the syntax tree is the one given by the precedence and associativity rules. Conversely, every phrase which is followed by a token that cannot continue it is accepted with its tree, unless one of its tokens begins a line or the depth limit is exceeded, which does not happen for short inputs. The grammar is unambiguous.", "quantifier": "every token sequence, every depth limit", "why_tests_cant": "Expressions nest without bound; precedence mistakes show only for particular combinations of adjacent operators.", "anchors": ["core/kos_parser.c:right_hand_side_expr,stream_expr,conditional_expr,logical_expr,comparison_expr,arithm_bitwise_expr,unary_expr,member_expr,primary_expr,invocation,refinement_expr,array_literal,object_literal"]}
{"id": "C119", "title": "Ambiguous line breaks are rejected", "statement": "If a plus, minus, opening bracket or opening parenthesis is the first token on a line and could continue the expression of the previous line, the parser signals an error.", "quantifier": "every token sequence with line breaks", "why_tests_cant": "Requires a line break at one particular place inside of each kind of expression.", "anchors": ["core/kos_parser.c:member_expr,unary_expr,arithm_bitwise_expr"]}
{"id": "C120", "title": "The depth of a syntax tree is limited", "statement": "A syntax tree accepted by the parser is not deeper than a multiple of KOS_MAX_AST_DEPTH, so the recursive passes of the compiler need a bounded stack.", "quantifier": "every token sequence", "why_tests_cant": "The tests of the limit use nested operators and parentheses, not chains of member accesses.", "anchors": ["core/kos_parser.c:increase_ast_depth,member_expr"]}
{"id": "C121", "title": "A slice has no optional form", "statement": "A question mark after an opening bracket is accepted only for an element access, as in the grammar, and not for a slice.", "quantifier": "every token sequence", "why_tests_cant": "No test combines the question mark with a slice.", "anchors": ["core/kos_parser.c:refinement_expr"]}
{"id": "C122", "title": "Names are resolved by lexical scoping", "statement": "For every program the compiler binds each use of a name to the visible declaration in the innermost enclosing block or function, where a declaration is visible after its whole statement (the name of a constant function or class also inside of its own functions, an exception variable only in its catch block); it reports an undefined name, a redefinition, an assignment to a constant, or a misplaced this or yield in exactly the programs where scoping says so, with the first such place; and none of its assertions fails.", "quantifier": "every syntax tree, set of predefined globals and mode", "why_tests_cant": "The set of nestings of blocks, functions, classes, catch clauses and defer statements is infinite; tests contain a few.", "anchors": ["core/kos_compiler_vars.c:lookup_local_var,lookup_and_mark_var,define_var,find_local_var,function_literal,catch_clause,assignment,visit_node"]}
{"id": "C123", "title": "Variables are captured exactly when functions share them", "statement": "A local variable or argument is marked as independent of its function's registers if and only if a function inside uses it, each function references the frames of exactly those outer functions whose variables it or a function inside of it uses, and a use is compiled as local if and only if no function lies between it and the declaration or the variable is global.", "quantifier": "every syntax tree, set of predefined globals and mode", "why_tests_cant": "A missing mark shows only when a closure outlives the function or variables change later, and a superfluous one only in generated code.", "anchors": ["core/kos_compiler_vars.c:lookup_and_mark_var,add_scope_ref,lookup_local_var"]}
{"id": "C124", "title": "The path of an imported module stays in its buffer", "statement": "Building the path of an import statement writes no byte behind the end of the buffer allocated for it, and the resulting path consists of all names separated by slashes.", "quantifier": "every list of names accepted by the lexer", "why_tests_cant": "Requires an import statement longer than 65535 characters.", "anchors": ["core/kos_compiler_vars.c:get_module_path_len,kos_get_module_path_name"]}
{"id": "C125", "title": "Closures are looked up by a total order of addresses", "statement": "The comparison used in the tree of closures of a function is a total order on addresses of scopes, and two closures compare equal only if they are the same.", "quantifier": "every pair and triple of addresses", "why_tests_cant": "Allocators in tests return addresses close to each other.", "anchors": ["core/kos_compiler_vars.c:scope_ref_compare_item,scope_ref_compare_node"]}
{"id": "C126", "title": "Lines do not depend on the parts in which a text is read", "statement": "file.read_lines yields the lines of the whole text, with CR LF as one end, no matter how the decoded text is cut into parts, even between CR and LF; joined with their ends they are the text, and without ends they contain no end.", "quantifier": "every text, every way of cutting it into non-empty parts, both values of keep_ends", "why_tests_cant": "Tests use a few sizes and texts; an end of line falling on the border of two parts is rare.", "anchors": ["modules/io.kos:read_lines"]}
{"id": "C127", "title": "read_lines reads every UTF-8 file", "statement": "For a file with valid UTF-8 text and any granularity, read_lines yields the lines of the text and throws no exception.", "quantifier": "every valid UTF-8 text, every granularity", "why_tests_cant": "A character of several bytes on the border of two parts of 4096 bytes occurs only in long files which are not ASCII.", "anchors": ["modules/io.kos:read_lines", "modules/kos_mod_io.c:read_some", "core/kos_string.c:KOS_new_string_from_buffer"]}
{"id": "C128", "title": "read_line returns the first line for every buffer size", "statement": "file.read_line returns the bytes up to and including the first end of line, the rest stays in the file, independently of reserved_size.", "quantifier": "every file content, every reserved_size", "why_tests_cant": "Tests use texts without NUL and CR and lines shorter than the buffer.", "anchors": ["modules/kos_mod_io.c:read_line"]}
{"id": "C129", "title": "shuffle permutes", "statement": "random.shuffle terminates for every generator and returns a permutation of the elements; every permutation can be the result.", "quantifier": "every list of elements, every state of the generator, every sequence of random numbers", "why_tests_cant": "Tests see a few shuffles; losing an element may need certain random numbers.", "anchors": ["modules/random.kos:shuffle", "modules/kos_mod_random.c:rand_integer"]}
{"id": "C130", "title": "shuffle is unbiased", "statement": "If the numbers given by integer(0, max) are equally likely and independent, then all permutations are equally likely.", "quantifier": "every number of elements", "why_tests_cant": "A bias of a distribution needs many samples to be seen.", "anchors": ["modules/random.kos:shuffle"]}
{"id": "C131", "title": "Semaphores conserve units", "statement": "In every interleaving of acquire and release by any number of threads the value stays between 0 and 0x7FFFFFFF, and the value plus units taken equals the initial value plus units released; acquire calls which returned took no more than was available.", "quantifier": "every number of threads, every interleaving, spurious failures of compare and swap and spurious wake ups", "why_tests_cant": "Interleavings of atomic operations cannot be enumerated by tests.", "anchors": ["modules/kos_mod_threads.c:semaphore_acquire,semaphore_release"]}
{"id": "C132", "title": "Semaphores lose no wake up", "statement": "If no thread can continue, then all threads are outside of the semaphore or wait in acquire while the value is 0; the mutex is free.", "quantifier": "every number of threads, every interleaving", "why_tests_cant": "A lost wake up needs a release between a check and a wait of another thread.", "anchors": ["modules/kos_mod_threads.c:semaphore_acquire,semaphore_release"]}
{"id": "C133", "title": "acquire(n) returns when n units are available", "statement": "If no thread can continue and threads wait in acquire, then fewer units than each of them asked for are available.", "quantifier": "every number of threads, every interleaving, every count", "why_tests_cant": "Needs two threads which acquire more than one unit at the same time.", "anchors": ["modules/kos_mod_threads.c:semaphore_acquire"]}
{"id": "C134", "title": "Queues and stacks of threads are linearizable", "statement": "Pushes and pops by any number of threads, in the order of their critical sections, are a run of a sequential queue (stack): no element is lost, doubled or out of order, each pop returns as many elements as asked for and does not throw; a queue keeps at most max(8, min(128, size / 4)) popped elements in its array.", "quantifier": "every number of threads, every interleaving, every integer count", "why_tests_cant": "Interleavings of threads cannot be enumerated by tests; compaction of the array depends on the sizes.", "anchors": ["modules/threads.kos:push,pop", "modules/kos_mod_threads.c:semaphore_acquire,semaphore_release"]}
{"id": "C135", "title": "Queues are correct for every count accepted by pop", "statement": "The previous property also holds for pop of a count which is not an integer and which is accepted.", "quantifier": "every count, also fractions", "why_tests_cant": "Tests use integer counts.", "anchors": ["modules/threads.kos:pop"]}
{"id": "C136", "title": "pop(n) returns when n elements are there", "statement": "If no thread can continue and a thread waits in pop(n), then the collection has fewer than n elements.", "quantifier": "every number of threads, every interleaving, every count", "why_tests_cant": "Needs two threads which pop several elements at the same time.", "anchors": ["modules/threads.kos:pop", "modules/kos_mod_threads.c:semaphore_acquire"]}
{"id": "C137", "title": "The collector has the heap for itself", "statement": "While a thread marks, evacuates or updates pointers, no thread runs a program; evacuation is done by one thread alone; marking and updating never happen at the same time, whatever threads suspend, resume, help, collect or wake up spuriously in between.", "quantifier": "every number of threads below 2^32, every interleaving of critical sections, every outcome of collection phases", "why_tests_cant": "A race between a resumed thread and the collector shows up in one run out of millions.", "anchors": ["core/kos_heap.c:stop_the_world", "core/kos_heap.c:help_gc", "core/kos_heap.c:KOS_resume_context", "core/kos_heap.c:KOS_collect_garbage"]}
{"id": "C138", "title": "A collection is led by one thread and nobody sleeps for ever", "statement": "There is a collecting thread iff a collection is in progress, and it is the only one. A collector which sleeps until threads stop has a thread which runs a program and is asked to stop; one which sleeps in a walk has a helper which walks; a helper sleeps only during a collection. So there is no deadlock: if all threads are parked or asleep, all are parked.", "quantifier": "every number of threads below 2^32, every interleaving of critical sections", "why_tests_cant": "A lost wakeup is a hang in a rare interleaving.", "anchors": ["core/kos_heap.c:stop_the_world", "core/kos_heap.c:engage_in_gc", "core/kos_heap.c:end_walk"]}
{"id": "C139", "title": "threads_to_stop counts the threads which have to stop", "statement": "While a collector waits for others, threads_to_stop is the number of threads which still run a program; it is 0 outside of this wait.", "quantifier": "every number of threads below 2^32, every interleaving of critical sections", "why_tests_cant": "Needs a context which is resumed exactly while the collector waits; the wrong value does no visible harm.", "anchors": ["core/kos_heap.c:engage_in_gc", "core/kos_heap.c:KOS_resume_context"]}
{"id": "C140", "title": "A helper goes on when the collection ends", "statement": "A thread which has helped with a collection returns to its program after this collection has ended.", "quantifier": "every number of collections, every interleaving of critical sections", "why_tests_cant": "Starvation depends on which thread gets the mutex.", "anchors": ["core/kos_heap.c:help_gc"]}
{"id": "C141", "title": "A collection takes a bounded number of steps", "statement": "With n threads, threads which take part in a collection can do at most 24 n + 50 steps between locking and unlocking the heap, in any order, if evacuation is not repeated; when none of them can do a step, the collection has ended or waits for a thread which runs a program and has been asked to stop.", "quantifier": "every number of threads below 2^32, every interleaving, every state from which the steps are counted", "why_tests_cant": "Tests see that some collections end, not that helpers and the collector cannot wake each other for ever.", "anchors": ["core/kos_heap.c:KOS_collect_garbage", "core/kos_heap.c:help_gc", "core/kos_heap.c:end_walk"]}
