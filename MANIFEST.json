{
 "claims": [
  {
   "property": "C01",
   "status": "proved",
   "theorems": [
    "utf8_roundtrip",
    "utf8_encoders_agree"
   ],
   "note": "all sequences of code points below 2^21, all addresses"
  },
  {
   "property": "C02",
   "status": "proved",
   "theorems": [
    "utf8_len_decode_agree",
    "utf8_well_formed_accepted"
   ],
   "note": "all byte strings, with and without escapes, fast path included"
  },
  {
   "property": "C41",
   "status": "partial",
   "theorems": [
    "utf8_rejects_ill_formed_refuted",
    "utf8_well_formed_accepted"
   ],
   "note": "refuted: overlong 3/4-byte forms, surrogates and values above U+10FFFF are accepted"
  },
  {
   "property": "C03",
   "status": "proved",
   "theorems": [
    "parse_int_correct",
    "int_text_unambiguous"
   ],
   "note": "all texts except those denoting minus 2^63, see C42"
  },
  {
   "property": "C35",
   "status": "proved",
   "theorems": [
    "int_print_parse",
    "int_print_is_integer"
   ],
   "note": "snprintf is replaced by a decimal printing function"
  },
  {
   "property": "C42",
   "status": "partial",
   "theorems": [
    "parse_int_min_refuted"
   ],
   "note": "refuted: negation of INT64_MIN is a signed overflow"
  },
  {
   "property": "C43",
   "status": "partial",
   "theorems": [
    "parse_int_requires_digit_refuted"
   ],
   "note": "refuted: \"__\" parses as 0"
  },
  {
   "property": "C18",
   "status": "proved",
   "theorems": [
    "sort_permutes",
    "sort_ascending_stable",
    "sort_descending"
   ],
   "note": "permutation for any compare outcome; order and stability for every total preorder"
  },
  {
   "property": "C44",
   "status": "partial",
   "theorems": [
    "sort_descending_stable_refuted",
    "sort_descending"
   ],
   "note": "refuted: ties come out reversed; sort_descending proves exactly that"
  },
  {
   "property": "C20",
   "status": "proved",
   "theorems": [
    "class_is_union",
    "class_disjoint_any_order",
    "class_sound",
    "digit_class",
    "word_class"
   ],
   "note": "soundness for all range lists; completeness for all lists without a hidden range"
  },
  {
   "property": "C45",
   "status": "partial",
   "theorems": [
    "class_is_union_refuted"
   ],
   "note": "refuted: a range inside an earlier one splits it wrongly"
  },
  {
   "property": "C05",
   "status": "proved",
   "theorems": [
    "array_insert_is_splice",
    "array_refines_list"
   ],
   "note": "single thread; language-level insert_array is covered without exception"
  },
  {
   "property": "C06",
   "status": "proved",
   "theorems": [
    "array_refines_list"
   ],
   "note": "single thread, any operation sequence"
  },
  {
   "property": "C46",
   "status": "partial",
   "theorems": [
    "array_insert_self_refuted",
    "array_insert_is_splice"
   ],
   "note": "refuted: the source index is advanced by a wrapped 32-bit difference"
  },
  {
   "property": "C47",
   "status": "partial",
   "theorems": [
    "array_cas_position_refuted",
    "array_refines_list"
   ],
   "note": "refuted: the position is truncated to 32 bits"
  },
  {
   "property": "C31",
   "status": "proved",
   "theorems": [
    "buffer_refines_bytes",
    "buffer_refines_bytes_from",
    "buffer_ctor_concat",
    "buffer_ctor_rejects_bytes",
    "buffer_ctor_num_fills"
   ],
   "note": "single thread, sizes up to INT_MAX"
  },
  {
   "property": "C48",
   "status": "partial",
   "theorems": [
    "buffer_ctor_empty_refuted"
   ],
   "note": "refuted: an exception is raised"
  },
  {
   "property": "C49",
   "status": "partial",
   "theorems": [
    "buffer_resize_wrap_refuted",
    "buffer_ctor_wrap_refuted"
   ],
   "note": "refuted: the rounding of the capacity wraps to 0"
  },
  {
   "property": "C04",
   "status": "proved",
   "theorems": [
    "fix_index_is_pos_of",
    "array_slice_is_list_slice",
    "string_slice_is_list_slice",
    "buffer_slice_is_list_slice"
   ],
   "note": "arrays, strings and buffers; an array slice may also fail for lack of memory above 2^27 elements"
  },
  {
   "property": "C25",
   "status": "proved",
   "theorems": [
    "string_scan_first",
    "string_scan_last",
    "string_strip_spec",
    "stripped_left_unique"
   ],
   "note": "strings of 8-bit elements, or whose characters fit the elements of the set; see C51"
  },
  {
   "property": "C26",
   "status": "proved",
   "theorems": [
    "string_find_first",
    "string_find_last",
    "string_starts_with",
    "string_ends_with"
   ],
   "note": "wcscoll is a parameter which is not zero for different characters"
  },
  {
   "property": "C27",
   "status": "proved",
   "theorems": [
    "string_compare_equality",
    "string_compare_slice_equality",
    "string_compare_is_lex",
    "lex_is_total_order"
   ],
   "note": "wcscoll is a parameter with the laws of a total order"
  },
  {
   "property": "C32",
   "status": "proved",
   "theorems": [
    "string_add_is_concat",
    "string_add_small",
    "string_add_not_string",
    "string_repeat_is_repeat",
    "string_repeat_c",
    "string_reverse_is_rev",
    "string_index_is_nth",
    "string_index_any_int",
    "string_from_codes_is_list",
    "string_case_is_map"
   ],
   "note": "towupper and towlower are parameters"
  },
  {
   "property": "C33",
   "status": "proved",
   "theorems": [
    "string_hash_is_text_hash",
    "equal_strings_hash_equally"
   ],
   "note": "every string object satisfying the invariant, which every modelled operation preserves"
  },
  {
   "property": "C36",
   "status": "proved",
   "theorems": [
    "string_split_spec",
    "string_split_degenerate",
    "string_split_join",
    "string_join_spec",
    "string_split_words",
    "string_split_words_complete",
    "string_split_lines_spec",
    "string_split_lines_complete"
   ],
   "note": "a generator is the list of the values it yields; split at white space for characters below U+10000, see C51"
  },
  {
   "property": "C50",
   "status": "partial",
   "theorems": [
    "string_compare_order_refuted",
    "string_compare_is_lex"
   ],
   "note": "refuted: two slices of 16-bit strings compare in the wrong order"
  },
  {
   "property": "C51",
   "status": "partial",
   "theorems": [
    "string_scan_exclude_refuted",
    "string_strip_refuted",
    "string_scan_first",
    "string_scan_last"
   ],
   "note": "refuted: characters wider than the elements of the set are skipped"
  },
  {
   "property": "C52",
   "status": "partial",
   "theorems": [
    "string_rfind_negative_refuted",
    "string_find_last"
   ],
   "note": "refuted: the position is relative to size minus pattern size"
  },
  {
   "property": "C53",
   "status": "partial",
   "theorems": [
    "string_add_wrap_refuted",
    "string_add_is_concat"
   ],
   "note": "refuted: the length is computed modulo 2^32"
  },
  {
   "property": "C54",
   "status": "partial",
   "theorems": [
    "string_hash_assert_refuted"
   ],
   "note": "refuted: the one character string U+2B5A5 hashes to 0"
  },
  {
   "property": "C55",
   "status": "partial",
   "theorems": [
    "string_ascii_sound",
    "string_ascii_equal_refuted"
   ],
   "note": "refuted: a slice keeps the flags of its source; the flag implies ASCII characters"
  },
  {
   "property": "C56",
   "status": "partial",
   "theorems": [
    "string_case_narrow_refuted",
    "string_case_is_map"
   ],
   "note": "refuted: the result is cut to the element width"
  },
  {
   "property": "C08",
   "status": "proved",
   "theorems": [
    "object_ops_refine_maps"
   ],
   "note": "one thread; for every hash function and every pattern of allocation failures"
  },
  {
   "property": "C57",
   "status": "partial",
   "theorems": [
    "object_set_succeeds_partial",
    "object_set_eleven_equal_hashes",
    "object_set_succeeds_refuted"
   ],
   "note": "refuted: ten properties with one hash make setting an eleventh name with this hash fail for every amount of memory; proved for objects with at most nine other properties"
  },
  {
   "property": "C58",
   "status": "partial",
   "theorems": [
    "object_failed_set_partial",
    "object_failed_set_refuted"
   ],
   "note": "refuted: the table grows after the value is stored; proved: unchanged or done"
  },
  {
   "property": "C59",
   "status": "proved",
   "theorems": [
    "object_read_follows_prototypes"
   ],
   "note": ""
  },
  {
   "property": "C60",
   "status": "proved",
   "theorems": [
    "object_walk_interleaved"
   ],
   "note": ""
  },
  {
   "property": "C61",
   "status": "partial",
   "theorems": [
    "object_deep_walk_partial",
    "object_deep_walk_refuted"
   ],
   "note": "refuted: a deleted own property hides the property of the prototype; proved: soundness, and completeness for names never deleted, without modification during the walk"
  },
  {
   "property": "C62",
   "status": "partial",
   "theorems": [
    "object_table_bounded_refuted"
   ],
   "note": "refuted: every growth doubles the table even if most slots are deleted names"
  },
  {
   "property": "C10",
   "status": "proved",
   "theorems": [
    "tree_ops_refine_lists"
   ],
   "note": ""
  },
  {
   "property": "C37",
   "status": "proved",
   "theorems": [
    "uimm_round_trip",
    "simm_round_trip",
    "instr_round_trip"
   ],
   "note": "unsigned operands below 2^32 (2^28 with assertions), signed operands of at most 31 bits (28 with assertions)"
  },
  {
   "property": "C63",
   "status": "proved",
   "theorems": [
    "jumps_reach_targets"
   ],
   "note": "programs of at most 2^23 instructions; switch statements and jump arrays are jumps like others"
  },
  {
   "property": "C64",
   "status": "proved",
   "theorems": [
    "line_lookup"
   ],
   "note": ""
  },
  {
   "property": "C38",
   "status": "proved",
   "theorems": [
    "pool_blocks_disjoint",
    "pool_alloc_succeeds",
    "pool_destroy_frees_all",
    "vector_resize_contents",
    "vector_concat_contents"
   ],
   "note": "requests below 2^32 - 7 bytes; larger ones: C65"
  },
  {
   "property": "C65",
   "status": "partial",
   "theorems": [
    "pool_block_size_refuted",
    "pool_blocks_disjoint"
   ],
   "note": "refuted: the rounding mask has 32 bits; proved below 2^32 - 7 bytes"
  },
  {
   "property": "C29",
   "status": "proved",
   "theorems": [
    "range_values",
    "range_size_total",
    "iota_values"
   ],
   "note": "the term after the last one must be a 64-bit integer; the other case: C73"
  },
  {
   "property": "C30",
   "status": "proved",
   "theorems": [
    "iproduct_tuples",
    "product_tuples",
    "tuples_complete",
    "tuples_once"
   ],
   "note": ""
  },
  {
   "property": "C66",
   "status": "proved",
   "theorems": [
    "for_range_is_range"
   ],
   "note": "step other than 0; step 0: C74"
  },
  {
   "property": "C67",
   "status": "proved",
   "theorems": [
    "slice_values",
    "slice_consumption"
   ],
   "note": "negative bounds go through arrays, C04"
  },
  {
   "property": "C68",
   "status": "proved",
   "theorems": [
    "zip_rows"
   ],
   "note": ""
  },
  {
   "property": "C69",
   "status": "proved",
   "theorems": [
    "array_insert_iterator",
    "array_get_value"
   ],
   "note": "the source does not depend on the array"
  },
  {
   "property": "C70",
   "status": "proved",
   "theorems": [
    "buffer_insert_splice"
   ],
   "note": "position not behind the end, another buffer; otherwise C75"
  },
  {
   "property": "C71",
   "status": "proved",
   "theorems": [
    "hex_digits_of",
    "hex_parse"
   ],
   "note": ""
  },
  {
   "property": "C72",
   "status": "proved",
   "theorems": [
    "join_separates",
    "justify_sizes",
    "justify_contents"
   ],
   "note": ""
  },
  {
   "property": "C73",
   "status": "partial",
   "theorems": [
    "range_limit_refuted",
    "range_overflow",
    "iota_end_refuted",
    "range_values"
   ],
   "note": "refuted: the loop variable overflows before the test; proved when it does not"
  },
  {
   "property": "C74",
   "status": "partial",
   "theorems": [
    "for_range_zero_step_refuted",
    "for_range_is_range"
   ],
   "note": "refuted for step 0, proved for other steps"
  },
  {
   "property": "C75",
   "status": "partial",
   "theorems": [
    "buffer_insert_past_end_refuted",
    "buffer_insert_self_refuted",
    "buffer_insert_splice"
   ],
   "note": "refuted for positions behind the end and for the buffer itself; proved otherwise"
  },
  {
   "property": "C28",
   "status": "proved",
   "theorems": [
    "number_order_exact",
    "number_order_sound",
    "number_lt_transitive",
    "operators_consistent"
   ],
   "note": "other mixed comparisons: C76"
  },
  {
   "property": "C39",
   "status": "proved",
   "theorems": [
    "get_integer_floor",
    "native_round_trip",
    "native_array"
   ],
   "note": "integer types except uint64_t and size_t, no NaN: see C79; boolean, float, string and buffer fields are not modelled"
  },
  {
   "property": "C76",
   "status": "partial",
   "theorems": [
    "number_equality_refuted",
    "array_order_cycle_refuted",
    "number_order_exact"
   ],
   "note": "refuted for integers above 2^53 and floats; proved otherwise"
  },
  {
   "property": "C77",
   "status": "proved",
   "theorems": [
    "compare_terminates",
    "compare_antisymmetric",
    "compare_equality",
    "compare_equal_bisimilar",
    "compare_kinds",
    "compare_simple",
    "compare_lexicographic"
   ],
   "note": "the comparison of strings is a parameter"
  },
  {
   "property": "C78",
   "status": "partial",
   "theorems": [
    "compare_nested_refuted",
    "compare_lexicographic"
   ],
   "note": "refuted when one operand is nested in the other; proved for arrays without common parts"
  },
  {
   "property": "C79",
   "status": "partial",
   "theorems": [
    "native_size_refuted",
    "native_limits_refuted",
    "native_round_trip"
   ],
   "note": "refuted: size_t accepts nothing, uint64_t accepts negative numbers, the float -2^63 is rejected, NaN is undefined"
  },
  {
   "property": "C14",
   "status": "proved",
   "theorems": [
    "positional_arguments",
    "handler_arguments"
   ],
   "note": "more than 32 parameters: proved unless 31 or more but not all arguments are given, see C80; allocation failures are not modelled"
  },
  {
   "property": "C15",
   "status": "proved",
   "theorems": [
    "named_arguments",
    "handler_named_arguments"
   ],
   "note": "names which are properties of object.prototype: see C81"
  },
  {
   "property": "C80",
   "status": "partial",
   "theorems": [
    "many_parameters_refuted",
    "positional_arguments"
   ],
   "note": "refuted: with more than 32 parameters, 31 or more arguments and not 31 required ones, defaults are taken from the wrong position; proved otherwise"
  },
  {
   "property": "C81",
   "status": "partial",
   "theorems": [
    "unknown_name_refuted",
    "named_arguments"
   ],
   "note": "refuted for names of properties of object.prototype; proved otherwise"
  },
  {
   "property": "C82",
   "status": "partial",
   "theorems": [
    "caller_array_refuted",
    "caller_array_unchanged"
   ],
   "note": "refuted when the array is shorter than the list of parameters; proved exactly otherwise"
  },
  {
   "property": "C16",
   "status": "proved",
   "theorems": [
    "stack_is_list",
    "stack_progress",
    "stack_walk",
    "stack_depth_bound",
    "closure_variables",
    "rejected_call",
    "push_then_pop"
   ],
   "note": "allocation failures: see C83; exact depth: see C84"
  },
  {
   "property": "C83",
   "status": "partial",
   "theorems": [
    "out_of_memory_refuted",
    "rejected_call"
   ],
   "note": "refuted when a closure or a generator calls a regular function and the allocation of a chunk fails: the cleanup pops the caller's frame; proved for the other failures"
  },
  {
   "property": "C84",
   "status": "partial",
   "theorems": [
    "depth_limit_refuted",
    "push_pop_depth_refuted",
    "stack_depth_bound"
   ],
   "note": "refuted: the depth can exceed the limit by 2, and a push followed by a pop can change it; bounds proved"
  },
  {
   "property": "C17",
   "status": "proved",
   "theorems": [
    "generator_life_cycle",
    "done_is_final",
    "rejected_keeps_state",
    "loop_over_generator"
   ],
   "note": "calls rejected for lack of stack: see C85; the code of the generator is an arbitrary sequence of yields, a return or an exception"
  },
  {
   "property": "C85",
   "status": "partial",
   "theorems": [
    "overflow_refuted",
    "rejected_keeps_state"
   ],
   "note": "refuted: after a stack overflow the generator is recorded as running for ever; proved for the other failures"
  },
  {
   "property": "C86",
   "status": "partial",
   "theorems": [
    "finished_loop_refuted",
    "loop_over_generator"
   ],
   "note": "refuted for loops (NEXT_JUMP); holds for KOS_iterator_next"
  },
  {
   "property": "C87",
   "status": "partial",
   "theorems": [
    "body_exception_refuted",
    "body_exception"
   ],
   "note": "refuted for generator_end, proved for every other exception"
  },
  {
   "property": "C19",
   "status": "proved",
   "theorems": [
    "format_unambiguous",
    "pack_writes_layout",
    "pack_bad_format",
    "unpack_reads_layout",
    "unpack_bad_format",
    "pack_unpack",
    "string_from_range"
   ],
   "note": "floating-point conversions are parameters; total room below 2^32-64 and readable buffers below 2^31 bytes (beyond: C88, C91); empty buffers: C90"
  },
  {
   "property": "C88",
   "status": "partial",
   "theorems": [
    "pack_in_bounds_refuted",
    "unpack_in_bounds_refuted",
    "pack_in_bounds",
    "unpack_reads_layout"
   ],
   "note": "refuted: size*count wraps at 2^32 (2s2147483648 writes, 65536b65536 reads outside); proved when the room fits in 32 bits"
  },
  {
   "property": "C89",
   "status": "partial",
   "theorems": [
    "failed_pack_refuted"
   ],
   "note": "refuted: pack(\"u4\") without values raises an exception and leaves 4 uninitialised bytes; no positive part proved"
  },
  {
   "property": "C90",
   "status": "partial",
   "theorems": [
    "pack_self_refuted",
    "pack_empty_string_refuted",
    "pack_self"
   ],
   "note": "refuted for buffers without storage, proved for buffers which are not empty"
  },
  {
   "property": "C91",
   "status": "partial",
   "theorems": [
    "unpack_forward_refuted",
    "unpack_reads_layout"
   ],
   "note": "refuted: u1 7x 4294967288x u1 reads the first byte twice; proved when the room fits in 32 bits"
  },
  {
   "property": "C11",
   "status": "proved",
   "theorems": [
    "integer_in_range",
    "integer_full_range",
    "integer_rejects",
    "range_unbiased",
    "outputs_unbiased",
    "range_first_accepted",
    "full_period",
    "float_in_range"
   ],
   "note": "values for wide ranges assume two's complement wrap-around, see C92"
  },
  {
   "property": "C92",
   "status": "partial",
   "theorems": [
    "integer_overflow_refuted",
    "integer_no_overflow"
   ],
   "note": "refuted for max - min > INT64_MAX, proved otherwise"
  },
  {
   "property": "C93",
   "status": "partial",
   "theorems": [
    "documented_numbers_refuted",
    "shuffle_documented_refuted"
   ],
   "note": "refuted: the documented numbers are not those of this algorithm"
  },
  {
   "property": "C94",
   "status": "proved",
   "theorems": [
    "lexer_total",
    "lexer_token_total"
   ],
   "note": "the error for an escape \\x{ with an error inside may be another one in the code"
  },
  {
   "property": "C95",
   "status": "partial",
   "theorems": [
    "tokens_tile_partial",
    "string_continued"
   ],
   "note": "exceptions are in the statement: odd operators, / at the end, unfinished comments, exponents with a leading underscore, white space in malformed UTF-8, comments before malformed UTF-8"
  },
  {
   "property": "C96",
   "status": "proved",
   "theorems": [
    "words_found",
    "operators_found",
    "strings_found"
   ],
   "note": "operators other than the exceptions of C97; the operator / not at the end of the text; raw strings and strings with expressions are covered by C95 only"
  },
  {
   "property": "C97",
   "status": "partial",
   "theorems": [
    "longest_operator_refuted",
    "operators_found"
   ],
   "note": "refuted for >==, >=> and >>==, proved for all other texts"
  },
  {
   "property": "C98",
   "status": "partial",
   "theorems": [
    "token_positions",
    "tab_column_refuted"
   ],
   "note": "refuted for tabs, proved for lines and for columns without tabs before; the position of the end token is not covered"
  },
  {
   "property": "C99",
   "status": "partial",
   "theorems": [
    "malformed_rejected_refuted",
    "white_space"
   ],
   "note": "refuted; white space proved for well-formed texts"
  },
  {
   "property": "C100",
   "status": "partial",
   "theorems": [
    "block_comment_end_refuted",
    "exponent_refuted",
    "decimal_numbers"
   ],
   "note": "refuted: unfinished comments and 1e_5 are accepted; proved for numbers without underscores"
  },
  {
   "property": "C24",
   "status": "partial",
   "theorems": [
    "quoted_reads_back_partial",
    "quoted_injective",
    "quoted_reads_back_refuted"
   ],
   "note": "refuted for characters from 0x100000 (written with five digits only), proved for all others when the literal has at most 65535 bytes"
  },
  {
   "property": "C101",
   "status": "proved",
   "theorems": [
    "quoted_form",
    "unquoted_form",
    "quoting_invalid",
    "quoted_printable"
   ],
   "note": "strings have at most 65535 characters"
  },
  {
   "property": "C34",
   "status": "partial",
   "theorems": [
    "parse_double_within_ulp_partial",
    "parse_double_nearest_partial",
    "parse_double_nearest_refuted",
    "parse_double_closest_refuted",
    "parse_double_denormal_carry_refuted",
    "parse_double_overflow_refuted"
   ],
   "note": "The result is less than one unit in the last place from the written value for every number text with exponent part in -324..308, and nearest (ties to even) when the text is short and its scaling exact. Correct rounding is false: 36028797018963979.5 is read as the farther neighbour, 2.2250738585072012e-308 as zero, 1.7976931348623159e308 as infinity."
  },
  {
   "property": "C102",
   "status": "partial",
   "theorems": [
    "parse_double_accepts_partial",
    "parse_double_accepts_refuted",
    "parse_double_range",
    "parse_double_range_refuted",
    "parse_double_requires_digit_refuted"
   ],
   "note": "Texts with at most one dot are accepted only if they are number texts. False in general: 0..5 and . are accepted, and exponent parts outside -324..308 are refused although the value is in range."
  },
  {
   "property": "C103",
   "status": "proved",
   "theorems": [
    "parse_double_total",
    "divide_asserts"
   ],
   "note": "Any text; any mantissa with its top bit set."
  },
  {
   "property": "C12",
   "status": "partial",
   "theorems": [
    "fold_binop_agrees",
    "fold_expr_agrees_partial",
    "fold_expr_exact_partial",
    "fold_unary_minus_refuted",
    "fold_not_range_refuted",
    "nan_to_integer_refuted",
    "fold_truthy_refuted",
    "fold_effects_refuted"
   ],
   "note": "Binary operators on numbers agree exactly. Whole expressions agree (events and result, up to the sign of zero; exactly without unary minus) for well-formed tokens when containers that are only tested have no effects and ~ is not applied to a float near -2^63. False otherwise: -0.0, ~1e300, 1e-324 || f(), [f()] && 1, typeof of an interpolated string."
  },
  {
   "property": "C104",
   "status": "partial",
   "theorems": [
    "fold_error_partial",
    "fold_error_dead_refuted",
    "fold_string_length_refuted"
   ],
   "note": "Some part of the expression raises the error; this part need not be evaluated (true || 1/0 is rejected) and the length limit of folded string sums counts source bytes."
  },
  {
   "property": "C105",
   "status": "partial",
   "theorems": [
    "load_number_partial",
    "load_number_refuted"
   ],
   "note": "Exact up to the sign of a floating-point zero: -0.0 after 0.0 loads 0.0."
  },
  {
   "property": "C106",
   "status": "partial",
   "theorems": [
    "vm_int_ops",
    "vm_float_to_int",
    "vm_overflow_refuted",
    "nan_to_integer_refuted"
   ],
   "note": "All integer pairs and all finite doubles. Overflow of + - * and the conversion of NaN are undefined behavior."
  },
  {
   "property": "C13",
   "status": "partial",
   "theorems": [
    "dead_code_partial",
    "terminal_partial",
    "dead_code_break_refuted",
    "dead_code_break_always",
    "dead_code_continue_refuted",
    "dead_code_repeat_refuted",
    "dead_code_switch_refuted",
    "dead_literal_refuted"
   ],
   "note": "Same outcome and state for every meaning of expressions, every number of passes and also inside endless loops, unless a loop or switch whose body ends with return or throw on every path also contains a break (or, for repeat, a continue): then following reachable code is removed. A class or function literal used as a statement is removed with the expressions inside it."
  },
  {
   "property": "C107",
   "status": "partial",
   "theorems": [
    "cond_jump_partial",
    "cond_jump_exact",
    "cond_jump_refuted",
    "cond_jump_or_refuted"
   ],
   "note": "False for conditions with || in the first operand of && or && in the first operand of ||: if (a || b) && c runs its body without evaluating c when a is true, and if (a && b) || c skips its body when a is false. cond_jump_exact: these are exactly the wrong ones."
  },
  {
   "property": "C108",
   "status": "partial",
   "theorems": [
    "control_flow_partial",
    "control_flow_diverges_partial",
    "control_flow_no_try",
    "control_flow_break_refuted",
    "control_flow_switch_refuted",
    "control_flow_defer_refuted"
   ],
   "note": "Proved for all functions without try, and for functions in which every break, continue and fallthrough reaches its target with the handler that is active there. Otherwise false: break out of a try inside a loop leaves the handler of that try active after the loop; break in a switch inside a try inside a loop inside another try activates the handler of the outer try; the same after a defer section."
  },
  {
   "property": "C40",
   "status": "proved",
   "theorems": [
    "gc_preserves_reachable",
    "gc_same_graph",
    "gc_reclaims_garbage",
    "gc_marks_reachable"
   ],
   "note": "For every well-formed heap, any number of marking threads, any interleaving and any number of free pages, including the passes repeated after memory runs out. Also: exactly the unreachable objects with finalizers are finalized. Marking is assumed to have finished; running out of memory while marking is not modelled."
  },
  {
   "property": "C109",
   "status": "partial",
   "theorems": [
    "finalize_once_refuted"
   ],
   "note": "False: the finalizer of an unreachable module is called twice if memory runs out while its page is evacuated."
  },
  {
   "property": "C110",
   "status": "partial",
   "theorems": [
    "kept_pages_counted_refuted"
   ],
   "note": "False: a page with one used slot which is kept is not counted."
  },
  {
   "property": "C111",
   "status": "proved",
   "theorems": [
    "mark_location",
    "advance_location",
    "set_mark_bits",
    "set_marking_page",
    "find_first_set_same",
    "clear_page_slots",
    "skip_white_slots",
    "skip_white_model"
   ],
   "note": ""
  },
  {
   "property": "C22",
   "status": "partial",
   "theorems": [
    "datetime_decode",
    "datetime_encode",
    "datetime_all_dates",
    "datetime_accepts",
    "datetime_float_field",
    "datetime_round_trip_partial",
    "datetime_encode_decode",
    "datetime_decode_negative_refuted",
    "datetime_accepts_refuted",
    "datetime_round_trip_refuted"
   ],
   "note": "Decoding is proved exact for every timestamp from 0 to INT64_MAX, including the floating point estimate of the year, and encoding for every valid date from 1970 to 290307. False: negative timestamps give negative fields; one day more than the month has is accepted (February 29, 2001); fields of timestamps after year 290307 are rejected. Float timestamps are not modelled."
  },
  {
   "property": "C23",
   "status": "partial",
   "theorems": [
    "json_parse_total",
    "json_parse_valid",
    "json_unambiguous",
    "json_round_trip_partial",
    "json_dump_valid",
    "json_parse_min_refuted",
    "json_reject_refuted",
    "json_escape_refuted",
    "json_dump_escape_refuted",
    "json_dump_map_refuted"
   ],
   "note": "Proved: every JSON text with 64-bit integers and without escape sequences, of at most 65535 bytes, is parsed to its value (except the smallest integer); dump writes a valid text which is parsed to the same value, if strings need no escapes and no object has a key map. False: escape sequences are neither decoded nor written; the smallest integer is rejected; extra commas, invalid characters, comments and an unfinished string at the end are accepted; a key map makes dump fail. Missing: floats, generators as input, errors inside numbers and escapes."
  },
  {
   "property": "C21",
   "status": "proved",
   "theorems": [
    "re_find_first",
    "re_find_first_union",
    "re_find_language",
    "re_unbounded"
   ],
   "note": ""
  },
  {
   "property": "C112",
   "status": "proved",
   "theorems": [
    "re_compile_total",
    "re_compile_iff",
    "re_compile_code"
   ],
   "note": "The grammar is the implemented one; see C113 for the differences from the documented one."
  },
  {
   "property": "C113",
   "status": "partial",
   "theorems": [
    "re_documented_refuted"
   ],
   "note": "False: the documented escapes A, s, S, Z and digits, and a closing parenthesis as a character, are rejected."
  },
  {
   "property": "C114",
   "status": "partial",
   "theorems": [
    "re_groups_refuted"
   ],
   "note": "False: a group which begins or ends at position 65535 is reported as void."
  },
  {
   "property": "C07",
   "status": "proved",
   "theorems": [
    "array_concurrent",
    "array_read_last_write",
    "array_single_grower"
   ],
   "note": "Atomic steps are sequentially consistent; push, pop, insert and slice are not modelled concurrently; growing by several threads and resizing are the subject of C115 and C116."
  },
  {
   "property": "C115",
   "status": "partial",
   "theorems": [
    "array_two_growers_refuted",
    "array_single_grower"
   ],
   "note": "False for two growing threads: a storage which is smaller than its predecessor can be linked, then copy_buf accesses slots outside of it. Proved for one growing thread."
  },
  {
   "property": "C116",
   "status": "partial",
   "theorems": [
    "array_resize_race_refuted"
   ],
   "note": "False: KOS_array_resize fills the storage it has read before, although another thread has replaced it."
  },
  {
   "property": "C09",
   "status": "partial",
   "theorems": [
    "object_set_grow_refuted",
    "object_get_written"
   ],
   "note": "False: a thread which is suspended between publishing a key and its hash makes another thread, which grows the table, copy the item to the slot of hash 0, where it is not found. Proved for every interleaving: a get returns only values set under this name."
  },
  {
   "property": "C117",
   "status": "proved",
   "theorems": [
    "object_concurrent_safe",
    "object_get_written"
   ],
   "note": "Atomic steps are sequentially consistent; the object has no prototype and no dynamic properties."
  },
  {
   "property": "C118",
   "status": "proved",
   "theorems": [
    "parse_sound",
    "parse_complete",
    "parse_complete_one_line",
    "parse_terminates",
    "parse_depth",
    "grammar_unambiguous"
   ],
   "note": "Function, class and lambda literals, interpolated strings and async do are outside of the model; the input is a token list. For expressions longer than the depth limit allows, completeness leaves the outcome open between the tree and the depth error."
  },
  {
   "property": "C119",
   "status": "partial",
   "theorems": [
    "newline_ambiguous_refuted",
    "newline_rejected_partial"
   ],
   "note": "False inside of a prefix operator: -a followed by (b) on the next line is parsed as -(a(b)). Proved for sums and products followed by + or -, and for calls and member accesses followed by ( or [, when they begin the expression."
  },
  {
   "property": "C120",
   "status": "partial",
   "theorems": [
    "ast_depth_refuted"
   ],
   "note": "False: member_expr does not count its depth, a chain of n member accesses gives a tree of depth n."
  },
  {
   "property": "C121",
   "status": "partial",
   "theorems": [
    "slice_question_mark_refuted"
   ],
   "note": "False: x[?a:b] is accepted and gives the same tree as x[a:b]."
  },
  {
   "property": "C122",
   "status": "proved",
   "theorems": [
    "names_are_lexical",
    "names_no_assertion",
    "not_in_own_value",
    "not_after_block"
   ],
   "note": "Syntax trees are reduced to the nodes which matter for names; import and private globals of interactive modules are not modelled."
  },
  {
   "property": "C123",
   "status": "proved",
   "theorems": [
    "captured_iff_shared",
    "closures_iff_reached",
    "local_iff_direct",
    "crossing_is_served"
   ],
   "note": "Closures are identified by the number of their function; see C125 for the comparison of their addresses."
  },
  {
   "property": "C124",
   "status": "partial",
   "theorems": [
    "module_path_partial",
    "module_path_overflow",
    "module_path_in_buffer_refuted"
   ],
   "note": "False: for a path of more than 65535 bytes the length is set to 0, one byte is allocated, and the whole path is copied to it. Proved for paths of at most 65535 bytes."
  },
  {
   "property": "C125",
   "status": "partial",
   "theorems": [
    "closure_order_partial",
    "closure_order_refuted",
    "closure_circle_refuted"
   ],
   "note": "False: the difference of addresses is truncated to 32 bits, closures 4 GiB apart compare equal. Proved for addresses within 2 GiB."
  },
  {
   "property": "C126",
   "status": "proved",
   "theorems": [
    "read_lines_chunk_independent",
    "read_lines_lossless"
   ],
   "note": "Stated for the strings into which the parts of the file are decoded."
  },
  {
   "property": "C127",
   "status": "partial",
   "theorems": [
    "read_lines_file_partial",
    "read_lines_ascii_partial",
    "read_lines_utf8_refuted"
   ],
   "note": "False: each part is decoded on its own, so a character which crosses a border of parts is an exception, for each granularity. Proved when no part begins or ends within a character, which includes all ASCII files with granularity up to 65535."
  },
  {
   "property": "C128",
   "status": "partial",
   "theorems": [
    "read_line_partial",
    "read_line_nul_refuted",
    "read_line_cr_refuted"
   ],
   "note": "False: bytes behind NUL are lost, and CR ends the line only when it is the last byte of the buffer. Proved for files without NUL and CR."
  },
  {
   "property": "C129",
   "status": "proved",
   "theorems": [
    "shuffle_permutes",
    "shuffle_draws_permutes",
    "shuffle_every_permutation"
   ],
   "note": "Arrays of up to 2^32 elements."
  },
  {
   "property": "C130",
   "status": "partial",
   "theorems": [
    "shuffle_uniform_refuted"
   ],
   "note": "False: each index is exchanged with any index, for 3 elements there are 9 equally likely draws and 6 permutations."
  },
  {
   "property": "C131",
   "status": "proved",
   "theorems": [
    "sem_conserves"
   ],
   "note": "Sequentially consistent memory."
  },
  {
   "property": "C132",
   "status": "proved",
   "theorems": [
    "sem_no_lost_wakeup"
   ],
   "note": "Sequentially consistent memory; condition variables by their specification."
  },
  {
   "property": "C133",
   "status": "partial",
   "theorems": [
    "sem_single_units",
    "sem_acquire_returns_refuted"
   ],
   "note": "False for counts above 1: two threads may hold part of the units each and wait for ever; the documentation of acquire says that it is not atomic. Proved when all waiting threads acquire single units."
  },
  {
   "property": "C134",
   "status": "proved",
   "theorems": [
    "queue_linearizable",
    "queue_order",
    "queue_keeps_few"
   ],
   "note": "Critical sections with the mutex are atomic steps; acquire is a step for each decrement."
  },
  {
   "property": "C135",
   "status": "partial",
   "theorems": [
    "queue_fraction_refuted"
   ],
   "note": "False: pop(1.5) acquires one unit and moves the front by 1.5, so later pops take too many elements or none. See C134 for integers."
  },
  {
   "property": "C136",
   "status": "partial",
   "theorems": [
    "queue_pop_returns_partial",
    "queue_pop_returns_refuted"
   ],
   "note": "False for counts above 1: two pop(2) may take one unit each and wait for ever for 2 elements which are there. Proved for pops of single elements."
  },
  {
   "property": "C137",
   "status": "proved",
   "theorems": [
    "world_stopped",
    "no_mutator_in_collection"
   ],
   "note": "Critical sections with heap->mutex are atomic steps; objects and pages are not part of this model."
  },
  {
   "property": "C138",
   "status": "proved",
   "theorems": [
    "one_collector",
    "active_has_collector",
    "sleeper_has_waker",
    "no_deadlock",
    "can_go_on"
   ],
   "note": "That a thread which runs a program reaches a point where it stops is assumed, not proved."
  },
  {
   "property": "C139",
   "status": "partial",
   "theorems": [
    "no_threads_to_stop",
    "threads_to_stop_bound",
    "early_wake_refuted",
    "threads_to_stop_underflow_refuted"
   ],
   "note": "False: a context resumed during the wait was not counted but is subtracted, so the collector wakes up early and the counter may wrap to 2^32 - 1. Proved: it is 0 outside of the wait, and from 1 to the number of running threads while the collector sleeps."
  },
  {
   "property": "C140",
   "status": "partial",
   "theorems": [
    "helper_returns",
    "helper_starves_refuted"
   ],
   "note": "False: the next collection may begin before the helper gets the mutex, any number of times. Proved: it returns if it gets the mutex between collections."
  },
  {
   "property": "C141",
   "status": "proved",
   "theorems": [
    "collection_bounded",
    "collection_ends"
   ],
   "note": "Spurious wakeups, threads which begin a call, and repeated evacuations are not counted among the steps."
  }
 ]
}