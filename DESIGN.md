# Formal model of selected parts of Kos

## Layout

* `rocq/theories/<Area>Model.v` – Gallina functions written after the C / Kos
  sources, function by function; each definition cites file and lines of `/repo`.
* `rocq/theories/<Area>Spec.v` (or a `Spec` section at the top of the proof file) –
  independent specification, readable from the English statement.
* `rocq/theories/<Area>Proofs.v` – lemmas.
* `rocq/theories/<Area>Props.v` – the property theorems (each `exact` a lemma),
  a concrete non-trivial `Example` next to each theorem, and `Print Assumptions`.

Suffix `_partial`: only part of the property is proved, the comment says what is missing.
Suffix `_refuted`: the property is false of the faithful model; the theorem gives a witness.

## Conventions

* Machine integers are `Z` (or `N`) with explicit wrap functions.  Where C leaves
  behaviour undefined (signed overflow, out of range float cast, out of bounds access)
  the model has a distinct outcome, it does not silently wrap.
* Memory allocation failures are not modelled unless stated.
* Concurrency: sequentially consistent interleaving of the individual atomic accesses
  as written in the source; weak memory effects are not modelled.

## Plan per property

| Id | What is modelled | How it is proved |
|----|------------------|------------------|
| C01 | UTF-8 encoder, length and decoder on lists of bytes | induction on the sequence |
| C02 | the same; over-reads are a distinct outcome | induction; non-well-formed acceptance refuted by witness |
| C03 | `kos_parse_int` on byte lists, uint64 wrap, UB outcome | refinement to positional value; INT64_MIN refuted |
| C04 | `kos_fix_index`, slices | case analysis + list lemmas |
| C05 | `KOS_array_insert` with uint32/int64 index arithmetic | refinement to splice; self-insert refuted |
| C06 | array storage with size/capacity | simulation to lists, any op sequence |
| C07 | storage chain with TOMBSTONE / CLOSED, interleaving of atomic steps | inductive invariant |
| C08 | open addressing table, hashes arbitrary | simulation to finite map |
| C09 | same with atomic steps | refuted by a schedule; partial positive |
| C10 | pointer tree operations as functions on trees with parent links | invariants, any sequence |
| C11 | PCG32, range rejection | arithmetic |
| C12 | folding functions and VM operators on the same value type | case analysis; differences refuted |
| C14 | `init_registers`, call preparation | refinement to a list binding function; wide functions refuted |
| C15 | `get_named_args` | refinement to map lookup |
| C16 | stack chunks | inverse/invariant proof over push/pop traces |
| C17 | generator state machine | invariant; stack overflow path refuted |
| C18 | in-place quicksort on triples | permutation + sortedness + stability; reverse refuted |
| C19 | format interpreter with 32-bit arithmetic | round trip; bounds refuted for wrapping counts |
| C20 | class range insertion and lookup | invariant; nested ranges refuted |
| C21 | bytecode compiler and backtracking VM | simulation with ordered-results semantics |
| C22 | `datetime.kos` functions; calendar as iterated next day | day numbers; SpecFloat division for the year estimate |
| C23 | dump / parse | refuted by witness, partial positive |
| C24 | quoting and literal unescaping | induction; code points >= 0x100000 refuted |
| C25 | `KOS_string_scan` with element masks | refinement; wide exclude refuted |
| C26 | `KOS_string_find` | loop invariant |
| C27 | `compare_slice` with alignment prologue | refuted for 16/32-bit; equality proved |
| C28 | `KOS_compare` on numbers (dyadic doubles) | refuted transitivity; order laws per type |
| C29 | `range`, `iota` | induction on remaining distance; wrap refuted |
| C30 | product iterator | induction |
| C31 | buffers with capacity rounding | simulation; rounding wrap refuted |
| C32 | string construction | list refinement |
| C33 | hash over code points | width independence |
| C34 | `kos_parse_double` | error bound carried through digits, scaling and rounding; refuted by witnesses |
| C35 | `int_to_str` composed with C03 | induction |
| C36 | split/join | induction |
| C37 | variable-length operands | arithmetic/induction |
| C38 | memory pool and vector | invariant over allocation sequences |
| C39 | native conversions | case analysis; limits refuted |
| C40 | schedule-driven marking machine, heap as a map from ids to cells, invariant of the evacuation with the list of moves so far, induction over the passes | reachable graph is isomorphic |
| C41 | decoder of C02 | refuted by witnesses |
| C42, C43 | parser of C03 | refuted by witnesses |
| C44 | sort of C18 | refuted by witness |
| C45 | classes of C20 | refuted by witness |
| C46, C47 | arrays of C05, C06 | refuted by witnesses |
| C48, C49 | buffers of C31 | refuted by witnesses |
| C50 - C56 | strings of C25 - C27, C32, C33 | refuted by witnesses |
| C57, C58, C61, C62 | objects of C08 | refuted by witnesses, with the part which holds |
| C59 | objects of C08 | refinement to prototype chains |
| C60 | objects of C08 | invariant of walks over operation sequences |
| C63 | jump relaxation of generated code | positions as a closed form over the list of jumps; operand sizes only grow, so passes end |
| C64 | lookup in line tables | induction |
| C65 | pool of C38 | refuted by a witness |
| C29, C73 | generators as state machines, int64 addition with overflow as an outcome | induction on the number of resumptions |
| C30 | iproduct as odometer, product as recursion over cached sources | induction on the arguments |
| C66, C74 | loop emitted for range | step function equal to that of range |
| C67, C68 | slice and zip over arbitrary sources | induction on resumptions |
| C69, C70, C75 | insert methods over the array and buffer models | list decomposition, C05 and C18 lemmas |
| C71, C72 | hex, join, justification | induction on digits and elements |
| C76 | equality of numbers | witness above 2^53; cyclic order of arrays |
| C77 | comparison of object graphs | ghost list of enclosing comparisons bounds the depth; heights for equality |
| C78 | nested arrays | two heaps with the same contents |
| C79 | native limits | witnesses |
| C80 | Default values of functions with more than 32 parameters | ArgsProps many_parameters_refuted |
| C81 | Unknown named arguments | ArgsProps unknown_name_refuted |
| C82 | Caller array unchanged | ArgsProps caller_array_refuted |
| C16, C83, C84 | Invariant relating the chunked stack to a list of frames, preserved by each operation; walks and closure reads read off the invariant; witnesses for exact depth and out of memory | StackProps |
| C17, C85, C86, C87 | Three-phase specification simulated by the generator states; loops by induction on the yielded values; witnesses for overflow and finished generators | GenProps |
| C19, C88, C89, C90, C91 | Inductive grammar of formats, layout of values as bytes, relation of bytes to values; parser proved equivalent to the grammar, writers and readers by induction over values and directives; witnesses by computation | PackProps |
| C11 | integer in range, unbiased, loops end, float in [0,1) | RandProps |
| C92 | no signed overflow in random.integer (refuted) | RandProps |
| C93 | documented numbers (refuted) | RandProps |
| C94 | LexProps | lexer: total, no reads outside of the text |
| C95 | LexProps | tokens tile the text and have the forms of the grammar |
| C96 | LexProps | words, operators and strings are found |
| C97 | LexProps | longest operator (refuted) |
| C98 | LexProps | line and column (tabs refuted) |
| C99 | LexProps | malformed UTF-8 (refuted) |
| C100 | LexProps | unfinished comments, exponents (refuted) |
| C101 | quoting in place writes the quoted form | loop invariant from the end of the text: text, gap, finished part |
| C102 | `kos_parse_double` | acceptance and refusal against a separate text grammar |
| C103 | `kos_parse_double`, `divide_by_10` | totality, asserts as theorems |
| C104 | `operator_token` | induction on expressions, occurrence of the failing part |
| C105 | `gen_load_number` | every tree of constants, search finds only equal constants |
| C106 | arithmetic instructions | arithmetic on Z with floor division and powers of two |
| C13 | DeadModel, DeadSpec | optimizer as a function on statement trees, statements executed with a limit of iterations |
| C107 | `gen_cond_jump_inner` with jump arrays as labels | induction on conditions; exact class of conditions compiled rightly |
| C108 | Statements compiled to jumps, handlers and defer copies, simulated on an abstract machine | Ctl*: proved unless break, continue or fallthrough leaves a try inside its loop or switch; 3 refuted witnesses |
| C109 | memory runs out on the page of an unreachable module with a finalizer | refuted by a witness |
| C110 | page with one used slot | refuted by a witness |
| C111 | 2-bit digits of 32-bit words; search by count of trailing zeros | bitwise extensionality, induction on words |
| C112 | regular expression compiler against a text grammar | soundness by symbolic execution, completeness by mutual induction |
| C113 | regular expression compiler on documented escapes | witness |
| C114 | matcher on strings of the maximum length | witness |
| C115 | storage chain, interleaving of atomic steps | refuted by a schedule; positive for one growing thread |
| C116 | same | refuted by a schedule |
| C117 | the same model | `object_concurrent_safe` |
| C118 | expression parser against grammar | Parse* |
| C119 | line breaks in expressions | Parse* |
| C120 | depth of syntax trees | Parse* |
| C121 | optional slices | Parse* |
| C122 | names are lexical | Vars* |
| C123 | captured variables | Vars* |
| C124 | module path buffer | VarsMisc* |
| C125 | order of closures | VarsMisc* |
| C126, C127 | lines of files | Lines* |
| C128 | read_line | Lines* |
| C129, C130 | shuffle | Shuffle* |
| C131, C132, C133 | semaphores | Sem* |
| C134, C135, C136 | queue and stack | Queue* |
| C137 | stop the world: exclusive phases | StwProps |
| C138 | one collector, no lost wakeup | StwProps |
| C139 | threads_to_stop (refuted) | StwProps |
| C140 | helper returns (refuted) | StwProps |
| C141 | a collection ends after boundedly many steps | StwEndProps |

## Mutation log

`seeded/LOG.jsonl` has one line per seeded edit.  `failed` names the lemma whose proof script
stops first.  A script can also stop on an edit which leaves the property true; such entries
carry a `note` and are not detections.

## Trusted base

Coq 8.16.1 kernel; for each theorem what `Print Assumptions` lists (see the per-theorem
table at the end of this file).  The correspondence of the models with the C sources is by
reading only.

<!-- generated below -->

## Modelled and not modelled

| Files | Modelled from | Not modelled |
|---|---|---|
| Utf8* | core/kos_utf8.c, UTF-8 parts of core/kos_string.c | memory allocation |
| ParseInt* | core/kos_misc.c `kos_parse_int`, core/kos_utils.c `int_to_str` | `snprintf` is replaced by a decimal printer; `kos_parse_numeric` dispatch |
| Sort* | modules/kos_mod_base.c sort functions | key functions which modify the array, other threads |
| ReClass* | modules/kos_mod_re.c class ranges | |
| ReSpec, ReModel, ReProofs*, ReProps | modules/kos_mod_re.c: compiler (parse_re and everything below it) and matcher (match_string, possibilities, re_find) | the cache of compiled expressions, allocation failures, conversion of arguments and the result object, re.kos |
| Index*, Array* | core/kos_array.c, `kos_atomic_move_ptr`, array methods `cas` and `insert_array` | other threads, read-only flag, GC, allocation failure below the size limit |
| Buffer* | core/kos_buffer.c, buffer methods of modules/kos_mod_base.c, element access in core/kos_vm.c | other threads, read-only flag, GC, allocation failure, generator arguments of the constructor |
| String* | core/kos_string.c except UTF-8 and number conversions, string methods of modules/kos_mod_base.c | storage kinds other than by data address, GC, allocation failure, wcscoll and towupper/towlower (parameters), float arguments |
| StrLib* | modules/base.kos string methods lstrip, rstrip, strip, split, split_lines and function join | iterables other than arrays of strings as arguments of join; generators are lists of yielded values |
| Obj* | core/kos_object.c property tables, property get/set/delete, prototype chains, object walks | other threads, private data, read-only objects, getters and setters (only the decision to call them), exceptions of key conversion; memory allocation is a parameter |
| Rb* | core/kos_red_black.c | overlapping node addresses; callbacks which change the links |
| Bc* | core/kos_compiler.c operand encoding, instruction emission, jump relaxation; core/kos_bytecode and core/kos_disasm.c decoding; core/kos_entity.c line lookup | choice of instructions, constant tables, error cases of the emitter other than operand range |
| Mem* | core/kos_memory.c | kos_seq_fail; contents of pool blocks (only the links between buffers); vectors of 2^63 bytes or more |
| Iter* | modules/base.kos range, generator.slice, insert, get, ljust, rjust, zfill, hex, zip, join; modules/iter.kos iota, iproduct, product, generator; core/kos_compiler.c for_range | floating-point arguments, sources which raise exceptions or depend on the result, the decision of the compiler whether to use the loop |
| Num* | core/kos_utils.c KOS_compare, KOS_get_integer, integer part of KOS_extract_native_value and KOS_new_from_native; core/kos_vm.c comparison instructions | signed zeros and NaN payloads; other threads; boolean, float, string and buffer fields |
| Args* | core/kos_compiler_args.c update_arguments; core/kos_compiler.c register layout in gen_function; core/kos_vm.c slice_args, init_registers, set_default_args_for_handler, get_named_args, argument part of prepare_call | evaluation of default values, assertions, out of memory, read-only argument arrays |
| Stack* | core/kos_stack.c; core/kos_vm.c set_closure_stack_size, read_stack, write_stack, cleanup of prepare_call | GC, other threads, locals, contents of frames other than registers, catch and return information |
| Gen* | core/kos_vm.c prepare_call and finish_call for generators, INSTR_NEXT_JUMP, KOS_call_generator; core/kos_utils.c KOS_iterator_next | other threads; bodies are scripts of yields; values sent to the generator |
| Pack* | modules/kos_mod_base.c 2724-3597: pack_format_get_count, process_pack_format, pack_format, unpack_format, pack, unpack; core/kos_string.c KOS_new_string_from_buffer | hardware floating-point conversions (parameter), read-only buffers, external buffers, other threads, GC, out of memory |
| Rand* | core/kos_misc.c 625-729: pcg_random, pcg_init, kos_rng_init_seed, kos_rng_init, kos_rng_random, kos_rng_random_range; modules/kos_mod_random.c rand_integer, rand_float | entropy sources (input), the mutex, conversion of arguments |
| Lex* | core/kos_lexer.c (all) | positions of error messages, which of two error messages for \x{ |
| Quote* | core/kos_utils.c 60-86, 465-656: extra_len_map, hex_digits, vector_append_str, make_quoted_str; core/kos_compiler.c 418-449 get_token_str | out of memory; the other conversions to strings |
| Dbl* | core/kos_misc.c 166-487: shift_digit, multiply_by_10_and_add, divide_by_10, kos_parse_double | int counters (texts of about 2^31 characters); kos_parse_numeric |
| Fold* | core/kos_compiler_optim.c 33-237, 1254-1820: collapse, promote, get_nonzero, kos_get_const, kos_node_is_truthy, kos_node_is_falsy, optimize_binary_op, optimize_unary_op, is_raw_str, add_strings, collapse_typeof, operator_token; core/kos_vm.c 48-390, 2279-2730: ADD to XOR, TYPE; core/kos_utils.c 164-200 KOS_get_integer; core/kos_entity.c 456-487 kos_is_truthy; core/kos_compiler.c 453-471, 738-741, 897-933, 4293-4333: numbers_compare_item, is_sint8, gen_load_number, pos_neg | registers and generated code of expressions (evaluation order is part of the specification), scopes, check_const_literal, out of memory, the parts of expressions that operator_token does not look into |
| Dead* | core/kos_compiler_optim.c 340-374, 410-734, 796-863, 2073-2253: is_dummy_load, process_scope, if_stmt, repeat_stmt, while_stmt, try_stmt, switch_stmt, case_stmt, for_in_stmt, visit_node, kos_optimize | counting and removal of variables, functions and classes, expressions (Fold*) |
| Cond* | core/kos_compiler.c 1690-1851: JUMP_ARRAY, negate_jump_opcode, gen_cond_jump_inner, gen_cond_jump | code of the operands, capacity of jump arrays, out of memory, the values of && and \|\| used as operands (log_and_or) |
| Ctl* | core/kos_compiler.c 1603-1672, 1853-2260, 2434-2631, 2856-3415: process_scope, if_stmt, find_try_scope, gen_return, return_stmt, throw_op, push_try_scope, repeat, while_stmt, for_in, restore_catch, break_continue_fallthrough, switch_stmt, try_stmt; core/kos_vm.c 3395-3655: JUMP, JUMP_COND, RETURN, THROW, CATCH, CANCEL, exception dispatch | code of expressions (one opaque instruction), nested conditions (Cond*), instruction sizes and jump offsets, register limits, tail calls, for over range(), assert, with statements (parsed to try), backtraces, generators |
| Gc* | core/kos_heap.c 91-121 (page layout), 195-221, 323-403 (finalize_object, free_page, huge trackers), 603-737 and 791-1045 (allocation), 1272-1551 (mark states), 1568-1771 (marking), 1788-1883, 1943-1981, 2039-2148 (mark_unused_objects_opaque), 2150-2492 (update of references), 2494-2697 (evacuate), 2905-3062 (collect_garbage); GcBits: 1272-1461 again with the mark bitmap as an array of 32-bit words | CONFIG_MAD_GC, mutexes, statistics in bytes and time, failures of malloc while marking, pool allocation (a list of pages); the collector itself uses one color per slot, GcBits proves that the bitmap implements this |
| Date* | modules/datetime.kos (all) | float timestamps, arguments which are not numbers, texts of exceptions; math.floor followed by integer() is one conversion |
| Json* | modules/json.kos (all but parse_array); modules/kos_mod_kos.c 247-320 raw_lexer with ignore_errors, over Lex* | floats, generators as input or as dumped object, where the lexer continues after errors inside numbers, escapes, lines and UTF-8 sequences, texts of exceptions, walk order of objects |
| ArrayConc* | core/kos_array.c 154-511: element read, write, cas, reserve, resize, copying of the storage by threads, as interleaved atomic steps | weak memory order, push, pop, insert, slice, read-only arrays, moving of storages by the collector |
| ObjConc* | core/kos_object.c 162-456, 498-832: set, delete and get of a property, growing and copying of the property table by threads, as interleaved atomic steps | weak memory order, prototypes, dynamic properties, read-only objects, shape of walks, moving of tables by the collector |
| Parse* | core/kos_parser.c 77-235, 471-517, 838-1947: expressions, from tokens to syntax trees | statements, assignments, function, class and lambda literals, interpolated strings, async do, positions in the tree, errors of the lexer |
| Vars* | core/kos_compiler_vars.c 79-439, 442-451, 453-526, 673-1088, 1231-1313: resolution of names, marking of captured variables, module paths, comparison of closures | import, private globals, lists of variables of a frame, super, positions of errors beyond the name |
| Lines* | modules/io.kos 174-244, modules/kos_mod_io.c 697-800, core/kos_string.c 313-388: read_lines and read_line | errors of files, files of other threads, short reads |
| Shuffle* | modules/random.kos 38-55 | iterables which change |
| Sem* | modules/kos_mod_threads.c 195-439: semaphores, as interleaved atomic steps | weak memory order, suspension of contexts for the collector, fairness |
| Queue* | modules/threads.kos 4-76: queue and stack | exceptions for lack of memory, changes of properties by users |
| Stw*, StwEnd* | core/kos_heap.c 575-602, 1228-1263, 2707-2868 and the phases of KOS_collect_garbage 2870-3062: how threads stop for a collection, help and go on | contents of the phases (see Gc*), pages of threads, registration of contexts other than as suspended ones, weak memory order, fairness |

## Assumptions per theorem

Output of `Print Assumptions` for every property theorem.

| Theorem | File | Assumptions |
|---|---|---|
| `positional_arguments` | ArgsProps | none |
| `named_arguments` | ArgsProps | none |
| `handler_arguments` | ArgsProps | none |
| `handler_named_arguments` | ArgsProps | none |
| `many_parameters_refuted` | ArgsProps | none |
| `unknown_name_refuted` | ArgsProps | none |
| `caller_array_refuted` | ArgsProps | none |
| `caller_array_unchanged` | ArgsProps | none |
| `array_concurrent` | ArrayConcProps | none |
| `array_read_last_write` | ArrayConcProps | none |
| `array_single_grower` | ArrayConcProps | none |
| `array_two_growers_refuted` | ArrayConcProps | none |
| `array_resize_race_refuted` | ArrayConcProps | none |
| `fix_index_is_pos_of` | ArrayProps | none |
| `array_slice_is_list_slice` | ArrayProps | none |
| `array_insert_is_splice` | ArrayProps | none |
| `array_insert_self_refuted` | ArrayProps | none |
| `array_refines_list` | ArrayProps | none |
| `array_cas_position_refuted` | ArrayProps | none |
| `uimm_round_trip` | BcProps | none |
| `simm_round_trip` | BcProps | none |
| `instr_round_trip` | BcProps | none |
| `jumps_reach_targets` | BcProps | none |
| `line_lookup` | BcProps | none |
| `buffer_refines_bytes` | BufferProps | none |
| `buffer_refines_bytes_from` | BufferProps | none |
| `buffer_slice_is_list_slice` | BufferProps | none |
| `buffer_ctor_concat` | BufferProps | none |
| `buffer_ctor_rejects_bytes` | BufferProps | none |
| `buffer_ctor_num_fills` | BufferProps | none |
| `buffer_ctor_empty_refuted` | BufferProps | none |
| `buffer_resize_wrap_refuted` | BufferProps | none |
| `buffer_ctor_wrap_refuted` | BufferProps | none |
| `cond_jump_partial` | CondProps | none |
| `cond_jump_refuted` | CondProps | none |
| `cond_jump_or_refuted` | CondProps | none |
| `cond_jump_exact` | CondProps | none |
| `control_flow_partial` | CtlProps | none |
| `control_flow_diverges_partial` | CtlProps | none |
| `control_flow_no_try` | CtlProps | none |
| `control_flow_break_refuted` | CtlProps | none |
| `control_flow_switch_refuted` | CtlProps | none |
| `control_flow_defer_refuted` | CtlProps | none |
| `datetime_decode` | DateProps | none |
| `datetime_decode_negative_refuted` | DateProps | none |
| `datetime_encode` | DateProps | none |
| `datetime_all_dates` | DateProps | none |
| `datetime_accepts` | DateProps | none |
| `datetime_accepts_refuted` | DateProps | none |
| `datetime_float_field` | DateProps | none |
| `datetime_round_trip_partial` | DateProps | none |
| `datetime_round_trip_refuted` | DateProps | none |
| `datetime_encode_decode` | DateProps | none |
| `parse_double_within_ulp_partial` | DblProps | none |
| `parse_double_nearest_partial` | DblProps | none |
| `parse_double_nearest_refuted` | DblProps | none |
| `parse_double_closest_refuted` | DblProps | none |
| `parse_double_denormal_carry_refuted` | DblProps | none |
| `parse_double_overflow_refuted` | DblProps | none |
| `parse_double_range` | DblProps | none |
| `parse_double_range_refuted` | DblProps | none |
| `parse_double_accepts_partial` | DblProps | none |
| `parse_double_accepts_refuted` | DblProps | none |
| `parse_double_requires_digit_refuted` | DblProps | none |
| `parse_double_total` | DblProps | none |
| `divide_asserts` | DblProps | none |
| `dead_code_partial` | DeadProps | none |
| `terminal_partial` | DeadProps | none |
| `dead_code_break_refuted` | DeadProps | none |
| `dead_code_break_always` | DeadProps | none |
| `dead_code_continue_refuted` | DeadProps | none |
| `dead_code_repeat_refuted` | DeadProps | none |
| `dead_code_switch_refuted` | DeadProps | none |
| `dead_literal_refuted` | DeadProps | none |
| `fold_binop_agrees` | FoldProps | none |
| `fold_expr_agrees_partial` | FoldProps | none |
| `fold_expr_exact_partial` | FoldProps | none |
| `fold_unary_minus_refuted` | FoldProps | none |
| `fold_not_range_refuted` | FoldProps | none |
| `nan_to_integer_refuted` | FoldProps | none |
| `fold_truthy_refuted` | FoldProps | none |
| `fold_effects_refuted` | FoldProps | none |
| `fold_error_partial` | FoldProps | none |
| `fold_error_dead_refuted` | FoldProps | none |
| `fold_string_length_refuted` | FoldProps | none |
| `load_number_partial` | FoldProps | none |
| `load_number_refuted` | FoldProps | none |
| `vm_int_ops` | FoldProps | none |
| `vm_float_to_int` | FoldProps | none |
| `vm_overflow_refuted` | FoldProps | none |
| `mark_location` | GcBitsProps | none |
| `advance_location` | GcBitsProps | none |
| `set_mark_bits` | GcBitsProps | none |
| `set_marking_page` | GcBitsProps | none |
| `find_first_set_same` | GcBitsProps | none |
| `clear_page_slots` | GcBitsProps | none |
| `skip_white_slots` | GcBitsProps | none |
| `skip_white_model` | GcBitsProps | none |
| `gc_preserves_reachable` | GcProps | none |
| `gc_same_graph` | GcProps | none |
| `gc_reclaims_garbage` | GcProps | none |
| `gc_marks_reachable` | GcProps | none |
| `finalize_once_refuted` | GcProps | none |
| `kept_pages_counted_refuted` | GcProps | none |
| `generator_life_cycle` | GenProps | none |
| `done_is_final` | GenProps | none |
| `overflow_refuted` | GenProps | none |
| `rejected_keeps_state` | GenProps | none |
| `loop_over_generator` | GenProps | none |
| `finished_loop_refuted` | GenProps | none |
| `body_exception` | GenProps | none |
| `body_exception_refuted` | GenProps | none |
| `range_values` | IterProps | none |
| `range_size_total` | IterProps | none |
| `iota_values` | IterProps | none |
| `range_limit_refuted` | IterProps | none |
| `range_overflow` | IterProps | none |
| `iota_end_refuted` | IterProps | none |
| `for_range_is_range` | IterProps | none |
| `for_range_zero_step_refuted` | IterProps | none |
| `iproduct_tuples` | IterProps | none |
| `product_tuples` | IterProps | none |
| `tuples_complete` | IterProps | none |
| `tuples_once` | IterProps | none |
| `slice_values` | IterProps | none |
| `slice_consumption` | IterProps | none |
| `zip_rows` | IterProps | none |
| `array_insert_iterator` | IterProps | none |
| `array_get_value` | IterProps | none |
| `buffer_insert_splice` | IterProps | none |
| `buffer_insert_past_end_refuted` | IterProps | none |
| `buffer_insert_self_refuted` | IterProps | none |
| `hex_digits_of` | IterProps | none |
| `hex_parse` | IterProps | none |
| `join_separates` | IterProps | none |
| `justify_sizes` | IterProps | none |
| `justify_contents` | IterProps | none |
| `json_parse_total` | JsonProps | none |
| `json_parse_valid` | JsonProps | none |
| `json_unambiguous` | JsonProps | none |
| `json_round_trip_partial` | JsonProps | none |
| `json_dump_valid` | JsonProps | none |
| `json_parse_min_refuted` | JsonProps | none |
| `json_reject_refuted` | JsonProps | none |
| `json_escape_refuted` | JsonProps | none |
| `json_dump_escape_refuted` | JsonProps | none |
| `json_dump_map_refuted` | JsonProps | none |
| `lexer_total` | LexProps | none |
| `lexer_token_total` | LexProps | none |
| `tokens_tile_partial` | LexProps | none |
| `string_continued` | LexProps | none |
| `words_found` | LexProps | none |
| `operators_found` | LexProps | none |
| `strings_found` | LexProps | none |
| `longest_operator_refuted` | LexProps | none |
| `token_positions` | LexProps | none |
| `tab_column_refuted` | LexProps | none |
| `malformed_rejected_refuted` | LexProps | none |
| `white_space` | LexProps | none |
| `block_comment_end_refuted` | LexProps | none |
| `exponent_refuted` | LexProps | none |
| `decimal_numbers` | LexProps | none |
| `read_lines_chunk_independent` | LinesProps | none |
| `read_lines_lossless` | LinesProps | none |
| `read_lines_file_partial` | LinesProps | none |
| `read_lines_ascii_partial` | LinesProps | none |
| `read_lines_utf8_refuted` | LinesProps | none |
| `read_line_partial` | LinesProps | none |
| `read_line_nul_refuted` | LinesProps | none |
| `read_line_cr_refuted` | LinesProps | none |
| `pool_blocks_disjoint` | MemProps | none |
| `pool_alloc_succeeds` | MemProps | none |
| `pool_destroy_frees_all` | MemProps | none |
| `pool_block_size_refuted` | MemProps | none |
| `vector_resize_contents` | MemProps | none |
| `vector_concat_contents` | MemProps | none |
| `number_order_exact` | NumProps | none |
| `number_order_sound` | NumProps | none |
| `number_lt_transitive` | NumProps | none |
| `operators_consistent` | NumProps | none |
| `number_equality_refuted` | NumProps | none |
| `array_order_cycle_refuted` | NumProps | none |
| `compare_terminates` | NumProps | none |
| `compare_antisymmetric` | NumProps | none |
| `compare_equality` | NumProps | none |
| `compare_equal_bisimilar` | NumProps | none |
| `compare_kinds` | NumProps | none |
| `compare_simple` | NumProps | none |
| `compare_lexicographic` | NumProps | none |
| `compare_nested_refuted` | NumProps | none |
| `get_integer_floor` | NumProps | none |
| `native_round_trip` | NumProps | none |
| `native_size_refuted` | NumProps | none |
| `native_limits_refuted` | NumProps | none |
| `native_array` | NumProps | none |
| `object_concurrent_safe` | ObjConcProps | none |
| `object_get_written` | ObjConcProps | none |
| `object_set_grow_refuted` | ObjConcProps | none |
| `object_ops_refine_maps` | ObjProps | none |
| `object_set_succeeds_partial` | ObjProps | none |
| `object_set_eleven_equal_hashes` | ObjProps | none |
| `object_set_succeeds_refuted` | ObjProps | none |
| `object_failed_set_refuted` | ObjProps | none |
| `object_failed_set_partial` | ObjProps | none |
| `object_read_follows_prototypes` | ObjProps | none |
| `object_walk_interleaved` | ObjProps | none |
| `object_deep_walk_partial` | ObjProps | none |
| `object_deep_walk_refuted` | ObjProps | none |
| `object_table_bounded_refuted` | ObjProps | none |
| `format_unambiguous` | PackProps | none |
| `pack_writes_layout` | PackProps | none |
| `pack_bad_format` | PackProps | none |
| `unpack_reads_layout` | PackProps | none |
| `unpack_bad_format` | PackProps | none |
| `pack_unpack` | PackProps | none |
| `string_from_range` | PackProps | none |
| `pack_in_bounds_refuted` | PackProps | none |
| `unpack_in_bounds_refuted` | PackProps | none |
| `pack_in_bounds` | PackProps | none |
| `failed_pack_refuted` | PackProps | none |
| `pack_self_refuted` | PackProps | none |
| `pack_empty_string_refuted` | PackProps | none |
| `pack_self` | PackProps | none |
| `unpack_forward_refuted` | PackProps | none |
| `parse_int_correct` | ParseIntProps | none |
| `int_text_unambiguous` | ParseIntProps | none |
| `parse_int_min_refuted` | ParseIntProps | none |
| `parse_int_requires_digit_refuted` | ParseIntProps | none |
| `int_print_parse` | ParseIntProps | none |
| `int_print_is_integer` | ParseIntProps | none |
| `parse_sound` | ParseProps | none |
| `parse_terminates` | ParseProps | none |
| `parse_depth` | ParseProps | none |
| `parse_complete` | ParseProps | none |
| `parse_complete_one_line` | ParseProps | none |
| `grammar_unambiguous` | ParseProps | none |
| `newline_rejected_partial` | ParseProps | none |
| `newline_ambiguous_refuted` | ParseProps | none |
| `ast_depth_refuted` | ParseProps | none |
| `slice_question_mark_refuted` | ParseProps | none |
| `queue_linearizable` | QueueProps | none |
| `queue_order` | QueueProps | none |
| `queue_keeps_few` | QueueProps | none |
| `queue_fraction_refuted` | QueueProps | none |
| `queue_pop_returns_partial` | QueueProps | none |
| `queue_pop_returns_refuted` | QueueProps | none |
| `quoted_form` | QuoteProps | none |
| `unquoted_form` | QuoteProps | none |
| `quoting_invalid` | QuoteProps | none |
| `quoted_printable` | QuoteProps | none |
| `quoted_reads_back_partial` | QuoteProps | none |
| `quoted_injective` | QuoteProps | none |
| `quoted_reads_back_refuted` | QuoteProps | none |
| `integer_in_range` | RandProps | none |
| `integer_full_range` | RandProps | none |
| `integer_rejects` | RandProps | none |
| `range_unbiased` | RandProps | none |
| `outputs_unbiased` | RandProps | none |
| `range_first_accepted` | RandProps | none |
| `float_in_range` | RandProps | none |
| `full_period` | RandProps | none |
| `integer_overflow_refuted` | RandProps | none |
| `integer_no_overflow` | RandProps | none |
| `documented_numbers_refuted` | RandProps | none |
| `tree_ops_refine_lists` | RbProps | none |
| `class_is_union` | ReClassProps | none |
| `class_disjoint_any_order` | ReClassProps | none |
| `class_sound` | ReClassProps | none |
| `class_is_union_refuted` | ReClassProps | none |
| `digit_class` | ReClassProps | none |
| `word_class` | ReClassProps | none |
| `re_compile_total` | ReProps | none |
| `re_compile_iff` | ReProps | none |
| `re_compile_code` | ReProps | none |
| `re_documented_refuted` | ReProps | none |
| `re_find_first` | ReProps | none |
| `re_find_first_union` | ReProps | none |
| `re_find_language` | ReProps | none |
| `re_unbounded` | ReProps | none |
| `re_groups_refuted` | ReProps | none |
| `sem_conserves` | SemProps | none |
| `sem_no_lost_wakeup` | SemProps | none |
| `sem_single_units` | SemProps | none |
| `sem_acquire_returns_refuted` | SemProps | none |
| `shuffle_permutes` | ShuffleProps | none |
| `shuffle_draws_permutes` | ShuffleProps | none |
| `shuffle_every_permutation` | ShuffleProps | none |
| `shuffle_uniform_refuted` | ShuffleProps | none |
| `shuffle_documented_refuted` | ShuffleProps | none |
| `sort_permutes` | SortProps | none |
| `sort_ascending_stable` | SortProps | none |
| `sort_descending` | SortProps | none |
| `sort_descending_stable_refuted` | SortProps | none |
| `stack_is_list` | StackProps | none |
| `stack_progress` | StackProps | none |
| `stack_walk` | StackProps | none |
| `stack_depth_bound` | StackProps | none |
| `closure_variables` | StackProps | none |
| `rejected_call` | StackProps | none |
| `push_then_pop` | StackProps | none |
| `out_of_memory_refuted` | StackProps | none |
| `depth_limit_refuted` | StackProps | none |
| `push_pop_depth_refuted` | StackProps | none |
| `string_strip_spec` | StrLibProps | none |
| `stripped_left_unique` | StrLibProps | none |
| `string_strip_refuted` | StrLibProps | none |
| `string_split_spec` | StrLibProps | none |
| `string_split_degenerate` | StrLibProps | none |
| `string_split_join` | StrLibProps | none |
| `string_join_spec` | StrLibProps | none |
| `string_split_words` | StrLibProps | none |
| `string_split_words_complete` | StrLibProps | none |
| `string_split_lines_spec` | StrLibProps | none |
| `string_split_lines_complete` | StrLibProps | none |
| `string_slice_is_list_slice` | StringProps | none |
| `string_index_is_nth` | StringProps | none |
| `string_index_any_int` | StringProps | none |
| `string_add_is_concat` | StringProps | none |
| `string_add_small` | StringProps | none |
| `string_add_not_string` | StringProps | none |
| `string_repeat_is_repeat` | StringProps | none |
| `string_repeat_c` | StringProps | none |
| `string_reverse_is_rev` | StringProps | none |
| `string_from_codes_is_list` | StringProps | none |
| `string_case_is_map` | StringProps | none |
| `string_hash_is_text_hash` | StringProps | none |
| `equal_strings_hash_equally` | StringProps | none |
| `string_find_first` | StringProps | none |
| `string_find_last` | StringProps | none |
| `string_starts_with` | StringProps | none |
| `string_ends_with` | StringProps | none |
| `string_rfind_negative_refuted` | StringProps | none |
| `string_scan_first` | StringProps | none |
| `string_scan_last` | StringProps | none |
| `string_scan_exclude_refuted` | StringProps | none |
| `string_compare_equality` | StringProps | none |
| `string_compare_slice_equality` | StringProps | none |
| `string_compare_is_lex` | StringProps | none |
| `lex_is_total_order` | StringProps | none |
| `string_compare_order_refuted` | StringProps | none |
| `string_add_wrap_refuted` | StringProps | none |
| `string_hash_assert_refuted` | StringProps | none |
| `string_ascii_sound` | StringProps | none |
| `string_ascii_equal_refuted` | StringProps | none |
| `string_case_narrow_refuted` | StringProps | none |
| `collection_bounded` | StwEndProps | none |
| `collection_ends` | StwEndProps | none |
| `world_stopped` | StwProps | none |
| `no_mutator_in_collection` | StwProps | none |
| `one_collector` | StwProps | none |
| `active_has_collector` | StwProps | none |
| `sleeper_has_waker` | StwProps | none |
| `no_deadlock` | StwProps | none |
| `can_go_on` | StwProps | none |
| `no_threads_to_stop` | StwProps | none |
| `threads_to_stop_bound` | StwProps | none |
| `early_wake_refuted` | StwProps | none |
| `threads_to_stop_underflow_refuted` | StwProps | none |
| `helper_starves_refuted` | StwProps | none |
| `helper_returns` | StwProps | none |
| `utf8_roundtrip` | Utf8Props | none |
| `utf8_encoders_agree` | Utf8Props | none |
| `utf8_len_decode_agree` | Utf8Props | none |
| `utf8_well_formed_accepted` | Utf8Props | none |
| `utf8_rejects_ill_formed_refuted` | Utf8Props | none |
| `module_path_partial` | VarsMiscProps | none |
| `module_path_overflow` | VarsMiscProps | none |
| `module_path_in_buffer_refuted` | VarsMiscProps | none |
| `closure_order_partial` | VarsMiscProps | none |
| `closure_order_refuted` | VarsMiscProps | none |
| `closure_circle_refuted` | VarsMiscProps | none |
| `names_are_lexical` | VarsProps | none |
| `names_no_assertion` | VarsProps | none |
| `not_in_own_value` | VarsProps | none |
| `not_after_block` | VarsProps | none |
| `captured_iff_shared` | VarsProps | none |
| `closures_iff_reached` | VarsProps | none |
| `local_iff_direct` | VarsProps | none |
| `crossing_is_served` | VarsProps | none |
