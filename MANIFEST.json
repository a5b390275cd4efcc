{
 "claims": [
  {
   "property": "C01",
   "status": "proved",
   "theorems": [
    "C01_trie_is_finite_map"
   ],
   "note": ""
  },
  {
   "property": "C02",
   "status": "partial",
   "theorems": [
    "C02_array_is_sequence_partial",
    "C02_append_empty_refuted",
    "C02_failed_push_refuted"
   ],
   "note": "Refinement to lists proved for all operation sequences except appending an empty array and operations after a failed push, which are refuted by witnesses."
  },
  {
   "property": "C03",
   "status": "partial",
   "theorems": [
    "C03_copy_shares_buffer",
    "C03_copy_refuted"
   ],
   "note": "Refuted: the copy shares the source buffer; the sharing is proved as the exact behaviour."
  },
  {
   "property": "C04",
   "status": "partial",
   "theorems": [
    "C04_int_roundtrip_partial",
    "C04_int_roundtrip_refuted"
   ],
   "note": "Full round trip refuted: the most negative value is mishandled; proved for every other 64-bit value."
  },
  {
   "property": "C05",
   "status": "proved",
   "theorems": [
    "C05_text_value",
    "C05_other_text_rejected"
   ],
   "note": ""
  },
  {
   "property": "C06",
   "status": "proved",
   "theorems": [
    "C06_size_text",
    "C06_ptrdiff_text",
    "C06_ptrdiff_no_leading_zero",
    "C06_uint8_text",
    "C06_bool_text"
   ],
   "note": ""
  },
  {
   "property": "C07",
   "status": "partial",
   "theorems": [
    "C07_quicksort_hoare",
    "C07_quicksort_lomuto",
    "C07_heapsort_partial",
    "C07_heapsort_empty_refuted"
   ],
   "note": "Both quicksorts proved in full; heapsort for non-empty arrays, undefined on the empty array."
  },
  {
   "property": "C08",
   "status": "partial",
   "theorems": [
    "C08_gc_keeps_live_partial",
    "C08_gc_keeps_live_refuted"
   ],
   "note": "Proved for every sound heap without a vector under construction; refuted for vectors under construction."
  },
  {
   "property": "C09",
   "status": "proved",
   "theorems": [
    "C09_gc_reclaims_dead",
    "C09_out_of_memory_exact"
   ],
   "note": ""
  },
  {
   "property": "C10",
   "status": "proved",
   "theorems": [
    "C10_allocation_fresh"
   ],
   "note": ""
  },
  {
   "property": "C11",
   "status": "partial",
   "theorems": [
    "C11_destructor_once_partial",
    "C11_destructor_live_refuted",
    "C11_destructor_twice_refuted"
   ],
   "note": "Proved per heap object; refuted for user values copied between stack and heap."
  },
  {
   "property": "C12",
   "status": "proved",
   "theorems": [
    "C12_gc_terminates",
    "C12_marking_linear"
   ],
   "note": ""
  },
  {
   "property": "C13",
   "status": "proved",
   "theorems": [
    "C13_globals_map",
    "C13_set_global",
    "C13_others_keep"
   ],
   "note": ""
  },
  {
   "property": "C14",
   "status": "proved",
   "theorems": [
    "C14_cyclic_exact",
    "C14_reachable_inside",
    "C14_length"
   ],
   "note": ""
  },
  {
   "property": "C15",
   "status": "partial",
   "theorems": [
    "C15_instruction_partial",
    "C15_link_partial",
    "C15_setVecElt_refuted",
    "C15_vector_refuted",
    "C15_setUpvalue_refuted",
    "C15_release_refuted",
    "C15_equal_refuted",
    "C15_step"
   ],
   "note": "False as stated for five kinds of operands (set-vector-element/substring third operand, vector operands, set-upvalue second operand, 16 bit release-upvalues, 16 bit equal): refuted with witnesses. Proved for every other instruction and operand."
  },
  {
   "property": "C16",
   "status": "partial",
   "theorems": [
    "C16_integer_partial",
    "C16_all_integers",
    "C16_large_refuted"
   ],
   "note": "Proved for all literals in the range of int; false for larger ones (refuted: 2^31); the general result is that literals are reduced to 32 bits."
  },
  {
   "property": "C17",
   "status": "partial",
   "theorems": [
    "C17_barrier",
    "C17_block_partial",
    "C17_text_partial",
    "C17_make_type_refuted",
    "C17_pop_nothing_refuted"
   ],
   "note": "Exact for stretches of pushes that do not allocate; up to garbage for a dropped string or symbol; dropped closures not covered; refuted for make-type."
  },
  {
   "property": "C18",
   "status": "partial",
   "theorems": [
    "C18_default_partial",
    "C18_short",
    "C18_unoptimised",
    "C18_jump_refuted"
   ],
   "note": "Refuted for the default build (a 154 byte program with a lost jump). Proved: every address that fits leads to its label, all do in programs of at most 127 bytes, and all do without jump optimisation."
  },
  {
   "property": "C19",
   "status": "proved",
   "theorems": [
    "C19_fixed",
    "C19_variadic",
    "C19_refused",
    "C19_host"
   ],
   "note": ""
  },
  {
   "property": "C20",
   "status": "partial",
   "theorems": [
    "C20_fixed_partial",
    "C20_variadic",
    "C20_refused",
    "C20_too_many_refuted"
   ],
   "note": "Proved for every closure, list and argument count except that a list longer than a fixed-arity closure needs is silently cut (C20_too_many_refuted) instead of being an arity error."
  },
  {
   "property": "C21",
   "status": "proved",
   "theorems": [
    "C21_return",
    "C21_return_halts",
    "C21_resumes"
   ],
   "note": ""
  },
  {
   "property": "C22",
   "status": "partial",
   "theorems": [
    "C22_in_step_refuted",
    "C22_success_partial",
    "C22_any_outcome_partial"
   ],
   "note": "False as stated (an error in vector or closure construction leaves the stacks out of step); proved for every successful instruction and, for the others, any outcome. Host API not covered."
  },
  {
   "property": "C23",
   "status": "partial",
   "theorems": [
    "C23_read",
    "C23_assign",
    "C23_capture",
    "C23_shared",
    "C23_release",
    "C23_pop_refuted"
   ],
   "note": "Reading, assigning, capturing, sharing and closing are each proved for every well-typed state in which variables are distinct (separate), and capture, assignment and release keep that. Not proved: that every other instruction keeps `separate`; it is false for popping a captured variable without releasing it (C23_pop_refuted), which the compiler must avoid."
  },
  {
   "property": "C24",
   "status": "proved",
   "theorems": [
    "C24_fresh_types"
   ],
   "note": ""
  },
  {
   "property": "C25",
   "status": "proved",
   "theorems": [
    "C25_make_instance",
    "C25_make_instance_refused",
    "C25_read",
    "C25_set",
    "C25_not_composite",
    "C25_every_composite"
   ],
   "note": ""
  },
  {
   "property": "C26",
   "status": "proved",
   "theorems": [
    "C26_cons",
    "C26_read",
    "C26_nil",
    "C26_set",
    "C26_not_pair",
    "C26_every_pair",
    "C26_length"
   ],
   "note": ""
  },
  {
   "property": "C27",
   "status": "partial",
   "theorems": [
    "C27_vector_partial",
    "C27_vector_refuted",
    "C27_make_vector",
    "C27_make_vector_refused",
    "C27_get",
    "C27_set_partial",
    "C27_set_refuted",
    "C27_empty_refuted",
    "C27_bad_operands",
    "C27_length",
    "C27_first_rest",
    "C27_end",
    "C27_set_first",
    "C27_set_rest_refuted",
    "C27_every_vector"
   ],
   "note": "vector is exact when memory for the elements is free; under memory pressure elements come out wrong (C27_vector_refuted). get, make-vector, first/rest, length, set-first exact. set-vector-element accepts negative indices on tails (refuted), the null vector is UB (refuted), set-cdr nil empties a vector (refuted)."
  },
  {
   "property": "C28",
   "status": "partial",
   "theorems": [
    "C28_length",
    "C28_first_rest",
    "C28_end",
    "C28_element",
    "C28_substring",
    "C28_concatenate_partial",
    "C28_concatenate_refuted",
    "C28_concatenate_tail_refuted",
    "C28_concatenate_empty_refuted",
    "C28_symbol_string",
    "C28_make_string_list",
    "C28_make_string_vector",
    "C28_make_string_refuted",
    "C28_make_string_undefined_refuted",
    "C28_every_string"
   ],
   "note": "length, first/rest, element, substring, symbol-string, make-string of integers proved for all strings, tails and parts. concatenate proved for strings at offset 0 and symbols; refuted for tails, parts and the null string; make-string error handling refuted."
  },
  {
   "property": "C29",
   "status": "proved",
   "theorems": [
    "C29_integer_arithmetic",
    "C29_boolean_arithmetic",
    "C29_float_arithmetic",
    "C29_less_whole",
    "C29_greater_whole",
    "C29_less_float",
    "C29_greater_float",
    "C29_non_number"
   ],
   "note": ""
  },
  {
   "property": "C30",
   "status": "partial",
   "theorems": [
    "C30_division_by_zero_refuted",
    "C30_division_partial"
   ],
   "note": "Refuted as stated: integer division by zero is carried out, which C leaves undefined (C30_division_by_zero_refuted). Proved: division by non-zero gives the truncated quotient."
  },
  {
   "property": "C31",
   "status": "partial",
   "theorems": [
    "C31_equal_value_partial",
    "C31_equivalence_partial",
    "C31_reflexive_refuted"
   ],
   "note": "NaN is not equal to itself (C31_reflexive_refuted); all other accepted values proved, with = characterised by value."
  },
  {
   "property": "C32",
   "status": "partial",
   "theorems": [
    "C32_not_and_branch_partial",
    "C32_not_and_branch_refuted"
   ],
   "note": "Fails for empty vectors that are not null (C32_not_and_branch_refuted); proved for every other value both instructions accept."
  },
  {
   "property": "C33",
   "status": "partial",
   "theorems": [
    "C33_value",
    "C33_same",
    "C33_stable",
    "C33_stored",
    "C33_memory_refuted"
   ],
   "note": "Proved for all sequences of uses while memory lasts; refuted when memory runs out inside symbol_create."
  },
  {
   "property": "C34",
   "status": "partial",
   "theorems": [
    "C34_numbered",
    "C34_differ",
    "C34_once",
    "C34_unwritten",
    "C34_new_partial",
    "C34_new_refuted"
   ],
   "note": "Names are proved distinct within 2^64 calls and never identifiers of a text; that the generated symbol is new is refuted for programs that intern strings starting with a zero byte."
  },
  {
   "property": "C35",
   "status": "proved",
   "theorems": [
    "C35_stack",
    "C35_captured",
    "C35_outside",
    "C35_absent",
    "C35_stable",
    "C35_released",
    "C35_closed",
    "C35_function"
   ],
   "note": "Over every sequence of openings, closings, declarations and uses with non-negative slots: stack slot iff innermost declaration inside the current function; captured number leads to the slot of the innermost declaration outside; numbers keep their meaning; released slots belong to the scope; closed scopes leave nothing. Only one of the two parallel scope stacks is modelled; macros and labels are not part of the model of scopes."
  },
  {
   "property": "C36",
   "status": "partial",
   "theorems": [
    "C36_spelled_partial",
    "C36_printed_partial",
    "C36_printed_then",
    "C36_printed_once",
    "C36_last_string_refuted",
    "C36_last_integer_refuted",
    "C36_true_prefix_refuted",
    "C36_spaced_empty_refuted"
   ],
   "note": "Proved for every text of the grammar in S_Reader and for every printed expression; refuted for strings and integers at the very end of a text, for words beginning with true or false, and for parentheses with a space between them. Float literals are covered with the value the reader gives them when followed by the same bytes; what that value is, is C57_grammar_partial."
  },
  {
   "property": "C37",
   "status": "partial",
   "theorems": [
    "C37_rejected",
    "C37_limit",
    "C37_unaffected_partial",
    "C37_unaffected_refuted",
    "C37_depth"
   ],
   "note": "Rejection, the bound on everything that is read, monotonicity in the limit and the restored counter are proved for all texts; that shallow trees are never rejected is proved for spelled texts and refuted for others."
  },
  {
   "property": "C38",
   "status": "partial",
   "theorems": [
    "C38_inside_partial",
    "C38_space_refuted",
    "C38_digit_refuted",
    "C38_hex_refuted",
    "C38_behind_refuted"
   ],
   "note": "Proved for texts that do not end in white space, a digit or x; refuted for those."
  },
  {
   "property": "C39",
   "status": "partial",
   "theorems": [
    "C39_value_partial",
    "C39_error_partial",
    "C39_next",
    "C39_session_partial",
    "C39_optimised_error_refuted"
   ],
   "note": "Core language (literals, variables, globals, operators, quote, list, if, when, unless, while, setq, global, scopes): the byte code built by compiler, optimiser and assembler computes the value of a reference interpreter, pushes it on an otherwise unchanged stack, keeps everything reachable, for single programs and whole sessions, unless memory runs out (with a bound). Errors agree without the optimiser, and leave a machine that is ready for the next program; refuted with it. Functions are in C71. Missing: closures with captured variables, macros, operands that do not fit, globals dropped by C41."
  },
  {
   "property": "C40",
   "status": "partial",
   "theorems": [
    "C40_heights_partial",
    "C40_nop_refuted",
    "C40_declaration_refuted",
    "C40_loop_refuted"
   ],
   "note": "Every position of the code of a core program has a stack height that the machine attains whenever it gets there, and the final height is the one the compiler counted. Refuted for nop, for declarations as operands and for endless loops in branches. Functions are in C58 and C63."
  },
  {
   "property": "C41",
   "status": "partial",
   "theorems": [
    "C41_stores_partial",
    "C41_dropped_refuted"
   ],
   "note": "Assignments to globals store the value when the number of the name differs from the stack position of the value; refuted otherwise (the first program of a session can be hit)."
  },
  {
   "property": "C42",
   "status": "partial",
   "theorems": [
    "C42_literal",
    "C42_if_partial",
    "C42_when_partial",
    "C42_empty_refuted",
    "C42_while_refuted"
   ],
   "note": "Folding agrees with the branch instruction for every literal but the empty string, and whole programs with constant conditions compute the branch asked for; refuted for the empty string (if, and loops)."
  },
  {
   "property": "C43",
   "status": "partial",
   "theorems": [
    "C43_order_partial",
    "C43_semantics_partial",
    "C43_late_refuted",
    "C43_list_refuted"
   ],
   "note": "Programs without interfering operands compute what strict left-to-right evaluation says; refuted for variables as first operand and for the elements of lists."
  },
  {
   "property": "C44",
   "status": "partial",
   "theorems": [
    "C44_boolean",
    "C44_integer",
    "C44_unsigned",
    "C44_float",
    "C44_type",
    "C44_push_string",
    "C44_copy_string",
    "C44_kept_string",
    "C44_push_symbol",
    "C44_copy_symbol",
    "C44_compressed_refuted",
    "C44_setter",
    "C44_setter_refuses",
    "C44_asks",
    "C44_positions",
    "C44_copy_into",
    "C44_global",
    "C44_link",
    "C44_is",
    "C44_cons_nil",
    "C44_new_types",
    "C44_reset"
   ],
   "note": "Proved for booleans, integers, floats, types (new types included), strings (through garbage collections too), symbols with names, positions, globals, the predicates for types, pairs and nil, and the soft reset. Refuted for the length of the name of a compressed symbol."
  },
  {
   "property": "C45",
   "status": "partial",
   "theorems": [
    "C45_get_partial",
    "C45_set_partial",
    "C45_set_outside",
    "C45_list_refuted",
    "C45_list_end_refuted",
    "C45_list_set_refuted",
    "C45_string_refuted",
    "C45_ignored_refuted"
   ],
   "note": "Proved for vectors and tails of vectors. Refuted for lists (reading and writing), tails of strings and values without elements."
  },
  {
   "property": "C46",
   "status": "partial",
   "theorems": [
    "C46_started_partial",
    "C46_current_partial",
    "C46_closure_refuted",
    "C46_collected_refuted"
   ],
   "note": "False as stated: two refutations from complete two-program histories. Proved: the byte code a run was started with stays rooted and alive, and closures made by it belong to it (C23_capture)."
  },
  {
   "property": "C47",
   "status": "partial",
   "theorems": [
    "C47_blocks_partial",
    "C47_table_exposed_refuted",
    "C47_malloc",
    "C47_malloc_outside_refuted",
    "C47_malloc_finds",
    "C47_rounded",
    "C47_huge_refuted",
    "C47_free",
    "C47_free_last_refuted",
    "C47_available_again_partial",
    "C47_available_again_refuted",
    "C47_double_free",
    "C47_dangling_free",
    "C47_dangling_realloc",
    "C47_realloc",
    "C47_realloc_beyond_refuted",
    "C47_realloc_loses_refuted",
    "C47_best_fit_refuted",
    "C47_next_overlap_refuted",
    "C47_next_endless_refuted"
   ],
   "note": "Proved for every sequence of successful calls with the first, best and worst strategies: blocks are inside the arena, aligned, apart from each other and from the block table, and keep their bytes. The outcomes of each call are characterised. Refuted for next fit (two blocks share bytes; the search may not end), after a failed call, for the last block of the arena, for resizing, for sizes near 2^64 and for best fit."
  },
  {
   "property": "C48",
   "status": "proved",
   "theorems": [
    "C48_memcopy",
    "C48_memcopy_noOverlap",
    "C48_memcopy_noOverlap_refuted",
    "C48_memclear",
    "C48_strlen"
   ],
   "note": ""
  },
  {
   "property": "C49",
   "status": "partial",
   "theorems": [
    "C49_quote_partial",
    "C49_list_partial"
   ],
   "note": "quote and list build the written tree, for trees of any shape and size, unless memory runs out or operands do not fit."
  },
  {
   "property": "C50",
   "status": "partial",
   "theorems": [
    "C50_there_and_back_partial",
    "C50_short_memory_refuted",
    "C50_float_refuted",
    "C50_back_defined_partial",
    "C50_dotted_refuted",
    "C50_nameless_refuted",
    "C50_unprintable",
    "C50_comptime_partial",
    "C50_comptime_symbol_refuted",
    "C50_comptime_boolean_refuted",
    "C50_macro_argument_partial"
   ],
   "note": "Proved: trees survive the conversion to objects and back when there is room for them; converting a value back is defined for proper lists with named symbols; values computed while compiling are spliced in as themselves unless they hold symbols or odd booleans; the argument of a macro reaches it unchanged. Refuted: without room the tree is silently corrupted; dotted lists overflow a buffer; symbols without names; comptime symbols and booleans."
  },
  {
   "property": "C51",
   "status": "partial",
   "theorems": [
    "C51_instruction_partial",
    "C51_execution_partial",
    "C51_new_machine",
    "C51_start",
    "C51_decoded",
    "C51_vector_refuted",
    "C51_set_cdr_refuted",
    "C51_apply_refuted",
    "C51_push_closure_refuted",
    "C51_failed_vector_refuted"
   ],
   "note": "Proved for every instruction but four kinds of harmful ones, each refuted by a witness: vector construction when the collector runs, set-cdr on a vector shorter than the reference's offset, apply to a dotted list with a rest parameter, and push-closure sharing captured variables of a closure no longer reachable. Undefined behaviour is confined to an explicit list of cases."
  },
  {
   "property": "C52",
   "status": "partial",
   "theorems": [
    "C52_ends_partial",
    "C52_consumes_partial",
    "C52_ends_refuted"
   ],
   "note": "Proved for texts that do not end in a point; refuted for (1. ."
  },
  {
   "property": "C53",
   "status": "partial",
   "theorems": [
    "C53_call_partial",
    "C53_steady",
    "C53_client_partial",
    "C53_gentle",
    "C53_run_partial",
    "C53_set_global_refuted",
    "C53_first_refuted",
    "C53_composite_refuted",
    "C53_vector_refuted",
    "C53_vector_missing_refuted"
   ],
   "note": "Proved for C code of any shape whose calls meet the stated conditions, and without conditions for the stacks and globals. Refuted for duckVM_setGlobal, duckVM_pushFirst, duckVM_pushComposite and duckVM_pushVector. duckVM_execute from C code and user types are not covered; duckVM_call is C67."
  },
  {
   "property": "C54",
   "status": "partial",
   "theorems": [
    "C54_push_cons",
    "C54_set",
    "C54_get",
    "C54_length",
    "C54_length_refuted",
    "C54_rest_refuted",
    "C54_composite_partial",
    "C54_field",
    "C54_set_field_partial"
   ],
   "note": "Proved for pairs and composites. Refuted for the length of lists built with duckVM_setRest, for the rest of short vectors, and for composites made with one free object."
  },
  {
   "property": "C55",
   "status": "partial",
   "theorems": [
    "C55_gensym",
    "C55_intern_partial",
    "C55_intern_memory_refuted",
    "C55_intern_empty_refuted"
   ],
   "note": "gensym is proved in full; intern is proved for non-empty texts when there is memory, refuted otherwise."
  },
  {
   "property": "C56",
   "status": "partial",
   "theorems": [
    "C56_read_partial",
    "C56_error",
    "C56_memory_refuted"
   ],
   "note": "Proved when there is room for the tree and the answer, without the parenthesis inference; refuted without room."
  },
  {
   "property": "C57",
   "status": "partial",
   "theorems": [
    "C57_value_partial",
    "C57_grammar_partial",
    "C57_minus_refuted",
    "C57_last_refuted",
    "C57_long_refuted",
    "C57_zero_exponent_refuted"
   ],
   "note": "Proved with an explicit error bound for literals with at most 18 digits behind the point and magnitudes within range, followed by a byte that ends a word. Refuted: sign lost for -1., uninitialised value for 1. at the end, overflow from 19 digits, exponent minus zero. Such literals are in the grammar of C36 (C57_grammar_partial)."
  },
  {
   "property": "C58",
   "status": "partial",
   "theorems": [
    "C58_frames_partial",
    "C58_nop_refuted",
    "C58_many_refuted"
   ],
   "note": "Proved for every program in which operands leave a value: no nop, no endless loop, declarations only in bodies, at most 255 arguments, no function named like a special form. About the code before the peephole pass. Refuted: nop, 256 arguments."
  },
  {
   "property": "C59",
   "status": "proved",
   "theorems": [
    "C59_reading",
    "C59_spelled"
   ],
   "note": "For every program and every behaviour of the scripts, which are arbitrary functions of what happened so far."
  },
  {
   "property": "C60",
   "status": "partial",
   "theorems": [
    "C60_exact_partial",
    "C60_unique",
    "C60_ends_partial",
    "C60_steady",
    "C60_again_partial"
   ],
   "note": "Uniqueness and independence of the fuel for every program; exactness and termination for programs that neither declare anything nor name anything declared with a script, whatever else is declared with scripts (C78 applies this to the table of the language). For these programs, if they have no marks, inferring the result again changes nothing."
  },
  {
   "property": "C61",
   "status": "partial",
   "theorems": [
    "C61_declare",
    "C61_types",
    "C61_innermost_partial",
    "C61_scope_partial",
    "C61_call_arity_partial",
    "C61_operand_arity_partial"
   ],
   "note": "Effect of a declaration and reading of types proved in full; scopes for scripts that do not open or close scopes; arities for forms without declarations and without names declared with scripts inside."
  },
  {
   "property": "C62",
   "status": "partial",
   "theorems": [
    "C62_literal_refuted",
    "C62_type_refuted",
    "C62_stuck_refuted",
    "C62_again_refuted"
   ],
   "note": "False: undefined for literals whose head is no name and for some ill-formed types; endless for nested rest types; the result may keep marks and be rejected when inferred again. C60 gives the conditions under which it ends."
  },
  {
   "property": "C63",
   "status": "partial",
   "theorems": [
    "C63_running_partial"
   ],
   "note": "Proved for the programs of C58, with or without the peephole pass and with either jump encoding, on machines that hold no function, callback or byte code yet, for every state reached without an error. Missing: callbacks, several programs in one machine, the states of a run that stops with an error."
  },
  {
   "property": "C64",
   "status": "partial",
   "theorems": [
    "C64_text_partial",
    "C64_texts_partial",
    "C64_functions_partial"
   ],
   "note": "Texts of well formed core programs load and compute their value, one or several; texts with functions load. Left out: code over 127 bytes with optimised jumps (C18), assignments with the defect of C41; the value of programs with functions is in C71_text_partial."
  },
  {
   "property": "C65",
   "status": "partial",
   "theorems": [
    "C65_accepted_partial",
    "C65_malformed_refuted",
    "C65_depth_refuted"
   ],
   "note": "Acceptance proved for the whole language without macros and comptime, up to the limit for nesting. The converse is refuted: (() (var 3 4) 5) is accepted."
  },
  {
   "property": "C66",
   "status": "partial",
   "theorems": [
    "C66_code_partial",
    "C66_assembled_partial",
    "C66_bytes_partial",
    "C66_vector_refuted",
    "C66_stripped_refuted",
    "C66_call_refuted",
    "C66_global_refuted"
   ],
   "note": "Proved for all instructions except vectors with elements in the 8 and 16 bit forms, symbols without names, calls, and the larger forms of release-upvalues, global and equal; for the first three and for global the claim is refuted."
  },
  {
   "property": "C67",
   "status": "partial",
   "theorems": [
    "C67_callback",
    "C67_refused",
    "C67_fixed_partial",
    "C67_variadic_partial",
    "C67_collection_refuted",
    "C67_full_refuted",
    "C67_error_refuted",
    "C67_program_refuted"
   ],
   "note": "Proved while objects are free: callbacks, refusals, closures with fixed and with rest parameters, for any callbacks that leave the calls in progress alone. Refuted when the collector runs during the call, after an error in the called function, and for the program that is running when a callback makes the call. Typing (C51) during the call is not proved."
  },
  {
   "property": "C68",
   "status": "proved",
   "theorems": [
    "C68_program",
    "C68_load",
    "C68_text_partial"
   ],
   "note": "The complete compiler and loader against the one without macros, for every program and every state: same code, same errors. C68_text_partial adds the value of core texts."
  },
  {
   "property": "C69",
   "status": "partial",
   "theorems": [
    "C69_form_partial",
    "C69_text_partial",
    "C69_nested",
    "C69_error_refuted"
   ],
   "note": "Every core expression with a constant value, at any place, and whole texts. Left out: symbols in the value (refuted in C50), functions inside the expression, variables left on the stack of the second sub-compiler, the defect of C41. Refuted: an error with an empty stack is undefined."
  },
  {
   "property": "C70",
   "status": "partial",
   "theorems": [
    "C70_call_partial",
    "C70_not_nested",
    "C70_variable_refuted",
    "C70_operand_refuted",
    "C70_second_text_refuted"
   ],
   "note": "Every use of a macro with written data as arguments, in every state of the compiler: the machine reaches the call with these arguments, and the compiler goes on with the tree the macro gives, or with its error. Macros cannot be defined while computing. Left out: that the noted place is that of the macro, and what its body computes (C71). Refuted for expansions that are variables and for macros in a second text."
  },
  {
   "property": "C71",
   "status": "partial",
   "theorems": [
    "C71_value_partial",
    "C71_error_partial",
    "C71_text_partial",
    "C71_first_refuted",
    "C71_frames_refuted",
    "C71_dropped_refuted"
   ],
   "note": "Programs of global function definitions followed by forms, from the text through reader, compiler, assembler (with and without the optimiser) and machine, values and errors, and what an error leaves on the machine (also the calls that have not returned). Missing: captured variables, nested lambda, rest parameters, self; refuted for the first name of a session (the defect of C41), and errors with the optimiser refuted (an unused read of an unknown global is removed)."
  },
  {
   "property": "C72",
   "status": "partial",
   "theorems": [
    "C72_part",
    "C72_part_missing",
    "C72_length",
    "C72_length_closure",
    "C72_empty_partial",
    "C72_empty_closure",
    "C72_first_partial",
    "C72_rest_partial",
    "C72_set_first",
    "C72_captured",
    "C72_assign",
    "C72_code",
    "C72_pop_several",
    "C72_pop_all",
    "C72_pop",
    "C72_vector",
    "C72_empty_refuted",
    "C72_tail_refuted"
   ],
   "note": "Every kind of value and every state. Left out, because they are wrong in the code (refuted): rests of vectors without elements, rests of strings, rests of one-element vectors and strings. The elements of a vector made by pushVector are null pointers (C53)."
  },
  {
   "property": "C73",
   "status": "partial",
   "theorems": [
    "C73_call_partial",
    "C73_error_partial",
    "C73_name_refuted",
    "C73_count_refuted"
   ],
   "note": "Proved for programs (f e1 ... en) with core arguments that do not assign to f, for every C function and machine, with or without the push-pop optimisation. Refuted: a program that assigns to the name of a C function makes the machine call an integer (undefined behaviour), and the number of arguments is checked nowhere, so a C function can take values of others. Missing: calls of C functions nested in other forms; errors of arguments with the push-pop optimisation."
  },
  {
   "property": "C74",
   "status": "partial",
   "theorems": [
    "C74_compiler",
    "C74_machine",
    "C74_call_partial",
    "C74_unknown",
    "C74_memory",
    "C74_form_refuted"
   ],
   "note": "Linking itself is proved in full, for any functions, compiler and machine. From linking to the call: for the programs of C73 compiled by a compiler in which the functions were linked first. Refuted: linking under the name of a form takes the form away. The prototypes for the parenthesis inferrer are not part of this model."
  },
  {
   "property": "C75",
   "status": "partial",
   "theorems": [
    "C75_ends",
    "C75_defined",
    "C75_unique_partial",
    "C75_same",
    "C75_ends_refuted",
    "C75_float_refuted"
   ],
   "note": "Proved for every well-typed machine in which captured variables on the stack are there and closures have no null upvalues: the end, no undefined behaviour, and unique reading up to what is not printed. Refuted: printing ends for every value (cycles); the text tells floats apart. Callbacks are numbers in the model, so a null callback is not distinguished."
  },
  {
   "property": "C76",
   "status": "partial",
   "theorems": [
    "C76_text",
    "C76_unique_partial",
    "C76_same",
    "C76_quote_refuted",
    "C76_float_refuted"
   ],
   "note": "Proved for trees whose strings and names contain no quotation mark, up to the values of floats. Refuted without these two conditions."
  },
  {
   "property": "C77",
   "status": "partial",
   "theorems": [
    "C77_read_partial",
    "C77_unique_partial",
    "C77_least_refuted"
   ],
   "note": "Proved for every type whose counts are 64 bit numbers other than the least one, for which it is refuted."
  },
  {
   "property": "C78",
   "status": "partial",
   "theorems": [
    "C78_found",
    "C78_declared",
    "C78_actions",
    "C78_table",
    "C78_names_partial",
    "C78_arguments_partial",
    "C78_inference_partial",
    "C78_untyped_refuted"
   ],
   "note": "Proved in full for any table of forms or reader actions and for every name in a new compiler. Looking a name up in a compiler with C functions: not for the reserved name of defmacro, and for scopes with the kinds of functions that are added. Arguments: not for defmacro, comptime and __error, which C65 leaves out. Inference in a new compiler with linked C functions: for programs without declaring forms, if the scripts compile. Refuted: after a C function is linked without a type, no program can be inferred."
  }
 ]
}