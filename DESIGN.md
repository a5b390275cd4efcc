# Formal model of duck-lisp in Rocq

The C code under `/repo` is modelled function by function as total Gallina functions in
`rocq/theories/`, and the properties of `properties.jsonl` are proved about that model.
Nothing in `/repo` was built or run: the model was written by reading the text.

## Conventions

* Every definition of a model file (`M_*.v`) carries a comment with the file and lines it models and says what it simplifies.
* Pointers into the heap of the virtual machine are object numbers; a null pointer is `None`. Host pointers (buffers of the arrays, of the allocator) are addresses (`Z`) in a byte memory where a property is about them, and otherwise identities.
* Integers of the C program are `Z` with the wrap-around (unsigned), truncation (narrowing) and undefined overflow (signed) of a 64 bit target written out. Floats are `SpecFloat.spec_float`, IEEE 754 double precision, round to nearest even.
* Undefined behaviour of C (access outside an object, null dereference, signed overflow, division by zero, use of uninitialised data) is a separate outcome `UB` (`POutside`, `POverflow` for the parser), never a value. A theorem that says a run ends in `Ok` or `Err` therefore also says that the run is defined.
* Functions whose C original loops or recurses without an evident bound take fuel and return a distinct `NoFuel`; theorems quantify over all fuel or show that enough fuel exists.
* A property that is false of the code has a theorem named `..._refuted` with a witness (a concrete program, text or history that shows the failure), beside theorems for what does hold. Where only part of a property holds or is proved the theorem ends in `_partial`.

## Layout

| files | contents |
|---|---|
| `M_*.v` | the model: definitions only |
| `S_*.v` | specifications used in statements, independent of the helpers of the model |
| `P_*.v` | proofs |
| `X_*.v` | concrete machines, programs and histories: witnesses and examples |
| `T_*.v` | the property theorems, each closed by `exact`, with `Print Assumptions` and an example that meets its hypotheses |

`seeded/LOG.jsonl` records the wrong programs the theorems were tested against.

## Trusted base

* The kernel of Coq 8.16.1, and `vm_compute`, which some examples and witnesses use.
* The axioms listed below. No axiom is declared in this development, no kernel check is switched off, nothing is admitted.
* Libraries: the standard library, and Flocq for the proofs about floats (Flocq declares no axioms; it brings in those of the real numbers).
* The reading of the C code: that the definitions of `M_*.v` do what the cited lines do on a 64 bit target with two's complement integers and IEEE 754 doubles. This is not checked by anything.
* The default build configuration: without `USE_PARENTHESIS_INFERENCE` unless a theorem says otherwise, without `USE_DATALOGGING`, `MEMCHECK` and `NO_OPTIMIZE_*`. Where an option changes the meaning it is a parameter of the model (`config`, the `optimize` argument of the assembler).
* Allocation by the host (`malloc`) is assumed to succeed, except in the models of the allocator (`M_Memory`), the arrays (`M_Array`) and the symbol table, where failure is an outcome. Running out of heap objects of the virtual machine is modelled everywhere.

Not expressible here: running time, the text of error messages, behaviour of the host's own `malloc` and of C code registered as callbacks (callbacks are modelled as arbitrary sequences of calls of the host interface).

### Assumptions of each theorem

`Print Assumptions` stands under every theorem. It answers "Closed under the global context" for all of them except these:

* `C29_float_arithmetic`: `ClassicalDedekindReals.sig_not_dec`, `ClassicalDedekindReals.sig_forall_dec`, `FunctionalExtensionality.functional_extensionality_dep`, `Classical_Prop.classic`
* `C29_greater_float`: `ClassicalDedekindReals.sig_not_dec`, `ClassicalDedekindReals.sig_forall_dec`, `FunctionalExtensionality.functional_extensionality_dep`, `Classical_Prop.classic`
* `C29_less_float`: `ClassicalDedekindReals.sig_not_dec`, `ClassicalDedekindReals.sig_forall_dec`, `FunctionalExtensionality.functional_extensionality_dep`, `Classical_Prop.classic`
* `C31_equal_value_partial`: `ClassicalDedekindReals.sig_not_dec`, `ClassicalDedekindReals.sig_forall_dec`, `FunctionalExtensionality.functional_extensionality_dep`, `Classical_Prop.classic`
* `C57_grammar_partial`: `ClassicalDedekindReals.sig_not_dec`, `ClassicalDedekindReals.sig_forall_dec`, `FunctionalExtensionality.functional_extensionality_dep`, `Classical_Prop.classic`
* `C57_minus_refuted`: `ClassicalDedekindReals.sig_forall_dec`, `FunctionalExtensionality.functional_extensionality_dep`
* `C57_value_partial`: `ClassicalDedekindReals.sig_not_dec`, `ClassicalDedekindReals.sig_forall_dec`, `FunctionalExtensionality.functional_extensionality_dep`, `Classical_Prop.classic`

All of these axioms come from the standard library (`Coq.Reals`, `Coq.Logic`); they enter through the real numbers, which state what a float stands for.

Theorems closed under the global context, by file:

* `T_Accept.v`: `C65_accepted_partial`, `C65_malformed_refuted`, `C65_depth_refuted`
* `T_Array.v`: `C02_array_is_sequence_partial`, `C02_append_empty_refuted`, `C02_failed_push_refuted`, `C03_copy_shares_buffer`, `C03_copy_refuted`
* `T_Asm.v`: `C15_instruction_partial`, `C15_link_partial`, `C15_setVecElt_refuted`, `C15_vector_refuted`, `C15_setUpvalue_refuted`, `C15_release_refuted`, `C15_equal_refuted`, `C15_step`, `C16_integer_partial`, `C16_all_integers`, `C16_large_refuted`, `C17_barrier`, `C17_block_partial`, `C17_text_partial`, `C17_make_type_refuted`, `C17_pop_nothing_refuted`, `C18_default_partial`, `C18_short`, `C18_unoptimised`, `C18_jump_refuted`
* `T_Call.v`: `C19_fixed`, `C19_variadic`, `C19_refused`, `C19_host`, `C20_fixed_partial`, `C20_variadic`, `C20_refused`, `C20_too_many_refuted`, `C21_return`, `C21_return_halts`, `C21_resumes`
* `T_Callback.v`: `C73_call_partial`, `C73_error_partial`, `C73_name_refuted`, `C73_count_refuted`
* `T_Closure.v`: `C23_read`, `C23_assign`, `C23_capture`, `C23_shared`, `C23_release`, `C23_pop_refuted`, `C46_started_partial`, `C46_current_partial`, `C46_closure_refuted`, `C46_collected_refuted`
* `T_Compile.v`: `C39_value_partial`, `C39_error_partial`, `C39_next`, `C39_session_partial`, `C39_optimised_error_refuted`, `C40_heights_partial`, `C40_nop_refuted`, `C40_declaration_refuted`, `C40_loop_refuted`, `C41_stores_partial`, `C41_dropped_refuted`, `C42_literal`, `C42_if_partial`, `C42_when_partial`, `C42_empty_refuted`, `C42_while_refuted`, `C43_order_partial`, `C43_semantics_partial`, `C43_late_refuted`, `C43_list_refuted`, `C49_quote_partial`, `C49_list_partial`
* `T_Convert.v`: `C50_there_and_back_partial`, `C50_short_memory_refuted`, `C50_float_refuted`, `C50_back_defined_partial`, `C50_dotted_refuted`, `C50_nameless_refuted`, `C50_unprintable`, `C50_comptime_partial`, `C50_comptime_symbol_refuted`, `C50_comptime_boolean_refuted`, `C50_macro_argument_partial`, `C55_gensym`, `C55_intern_partial`, `C55_intern_memory_refuted`, `C55_intern_empty_refuted`, `C56_read_partial`, `C56_error`, `C56_memory_refuted`
* `T_Core.v`: `C48_memcopy`, `C48_memcopy_noOverlap`, `C48_memcopy_noOverlap_refuted`, `C48_memclear`, `C48_strlen`
* `T_Data.v`: `C25_make_instance`, `C25_make_instance_refused`, `C25_read`, `C25_set`, `C25_not_composite`, `C25_every_composite`, `C26_cons`, `C26_read`, `C26_nil`, `C26_set`, `C26_not_pair`, `C26_every_pair`, `C26_length`, `C27_vector_partial`, `C27_vector_refuted`, `C27_make_vector`, `C27_make_vector_refused`, `C27_get`, `C27_set_partial`, `C27_set_refuted`, `C27_empty_refuted`, `C27_bad_operands`, `C27_length`, `C27_first_rest`, `C27_end`, `C27_set_first`, `C27_set_rest_refuted`, `C27_every_vector`, `C28_length`, `C28_first_rest`, `C28_end`, `C28_element`, `C28_substring`, `C28_concatenate_partial`, `C28_concatenate_refuted`, `C28_concatenate_tail_refuted`, `C28_concatenate_empty_refuted`, `C28_symbol_string`, `C28_make_string_list`, `C28_make_string_vector`, `C28_make_string_refuted`, `C28_make_string_undefined_refuted`, `C28_every_string`
* `T_Decimal.v`: `C57_last_refuted`, `C57_long_refuted`, `C57_zero_exponent_refuted`
* `T_Disasm.v`: `C66_code_partial`, `C66_assembled_partial`, `C66_bytes_partial`, `C66_vector_refuted`, `C66_stripped_refuted`, `C66_call_refuted`, `C66_global_refuted`
* `T_Dynamic.v`: `C63_running_partial`
* `T_Frame.v`: `C58_frames_partial`, `C58_nop_refuted`, `C58_many_refuted`
* `T_Fun.v`: `C71_value_partial`, `C71_error_partial`, `C71_text_partial`, `C71_first_refuted`, `C71_frames_refuted`, `C71_dropped_refuted`
* `T_Heap.v`: `C08_gc_keeps_live_partial`, `C08_gc_keeps_live_refuted`, `C09_gc_reclaims_dead`, `C09_out_of_memory_exact`, `C10_allocation_fresh`, `C11_destructor_once_partial`, `C11_destructor_live_refuted`, `C11_destructor_twice_refuted`, `C12_gc_terminates`, `C12_marking_linear`
* `T_Host.v`: `C44_boolean`, `C44_integer`, `C44_unsigned`, `C44_float`, `C44_type`, `C44_push_string`, `C44_copy_string`, `C44_kept_string`, `C44_push_symbol`, `C44_copy_symbol`, `C44_compressed_refuted`, `C44_setter`, `C44_setter_refuses`, `C44_asks`, `C44_positions`, `C44_copy_into`, `C44_global`, `C44_link`, `C44_is`, `C44_cons_nil`, `C44_new_types`, `C44_reset`, `C45_get_partial`, `C45_set_partial`, `C45_set_outside`, `C45_list_refuted`, `C45_list_end_refuted`, `C45_list_set_refuted`, `C45_string_refuted`, `C45_ignored_refuted`, `C53_call_partial`, `C53_steady`, `C53_client_partial`, `C53_gentle`, `C53_run_partial`, `C53_set_global_refuted`, `C53_first_refuted`, `C53_composite_refuted`, `C53_vector_refuted`, `C53_vector_missing_refuted`, `C54_push_cons`, `C54_set`, `C54_get`, `C54_length`, `C54_length_refuted`, `C54_rest_refuted`, `C54_composite_partial`, `C54_field`, `C54_set_field_partial`
* `T_Infer.v`: `C59_reading`, `C59_spelled`, `C60_exact_partial`, `C60_unique`, `C60_ends_partial`, `C60_steady`, `C60_again_partial`, `C61_declare`, `C61_types`, `C61_innermost_partial`, `C61_scope_partial`, `C61_call_arity_partial`, `C61_operand_arity_partial`, `C62_literal_refuted`, `C62_type_refuted`, `C62_stuck_refuted`, `C62_again_refuted`
* `T_Init.v`: `C78_found`, `C78_declared`, `C78_actions`, `C78_table`, `C78_names_partial`, `C78_arguments_partial`, `C78_inference_partial`, `C78_untyped_refuted`
* `T_Link.v`: `C74_compiler`, `C74_machine`, `C74_call_partial`, `C74_unknown`, `C74_memory`, `C74_form_refuted`
* `T_Load.v`: `C64_text_partial`, `C64_texts_partial`, `C64_functions_partial`
* `T_Log.v`: `C77_read_partial`, `C77_unique_partial`, `C77_least_refuted`
* `T_Look.v`: `C72_part`, `C72_part_missing`, `C72_length`, `C72_length_closure`, `C72_empty_partial`, `C72_empty_closure`, `C72_first_partial`, `C72_rest_partial`, `C72_set_first`, `C72_captured`, `C72_assign`, `C72_code`, `C72_pop_several`, `C72_pop_all`, `C72_pop`, `C72_vector`, `C72_empty_refuted`, `C72_tail_refuted`
* `T_Machine.v`: `C13_globals_map`, `C13_set_global`, `C13_others_keep`, `C14_cyclic_exact`, `C14_reachable_inside`, `C14_length`, `C22_in_step_refuted`, `C22_success_partial`, `C22_any_outcome_partial`, `C24_fresh_types`
* `T_Macro.v`: `C68_program`, `C68_load`, `C68_text_partial`, `C69_form_partial`, `C69_text_partial`, `C69_nested`, `C69_error_refuted`, `C70_call_partial`, `C70_not_nested`, `C70_variable_refuted`, `C70_operand_refuted`, `C70_second_text_refuted`
* `T_Memory.v`: `C47_blocks_partial`, `C47_table_exposed_refuted`, `C47_malloc`, `C47_malloc_outside_refuted`, `C47_malloc_finds`, `C47_rounded`, `C47_huge_refuted`, `C47_free`, `C47_free_last_refuted`, `C47_available_again_partial`, `C47_available_again_refuted`, `C47_double_free`, `C47_dangling_free`, `C47_dangling_realloc`, `C47_realloc`, `C47_realloc_beyond_refuted`, `C47_realloc_loses_refuted`, `C47_best_fit_refuted`, `C47_next_overlap_refuted`, `C47_next_endless_refuted`
* `T_Num.v`: `C29_integer_arithmetic`, `C29_boolean_arithmetic`, `C29_less_whole`, `C29_greater_whole`, `C29_non_number`, `C30_division_by_zero_refuted`, `C30_division_partial`, `C31_equivalence_partial`, `C31_reflexive_refuted`, `C32_not_and_branch_partial`, `C32_not_and_branch_refuted`
* `T_Print.v`: `C75_ends`, `C75_defined`, `C75_unique_partial`, `C75_same`, `C75_ends_refuted`, `C75_float_refuted`, `C76_text`, `C76_unique_partial`, `C76_same`, `C76_quote_refuted`, `C76_float_refuted`
* `T_Reader.v`: `C36_spelled_partial`, `C36_printed_partial`, `C36_printed_then`, `C36_printed_once`, `C36_last_string_refuted`, `C36_last_integer_refuted`, `C36_true_prefix_refuted`, `C36_spaced_empty_refuted`, `C37_rejected`, `C37_limit`, `C37_unaffected_partial`, `C37_unaffected_refuted`, `C37_depth`, `C38_inside_partial`, `C38_space_refuted`, `C38_digit_refuted`, `C38_hex_refuted`, `C38_behind_refuted`, `C52_ends_partial`, `C52_consumes_partial`, `C52_ends_refuted`
* `T_Reenter.v`: `C67_callback`, `C67_refused`, `C67_fixed_partial`, `C67_variadic_partial`, `C67_collection_refuted`, `C67_full_refuted`, `C67_error_refuted`, `C67_program_refuted`
* `T_Scope.v`: `C35_stack`, `C35_captured`, `C35_outside`, `C35_absent`, `C35_stable`, `C35_released`, `C35_closed`, `C35_function`
* `T_Sort.v`: `C07_quicksort_hoare`, `C07_quicksort_lomuto`, `C07_heapsort_partial`, `C07_heapsort_empty_refuted`
* `T_String.v`: `C04_int_roundtrip_partial`, `C04_int_roundtrip_refuted`, `C05_text_value`, `C05_other_text_rejected`, `C06_size_text`, `C06_ptrdiff_text`, `C06_ptrdiff_no_leading_zero`, `C06_uint8_text`, `C06_bool_text`
* `T_Symbol.v`: `C33_value`, `C33_same`, `C33_stable`, `C33_stored`, `C33_memory_refuted`, `C34_numbered`, `C34_differ`, `C34_once`, `C34_unwritten`, `C34_new_partial`, `C34_new_refuted`
* `T_Trie.v`: `C01_trie_is_finite_map`
* `T_Types.v`: `C51_instruction_partial`, `C51_execution_partial`, `C51_new_machine`, `C51_start`, `C51_decoded`, `C51_vector_refuted`, `C51_set_cdr_refuted`, `C51_apply_refuted`, `C51_push_closure_refuted`, `C51_failed_vector_refuted`

## What is modelled, function by function

A function counts as modelled if a definition of a model file cites its lines. The comments there say what is simplified. Numbers are the first lines of the functions.

### DuckLib/array.c

Modelled (12): `dl_array_init` 4, `dl_array_pushElement` 38, `dl_array_pushElements` 78, `dl_array_popElement` 130, `dl_array_popElements` 145, `dl_array_getTop` 168, `dl_array_setTop` 186, `dl_array_get` 202, `dl_array_set` 212, `dl_array_copy` 225, `dl_array_append` 249, `dl_array_clear` 282.

Not modelled (1): `dl_array_quit` 18.

### DuckLib/core.c

Modelled (7): `dl_memcopy` 21, `dl_memcopy` 25, `dl_memcopy_noOverlap` 42, `dl_memclear` 53, `dl_memclear` 57, `dl_strlen` 64, `dl_nybbleToHexChar` 72.

### DuckLib/memory.c

Modelled (14): `dl_memory_init` 12, `dl_memory_pointerToBlock` 349, `dl_memory_findBlock` 370, `dl_memory_mergeBlockAfter` 438, `dl_memory_mergeBlockBefore` 467, `dl_memory_mergeBlocks` 498, `dl_memory_reserveTableEntries` 528, `dl_memory_splitBlock` 662, `dl_malloc` 711, `dl_free` 759, `dl_realloc` 795, `dl_malloc` 930, `dl_free` 938, `dl_realloc` 945.

Not modelled (3): `dl_memory_quit` 98, `dl_memory_usage` 916, `dl_memory_usage` 954.

### DuckLib/sort.c

Modelled (8): `swap` 4, `max_heapify` 14, `heapify` 31, `heapsort` 37, `partition_lomuto` 53, `quicksort_lomuto` 72, `partition_hoare` 86, `quicksort_hoare` 106.

### DuckLib/string.c

Modelled (13): `dl_string_isDigit` 4, `dl_string_isHexadecimalDigit` 8, `dl_string_isAlpha` 14, `dl_string_isSpace` 18, `dl_string_toBool` 23, `dl_string_fromBool` 46, `dl_string_fromUint8` 61, `dl_string_toPtrdiff` 94, `dl_string_fromPtrdiff` 171, `dl_string_fromSize` 215, `dl_string_toDouble` 248, `dl_string_compare` 425, `dl_string_compare_partial` 442.

### DuckLib/trie.c

`insert` and `find` work on an inductive tree; the initialisers and destructors manage memory of the host.

Modelled (4): `dl_trie_init` 10, `dl_trie_insert_helper` 142, `dl_trie_insert` 263, `dl_trie_find` 272.

Not modelled (6): `dl_trie_init_node` 19, `dl_trie_quit_node` 32, `dl_trie_quit` 68, `dl_trie_pushNode` 83, `dl_trie_node_prettyPrint` 349, `dl_trie_prettyPrint` 390.

### assembler.c

Modelled: the encoder of every instruction class, the peephole pass, label resolution, the jump size passes and the disassembler.

Modelled (3): `jumpLink_less` 196, `duckLisp_assemble` 230, `duckLisp_disassemble` 2849.

Not modelled (4): `jumpLink_prettyPrint` 63, `linkArray_prettyPrint` 119, `jumpLinkPointer_type_prettyPrint` 149, `jumpLinkPointer_prettyPrint` 170.

### duckLisp.c

Not modelled: initialisation (but for the table of forms, `M_Init`) and destruction, the pretty printers other than those of trees (`M_Print`), the error reporting of `duckLisp_error_push*` (only whether an error is reported is kept).

Modelled (53): `duckLisp_checkArgsAndReportError` 58, `duckLisp_checkTypeAndReportError` 122, `duckLisp_symbol_nameToValue` 191, `duckLisp_symbol_create` 200, `scope_init` 230, `scope_quit` 243, `duckLisp_pushScope` 267, `duckLisp_scope_getTop` 302, `scope_setTop` 319, `duckLisp_popScope` 323, `duckLisp_scope_getMacroFromName` 360, `duckLisp_scope_getLocalIndexFromName` 393, `duckLisp_scope_getFreeLocalIndexFromName_helper` 430, `duckLisp_scope_getFreeLocalIndexFromName` 550, `duckLisp_scope_getFunctionFromName` 588, `duckLisp_scope_getGlobalFromName` 647, `duckLisp_scope_getLabelFromName` 656, `duckLisp_localsLength_increment` 685, `duckLisp_localsLength_decrement` 689, `duckLisp_localsLength_get` 693, `duckLisp_gensym` 698, `duckLisp_register_label` 717, `duckLisp_objectToAST` 746, `duckLisp_astToObject` 824, `duckLisp_compile_compoundExpression` 902, `duckLisp_compile_expression` 1080, `duckLisp_assembly_init` 1184, `duckLisp_assembly_quit` 1191, `duckLisp_compileAST` 1208, `duckLisp_callback_gensym` 1406, `duckLisp_callback_intern` 1432, `duckLisp_callback_read` 1475, `duckLisp_init` 1600, `duckLisp_subCompileState_init` 2094, `duckLisp_subCompileState_quit` 2108, `duckLisp_compileState_init` 2118, `duckLisp_compileState_quit` 2124, `duckLisp_loadString` 2137, `duckLisp_scope_addObject` 2217, `duckLisp_addGlobal` 2240, `duckLisp_addInterpretedFunction` 2260, `duckLisp_addInterpretedGenerator` 2288, `duckLisp_addParserAction` 2321, `duckLisp_addGenerator` 2340, `duckLisp_linkCFunction` 2395, `duckLisp_ast_type_prettyPrint` 2447, `duckLisp_ast_bool_prettyPrint` 2472, `duckLisp_ast_integer_prettyPrint` 2487, `duckLisp_ast_float_prettyPrint` 2502, `duckLisp_ast_string_prettyPrint` 2507, `duckLisp_ast_identifier_prettyPrint` 2528, `duckLisp_ast_expression_prettyPrint` 2549, `duckLisp_ast_compoundExpression_prettyPrint` 2570.

Not modelled (11): `duckLisp_quit` 2046, `duckLisp_functionType_prettyPrint` 2631, `duckLisp_scope_prettyPrint` 2648, `duckLisp_subCompileState_prettyPrint` 2737, `duckLisp_compileState_prettyPrint` 2789, `duckLisp_datalog_prettyPrint` 2833, `duckLisp_prettyPrint` 2875, `duckLisp_instructionArgClass_type_prettyPrint` 3095, `duckLisp_instructionArgClass_prettyPrint` 3113, `duckLisp_instructionClass_prettyPrint` 3157, `duckLisp_instructionObject_prettyPrint` 3287.

### duckVM.c

The `duckVM_object_*` constructors and accessors are inlined where a modelled function calls them; those listed as not modelled are called by no modelled function. `duckVM_execute` is `duckVM_executeWithIp` with offset 0. The pretty printers of objects are in `M_Print`; that of the machine as a whole is not modelled.

Modelled (148): `duckVM_gclist_init` 48, `duckVM_gclist_quit` 89, `duckVM_gclist_markObject` 108, `duckVM_gclist_garbageCollect` 213, `duckVM_gclist_pushObject` 314, `duckVM_init` 436, `duckVM_quit` 475, `stack_push` 492, `stack_pop` 506, `stack_pop_multiple` 519, `stack_getTop` 532, `stack_get` 536, `stack_set` 543, `call_stack_push` 550, `call_stack_pop` 570, `duckVM_global_get` 586, `duckVM_global_set` 597, `duckVM_listIsCyclic` 620, `duckVM_instruction_prepareForFuncall` 641, `duckVM_executeInstruction` 745, `duckVM_executeWithIp` 4637, `duckVM_linkCFunction` 4677, `duckVM_garbageCollect` 4702, `duckVM_object_pop` 4720, `duckVM_popAll` 4724, `duckVM_object_push` 4728, `duckVM_allocateHeapObject` 4732, `duckVM_softReset` 4736, `duckVM_pushGlobal` 4753, `duckVM_setGlobal` 4761, `duckVM_object_makeBoolean` 4769, `duckVM_object_makeInteger` 4776, `duckVM_object_makeFloat` 4783, `duckVM_object_makeInternalString` 4790, `duckVM_object_makeString` 4798, `duckVM_object_makeCompressedSymbol` 4817, `duckVM_object_makeSymbol` 4825, `duckVM_object_makeList` 4866, `duckVM_object_makeCons` 4873, `duckVM_object_makeInternalVector` 4891, `duckVM_object_makeVector` 4900, `duckVM_object_makeInternalComposite` 4930, `duckVM_object_makeComposite` 4941, `duckVM_object_getString` 4987, `duckVM_object_getSymbol` 5031, `duckVM_string_getElement` 5072, `duckVM_closure_getUpvalue` 5111, `duckVM_closure_setUpvalue` 5128, `duckVM_upvalueArray_getUpvalue` 5154, `duckVM_upvalueArray_setUpvalue` 5190, `duckVM_vector_getInternalVector` 5236, `duckVM_vector_getLength` 5245, `duckVM_vector_getElement` 5253, `duckVM_vector_setElement` 5274, `duckVM_composite_getInternalComposite` 5304, `duckVM_composite_getType` 5317, `duckVM_composite_getValueObject` 5326, `duckVM_composite_getFunctionObject` 5335, `templateForIsThing` 5345, `duckVM_isNone` 5355, `duckVM_isBoolean` 5359, `duckVM_isInteger` 5363, `duckVM_isFloat` 5367, `duckVM_isString` 5371, `duckVM_isSymbol` 5375, `duckVM_isType` 5379, `duckVM_isComposite` 5383, `duckVM_isCons` 5387, `duckVM_isVector` 5397, `duckVM_isClosure` 5401, `duckVM_isList` 5405, `duckVM_isNil` 5409, `duckVM_isEmptyVector` 5419, `duckVM_isUser` 5439, `duckVM_isUpvalue` 5443, `duckVM_isUpvalueArray` 5447, `duckVM_isInternalVector` 5451, `duckVM_isBytecode` 5455, `duckVM_isInternalComposite` 5459, `duckVM_isInternalString` 5463, `duckVM_isEmpty` 5467, `duckVM_stackLength` 5509, `duckVM_push` 5514, `duckVM_pop` 5522, `duckVM_popSeveral` 5527, `duckVM_copyFromTop` 5532, `duckVM_typeOf` 5545, `duckVM_call` 5557, `duckVM_pushBoolean` 5617, `duckVM_setBoolean` 5625, `duckVM_copyBoolean` 5647, `duckVM_pushInteger` 5670, `duckVM_setInteger` 5678, `duckVM_copySignedInteger` 5700, `duckVM_copyUnsignedInteger` 5720, `duckVM_pushFloat` 5742, `duckVM_setFloat` 5750, `duckVM_copyFloat` 5772, `duckVM_pushString` 5795, `duckVM_copyString` 5809, `duckVM_pushSymbol` 5833, `duckVM_pushCompressedSymbol` 5846, `duckVM_copySymbolName` 5858, `duckVM_copySymbolId` 5891, `duckVM_pushNewType` 5914, `duckVM_pushExistingType` 5927, `duckVM_copyType` 5940, `duckVM_pushComposite` 5964, `duckVM_copyCompositeType` 5983, `duckVM_pushCompositeValue` 6003, `duckVM_pushCompositeFunction` 6025, `duckVM_setCompositeValue` 6046, `duckVM_setCompositeFunction` 6072, `duckVM_pushNil` 6101, `duckVM_pushCons` 6109, `duckVM_pushVector` 6129, `duckVM_copyClosureName` 6159, `duckVM_pushClosureBytecode` 6179, `duckVM_copyClosureArity` 6200, `duckVM_copyClosureIsVariadic` 6220, `duckVM_pushCar` 6244, `duckVM_pushFirst` 6249, `duckVM_pushCdr` 6333, `duckVM_pushRest` 6346, `duckVM_setCar` 6431, `duckVM_setFirst` 6438, `duckVM_setCdr` 6503, `duckVM_setRest` 6509, `duckVM_pushElement` 6579, `duckVM_setElement` 6655, `duckVM_length` 6761, `duckVM_upvalue_type_prettyPrint` 6827, `duckVM_internalString_prettyPrint` 7116, `duckVM_string_prettyPrint` 7139, `duckVM_symbol_prettyPrint` 7172, `duckVM_function_prettyPrint` 7205, `duckVM_closure_prettyPrint` 7226, `duckVM_list_prettyPrint` 7315, `duckVM_cons_prettyPrint` 7336, `duckVM_upvalue_prettyPrint` 7369, `duckVM_upvalueArray_prettyPrint` 7422, `duckVM_internalVector_prettyPrint` 7453, `duckVM_vector_prettyPrint` 7490, `duckVM_bytecode_prettyPrint` 7517, `duckVM_internalComposite_prettyPrint` 7546, `duckVM_composite_prettyPrint` 7593, `duckVM_user_prettyPrint` 7614, `duckVM_object_prettyPrint` 7708.

Not modelled (24): `duckVM_error_pushRuntime` 35, `duckVM_execute` 4673, `duckVM_object_makeFunction` 4844, `duckVM_object_makeClosure` 4851, `duckVM_object_makeUpvalueArray` 4883, `duckVM_object_makeBytecode` 4922, `duckVM_object_makeUser` 4963, `duckVM_object_getBoolean` 4975, `duckVM_object_getInteger` 4979, `duckVM_object_getFloat` 4983, `duckVM_object_getInternalString` 5019, `duckVM_object_getList` 5023, `duckVM_object_getCons` 5027, `duckVM_string_getInternalString` 5063, `duckVM_symbol_getInternalString` 5080, `duckVM_closure_getBytecode` 5091, `duckVM_closure_getUpvalueArray` 5101, `duckVM_list_getCons` 5145, `duckVM_internalVector_getElement` 5226, `duckVM_bytecode_getElement` 5295, `duckVM_gclist_prettyPrint` 6840, `duckVM_callFrame_prettyPrint` 6903, `duckVM_prettyPrint` 6942, `duckVM_object_type_prettyPrint` 7659.

### emitters.c

The one-line emitters are instances of `emit_un`, `emit_bin` and `emit_tern` in `M_Compile`. `acall`, `call` and `brz` are emitted by no generator.

Modelled (61): `duckLisp_emit_unaryOperator` 51, `duckLisp_emit_binaryOperator` 81, `duckLisp_emit_ternaryOperator` 115, `duckLisp_emit_unaryStackOperator` 153, `duckLisp_emit_binaryStackOperator` 168, `duckLisp_emit_ternaryStackOperator` 188, `duckLisp_emit_nil` 214, `duckLisp_emit_makeString` 218, `duckLisp_emit_concatenate` 229, `duckLisp_emit_substring` 242, `duckLisp_emit_length` 257, `duckLisp_emit_symbolString` 268, `duckLisp_emit_symbolId` 279, `duckLisp_emit_typeof` 290, `duckLisp_emit_makeType` 301, `duckLisp_emit_makeInstance` 305, `duckLisp_emit_compositeValue` 332, `duckLisp_emit_compositeFunction` 343, `duckLisp_emit_setCompositeValue` 354, `duckLisp_emit_setCompositeFunction` 369, `duckLisp_emit_nullp` 385, `duckLisp_emit_setCar` 396, `duckLisp_emit_setCdr` 411, `duckLisp_emit_car` 426, `duckLisp_emit_cdr` 437, `duckLisp_emit_cons` 448, `duckLisp_emit_vector` 461, `duckLisp_emit_makeVector` 504, `duckLisp_emit_getVecElt` 525, `duckLisp_emit_setVecElt` 538, `duckLisp_emit_return` 565, `duckLisp_emit_exit` 596, `duckLisp_emit_pop` 619, `duckLisp_emit_greater` 658, `duckLisp_emit_equal` 671, `duckLisp_emit_less` 684, `duckLisp_emit_not` 697, `duckLisp_emit_multiply` 704, `duckLisp_emit_divide` 717, `duckLisp_emit_add` 730, `duckLisp_emit_sub` 743, `duckLisp_emit_nop` 756, `duckLisp_emit_setStatic` 761, `duckLisp_emit_pushGlobal` 788, `duckLisp_emit_move` 802, `duckLisp_emit_pushBoolean` 824, `duckLisp_emit_pushInteger` 847, `duckLisp_emit_pushDoubleFloat` 866, `duckLisp_emit_pushString` 889, `duckLisp_emit_pushSymbol` 951, `duckLisp_emit_pushClosure` 1016, `duckLisp_emit_releaseUpvalues` 1083, `duckLisp_emit_ccall` 1133, `duckLisp_emit_pushIndex` 1143, `duckLisp_emit_pushUpvalue` 1154, `duckLisp_emit_setUpvalue` 1168, `duckLisp_emit_funcall` 1196, `duckLisp_emit_apply` 1217, `duckLisp_emit_brnz` 1409, `duckLisp_emit_jump` 1489, `duckLisp_emit_label` 1554.

Not modelled (3): `duckLisp_emit_acall` 1238, `duckLisp_emit_call` 1259, `duckLisp_emit_brz` 1329.

### generators.c

Macros (`defmacro`, the expansion of a macro call) and `comptime` run the virtual machine while compiling. They are in `M_Macro`, which has all generators a second time, on the state of both sub-compilers; in `M_Compile` they give `UB`, and C68 says that the two models agree on all other programs. The conversions between trees and objects on which they rest are in `M_Convert`. `label` and `goto` are not registered by `duckLisp_init` and cannot be reached from a program. `declare` does nothing without parenthesis inference.

Modelled (67): `duckLisp_generator_unaryArithmeticOperator` 57, `duckLisp_generator_binaryArithmeticOperator` 97, `duckLisp_generator_ternaryArithmeticOperator` 150, `duckLisp_generator_declare` 219, `duckLisp_generator_makeString` 227, `duckLisp_generator_concatenate` 238, `duckLisp_generator_substring` 249, `duckLisp_generator_length` 260, `duckLisp_generator_symbolString` 271, `duckLisp_generator_symbolId` 282, `duckLisp_generator_typeof` 293, `duckLisp_generator_makeType` 304, `duckLisp_generator_makeInstance` 315, `duckLisp_generator_compositeValue` 326, `duckLisp_generator_compositeFunction` 337, `duckLisp_generator_setCompositeValue` 348, `duckLisp_generator_setCompositeFunction` 359, `duckLisp_generator_nullp` 370, `duckLisp_generator_setCar` 381, `duckLisp_generator_setCdr` 392, `duckLisp_generator_car` 403, `duckLisp_generator_cdr` 414, `duckLisp_generator_cons` 425, `duckLisp_generator_list` 436, `duckLisp_generator_vector` 477, `duckLisp_generator_makeVector` 534, `duckLisp_generator_getVecElt` 545, `duckLisp_generator_setVecElt` 556, `duckLisp_generator_quote_helper` 614, `duckLisp_generator_quote` 740, `duckLisp_generator_noscope` 869, `duckLisp_generator_noscope2` 1004, `duckLisp_generator_noscope2_dummy` 1038, `duckLisp_consList_length` 1050, `duckLisp_consToExprAST` 1072, `duckLisp_consToConsAST` 1140, `duckLisp_generator_comptime` 1201, `duckLisp_generator_defmacro` 1314, `duckLisp_generator_lambda_raw` 1430, `duckLisp_generator_lambda` 1712, `duckLisp_generator_createVar_raw` 1719, `duckLisp_generator_createVar` 1789, `duckLisp_generator_createVar_dummy` 1797, `duckLisp_generator_global` 1809, `duckLisp_generator_defun` 1868, `duckLisp_generator_defun_dummy` 1955, `duckLisp_generator_error` 1967, `duckLisp_generator_not` 2007, `duckLisp_generator_multiply` 2018, `duckLisp_generator_divide` 2029, `duckLisp_generator_add` 2040, `duckLisp_generator_sub` 2051, `duckLisp_generator_equal` 2062, `duckLisp_generator_greater` 2073, `duckLisp_generator_less` 2084, `duckLisp_generator_while` 2095, `duckLisp_generator_unless` 2344, `duckLisp_generator_when` 2530, `duckLisp_generator_if` 2715, `duckLisp_generator_setq` 2920, `duckLisp_generator_nop` 3057, `duckLisp_generator_funcall` 3215, `duckLisp_generator_funcall2` 3324, `duckLisp_generator_apply` 3397, `duckLisp_generator_callback` 3475, `duckLisp_generator_macro` 3543, `duckLisp_generator_expression` 3744.

Not modelled (2): `duckLisp_generator_label` 3066, `duckLisp_generator_goto` 3112.

### parenthesis-inferrer.c

Not modelled: the virtual machine and compiler of the scripts (their texts are in `M_Init`) (a script is any function from what happened so far to its next request), initialisation and destruction, the log but for the types in it (`M_Log`).

Modelled (23): `inferrerState_log` 609, `inferrerTypeSignature_quit` 621, `inferrerTypeSignature_serialize` 653, `inferrerTypeSignature_fromAst` 698, `inferrerScope_init` 855, `pushDeclarationScope` 936, `popDeclarationScope` 940, `findDeclaration` 954, `addDeclaration` 980, `compileAndAddDeclaration` 1021, `infer_callback` 1104, `runVm` 1118, `inferIncrementally` 1158, `interpretDeclare` 1263, `inferArgument` 1311, `inferArguments` 1504, `infer_expression` 1525, `infer_compoundExpression` 1635, `callback_declareIdentifier` 1680, `callback_inferAndGetNextArgument` 1756, `callback_pushScope` 1836, `callback_popScope` 1855, `duckLisp_inferParentheses` 1932.

Not modelled (16): `duckLisp_parenthesisInferrer_declarationPrototype_prettyPrint` 127, `inferrerTypeSymbol_prettyPrint` 181, `inferrerTypeSignature_type_prettyPrint` 199, `inferrerTypeSignature_prettyPrint` 229, `inferrerType_prettyPrint` 285, `inferrerScope_prettyPrint` 310, `inferrerState_prettyPrint` 356, `vmContext_prettyPrint` 468, `inferrerTypeSignature_init` 616, `inferrerType_init` 842, `inferrerType_quit` 848, `inferrerScope_quit` 860, `inferrerState_init` 874, `inferrerState_quit` 908, `duckLisp_error_pushInference` 1060, `generator_declarationScope` 1872.

### parser.c

The initialisers and destructors only manage memory of the host.

Modelled (15): `isIdentifierSymbol` 130, `parse_comment` 145, `parse_irrelevant` 171, `parse_literalExpression` 213, `parse_expression` 356, `parse_identifier` 503, `parse_callback` 579, `parse_bool` 666, `parse_int` 775, `parse_float` 919, `parse_string` 1173, `runAction` 1357, `duckLisp_parse_compoundExpression` 1384, `parser_postprocess_compoundExpression` 1485, `duckLisp_read` 1501.

Not modelled (14): `ast_expression_init` 194, `duckLisp_ast_expression_quit` 199, `ast_identifier_init` 482, `ast_identifier_quit` 487, `ast_bool_init` 656, `ast_bool_quit` 660, `ast_int_init` 765, `ast_int_quit` 769, `ast_float_init` 909, `ast_float_quit` 913, `ast_string_init` 1155, `ast_string_quit` 1160, `duckLisp_ast_compoundExpression_init` 1314, `duckLisp_ast_compoundExpression_quit` 1318.

## Properties

### C01 A trie is a finite map from byte strings to indices — proved

`trie.c` on an inductive radix tree (`M_Trie`). Refinement to a finite map (`S_Map`), by induction on trees and on histories of insertions.

Theorems: `C01_trie_is_finite_map`.

### C02 A dynamic array behaves as a sequence — partial

`array.c` on a record of contents, length and capacity, with the growth strategies (`M_Array`). Refinement to lists (`S_Seq`), by an invariant over sequences of operations.

Refinement to lists proved for all operation sequences except appending an empty array and operations after a failed push, which are refuted by witnesses.

Theorems: `C02_array_is_sequence_partial`, `C02_append_empty_refuted`, `C02_failed_push_refuted`.

### C03 Copying an array gives an independent copy — partial

`dl_array_copy` with explicit buffers. Refuted by a witness; the sharing is characterised.

Refuted: the copy shares the source buffer; the sharing is proved as the exact behaviour.

Theorems: `C03_copy_shares_buffer`, `C03_copy_refuted`.

### C04 Integers survive being printed and read back — partial

`dl_string_fromPtrdiff` and `dl_string_toPtrdiff` with 64 bit arithmetic and overflow as an outcome (`M_String`). Induction on digits.

Full round trip refuted: the most negative value is mishandled; proved for every other 64-bit value.

Theorems: `C04_int_roundtrip_partial`, `C04_int_roundtrip_refuted`.

### C05 Integer text has its mathematical value — proved

The value of a digit string is defined in `S_IntText` on its own. Induction on the text.

Theorems: `C05_text_value`, `C05_other_text_rejected`.

### C06 Natural-number printing is exact — proved

As C05, for the printers of natural numbers.

Theorems: `C06_size_text`, `C06_ptrdiff_text`, `C06_ptrdiff_no_leading_zero`, `C06_uint8_text`, `C06_bool_text`.

### C07 Sorting returns a sorted permutation — partial

`sort.c` on lists with index reads and writes; comparison is any total preorder (`M_Sort`). Partition invariants; the result is a sorted permutation.

Both quicksorts proved in full; heapsort for non-empty arrays, undefined on the empty array.

Theorems: `C07_quicksort_hoare`, `C07_quicksort_lomuto`, `C07_heapsort_partial`, `C07_heapsort_empty_refuted`.

### C08 Garbage collection never loses a live object — partial

Heap, roots, marker and sweep of `duckVM.c` (`M_Heap`). Reachability is defined inductively in `S_Heap`; the marker loop has an invariant.

Proved for every sound heap without a vector under construction; refuted for vectors under construction.

Theorems: `C08_gc_keeps_live_partial`, `C08_gc_keeps_live_refuted`.

### C09 Garbage collection reclaims every dead object — proved

As C08, in the other direction: after a collection an object is in use exactly if it is reachable.

Theorems: `C09_gc_reclaims_dead`, `C09_out_of_memory_exact`.

### C10 Allocation never hands out an object in use — proved

`duckVM_gclist_pushObject` over histories of allocations and collections.

Theorems: `C10_allocation_fresh`.

### C11 A user object's destructor runs exactly once — partial

The destructor calls are a trace in the state (`events`); invariant over histories.

Proved per heap object; refuted for user values copied between stack and heap.

Theorems: `C11_destructor_once_partial`, `C11_destructor_live_refuted`, `C11_destructor_twice_refuted`.

### C12 Marking terminates on cyclic structures — proved

The marker is a loop over a work list; its fuel is shown to suffice on every heap, cyclic or not.

Theorems: `C12_gc_terminates`, `C12_marking_linear`.

### C13 Globals form a key/value map — proved

`duckVM_global_get/set` (`M_Heap`); refinement to a map from keys to values over histories.

Theorems: `C13_globals_map`, `C13_set_global`, `C13_others_keep`.

### C14 Cyclic list detection is exact — proved

`duckVM_listIsCyclic` (Brent). The specification is the existence of a repeated pair (`S_Cyclic`).

Theorems: `C14_cyclic_exact`, `C14_reachable_inside`, `C14_length`.

### C15 Assembled instructions decode to themselves — partial

The encoder of the assembler (`M_Asm`) and the operand decoder of the machine (`M_VM`). Byte arithmetic for all operands of every class.

False as stated for five kinds of operands (set-vector-element/substring third operand, vector operands, set-upvalue second operand, 16 bit release-upvalues, 16 bit equal): refuted with witnesses. Proved for every other instruction and operand.

Theorems: `C15_instruction_partial`, `C15_link_partial`, `C15_setVecElt_refuted`, `C15_vector_refuted`, `C15_setUpvalue_refuted`, `C15_release_refuted`, `C15_equal_refuted`, `C15_step`.

### C16 Integer literals keep their value — partial

As C15 for the three widths of integer literals.

Proved for all literals in the range of int; false for larger ones (refuted: 2^31); the general result is that literals are reduced to 32 bits.

Theorems: `C16_integer_partial`, `C16_all_integers`, `C16_large_refuted`.

### C17 The peephole optimisation does not change what a program computes — partial

The peephole pass is a list rewriting function; the effect on the machine is compared step by step, up to garbage.

Exact for stretches of pushes that do not allocate; up to garbage for a dropped string or symbol; dropped closures not covered; refuted for make-type.

Theorems: `C17_barrier`, `C17_block_partial`, `C17_text_partial`, `C17_make_type_refuted`, `C17_pop_nothing_refuted`.

### C18 Shrinking jumps keeps every jump on its label — partial

The passes that size jumps; invariant over the passes, and a witness for the failure.

Refuted for the default build (a 154 byte program with a lost jump). Proved: every address that fits leads to its label, all do in programs of at most 127 bytes, and all do without jump optimisation.

Theorems: `C18_default_partial`, `C18_short`, `C18_unoptimised`, `C18_jump_refuted`.

### C19 Calls check the number of arguments — proved

`call`, `funcall` and `acall` of the machine; a call specification in `S_Call`.

Theorems: `C19_fixed`, `C19_variadic`, `C19_refused`, `C19_host`.

### C20 apply spreads its list — partial

`apply`; the specification spreads a list as a list of values.

Proved for every closure, list and argument count except that a list longer than a fixed-arity closure needs is silently cut (C20_too_many_refuted) instead of being an arity error.

Theorems: `C20_fixed_partial`, `C20_variadic`, `C20_refused`, `C20_too_many_refuted`.

### C21 Return restores the caller's frame — proved

`return` after any run of the callee that keeps the frames below.

Theorems: `C21_return`, `C21_return_halts`, `C21_resumes`.

### C22 The value stack and the captured-variable stack stay in step — partial

Invariant over all instructions.

False as stated (an error in vector or closure construction leaves the stacks out of step); proved for every successful instruction and, for the others, any outcome. Host API not covered.

Theorems: `C22_in_step_refuted`, `C22_success_partial`, `C22_any_outcome_partial`.

### C23 Closures capture variables, not values — partial

Upvalue stack, upvalue objects and closures; variables are specified as locations in `S_Closure`.

Reading, assigning, capturing, sharing and closing are each proved for every well-typed state in which variables are distinct (separate), and capture, assignment and release keep that. Not proved: that every other instruction keeps `separate`; it is false for popping a captured variable without releasing it (C23_pop_refuted), which the compiler must avoid.

Theorems: `C23_read`, `C23_assign`, `C23_capture`, `C23_shared`, `C23_release`, `C23_pop_refuted`.

### C24 make-type never repeats a type — proved

`make-type` over all instruction sequences.

Theorems: `C24_fresh_types`.

### C25 Composite objects have independent value and function fields — proved

`S_Data` gives the abstract contents of the heap reachable from a value; laws for reading after writing.

Theorems: `C25_make_instance`, `C25_make_instance_refused`, `C25_read`, `C25_set`, `C25_not_composite`, `C25_every_composite`.

### C26 Pairs obey the car/cdr laws — proved

As C25, for pairs.

Theorems: `C26_cons`, `C26_read`, `C26_nil`, `C26_set`, `C26_not_pair`, `C26_every_pair`, `C26_length`.

### C27 Vectors are bounds-checked arrays — partial

As C25, for vectors.

vector is exact when memory for the elements is free; under memory pressure elements come out wrong (C27_vector_refuted). get, make-vector, first/rest, length, set-first exact. set-vector-element accepts negative indices on tails (refuted), the null vector is UB (refuted), set-cdr nil empties a vector (refuted).

Theorems: `C27_vector_partial`, `C27_vector_refuted`, `C27_make_vector`, `C27_make_vector_refused`, `C27_get`, `C27_set_partial`, `C27_set_refuted`, `C27_empty_refuted`, `C27_bad_operands`, `C27_length`, `C27_first_rest`, `C27_end`, `C27_set_first`, `C27_set_rest_refuted`, `C27_every_vector`.

### C28 Strings obey the sequence laws — partial

As C25, for strings.

length, first/rest, element, substring, symbol-string, make-string of integers proved for all strings, tails and parts. concatenate proved for strings at offset 0 and symbols; refuted for tails, parts and the null string; make-string error handling refuted.

Theorems: `C28_length`, `C28_first_rest`, `C28_end`, `C28_element`, `C28_substring`, `C28_concatenate_partial`, `C28_concatenate_refuted`, `C28_concatenate_tail_refuted`, `C28_concatenate_empty_refuted`, `C28_symbol_string`, `C28_make_string_list`, `C28_make_string_vector`, `C28_make_string_refuted`, `C28_make_string_undefined_refuted`, `C28_every_string`.

### C29 Arithmetic and comparison follow the numeric tower — proved

The arithmetic instructions; integers against 64 bit wrap-around arithmetic, floats against the real operations rounded (`S_Num`, proofs with Flocq).

Theorems: `C29_integer_arithmetic`, `C29_boolean_arithmetic`, `C29_float_arithmetic`, `C29_less_whole`, `C29_greater_whole`, `C29_less_float`, `C29_greater_float`, `C29_non_number`.

### C30 Division by zero is reported — partial

Division of all pairs of accepted types.

Refuted as stated: integer division by zero is carried out, which C leaves undefined (C30_division_by_zero_refuted). Proved: division by non-zero gives the truncated quotient.

Theorems: `C30_division_by_zero_refuted`, `C30_division_partial`.

### C31 Equality is an equivalence relation — partial

`equal` against equality of numeric values and of structures.

NaN is not equal to itself (C31_reflexive_refuted); all other accepted values proved, with = characterised by value.

Theorems: `C31_equal_value_partial`, `C31_equivalence_partial`, `C31_reflexive_refuted`.

### C32 not and branching agree on truth — partial

`not` against `brnz` for every accepted value.

Fails for empty vectors that are not null (C32_not_and_branch_refuted); proved for every other value both instructions accept.

Theorems: `C32_not_and_branch_partial`, `C32_not_and_branch_refuted`.

### C33 Symbols are interned — partial

The symbol table as a trie and a counter (`M_Symbol`), over sequences of uses.

Proved for all sequences of uses while memory lasts; refuted when memory runs out inside symbol_create.

Theorems: `C33_value`, `C33_same`, `C33_stable`, `C33_stored`, `C33_memory_refuted`.

### C34 Generated symbols are fresh — partial

`gensym`; names against the grammar of identifiers.

Names are proved distinct within 2^64 calls and never identifiers of a text; that the generated symbol is new is refuted for programs that intern strings starting with a zero byte.

Theorems: `C34_numbered`, `C34_differ`, `C34_once`, `C34_unwritten`, `C34_new_partial`, `C34_new_refuted`.

### C35 Names resolve lexically — proved

The scope stack (`M_Scope`) against nested environments (`S_Scope`), over sequences of scope operations.

Over every sequence of openings, closings, declarations and uses with non-negative slots: stack slot iff innermost declaration inside the current function; captured number leads to the slot of the innermost declaration outside; numbers keep their meaning; released slots belong to the scope; closed scopes leave nothing. Only one of the two parallel scope stacks is modelled; macros and labels are not part of the model of scopes.

Theorems: `C35_stack`, `C35_captured`, `C35_outside`, `C35_absent`, `C35_stable`, `C35_released`, `C35_closed`, `C35_function`.

### C36 Reading a printed expression gives the expression back — partial

All readers of `parser.c` (`M_Parser`). A grammar of spellings of trees in `S_Reader`; induction on spellings.

Proved for every text of the grammar in S_Reader and for every printed expression; refuted for strings and integers at the very end of a text, for words beginning with true or false, and for parentheses with a space between them. Float literals are covered with the value the reader gives them when followed by the same bytes; what that value is, is C57_grammar_partial.

Theorems: `C36_spelled_partial`, `C36_printed_partial`, `C36_printed_then`, `C36_printed_once`, `C36_last_string_refuted`, `C36_last_integer_refuted`, `C36_true_prefix_refuted`, `C36_spaced_empty_refuted`.

### C37 Reading enforces the nesting limit — partial

The depth counter of the readers, for all texts.

Rejection, the bound on everything that is read, monotonicity in the limit and the restored counter are proved for all texts; that shallow trees are never rejected is proved for spelled texts and refuted for others.

Theorems: `C37_rejected`, `C37_limit`, `C37_unaffected_partial`, `C37_unaffected_refuted`, `C37_depth`.

### C38 Reading stays inside the source text — partial

Reading outside the text is an outcome; shown absent for all texts of the class.

Proved for texts that do not end in white space, a digit or x; refuted for those.

Theorems: `C38_inside_partial`, `C38_space_refuted`, `C38_digit_refuted`, `C38_hex_refuted`, `C38_behind_refuted`.

### C39 Compiled core programs compute the value of their source — partial

The generators of the core forms and the emitters (`M_Compile`), the optimiser, the assembler and the machine. A reference interpreter in `S_Compile`/`S_Program`; forward simulation through an abstract machine, then to byte code, for programs and for sessions.

Core language (literals, variables, globals, operators, quote, list, if, when, unless, while, setq, global, scopes): the byte code built by compiler, optimiser and assembler computes the value of a reference interpreter, pushes it on an otherwise unchanged stack, keeps everything reachable, for single programs and whole sessions, unless memory runs out (with a bound). Errors agree without the optimiser, and leave a machine that is ready for the next program; refuted with it. Functions are in C71. Missing: closures with captured variables, macros, operands that do not fit, globals dropped by C41.

Theorems: `C39_value_partial`, `C39_error_partial`, `C39_next`, `C39_session_partial`, `C39_optimised_error_refuted`.

### C40 The compiler knows the height of the stack — partial

A height for every code position, checked against all instructions.

Every position of the code of a core program has a stack height that the machine attains whenever it gets there, and the final height is the one the compiler counted. Refuted for nop, for declarations as operands and for endless loops in branches. Functions are in C58 and C63.

Theorems: `C40_heights_partial`, `C40_nop_refuted`, `C40_declaration_refuted`, `C40_loop_refuted`.

### C41 Assigning a global always happens — partial

`setStatic` and its exception; witness and theorem for whole programs.

Assignments to globals store the value when the number of the name differs from the stack position of the value; refuted otherwise (the first program of a session can be hit).

Theorems: `C41_stores_partial`, `C41_dropped_refuted`.

### C42 Constant conditions are folded consistently — partial

Literal conditions against the branch instruction; theorems for whole programs.

Folding agrees with the branch instruction for every literal but the empty string, and whole programs with constant conditions compute the branch asked for; refuted for the empty string (if, and loops).

Theorems: `C42_literal`, `C42_if_partial`, `C42_when_partial`, `C42_empty_refuted`, `C42_while_refuted`.

### C43 Operands are evaluated left to right before the operation — partial

A strict left-to-right interpreter (`S_Order`) against the one of C39.

Programs without interfering operands compute what strict left-to-right evaluation says; refuted for variables as first operand and for the elements of lists.

Theorems: `C43_order_partial`, `C43_semantics_partial`, `C43_late_refuted`, `C43_list_refuted`.

### C44 Host values round-trip through the stack — partial

The host interface (`M_Host`): laws for push/to pairs.

Proved for booleans, integers, floats, types (new types included), strings (through garbage collections too), symbols with names, positions, globals, the predicates for types, pairs and nil, and the soft reset. Refuted for the length of the name of a compressed symbol.

Theorems: `C44_boolean`, `C44_integer`, `C44_unsigned`, `C44_float`, `C44_type`, `C44_push_string`, `C44_copy_string`, `C44_kept_string`, `C44_push_symbol`, `C44_copy_symbol`, `C44_compressed_refuted`, `C44_setter`, `C44_setter_refuses`, `C44_asks`, `C44_positions`, `C44_copy_into`, `C44_global`, `C44_link`, `C44_is`, `C44_cons_nil`, `C44_new_types`, `C44_reset`.

### C45 Host element access addresses the requested element — partial

As C44, for element access.

Proved for vectors and tails of vectors. Refuted for lists (reading and writing), tails of strings and values without elements.

Theorems: `C45_get_partial`, `C45_set_partial`, `C45_set_outside`, `C45_list_refuted`, `C45_list_end_refuted`, `C45_list_set_refuted`, `C45_string_refuted`, `C45_ignored_refuted`.

### C46 Running bytecode stays alive and addresses the right code — partial

Whole two-program histories.

False as stated: two refutations from complete two-program histories. Proved: the byte code a run was started with stays rooted and alive, and closures made by it belong to it (C23_capture).

Theorems: `C46_started_partial`, `C46_current_partial`, `C46_closure_refuted`, `C46_collected_refuted`.

### C47 Memory blocks handed out never overlap — partial

The allocator with its block table inside the arena (`M_Memory`), with the bytes of the arena. Invariant over histories of calls; disjointness, alignment and contents.

Proved for every sequence of successful calls with the first, best and worst strategies: blocks are inside the arena, aligned, apart from each other and from the block table, and keep their bytes. The outcomes of each call are characterised. Refuted for next fit (two blocks share bytes; the search may not end), after a failed call, for the last block of the arena, for resizing, for sizes near 2^64 and for best fit.

Theorems: `C47_blocks_partial`, `C47_table_exposed_refuted`, `C47_malloc`, `C47_malloc_outside_refuted`, `C47_malloc_finds`, `C47_rounded`, `C47_huge_refuted`, `C47_free`, `C47_free_last_refuted`, `C47_available_again_partial`, `C47_available_again_refuted`, `C47_double_free`, `C47_dangling_free`, `C47_dangling_realloc`, `C47_realloc`, `C47_realloc_beyond_refuted`, `C47_realloc_loses_refuted`, `C47_best_fit_refuted`, `C47_next_overlap_refuted`, `C47_next_endless_refuted`.

### C48 Memory copies respect overlap — proved

`dl_memcopy` and its variants against a pointwise specification.

Theorems: `C48_memcopy`, `C48_memcopy_noOverlap`, `C48_memcopy_noOverlap_refuted`, `C48_memclear`, `C48_strlen`.

### C49 Quoting and list building produce the written tree — partial

The generators quote and list, through C39.

quote and list build the written tree, for trees of any shape and size, unless memory runs out or operands do not fit.

Theorems: `C49_quote_partial`, `C49_list_partial`.

### C50 Syntax trees survive conversion to objects and back — partial

`astToObject` and `objectToAST` on the heap (`M_Convert`). Induction on trees, with allocation and collection in between.

Proved: trees survive the conversion to objects and back when there is room for them; converting a value back is defined for proper lists with named symbols; values computed while compiling are spliced in as themselves unless they hold symbols or odd booleans; the argument of a macro reaches it unchanged. Refuted: without room the tree is silently corrupted; dotted lists overflow a buffer; symbols without names; comptime symbols and booleans.

Theorems: `C50_there_and_back_partial`, `C50_short_memory_refuted`, `C50_float_refuted`, `C50_back_defined_partial`, `C50_dotted_refuted`, `C50_nameless_refuted`, `C50_unprintable`, `C50_comptime_partial`, `C50_comptime_symbol_refuted`, `C50_comptime_boolean_refuted`, `C50_macro_argument_partial`.

### C51 Instructions are memory safe — partial

A typing of heap objects (`S_Types`); every instruction keeps it and is defined, outside an explicit list of cases.

Proved for every instruction but four kinds of harmful ones, each refuted by a witness: vector construction when the collector runs, set-cdr on a vector shorter than the reference's offset, apply to a dotted list with a rest parameter, and push-closure sharing captured variables of a closure no longer reachable. Undefined behaviour is confined to an explicit list of cases.

Theorems: `C51_instruction_partial`, `C51_execution_partial`, `C51_new_machine`, `C51_start`, `C51_decoded`, `C51_vector_refuted`, `C51_set_cdr_refuted`, `C51_apply_refuted`, `C51_push_closure_refuted`, `C51_failed_vector_refuted`.

### C52 Reading terminates and makes progress — partial

The readers always advance; fuel bounded by the text suffices.

Proved for texts that do not end in a point; refuted for (1. .

Theorems: `C52_ends_partial`, `C52_consumes_partial`, `C52_ends_refuted`.

### C53 Host calls keep the machine consistent — partial

The typing of C51 over any sequence of host calls.

Proved for C code of any shape whose calls meet the stated conditions, and without conditions for the stacks and globals. Refuted for duckVM_setGlobal, duckVM_pushFirst, duckVM_pushComposite and duckVM_pushVector. duckVM_execute from C code and user types are not covered; duckVM_call is C67.

Theorems: `C53_call_partial`, `C53_steady`, `C53_client_partial`, `C53_gentle`, `C53_run_partial`, `C53_set_global_refuted`, `C53_first_refuted`, `C53_composite_refuted`, `C53_vector_refuted`, `C53_vector_missing_refuted`.

### C54 Structures built by the host are those the language builds — partial

Structures built by host calls against those of the instructions.

Proved for pairs and composites. Refuted for the length of lists built with duckVM_setRest, for the rest of short vectors, and for composites made with one free object.

Theorems: `C54_push_cons`, `C54_set`, `C54_get`, `C54_length`, `C54_length_refuted`, `C54_rest_refuted`, `C54_composite_partial`, `C54_field`, `C54_set_field_partial`.

### C55 Symbols made at run time are those of the compiler — partial

`intern` and `gensym` at run time against the symbol table of the compiler.

gensym is proved in full; intern is proved for non-empty texts when there is memory, refuted otherwise.

Theorems: `C55_gensym`, `C55_intern_partial`, `C55_intern_memory_refuted`, `C55_intern_empty_refuted`.

### C56 read gives the structure of the text — partial

`read` = parser followed by the conversion.

Proved when there is room for the tree and the answer, without the parenthesis inference; refuted without room.

Theorems: `C56_read_partial`, `C56_error`, `C56_memory_refuted`.

### C57 Float literals mean what they say — partial

`parse_float` in floating point against the real value of the literal, with an error bound (Flocq).

Proved with an explicit error bound for literals with at most 18 digits behind the point and magnitudes within range, followed by a byte that ends a word. Refuted: sign lost for -1., uninitialised value for 1. at the end, overflow from 19 digits, exponent minus zero. Such literals are in the grammar of C36 (C57_grammar_partial).

Theorems: `C57_value_partial`, `C57_grammar_partial`, `C57_minus_refuted`, `C57_last_refuted`, `C57_long_refuted`, `C57_zero_exponent_refuted`.

### C58 Functions keep to their own part of the stack — partial

A layout (height, function, number of captured variables) is built for the code of every program along with the code, by induction on the recursion of the compiler (`P_Frame` to `P_Frame11`); functions inside functions, whose code is emitted elsewhere, are pieces of their own.

Proved for every program in which operands leave a value: no nop, no endless loop, declarations only in bodies, at most 255 arguments, no function named like a special form. About the code before the peephole pass. Refuted: nop, 256 arguments.

Theorems: `C58_frames_partial`, `C58_nop_refuted`, `C58_many_refuted`.

### C59 Parenthesis inference only puts the parentheses the declarations call for — proved

`parenthesis-inferrer.c` with fuel and with scripts as arbitrary functions from the events so far to the next request (`M_Infer`). The readings of a form are a grammar over the declared types (`S_Infer`). One induction on the fuel (`P_Infer2`), for any invariant of the states, used three times.

For every program and every behaviour of the scripts, which are arbitrary functions of what happened so far.

Theorems: `C59_reading`, `C59_spelled`.

### C60 Parenthesis inference decides — partial

Completeness by induction on readings (`P_Infer4`), uniqueness on the grammar alone (`P_Infer3`), termination with twice the size as fuel (`P_Infer6`), all for identifiers outside of a set of words that contains those with scripts, monotonicity in the fuel (`P_Infer7`), results of programs without marks are their own readings (`P_Infer8`).

Uniqueness and independence of the fuel for every program; exactness and termination for programs that neither declare anything nor name anything declared with a script, whatever else is declared with scripts (C78 applies this to the table of the language). For these programs, if they have no marks, inferring the result again changes nothing.

Theorems: `C60_exact_partial`, `C60_unique`, `C60_ends_partial`, `C60_steady`, `C60_again_partial`.

### C61 Declarations of the inferrer — partial

The scopes are tries with a list of types; lookups after insertion by C01. Scope discipline is the induction of C59 with another invariant.

Effect of a declaration and reading of types proved in full; scopes for scripts that do not open or close scopes; arities for forms without declarations and without names declared with scripts inside.

Theorems: `C61_declare`, `C61_types`, `C61_innermost_partial`, `C61_scope_partial`, `C61_call_arity_partial`, `C61_operand_arity_partial`.

### C62 Parenthesis inference is total, defined and final — partial

Witnesses; the endless loop is shown for every amount of fuel.

False: undefined for literals whose head is no name and for some ill-formed types; endless for nested rest types; the result may keep marks and be rejected when inferred again. C60 gives the conditions under which it ends.

Theorems: `C62_literal_refuted`, `C62_type_refuted`, `C62_stuck_refuted`, `C62_again_refuted`.

### C63 Running functions keep the stack and the calls in order — partial

The states a run goes through are those of `step` of the machine model on the bytes the assembler model gives. An invariant over them (`P_Dyn4`): the layout of C58 tells the height of every position, and the call stack is a chain of callers each of which waits at a position of the layout (`S_Dynamic`). `P_Dyn5` carries the layout through the peephole pass, `P_Dyn6` through the assembler.

Proved for the programs of C58, with or without the peephole pass and with either jump encoding, on machines that hold no function, callback or byte code yet, for every state reached without an error. Missing: callbacks, several programs in one machine, the states of a run that stops with an error.

Theorems: `C63_running_partial`.

### C64 From the text to the value — partial

`load_string` (`M_Load`) joins the models of the reader, the compiler and the assembler. C36 reads the text, C65 compiles the tree, C18 assembles the code (labels by the lemmas behind C39 and C58), C39 runs it.

Texts of well formed core programs load and compute their value, one or several; texts with functions load. Left out: code over 127 bytes with optimised jumps (C18), assignments with the defect of C41; the value of programs with functions is in C71_text_partial.

Theorems: `C64_text_partial`, `C64_texts_partial`, `C64_functions_partial`.

### C65 The compiler accepts exactly the well formed programs — partial

Weakest preconditions for the compiler monad (`P_Accept`), an invariant of the compile state (scopes present, function tries hold only what the compiler puts there, lengths), and induction on the recursion of the compiler. Well formedness (`S_Accept`) is a table of operand counts and a few shapes.

Acceptance proved for the whole language without macros and comptime, up to the limit for nesting. The converse is refuted: (() (var 3 4) 5) is accepted.

Theorems: `C65_accepted_partial`, `C65_malformed_refuted`, `C65_depth_refuted`.

### C66 The disassembly shows the code — partial

The disassembler with its table of formats (`M_Disasm`) against lines written from the decoded instruction (`S_Disasm`); every opcode by symbolic execution of its format (`P_Disasm`), the whole by induction on the instructions.

Proved for all instructions except vectors with elements in the 8 and 16 bit forms, symbols without names, calls, and the larger forms of release-upvalues, global and equal; for the first three and for global the claim is refuted.

Theorems: `C66_code_partial`, `C66_assembled_partial`, `C66_bytes_partial`, `C66_vector_refuted`, `C66_stripped_refuted`, `C66_call_refuted`, `C66_global_refuted`.

### C67 C code can call functions of the language — partial

The call with its frame outside the heap (`M_Reenter`); a run is cut at the return that takes this frame off (`P_Reenter`, an invariant on the frames above it), and C19 gives the way in (`P_Reenter2`); `mark_all` meets the frame for the refutations.

Proved while objects are free: callbacks, refusals, closures with fixed and with rest parameters, for any callbacks that leave the calls in progress alone. Refuted when the collector runs during the call, after an error in the called function, and for the program that is running when a callback makes the call. Typing (C51) during the call is not proved.

Theorems: `C67_callback`, `C67_refused`, `C67_fixed_partial`, `C67_variadic_partial`, `C67_collection_refuted`, `C67_full_refuted`, `C67_error_refuted`, `C67_program_refuted`.

### C68 Macros cost nothing to programs without them — proved

`M_Macro` has the generators on the state of both sub-compilers and the machine. A simulation (`P_Macro`): a state of `M_Compile` is embedded beside an arbitrary other sub-compiler, which gets one more empty scope for each open scope; one lemma for each generator, and induction on the recursion.

The complete compiler and loader against the one without macros, for every program and every state: same code, same errors. C68_text_partial adds the value of core texts.

Theorems: `C68_program`, `C68_load`, `C68_text_partial`.

### C69 comptime computes constants — partial

The expression is compiled by the same simulation with the sub-compilers exchanged. Its code is that of the core relation of C39 at the height of the second stack; it is moved down to height 0 (`P_Comptime`, induction on the code relation), closed with a halt and run by the refinement of C39 (`P_Comptime2`). C50 turns the value into a tree, and `comptime_form` (`P_Comptime3`) follows the generator step by step.

Every core expression with a constant value, at any place, and whole texts. Left out: symbols in the value (refuted in C50), functions inside the expression, variables left on the stack of the second sub-compiler, the defect of C41. Refuted: an error with an empty stack is undefined.

Theorems: `C69_form_partial`, `C69_text_partial`, `C69_nested`, `C69_error_refuted`.

### C70 A macro call means its expansion — partial

The code for the arguments of a use is a relation of its own (`P_Macro3`): it is what the core relation of C39 gives for quoted data, and its run is that of the abstract machine of C39 up to the call. The rest of the generator is followed step by step. Witnesses computed with `M_Macro` for the refutations.

Every use of a macro with written data as arguments, in every state of the compiler: the machine reaches the call with these arguments, and the compiler goes on with the tree the macro gives, or with its error. Macros cannot be defined while computing. Left out: that the noted place is that of the macro, and what its body computes (C71). Refuted for expansions that are variables and for macros in a second text.

Theorems: `C70_call_partial`, `C70_not_nested`, `C70_variable_refuted`, `C70_operand_refuted`, `C70_second_text_refuted`.

### C71 Functions of a program compute what their bodies say — partial

The interpreter of C39 has a table of functions and calls (`S_Compile`, `S_Fun`). The abstract machine runs a call as a run of its own that ends at a return (`P_Abs`); the simulation of C39 carries the table along, and the code of a body is moved to the height of the call (`P_Comptime`). `P_Fun1` refines calls, returns and closures to the machine by induction on such runs, `P_Fun2` follows the compiler through the definitions, `P_Fun3` and `P_Fun4` put them together, `P_Fun5` carries the push-pop optimisation past such runs, and `P_Fun6` starts from the text (C36, C65, C18).

Programs of global function definitions followed by forms, from the text through reader, compiler, assembler (with and without the optimiser) and machine, values and errors, and what an error leaves on the machine (also the calls that have not returned). Missing: captured variables, nested lambda, rest parameters, self; refuted for the first name of a session (the defect of C41), and errors with the optimiser refuted (an unused read of an unknown global is removed).

Theorems: `C71_value_partial`, `C71_error_partial`, `C71_text_partial`, `C71_first_refuted`, `C71_frames_refuted`, `C71_dropped_refuted`.

### C72 What a host sees of values is what programs see — partial

`perform` of `M_Host` against a description of the elements of a sequence, and of the variables of a function, that only speaks of the heap (`S_Look`); every call by cases on the object (`P_Look`).

Every kind of value and every state. Left out, because they are wrong in the code (refuted): rests of vectors without elements, rests of strings, rests of one-element vectors and strings. The elements of a vector made by pushVector are null pointers (C53).

Theorems: `C72_part`, `C72_part_missing`, `C72_length`, `C72_length_closure`, `C72_empty_partial`, `C72_empty_closure`, `C72_first_partial`, `C72_rest_partial`, `C72_set_first`, `C72_captured`, `C72_assign`, `C72_code`, `C72_pop_several`, `C72_pop_all`, `C72_pop`, `C72_vector`, `C72_empty_refuted`, `C72_tail_refuted`.

### C73 C functions get the arguments programs pass to them — partial

The compiler on the form of a call to a known C function emits the arguments of C71 followed by the call (`P_Callback`, with the framework of C39); the arguments run on the abstract machine and then on the machine as in C39 and C71; the C function is an arbitrary function on machine states, and the theorem says in which state it is called (`finds` in `S_Callback`) and what becomes of its outcome.

Proved for programs (f e1 ... en) with core arguments that do not assign to f, for every C function and machine, with or without the push-pop optimisation. Refuted: a program that assigns to the name of a C function makes the machine call an integer (undefined behaviour), and the number of arguments is checked nowhere, so a C function can take values of others. Missing: calls of C functions nested in other forms; errors of arguments with the push-pop optimisation.

Theorems: `C73_call_partial`, `C73_error_partial`, `C73_name_refuted`, `C73_count_refuted`.

### C74 Linking makes a C function callable under its name, and changes nothing else — partial

`duckLisp_linkCFunction` on symbols, `callbacks_trie` and the machine of the compiler, and the loops of a host (`M_Link`). One link on the machine is an allocation and `duckVM_global_set`; lists of links by induction, with the numbers of symbols only growing (`P_Link`). The names added to the trie and the table `callbacks` of the compiler model are connected by `compiler_of` and `cl_known`. The call is C73.

Linking itself is proved in full, for any functions, compiler and machine. From linking to the call: for the programs of C73 compiled by a compiler in which the functions were linked first. Refuted: linking under the name of a form takes the form away. The prototypes for the parenthesis inferrer are not part of this model.

Theorems: `C74_compiler`, `C74_machine`, `C74_call_partial`, `C74_unknown`, `C74_memory`, `C74_form_refuted`.

### C75 Printing an object shows what it is — partial

The printers of every kind of object as one recursive function with fuel for the depth of the C stack (`M_Print`); the flag `inUse`, which nothing writes, is any function of the place. What belongs to an object is a relation (`part`), a finite object is one in its accessible part, two objects that look the same are a mutual inductive relation over two machines (`S_Print`). Unique reading by induction on the fuel with arbitrary text behind (`P_Print`), the converse by induction on the fuel (`P_Print2`), the end by induction on accessibility with a common fuel for finitely many parts (`P_Print3`).

Proved for every well-typed machine in which captured variables on the stack are there and closures have no null upvalues: the end, no undefined behaviour, and unique reading up to what is not printed. Refuted: printing ends for every value (cycles); the text tells floats apart. Callbacks are numbers in the model, so a null callback is not distinguished.

Theorems: `C75_ends`, `C75_defined`, `C75_unique_partial`, `C75_same`, `C75_ends_refuted`, `C75_float_refuted`.

### C76 Printing a syntax tree shows what it is — partial

The printers of trees by structural recursion (`M_Print`); unique reading by induction on trees with arbitrary text behind (`P_Print4`).

Proved for trees whose strings and names contain no quotation mark, up to the values of floats. Refuted without these two conditions.

Theorems: `C76_text`, `C76_unique_partial`, `C76_same`, `C76_quote_refuted`, `C76_float_refuted`.

### C77 Types in the log of the parenthesis inferrer can be read back — partial

`inferrerTypeSignature_serialize` (`M_Log`) against the grammar of texts of the reader (`spells`, C36) and the reading of types (C61), by induction on types (`P_Log`).

Proved for every type whose counts are 64 bit numbers other than the least one, for which it is refuted.

Theorems: `C77_read_partial`, `C77_unique_partial`, `C77_least_refuted`.

### C78 A word in a program means the form registered under it — partial

Registration (`M_Init`): a trie from names to indices and an array, with the table of `duckLisp_init` copied entry by entry. Induction on the registrations with the map of C01; the table is compared with `find_generator`, which the compiler proofs use, for all names. The declarations are read by the model of the reader and compared with the operands of C65 (`P_Init`). The prototypes of the table and those `duckLisp_linkCFunction` adds make up an external list to which C60 applies (`P_Init2`).

Proved in full for any table of forms or reader actions and for every name in a new compiler. Looking a name up in a compiler with C functions: not for the reserved name of defmacro, and for scopes with the kinds of functions that are added. Arguments: not for defmacro, comptime and __error, which C65 leaves out. Inference in a new compiler with linked C functions: for programs without declaring forms, if the scripts compile. Refuted: after a C function is linked without a type, no program can be inferred.

Theorems: `C78_found`, `C78_declared`, `C78_actions`, `C78_table`, `C78_names_partial`, `C78_arguments_partial`, `C78_inference_partial`, `C78_untyped_refuted`.

## Findings

Behaviour of the code that the model exhibits and that a user would not expect. Those with a theorem are named `..._refuted`; the others were found while modelling and show in the definitions.

**Virtual machine.** The roots of the collector omit the upvalue arrays of suspended calls. The elements of a vector under construction are not roots. The 16 bit form of `equal` decodes its operands twice. `set-vector-element` does not reject negative indices on tails. `concatenate` mixes up offsets. Errors of `make-string` and out-of-memory in `push-string` are swallowed. `apply` drops the rest of a list that is too long, and applied to a dotted list with a rest parameter it makes an ill-typed list. Out-of-memory while collecting rest arguments leaves an ill-typed list; errors in `push-closure`, `vector` and `make-vector` leave the stacks out of step. A callee's byte code from an earlier run is not rooted. Popping a captured variable that was not released leaves a dangling upvalue. A nested `execute` clears `currentBytecode`. `set-car` on a vector does not check its length; `set-cdr` on a vector sets its length to the offset. Element access on the null vector, symbol-string of a stripped symbol and integer division by zero are undefined. `not` and `brnz` disagree on empty vectors.

**Untyped C functions.** `duckLisp_addGenerator` tells the inferrer about a form only if it has a type (duckLisp.c 2367), `duckLisp_linkCFunction` always (2416-2435). An empty type is read as a text like any other, which is an error, so after one function is linked without a type every program read with parenthesis inference is rejected (`C78_untyped_refuted`).

**C functions.** `ccall` does not look at the type of the global it calls (duckVM.c 1601), so a program that assigns to the name of a C function makes the machine jump to whatever the value holds (`C73_name_refuted`). The number of arguments is checked nowhere (`C73_count_refuted`). `duckLisp_linkCFunction` accepts the names of forms, and callbacks are found before generators, so linking `if` takes the form away (`C74_form_refuted`).

**Compiler.** `var` and `global` whose first operand is not a name put a message into the error log but do not fail; the code behind a `var` of this kind pops a value that was never pushed (`(() (var 3 4) 5)`). `nop` counts a value it does not push. An assignment to a global is dropped when the number of its name equals the position of the value. The empty string is folded as false but true at run time; `(while "" ...)` loops for ever. Variables are read late and the elements of lists are evaluated from last to first. Declarations as operands or branches emit nothing. `(if c (while true ...) 5)` miscounts the stack. `(funcall)` is undefined. `(var "x" 1)` and top-level `(var x 1)` compile to nothing. Names and strings of more than 65535 bytes are cut. More than 255 locals released by a branch are miscounted. The optimiser drops the error of reading an unassigned global. In a new session a function defined by the first form is lost. After an error in a function the call and the values of the program stay on the stacks of the machine; nothing unwinds them.

**Macros.** A macro whose expansion is a variable pushes nothing, so that the call has the value of whatever lies on top, or the program stops. Macros defined in a second text call those of the first. `comptime` reads the top of the stack before it looks at the error, and an expression that fails with an empty stack is undefined. A macro that expands to a variable in an operand of an operator works.

**Assembler.** Five kinds of operands are encoded in a way the machine does not decode. Integer literals beyond 32 bits are cut. Shrinking jumps can lose a jump. The disassembler reads the elements of small vectors in four bytes each, and names behind symbols that have none, so that it loses the thread and reads outside the code; it rejects code with a call.

**Parser.** `(1.` never ends. Reading goes outside the text for a text that ends in a space, a digit or `0x`. `"a"` at the end of the text is rejected, `true` there is an identifier, `truex` is `true`. `( )` is an error. `-1.` is read as +1.0, more than 18 digits behind the point overflow, `1e-0` is an identifier, `1.` at the end of the text is uninitialised.

**Host interface.** `duckVM_setGlobal` is undefined with a non-empty stack. `duckVM_pushComposite` corrupts with one free object. `duckVM_pushVector` leaves null elements. `duckVM_pushFirst` accepts values that are no sequences, `duckVM_pushRest` is stuck on short vectors. Lists built with `duckVM_setRest` have a wrong length. Element access on lists and tails of strings addresses the wrong element. The rest of a vector that has no elements left is not empty for `duckVM_isEmpty` although its length is 0. The name of a compressed symbol has a wrong length. `duckVM_call` pushes a frame whose byte code object is a local variable: a collection during the call, or after an error in it, marks outside the heap; after the call the collector no longer knows the program that was running.

**Allocator.** `mostRecentBlock` is never set: next fit starts behind entry 0 for ever, also when that entry has been merged away, and then hands out bytes that are in use or never ends. A failed `malloc` exposes the table. The last block of the arena makes `free`, `malloc` and `realloc` undefined. `realloc` reads beyond the arena and loses the block when memory runs out. Sizes near 2^64 wrap. Best fit takes the first block. `dl_memory_usage` counts uninitialised entries.

**Conversions.** `astToObject` keeps pointers across allocations that the collector does not know. A dotted list returned by a macro overflows a buffer. Symbols without names are dereferenced. `intern` swallows out-of-memory and rejects the empty text. Symbols computed by `comptime` become variable references.

**Parenthesis inference.** `#(5 a)` and the type `((I I) 5)` are undefined. A parenthesised call of a name with a nested rest type never ends. A declaration that is the whole program is not carried out. The marks of `#()` and of forms inside `L` arguments stay in the result.

**Printers for debugging.** Printing a list that contains itself, or a function that refers to itself, recurses until the C stack overflows. All floats print alike. Strings are printed without escapes, so two trees can have one text. Objects print a flag `inUse` that nothing ever writes.

**Libraries.** `dl_array_copy` shares the buffer. Appending an empty array and pushing after a failed push break arrays. `heapsort` of an empty array is undefined. The most negative integer does not survive printing.
