{
 "claims": [
  {
   "property": "C01",
   "status": "proved",
   "theorems": [
    "C01_opcode_roundtrip",
    "C01_opcode_injective",
    "C01_read_instruction_spec"
   ],
   "note": ""
  },
  {
   "property": "C02",
   "status": "proved",
   "theorems": [
    "C02_offset_roundtrip",
    "C02_offset_moves_cursor"
   ],
   "note": ""
  },
  {
   "property": "C03",
   "status": "proved",
   "theorems": [
    "C03_decode_encode",
    "C03_disassembler_agrees",
    "C03_emitters_encode"
   ],
   "note": ""
  },
  {
   "property": "C04",
   "status": "proved",
   "theorems": [
    "C04_index_refers_to_equal_constant",
    "C04_equal_constants_share_index",
    "C04_different_constants_differ",
    "C04_limit",
    "C04_at_most_256_distinct"
   ],
   "note": ""
  },
  {
   "property": "C05",
   "status": "proved",
   "theorems": [
    "C05_forward_jump",
    "C05_backward_jump",
    "C05_forward_jump_far_refuted"
   ],
   "note": "Forward and backward jumps within the 16-bit range are proved exact; C05_forward_jump_far_refuted shows that beyond it the offset is truncated and control goes elsewhere."
  },
  {
   "property": "C06",
   "status": "proved",
   "theorems": [
    "C06_slots_are_distinct",
    "C06_slot_count_is_peak",
    "C06_new_slot_is_free",
    "C06_outer_variables_keep_slots"
   ],
   "note": ""
  },
  {
   "property": "C07",
   "status": "proved",
   "theorems": [
    "C07_lookup_is_lexical"
   ],
   "note": ""
  },
  {
   "property": "C08",
   "status": "proved",
   "theorems": [
    "C08_upvalue_is_nearest_enclosing",
    "C08_unresolved_iff_undeclared",
    "C08_same_index_again",
    "C08_other_indices_keep_meaning"
   ],
   "note": ""
  },
  {
   "property": "C09",
   "status": "proved",
   "theorems": [
    "C09_only_mutable_assigned",
    "C09_assignment_error",
    "C09_immutable_variable_keeps_value",
    "C09_class_replaces_variable_refuted"
   ],
   "note": "Acceptance implies every assignment targets a mut variable in scope; exact error code at every compilation state; at run time such a variable keeps its first value. C09_class_replaces_variable_refuted: a class declared in the same block under the same name replaces it."
  },
  {
   "property": "C10",
   "status": "proved",
   "theorems": [
    "C10_bytecode_is_well_formed"
   ],
   "note": ""
  },
  {
   "property": "C11",
   "status": "proved",
   "theorems": [
    "C11_stack_is_list"
   ],
   "note": ""
  },
  {
   "property": "C12",
   "status": "proved",
   "theorems": [
    "C12_enter",
    "C12_slots",
    "C12_enough_slots",
    "C12_return",
    "C12_error"
   ],
   "note": "For bodies that end with their result above their frame (the claim's 'bodies that return'); the caller's cells are those the body left, since a body may assign captured variables of the caller."
  },
  {
   "property": "C13",
   "status": "proved",
   "theorems": [
    "C13_one_value",
    "C13_return_in_operand_refuted",
    "C13_return_in_for_refuted",
    "C13_break_in_for_refuted"
   ],
   "note": "For the sub-language of SupportSpec.v (no modules); the three refutations show constructs outside it for which the claim is false of the code."
  },
  {
   "property": "C14",
   "status": "partial",
   "theorems": [
    "C14_compilation_preserves_meaning_partial",
    "C14_linked_alone",
    "C14_running_a_script_partial",
    "C14_meaning_is_stable",
    "C14_return_in_operand_refuted"
   ],
   "note": "Proved for every program of the sub-language of SupportSpec.v, from syntax tree or source text: all expressions, functions, closures, classes, constructors, super, operators, loops, null and error propagation, imports and exports of any number of modules, array methods that are given functions, text of values. Functions of different modules are named apart (the implementation uses random identifiers). Missing: functions that fail inside an array method, scripts over 32767 bytes. False of the code for some programs outside: C14_return_in_operand_refuted."
  },
  {
   "property": "C15",
   "status": "partial",
   "theorems": [
    "C15_keywords_are_placed",
    "C15_keyword_errors",
    "C15_super_call_refuted",
    "C15_continue_in_for_refuted"
   ],
   "note": "Proved for break, continue, return, !!, super access and export. C15_super_call_refuted: super(...) is accepted in any function with a parameter called self. C15_continue_in_for_refuted: continue inside for is rejected with an internal error."
  },
  {
   "property": "C16",
   "status": "proved",
   "theorems": [
    "C16_and",
    "C16_or",
    "C16_coalesce",
    "C16_anywhere"
   ],
   "note": "For a script that is the operator expression, as observable results of runs; and wherever it stands, in the meaning that C14 relates to runs."
  },
  {
   "property": "C17",
   "status": "proved",
   "theorems": [
    "C17_exact_when_representable",
    "C17_overflow_panics_in_debug",
    "C17_overflow_wraps_in_release",
    "C17_division",
    "C17_zero_divisor",
    "C17_negate",
    "C17_negate_overflow",
    "C17_division_never_panics_refuted"
   ],
   "note": "C17_division_never_panics_refuted: the smallest integer divided by -1 panics in every build."
  },
  {
   "property": "C18",
   "status": "proved",
   "theorems": [
    "C18_ints",
    "C18_bools",
    "C18_floats",
    "C18_floats_trichotomy",
    "C18_nan"
   ],
   "note": ""
  },
  {
   "property": "C19",
   "status": "proved",
   "theorems": [
    "C19_symmetric",
    "C19_transitive",
    "C19_same_kind",
    "C19_reflexive_exactly_on_comparable"
   ],
   "note": ""
  },
  {
   "property": "C20",
   "status": "proved",
   "theorems": [
    "C20_captured_variables_are_shared"
   ],
   "note": "Refinement of the variable instructions to a store of locations, for every sequence of operations."
  },
  {
   "property": "C21",
   "status": "partial",
   "theorems": [
    "C21_return_refuted",
    "C21_propagation_refuted",
    "C21_unrelated_variable_refuted"
   ],
   "note": "False of the code: return and !! leave the captured variable in the released stack frame."
  },
  {
   "property": "C22",
   "status": "proved",
   "theorems": [
    "C22_globals_persist",
    "C22_read",
    "C22_redefinition_is_an_error",
    "C22_definition",
    "C22_undefined_read",
    "C22_host_definition_refuted",
    "C22_prelude_keeps_globals"
   ],
   "note": "Proved for everything programs can do; C22_host_definition_refuted: the host function add_global replaces the value although it reports the error."
  },
  {
   "property": "C23",
   "status": "proved",
   "theorems": [
    "C23_every_import_yields_the_module",
    "C23_loader_asked_at_most_once",
    "C23_export_object_persists",
    "C23_later_imports",
    "C23_per_file_refuted",
    "C23_host_module",
    "C23_host_module_refuted"
   ],
   "note": "Per name written in the import. The loader is asked at most once, the registered object never changes, and every import, first or later, in any import graph, yields it. C23_per_file_refuted: one file under two names runs twice. C23_host_module_refuted: a host that registers a name again replaces the module."
  },
  {
   "property": "C24",
   "status": "partial",
   "theorems": [
    "C24_failed_import_refuted",
    "C24_program_refuted"
   ],
   "note": "False of the code: proved in general (C24_failed_import_refuted) and for a concrete program."
  },
  {
   "property": "C25",
   "status": "proved",
   "theorems": [
    "C25_is_tests_the_hierarchy",
    "C25_reflexive",
    "C25_transitive",
    "C25_antisymmetric",
    "C25_unaffected_by_later_execution",
    "C25_class_of_a_value_is_fixed",
    "C25_host_object"
   ],
   "note": ""
  },
  {
   "property": "C26",
   "status": "proved",
   "theorems": [
    "C26_derivation",
    "C26_host_class",
    "C26_definition",
    "C26_no_other_change",
    "C26_no_other_change_by_calls"
   ],
   "note": ""
  },
  {
   "property": "C27",
   "status": "partial",
   "theorems": [
    "C27_static_fields_refuted",
    "C27_float_max_refuted"
   ],
   "note": "False of the code for every pair of classes: C27_static_fields_refuted."
  },
  {
   "property": "C28",
   "status": "proved",
   "theorems": [
    "C28_variable_check",
    "C28_return_check",
    "C28_null",
    "C28_reassignment_refuted"
   ],
   "note": "The checks themselves. C28_reassignment_refuted: later assignments to an annotated variable are not checked."
  },
  {
   "property": "C29",
   "status": "proved",
   "theorems": [
    "C29_read",
    "C29_write",
    "C29_set_nth",
    "C29_write_out_of_range",
    "C29_no_other_change_partial"
   ],
   "note": "The statement is proved; C29_no_other_change_partial goes beyond it: it does not say which instructions update arrays."
  },
  {
   "property": "C30",
   "status": "proved",
   "theorems": [
    "C30_last_store_wins",
    "C30_store",
    "C30_read",
    "C30_no_other_change_partial"
   ],
   "note": "The statement is proved; C30_no_other_change_partial goes beyond it: it does not say which instructions store fields."
  },
  {
   "property": "C31",
   "status": "proved",
   "theorems": [
    "C31_text_is_tokens_and_blanks",
    "C31_tokens_are_pieces",
    "C31_tokens_in_order"
   ],
   "note": ""
  },
  {
   "property": "C32",
   "status": "proved",
   "theorems": [
    "C32_tokens_are_determined",
    "C32_keywords",
    "C32_identifiers",
    "C32_integers",
    "C32_floats",
    "C32_longest_operator",
    "C32_empty_comment_is_two_operators"
   ],
   "note": "C32_empty_comment_is_two_operators records that // with nothing after it on its line is not a comment."
  },
  {
   "property": "C33",
   "status": "proved",
   "theorems": [
    "C33_written_trees_are_read_back",
    "C33_grammar_is_inverted",
    "C33_grammar_is_unambiguous"
   ],
   "note": "For all operator trees, calls, accesses, lists, objects, assignments and function literals; strings in the printing theorem are ASCII, in the grammar theorem arbitrary. Float literals are not part of the grammar."
  },
  {
   "property": "C34",
   "status": "proved",
   "theorems": [
    "C34_parsing_terminates",
    "C34_no_bound_matters",
    "C34_reads_from_the_left"
   ],
   "note": ""
  },
  {
   "property": "C35",
   "status": "proved",
   "theorems": [
    "C35_integer_literals",
    "C35_numerals_are_decimal"
   ],
   "note": ""
  },
  {
   "property": "C36",
   "status": "proved",
   "theorems": [
    "C36_position_of"
   ],
   "note": ""
  },
  {
   "property": "C37",
   "status": "proved",
   "theorems": [
    "C37_lines_of_span",
    "C37_lines_partition_text",
    "C37_reversed_span_refuted"
   ],
   "note": "C37_reversed_span_refuted records the panic for spans with start > end."
  },
  {
   "property": "C38",
   "status": "proved",
   "theorems": [
    "C38_union_is_least",
    "C38_union_laws"
   ],
   "note": ""
  },
  {
   "property": "C39",
   "status": "proved",
   "theorems": [
    "C39_range_loop"
   ],
   "note": "For passes that complete; break is covered by C14."
  },
  {
   "property": "C40",
   "status": "proved",
   "theorems": [
    "C40_iterator_loop"
   ],
   "note": "For passes that complete. C13_break_in_for_refuted: break panics."
  },
  {
   "property": "C41",
   "status": "partial",
   "theorems": [
    "C41_success_restores_the_stack",
    "C41_failure_leaks_refuted",
    "C41_failures_accumulate_refuted",
    "C41_full_stack_refuted"
   ],
   "note": "False of the code, proved in general: every failing run leaks its slots until the runtime cannot run anything."
  },
  {
   "property": "C42",
   "status": "proved",
   "theorems": [
    "C42_push",
    "C42_pop",
    "C42_pop_empty",
    "C42_length",
    "C42_map",
    "C42_filter",
    "C42_first_such",
    "C42_first",
    "C42_iter",
    "C42_failing_function_refuted",
    "C42_push_while_mapping_refuted"
   ],
   "note": "For callbacks that return; C42_failing_function_refuted and C42_push_while_mapping_refuted show what happens otherwise."
  },
  {
   "property": "C43",
   "status": "partial",
   "theorems": [
    "C43_without_new",
    "C43_with_new",
    "C43_new_fails",
    "C43_base_has_new",
    "C43_base_has_new_refuted"
   ],
   "note": "The last part is false of the code when arguments are passed: C43_base_has_new_refuted; the rest is proved."
  },
  {
   "property": "C44",
   "status": "partial",
   "theorems": [
    "C44_no_duplicates_partial",
    "C44_duplicate_parameters",
    "C44_classes_refuted",
    "C44_anonymous_parameters_refuted"
   ],
   "note": "Functions and declared parameters proved. For classes proved unless the same name is also declared by a function, a variable or the class scope; C44_classes_refuted and C44_anonymous_parameters_refuted show that the unrestricted claim is false of the code."
  },
  {
   "property": "C45",
   "status": "proved",
   "theorems": [
    "C45_reads_only_below_working_directory",
    "C45_outside_is_an_error",
    "C45_inside_is_compiled"
   ],
   "note": "For arbitrary answers of the operating system; the window between canonicalisation and reading is not modelled."
  },
  {
   "property": "C46",
   "status": "partial",
   "theorems": [
    "C46_never_panics_refuted",
    "C46_tame_programs_never_panic",
    "C46_super_call_refuted"
   ],
   "note": "False of the code: C46_never_panics_refuted gives three panicking programs. C46_tame_programs_never_panic proves it for every program outside four named constructs (Spec/PanicSpec.v), each shown to panic; the condition that class bodies hold only functions and operators is met by every parsed program (C58)."
  },
  {
   "property": "C47",
   "status": "partial",
   "theorems": [
    "C47_parsing_never_panics_refuted",
    "C47_only_unruled_tokens_panic"
   ],
   "note": "False of the code: C47_parsing_never_panics_refuted; the kinds of token that can cause a panic are characterised exactly."
  },
  {
   "property": "C48",
   "status": "partial",
   "theorems": [
    "C48_whole_source_parsed_refuted",
    "C48_read_part_is_balanced",
    "C48_balanced_source_is_read",
    "C48_read_part_is_clean"
   ],
   "note": "False of the code: C48_whole_source_parsed_refuted, in general; proved for sources whose closing braces all close an opening one; what is read holds no unknown or reserved token."
  },
  {
   "property": "C49",
   "status": "proved",
   "theorems": [
    "C49_text_of_int",
    "C49_int_of_text",
    "C49_no_int_of_text",
    "C49_round_trip"
   ],
   "note": ""
  },
  {
   "property": "C50",
   "status": "partial",
   "theorems": [
    "C50_float_to_int",
    "C50_other_to_int",
    "C50_int_to_float",
    "C50_round_trip",
    "C50_round_trip_refuted"
   ],
   "note": "Int(Float(z)) is z up to 2^53 and false of the code beyond: C50_round_trip_refuted."
  },
  {
   "property": "C51",
   "status": "partial",
   "theorems": [
    "C51_to_string",
    "C51_string",
    "C51_one_text",
    "C51_has_text",
    "C51_has_text_refuted"
   ],
   "note": "False of the code for values that contain themselves: C51_has_text_refuted. The decimal text of a Float is an oracle. That the parts of a value exist is a hypothesis of C51_has_text."
  },
  {
   "property": "C52",
   "status": "proved",
   "theorems": [
    "C52_fields",
    "C52_no_fields",
    "C52_methods",
    "C52_class_of",
    "C52_class",
    "C52_standard_methods"
   ],
   "note": ""
  },
  {
   "property": "C53",
   "status": "partial",
   "theorems": [
    "C53_abs",
    "C53_pow",
    "C53_negative_exponent_refuted",
    "C53_min_max",
    "C53_signs"
   ],
   "note": "Negative exponents: C53_negative_exponent_refuted."
  },
  {
   "property": "C54",
   "status": "proved",
   "theorems": [
    "C54_floor",
    "C54_ceil",
    "C54_round",
    "C54_round_other",
    "C54_abs",
    "C54_min",
    "C54_max",
    "C54_kinds"
   ],
   "note": "sqrt is modelled with the standard library's SFsqrt but nothing is proved of it; sin, cos etc. are not modelled."
  },
  {
   "property": "C55",
   "status": "proved",
   "theorems": [
    "C55_class_members"
   ],
   "note": ""
  },
  {
   "property": "C56",
   "status": "proved",
   "theorems": [
    "C56_programs_are_read_as_written",
    "C56_programs_are_unambiguous",
    "C56_line_ends_separate_statements_refuted",
    "C56_else_without_block_refuted"
   ],
   "note": "Float literals are outside the grammar. Findings: C56_line_ends_separate_statements_refuted and C56_else_without_block_refuted."
  },
  {
   "property": "C57",
   "status": "partial",
   "theorems": [
    "C57_list_literals",
    "C57_long_list_literals_refuted",
    "C57_many_variables_refuted",
    "C57_many_arguments_refuted"
   ],
   "note": "False of the code beyond 255 elements, 255 arguments or 256 variables: C57_long_list_literals_refuted (for every length), C57_many_variables_refuted, C57_many_arguments_refuted. Proved for list literals of booleans up to 255; up to these sizes the rest is part of C14."
  },
  {
   "property": "C58",
   "status": "proved",
   "theorems": [
    "C58_accepted_sources_are_well_shaped"
   ],
   "note": ""
  },
  {
   "property": "C59",
   "status": "partial",
   "theorems": [
    "C59_prelude_text",
    "C59_range_object",
    "C59_prelude_operators",
    "C59_range_operator",
    "C59_range_iterator",
    "C59_range_next",
    "C59_range_loop",
    "C59_range_completes",
    "C59_inclusive_range_loop_refuted",
    "C59_largest_integer_refuted"
   ],
   "note": "Proved for Range below the largest integer, for passes that complete and leave the range's variables alone. False of the code for RangeInclusive (C59_inclusive_range_loop_refuted, for every such object) and at the largest integer in checked builds (C59_largest_integer_refuted). In the meaning that C14 relates to runs."
  },
  {
   "property": "C60",
   "status": "partial",
   "theorems": [
    "C60_report_total",
    "C60_report_with_source",
    "C60_report_without_source",
    "C60_short_report",
    "C60_trace_partial",
    "C60_trace_numbers_refuted",
    "C60_backward_span_refuted",
    "C60_told",
    "C60_told_without_source"
   ],
   "note": "Proved for forward spans; for traces the line numbers are right within one line (C60_trace_partial) and false of the code beyond: C60_trace_numbers_refuted, C60_backward_span_refuted. Exact text for spans that start at a character of the text; totality for any offsets. Colours are left out."
  },
  {
   "property": "C61",
   "status": "partial",
   "theorems": [
    "C61_codes_distinct_partial",
    "C61_shared_code_refuted",
    "C61_message_exists_partial",
    "C61_message_missing_refuted",
    "C61_raised_errors_show_their_tags",
    "C61_nothing_left_open_partial",
    "C61_panic_without_message_refuted",
    "C61_notes_show_their_tags"
   ],
   "note": "False of the code for E4002 (shared), E1009 and E4003 (no message) and panics without a string. The fluent crates are modelled by their documented meaning."
  },
  {
   "property": "C62",
   "status": "partial",
   "theorems": [
    "C62_prelude_text",
    "C62_result_made",
    "C62_result_fields",
    "C62_map_ok",
    "C62_map_err",
    "C62_propagate_ok",
    "C62_propagate_err",
    "C62_propagate_leaves",
    "C62_or_ok",
    "C62_or_err",
    "C62_or_without_prelude_refuted"
   ],
   "note": "Proved where the prelude's classes are imported; in the meaning that C14 relates to runs. False of the code for `or` where no variable Result is in scope: C62_or_without_prelude_refuted. C62_propagate_leaves is for functions and methods without type annotations that begin with the statement."
  },
  {
   "property": "C63",
   "status": "partial",
   "theorems": [
    "C63_start",
    "C63_entries_in_order",
    "C63_last_line",
    "C63_entries_mean",
    "C63_continuation_refuted",
    "C63_ends_with_the_input_refuted",
    "C63_mistakes_do_no_harm_refuted"
   ],
   "note": "Entries are read and run in order, and print what they mean up to the first that fails while running: proved. False of the code: mistakes do no harm to later entries (C63_mistakes_do_no_harm_refuted), a line cannot be continued (C63_continuation_refuted, for an entry with one backslash) and the tool does not end with its input (C63_ends_with_the_input_refuted)."
  }
 ]
}