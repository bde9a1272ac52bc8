NOTES = {
    "C29": ("proved", "The statement is proved; C29_no_other_change_partial goes beyond it: it does not say which instructions update arrays."),
    "C30": ("proved", "The statement is proved; C30_no_other_change_partial goes beyond it: it does not say which instructions store fields."),
 "C05": ("proved", "Forward and backward jumps within the 16-bit range are proved exact; C05_forward_jump_far_refuted shows that beyond it the offset is truncated and control goes elsewhere."),
 "C37": ("proved", "C37_reversed_span_refuted records the panic for spans with start > end."),
 "C09": ("proved", "Acceptance implies every assignment targets a mut variable in scope; exact error code at every compilation state; at run time such a variable keeps its first value. C09_class_replaces_variable_refuted: a class declared in the same block under the same name replaces it."),
 "C15": ("partial", "Proved for break, continue, return, !!, super access and export. C15_super_call_refuted: super(...) is accepted in any function with a parameter called self. C15_continue_in_for_refuted: continue inside for is rejected with an internal error."),
 "C44": ("partial", "Functions and declared parameters proved. For classes proved unless the same name is also declared by a function, a variable or the class scope; C44_classes_refuted and C44_anonymous_parameters_refuted show that the unrestricted claim is false of the code."),
 "C46": ("partial", "False of the code: C46_never_panics_refuted gives three panicking programs. C46_tame_programs_never_panic proves it for every program outside four named constructs (Spec/PanicSpec.v), each shown to panic; the condition that class bodies hold only functions and operators is met by every parsed program (C58)."),
 "C17": ("proved", "C17_division_never_panics_refuted: the smallest integer divided by -1 panics in every build."),
 "C22": ("proved", "Proved for everything programs can do; C22_host_definition_refuted: the host function add_global replaces the value although it reports the error."),
 "C23": ("proved", "Per name written in the import. The loader is asked at most once, the registered object never changes, and every import, first or later, in any import graph, yields it. C23_per_file_refuted: one file under two names runs twice. C23_host_module_refuted: a host that registers a name again replaces the module."),
 "C24": ("partial", "False of the code: proved in general (C24_failed_import_refuted) and for a concrete program."),
 "C27": ("partial", "False of the code for every pair of classes: C27_static_fields_refuted."),
 "C28": ("proved", "The checks themselves. C28_reassignment_refuted: later assignments to an annotated variable are not checked."),
 "C45": ("proved", "For arbitrary answers of the operating system; the window between canonicalisation and reading is not modelled."),
 "C12": ("proved", "For bodies that end with their result above their frame (the claim's 'bodies that return'); the caller's cells are those the body left, since a body may assign captured variables of the caller."),
 "C20": ("proved", "Refinement of the variable instructions to a store of locations, for every sequence of operations."),
 "C21": ("partial", "False of the code: return and !! leave the captured variable in the released stack frame."),
 "C41": ("partial", "False of the code, proved in general: every failing run leaks its slots until the runtime cannot run anything."),
 "C43": ("partial", "The last part is false of the code when arguments are passed: C43_base_has_new_refuted; the rest is proved."),
 "C32": ("proved", "C32_empty_comment_is_two_operators records that // with nothing after it on its line is not a comment."),
 "C33": ("proved", "For all operator trees, calls, accesses, lists, objects, assignments and function literals; strings in the printing theorem are ASCII, in the grammar theorem arbitrary. Float literals are not part of the grammar."),
 "C47": ("partial", "False of the code: C47_parsing_never_panics_refuted; the kinds of token that can cause a panic are characterised exactly."),
 "C48": ("partial", "False of the code: C48_whole_source_parsed_refuted, in general; proved for sources whose closing braces all close an opening one; what is read holds no unknown or reserved token."),
 "C13": ("proved", "For the sub-language of SupportSpec.v (no modules); the three refutations show constructs outside it for which the claim is false of the code."),
 "C14": ("partial", "Proved for every program of the sub-language of SupportSpec.v, from syntax tree or source text: all expressions, functions, closures, classes, constructors, super, operators, loops, null and error propagation, imports and exports of any number of modules, array methods that are given functions, text of values. Functions of different modules are named apart (the implementation uses random identifiers). Missing: functions that fail inside an array method, scripts over 32767 bytes. False of the code for some programs outside: C14_return_in_operand_refuted."),
 "C16": ("proved", "For a script that is the operator expression, as observable results of runs; and wherever it stands, in the meaning that C14 relates to runs."),
 "C39": ("proved", "For passes that complete; break is covered by C14."),
 "C40": ("proved", "For passes that complete. C13_break_in_for_refuted: break panics."),
 "C42": ("proved", "For callbacks that return; C42_failing_function_refuted and C42_push_while_mapping_refuted show what happens otherwise."),
 "C50": ("partial", "Int(Float(z)) is z up to 2^53 and false of the code beyond: C50_round_trip_refuted."),
 "C51": ("partial", "False of the code for values that contain themselves: C51_has_text_refuted. The decimal text of a Float is an oracle. That the parts of a value exist is a hypothesis of C51_has_text."),
 "C53": ("partial", "Negative exponents: C53_negative_exponent_refuted."),
 "C54": ("proved", "sqrt is modelled with the standard library's SFsqrt but nothing is proved of it; sin, cos etc. are not modelled."),
 "C56": ("proved", "Float literals are outside the grammar. Findings: C56_line_ends_separate_statements_refuted and C56_else_without_block_refuted."),
 "C57": ("partial", "False of the code beyond 255 elements, 255 arguments or 256 variables: C57_long_list_literals_refuted (for every length), C57_many_variables_refuted, C57_many_arguments_refuted. Proved for list literals of booleans up to 255; up to these sizes the rest is part of C14."),
 "C59": ("partial", "Proved for Range below the largest integer, for passes that complete and leave the range's variables alone. False of the code for RangeInclusive (C59_inclusive_range_loop_refuted, for every such object) and at the largest integer in checked builds (C59_largest_integer_refuted). In the meaning that C14 relates to runs."),
 "C60": ("partial", "Proved for forward spans; for traces the line numbers are right within one line (C60_trace_partial) and false of the code beyond: C60_trace_numbers_refuted, C60_backward_span_refuted. Exact text for spans that start at a character of the text; totality for any offsets. Colours are left out."),
 "C61": ("partial", "False of the code for E4002 (shared), E1009 and E4003 (no message) and panics without a string. The fluent crates are modelled by their documented meaning."),
 "C62": ("partial", "Proved where the prelude's classes are imported; in the meaning that C14 relates to runs. False of the code for `or` where no variable Result is in scope: C62_or_without_prelude_refuted. C62_propagate_leaves is for functions and methods without type annotations that begin with the statement."),
 "C63": ("partial", "Entries are read and run in order, and print what they mean up to the first that fails while running: proved. False of the code: mistakes do no harm to later entries (C63_mistakes_do_no_harm_refuted), a line cannot be continued (C63_continuation_refuted, for an entry with one backslash) and the tool does not end with its input (C63_ends_with_the_input_refuted)."),
}
