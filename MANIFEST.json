{
 "claims": [
  {
   "property": "C01",
   "status": "proved",
   "theorems": [
    "C01_string_literal",
    "C01_escaping_any_text",
    "C01_bad_escape_rejected",
    "C01_literal_valid_or_rejected"
   ],
   "note": "For every text and every context of well-formed tokens. The silent dropping of the backslash before a blank, bracket, semicolon, quote mark, backquote or comma is part of the described literal bodies."
  },
  {
   "property": "C02",
   "status": "proved",
   "theorems": [
    "C02_tokens_read_back"
   ],
   "note": "For every sequence of tokens of the listed kinds and every whitespace between them."
  },
  {
   "property": "C03",
   "status": "proved",
   "theorems": [
    "C03_comment_inserted",
    "C03_comment_inserted_error",
    "C03_empty_comment_swallows"
   ],
   "note": "Insertion at any token boundary of any script; the empty comment is shown to swallow the rest."
  },
  {
   "property": "C04",
   "status": "proved",
   "theorems": [
    "C04_line_of_token",
    "C04_semicolon_in_string_refuted"
   ],
   "note": "The unrestricted claim is refuted by a semicolon inside a string literal."
  },
  {
   "property": "C05",
   "status": "proved",
   "theorems": [
    "C05_no_text_dropped",
    "C05_one_token_per_word",
    "C05_symbol_dropped_refuted"
   ],
   "note": "The loss of a symbol before a quote mark is a concrete counterexample."
  },
  {
   "property": "C07",
   "status": "proved",
   "theorems": [
    "C07_parse_inverts_print",
    "C07_parse_written_source"
   ],
   "note": "For all trees; the second theorem adds arbitrary whitespace and comments."
  },
  {
   "property": "C08",
   "status": "proved",
   "theorems": [
    "C08_accepted_iff_balanced",
    "C08_unbalanced_error",
    "C08_trailing_code_error",
    "C08_parser_terminates"
   ],
   "note": "For all token sequences without quote marks."
  },
  {
   "property": "C09",
   "status": "proved",
   "theorems": [
    "C09_mark_abbreviates",
    "C09_nested_quote_loses_datum",
    "C09_quote_before_close_undefined"
   ],
   "note": "Nested quote marks and a quote mark before a closing bracket are shown for every surrounding script."
  },
  {
   "property": "C14",
   "status": "proved",
   "theorems": [
    "C14_int_of_str",
    "C14_str_injective"
   ],
   "note": "For every 32-bit integer, every scope and every state, through the builtin functions as registered."
  },
  {
   "property": "C15",
   "status": "proved",
   "theorems": [
    "C15_trim",
    "C15_trim_determined",
    "C15_trim_idempotent",
    "C15_trim_8bit_refuted",
    "C15_replace",
    "C15_replace_nothing",
    "C15_replace_determined",
    "C15_replace_self",
    "C15_replace_gone",
    "C15_replace_by_nothing_refuted",
    "C15_search",
    "C15_search_from",
    "C15_slice",
    "C15_slice_splits"
   ],
   "note": "Each function is related to a small relational specification that determines the result; the undefined behaviour of trim and the reappearing needle are concrete counterexamples to the unrestricted laws."
  },
  {
   "property": "C16",
   "status": "proved",
   "theorems": [
    "C16_format",
    "C16_format_too_few",
    "C16_braces_refuted"
   ],
   "note": "For all templates and argument texts in the stated range; the scanning of arguments is shown by concrete calls."
  },
  {
   "property": "C17",
   "status": "proved",
   "theorems": [
    "C17_lines",
    "C17_split_join",
    "C17_readline"
   ],
   "note": "The empty text makes the reader fall back to the standard input and is outside the statement."
  },
  {
   "property": "C06",
   "status": "proved",
   "theorems": [
    "C06_int_literal",
    "C06_out_of_range_throws",
    "C06_printed_int_is_literal",
    "C06_out_of_range_escapes"
   ],
   "note": "For every integer and every surrounding script of well-formed tokens."
  },
  {
   "property": "C26",
   "status": "proved",
   "theorems": [
    "C26_chains_end",
    "C26_lookup",
    "C26_assign",
    "C26_depth",
    "C26_no_endless_chain"
   ],
   "note": "Invariant over all reachable states, also those in the middle of a script: the model's outcome for an endless chain never occurs."
  },
  {
   "property": "C32",
   "status": "proved",
   "theorems": [
    "C32_eval",
    "C32_save",
    "C32_expression",
    "C32_budget"
   ],
   "note": "For all programs and states."
  },
  {
   "property": "C33",
   "status": "proved",
   "theorems": [
    "C33_eval",
    "C33_save",
    "C33_expression",
    "C33_call",
    "C33_cut_off"
   ],
   "note": "For all programs, states and outcomes."
  },
  {
   "property": "C34",
   "status": "proved",
   "theorems": [
    "C34_expression",
    "C34_call",
    "C34_reachable_numbered",
    "C34_dangling_link_refuted"
   ],
   "note": "For all expressions and calls; the dangling link after an error is a concrete run."
  },
  {
   "property": "C35",
   "status": "proved",
   "theorems": [
    "C35_value",
    "C35_error",
    "C35_error_with_position",
    "C35_others_escape",
    "C35_never_escapes_refuted"
   ],
   "note": "The naive claim that no Lisp error escapes is refuted by a concrete run."
  },
  {
   "property": "C36",
   "status": "proved",
   "theorems": [
    "C36_flag_kept",
    "C36_usual_result",
    "C36_after_error_refuted"
   ],
   "note": "The claim that an error leaves the interpreter usable is refuted by a concrete pair of runs."
  },
  {
   "property": "C46",
   "status": "proved",
   "theorems": [
    "C46_no_position",
    "C46_no_report"
   ],
   "note": "For all functions with a parameter list."
  },
  {
   "property": "C47",
   "status": "proved",
   "theorems": [
    "C47_result",
    "C47_stored",
    "C26_no_endless_chain"
   ],
   "note": "Invariant over all reachable states."
  },
  {
   "property": "C10",
   "status": "proved",
   "theorems": [
    "C10_exact",
    "C10_overflow_undefined",
    "C10_negate",
    "C10_negate_undefined",
    "C10_one_operand",
    "C10_division",
    "C10_division_determined",
    "C10_division_undefined"
   ],
   "note": "For all argument lists of integers and all pairs of operands."
  },
  {
   "property": "C12",
   "status": "proved",
   "theorems": [
    "C12_integers",
    "C12_booleans",
    "C12_strings",
    "C12_symbols",
    "C12_integer_lists",
    "C12_mixed_transitive_refuted",
    "C12_double_transitive_refuted",
    "C12_nested_lists_refuted"
   ],
   "note": "Agreement with equality for all values of the same scalar kind and all flat integer lists; the failures are concrete witnesses."
  },
  {
   "property": "C13",
   "status": "proved",
   "theorems": [
    "C13_integers",
    "C13_strings",
    "C13_order_irreflexive",
    "C13_order_transitive",
    "C13_order_total"
   ],
   "note": "For all integers and all strings without NUL."
  },
  {
   "property": "C48",
   "status": "proved",
   "theorems": [
    "C48_bitwise",
    "C48_not",
    "C48_shift_left",
    "C48_shift_left_undefined",
    "C48_shift_right",
    "C48_shift_right_undefined"
   ],
   "note": "For all pairs of 32-bit operands."
  },
  {
   "property": "C21",
   "status": "proved",
   "theorems": [
    "C21_list",
    "C21_cons",
    "C21_cons_short",
    "C21_cons_pair",
    "C21_append",
    "C21_reverse",
    "C21_len",
    "C21_first",
    "C21_last",
    "C21_rest",
    "C21_nth",
    "C21_first_cons",
    "C21_rest_cons",
    "C21_reverse_twice",
    "C21_reverse_append",
    "C21_first_empty_undefined",
    "C21_last_empty_undefined",
    "C21_rest_empty_undefined",
    "C21_nth_outside_undefined",
    "C21_not_a_list",
    "C21_reachable_states_numbered"
   ],
   "note": "For all lists of any length; the hypothesis heap_numbered holds in every state a run reaches."
  },
  {
   "property": "C22",
   "status": "proved",
   "theorems": [
    "C22_map",
    "C22_map_stops_at_failure",
    "C22_map_only_so",
    "C22_reduce",
    "C22_reduce_stops_at_failure",
    "C22_reduce_only_so"
   ],
   "note": "For every function value, as a sequence of calls with their effects."
  },
  {
   "property": "C23",
   "status": "proved",
   "theorems": [
    "C23_push",
    "C23_pop",
    "C23_pop_push",
    "C23_push_ignored",
    "C23_pop_ignored",
    "C23_push_negative_undefined"
   ],
   "note": "For every list and position."
  },
  {
   "property": "C49",
   "status": "proved",
   "theorems": [
    "C49_len_reverse_first",
    "C49_rest",
    "C49_empty_refused",
    "C49_last",
    "C49_nth"
   ],
   "note": "For every string and index."
  },
  {
   "property": "C18",
   "status": "proved",
   "theorems": [
    "C18_make",
    "C18_set",
    "C18_remove",
    "C18_clear",
    "C18_get",
    "C18_contains_key",
    "C18_length",
    "C18_keys",
    "C18_keys_known",
    "C18_keys_unique",
    "C18_contains_value"
   ],
   "note": "Refinement to a finite map by induction over all histories of operations."
  },
  {
   "property": "C19",
   "status": "proved",
   "theorems": [
    "C19_text_is_number",
    "C19_order_refuted",
    "C19_mixed_keys_undefined",
    "C19_wrong_key_found"
   ],
   "note": "The confusion for every integer; the broken order and the undefined behaviour are concrete witnesses."
  },
  {
   "property": "C20",
   "status": "proved",
   "theorems": [
    "C20_kept",
    "C20_symbol_becomes_string",
    "C20_nil_becomes_zero",
    "C20_dictionary_loses_type",
    "C20_empty_undefined"
   ],
   "note": "For every history and value of the listed kinds."
  },
  {
   "property": "C24",
   "status": "proved",
   "theorems": [
    "C24_setf",
    "C24_unbound"
   ],
   "note": "For every value expression, scope nesting and state; the lookup is stated by a separate relation."
  },
  {
   "property": "C25",
   "status": "proved",
   "theorems": [
    "C25_read_back",
    "C25_stale",
    "C25_stale_refuted"
   ],
   "note": "The stale read is proved for every such configuration and shown by a concrete run."
  },
  {
   "property": "C27",
   "status": "proved",
   "theorems": [
    "C27_def",
    "C27_gdef"
   ],
   "note": "For every value expression and state."
  },
  {
   "property": "C28",
   "status": "proved",
   "theorems": [
    "C28_call"
   ],
   "note": "For every parameter list, argument list and body."
  },
  {
   "property": "C29",
   "status": "proved",
   "theorems": [
    "C29_branch",
    "C29_no_else",
    "C29_condition_fails",
    "C29_needs_boolean"
   ],
   "note": "For every condition and branch program."
  },
  {
   "property": "C30",
   "status": "proved",
   "theorems": [
    "C30_and",
    "C30_and_fails",
    "C30_or",
    "C30_or_refuted",
    "C30_or_short_circuit_refuted"
   ],
   "note": "For every operand list; the documented meaning of or is refuted by concrete runs."
  },
  {
   "property": "C41",
   "status": "proved",
   "theorems": [
    "C41_return_marks",
    "C41_block",
    "C41_caller_continues",
    "C41_global_leak_refuted"
   ],
   "note": "For every function body and block; the leak is a concrete pair of runs."
  },
  {
   "property": "C50",
   "status": "proved",
   "theorems": [
    "C50_special_form",
    "C50_call",
    "C50_argument_fails"
   ],
   "note": "For every call; trace output off and no macro of that name."
  },
  {
   "property": "C51",
   "status": "proved",
   "theorems": [
    "C51_atom",
    "C51_symbol",
    "C51_unknown_symbol"
   ],
   "note": "For every value, symbol and state."
  },
  {
   "property": "C11",
   "status": "proved",
   "theorems": [
    "C11_value",
    "C11_overflow"
   ],
   "note": "By induction over all expression trees; variables, unary and n-ary use of the operators included."
  },
  {
   "property": "C31",
   "status": "proved",
   "theorems": [
    "C31_rounds",
    "C31_counting"
   ],
   "note": "Both directions for all condition and body programs; the counting loop by induction over the number of rounds."
  },
  {
   "property": "C37",
   "status": "proved",
   "theorems": [
    "C37_expansion",
    "C37_identity",
    "C37_nil_refuted"
   ],
   "note": "The naive claim (identity for every program) is refuted by nil elements."
  },
  {
   "property": "C38",
   "status": "proved",
   "theorems": [
    "C38_run_time",
    "C38_expansion",
    "C38_too_few",
    "C38_capture_refuted",
    "C38_literal",
    "C38_too_few_run",
    "C38_atom_undefined"
   ],
   "note": "Bodies that mention quoted-macro-args are outside the general theorems."
  },
  {
   "property": "C39",
   "status": "proved",
   "theorems": [
    "C39_quote",
    "C39_eval"
   ],
   "note": ""
  },
  {
   "property": "C40",
   "status": "proved",
   "theorems": [
    "C40_filled",
    "C40_identity",
    "C40_pair_refuted",
    "C40_run"
   ],
   "note": "The naive claim is refuted by two-element lists."
  },
  {
   "property": "C42",
   "status": "proved",
   "theorems": [
    "C42_read_back",
    "C42_read_back_texts",
    "C42_fresh",
    "C42_nil_refuted",
    "C42_text_refuted"
   ],
   "note": "Proved for integers, booleans and nested lists (however the nested lists are stored), and for symbols and strings inside lists; two refuted variants mark the limits."
  },
  {
   "property": "C52",
   "status": "proved",
   "theorems": [
    "C52_script"
   ],
   "note": "Links the statements about code in the heap (C27 to C41) to script texts."
  },
  {
   "property": "C43",
   "status": "proved",
   "theorems": [
    "C43_set",
    "C43_clear",
    "C43_clear_unknown",
    "C43_clear_all",
    "C43_distinct",
    "C43_entry_of_place",
    "C43_no_entry",
    "C43_hidden_refuted"
   ],
   "note": "Break and clear commands with the words of SpecDebug.break_command (line number up to INT_MAX, plain or quoted module, optional condition). Where the entry decides is C44; the hidden entry is the exception, with a witness."
  },
  {
   "property": "C44",
   "status": "proved",
   "theorems": [
    "C44_commands",
    "C44_stops",
    "C44_passes",
    "C44_condition",
    "C44_bad_condition",
    "C44_special_form",
    "C44_call",
    "C44_out_of_main"
   ],
   "note": "A statement is a call whose head is a word with a source position; the frames of the stack are numbered in the order of their creation, which holds for every stack the evaluator builds."
  },
  {
   "property": "C53",
   "status": "proved",
   "theorems": [
    "C53_evaluation",
    "C53_program"
   ],
   "note": "The hypothesis that the debugger did not speak is about the output text."
  },
  {
   "property": "C54",
   "status": "proved",
   "theorems": [
    "C54_exit",
    "C54_end_of_input",
    "C54_restart",
    "C54_normal_end",
    "C54_stopped",
    "C54_error",
    "C54_restart_while_stopped",
    "C54_restart_refuted"
   ],
   "note": "The heap of a new round is modelled as fresh, see DESIGN.md. Errors are LispExceptions whose text is fine for Format."
  },
  {
   "property": "C55",
   "status": "proved",
   "theorems": [
    "C55_frames",
    "C55_expression"
   ],
   "note": ""
  },
  {
   "property": "C45",
   "status": "proved",
   "theorems": [
    "C45_help",
    "C45_version",
    "C45_unknown",
    "C45_paths",
    "C45_order",
    "C45_path_order_refuted",
    "C45_twice_refuted",
    "C45_files",
    "C45_script",
    "C45_no_script_refuted",
    "C45_shell",
    "C45_shell_exit",
    "C45_shell_end_of_input",
    "C45_shell_expression",
    "C45_debug"
   ],
   "note": "The elapsed time and the name of the compiler are parameters of the host. The text of the value of a debugging session is not modelled, so the closing lines of -d are stated when they do not show it, or when there is no value."
  },
  {
   "property": "C56",
   "status": "proved",
   "theorems": [
    "C56_write",
    "C56_write_failed",
    "C56_read",
    "C56_exists",
    "C56_write_read",
    "C56_missing_told_refuted"
   ],
   "note": "Which names can be opened for writing is a parameter of the state; the file system is a map from names to contents."
  },
  {
   "property": "C57",
   "status": "proved",
   "theorems": [
    "C57_print",
    "C57_println",
    "C57_collected",
    "C57_gettrace",
    "C57_switch_off_refuted",
    "C57_trace_local",
    "C57_gettrace_local",
    "C57_trace_crash_refuted"
   ],
   "note": "The text of an argument is what str makes of it; native values (dictionaries) are left out."
  },
  {
   "property": "C58",
   "status": "proved",
   "theorems": [
    "C58_parse_integer",
    "C58_parse_junk",
    "C58_int_text",
    "C58_int_int",
    "C58_int_bool",
    "C58_other_types"
   ],
   "note": "int of a double is in C59, int of a text is whatever parse-integer makes of it."
  },
  {
   "property": "C59",
   "status": "proved",
   "theorems": [
    "C59_many",
    "C59_two",
    "C59_divide",
    "C59_negate",
    "C59_order",
    "C59_equal",
    "C59_float_int",
    "C59_float_float",
    "C59_float_bool",
    "C59_int_double",
    "C59_int_overflow",
    "C59_int_float_int",
    "C59_str",
    "C59_parse_float",
    "C59_text_back",
    "C59_beyond_53_refuted",
    "C59_infinity_refuted",
    "C59_minus_zero_refuted"
   ],
   "note": "Doubles are Coq's SpecFloat numbers with 53 bits. The equality compares the difference with a tolerance, so the difference must be below 2^53 as well."
  },
  {
   "property": "C60",
   "status": "proved",
   "theorems": [
    "C60_defn"
   ],
   "note": "Comment found as documentation: stated when the tokens before the name are comment, bracket and defn, at different places of the text."
  },
  {
   "property": "C61",
   "status": "proved",
   "theorems": [
    "C61_statement",
    "C61_program",
    "C61_fibonacci",
    "C61_gcd",
    "C61_squares"
   ],
   "note": "Functions are defined before the statements. Names of variables and functions must not be names the semantics gives a meaning (or names the interpreter uses itself). The semantics lets a function see its parameters and own variables only."
  },
  {
   "property": "C62",
   "status": "proved",
   "theorems": [
    "C62_text",
    "C62_lists",
    "C62_arithmetic",
    "C62_division",
    "C62_division_undefined",
    "C62_sum",
    "C62_order",
    "C62_refused",
    "C62_refused_sum",
    "C62_refused_order"
   ],
   "note": "The text of a double in + is left out (C59 has str of whole doubles)."
  },
  {
   "property": "C63",
   "status": "proved",
   "theorems": [
    "C63_symbol",
    "C63_nil",
    "C63_undefined",
    "C63_int_bool",
    "C63_text",
    "C63_refused",
    "C63_transitive_refuted"
   ],
   "note": "Values of the same kind are in C12, C13 and C59. Native values other than dictionaries do not occur."
  },
  {
   "property": "C64",
   "status": "proved",
   "theorems": [
    "C64_same"
   ],
   "note": ""
  },
  {
   "property": "C65",
   "status": "proved",
   "theorems": [
    "C65_fixed",
    "C65_range",
    "C65_if",
    "C65_unchecked_refuted"
   ],
   "note": "The 89 names are in SpecMix.fixed_arity, written down independently of the model's table."
  },
  {
   "property": "C66",
   "status": "proved",
   "theorems": [
    "C66_call",
    "C66_count",
    "C66_argscount",
    "C66_args",
    "C66_arg",
    "C66_arg_out",
    "C66_outside_refuted"
   ],
   "note": ""
  },
  {
   "property": "C67",
   "status": "proved",
   "theorems": [
    "C67_list"
   ],
   "note": "The text of a value is what str makes of it; dictionaries are left out. search in a text is C14-C17."
  },
  {
   "property": "C68",
   "status": "proved",
   "theorems": [
    "C68_not",
    "C68_type",
    "C68_typestr",
    "C68_sym",
    "C68_upper",
    "C68_lower",
    "C68_case_undefined",
    "C68_nop",
    "C68_flush",
    "C68_version",
    "C68_fuel",
    "C68_copyright"
   ],
   "note": ""
  },
  {
   "property": "C69",
   "status": "proved",
   "theorems": [
    "C69_delvar"
   ],
   "note": ""
  },
  {
   "property": "C70",
   "status": "proved",
   "theorems": [
    "C70_floor",
    "C70_ceiling",
    "C70_round",
    "C70_truncate",
    "C70_whole",
    "C70_not_finite",
    "C70_abs",
    "C70_abs_whole",
    "C70_sqrt"
   ],
   "note": "The double functions are modelled with Coq's SpecFloat; the transcendental functions of libm are not modelled."
  },
  {
   "property": "C71",
   "status": "proved",
   "theorems": [
    "C71_call",
    "C71_rest_refuted"
   ],
   "note": ""
  },
  {
   "property": "C72",
   "status": "proved",
   "theorems": [
    "C72_apply",
    "C72_apply_no_list",
    "C72_apply_no_function",
    "C72_apply_fails",
    "C72_evalstr",
    "C72_evalstr_fails",
    "C72_evalstr_ends",
    "C72_evalstr_main",
    "C72_rval"
   ],
   "note": ""
  },
  {
   "property": "C73",
   "status": "proved",
   "theorems": [
    "C73_place",
    "C73_out_of_range",
    "C73_computed",
    "C73_place_fails",
    "C73_after_failure_refuted",
    "C73_nested_refuted"
   ],
   "note": "The list of a place is a variable or a settled value; the expression assigned has no splice mark."
  },
  {
   "property": "C74",
   "status": "proved",
   "theorems": [
    "C74_code",
    "C74_code_of_text",
    "C74_braces_refuted"
   ],
   "note": ""
  },
  {
   "property": "C75",
   "status": "proved",
   "theorems": [
    "C75_breakpoints",
    "C75_stack",
    "C75_variables",
    "C75_vars"
   ],
   "note": "Variables with lists or dictionaries as values are left out; frames are numbered in the order of their creation, as in C44."
  },
  {
   "property": "C76",
   "status": "proved",
   "theorems": [
    "C76_def",
    "C76_no_name",
    "C76_name_fails",
    "C76_value_fails"
   ],
   "note": ""
  },
  {
   "property": "C77",
   "status": "proved",
   "theorems": [
    "C77_import",
    "C77_empty",
    "C77_missing",
    "C77_several",
    "C77_stops",
    "C77_some_files",
    "C77_copy_refuted",
    "C77_here_refuted"
   ],
   "note": "The scope that holds the modules must still be there after the text has run (a text can overwrite ###modules###); for the warning the names contain no opening brace."
  },
  {
   "property": "C78",
   "status": "proved",
   "theorems": [
    "C78_find_number",
    "C78_find_text",
    "C78_find_character",
    "C78_second_number",
    "C78_second_character",
    "C78_length_numbers",
    "C78_length_text"
   ],
   "note": "The text of the library lines is compared with the file by hand; dict-len is loaded but not called; the rest of the library file is not run."
  },
  {
   "property": "C79",
   "status": "proved",
   "theorems": [
    "C79_stages",
    "C79_listed",
    "C79_stumbles",
    "C79_macro",
    "C79_silent_refuted",
    "C79_quote_refuted",
    "C79_data_refuted"
   ],
   "note": "The three exceptions are the theorems C79_stumbles/C79_data_refuted, C79_silent_refuted and C79_quote_refuted."
  },
  {
   "property": "C80",
   "status": "proved",
   "theorems": [
    "C80_sound",
    "C80_eval",
    "C80_call",
    "C80_aside_eval",
    "C80_aside_call",
    "C80_locals",
    "C80_healthy",
    "C80_local_refuted",
    "C80_list_refuted"
   ],
   "note": "Stated for sound states: everything referred to exists, and links between scopes point to older scopes; C80_sound shows this for the states between scripts and every theorem gives it back for the state afterwards. The exceptions are C80_local_refuted and C80_list_refuted. Evaluation without the debugger attached."
  },
  {
   "property": "C81",
   "status": "proved",
   "theorems": [
    "C81_rule",
    "C81_lines",
    "C81_calls",
    "C81_numbers",
    "C81_characters",
    "C81_every_element_refuted",
    "C81_last_value_refuted"
   ],
   "note": "C81_rule is the rule for any function and any invariant; C81_lines and C81_calls are programs, C81_numbers and C81_characters texts of scripts. The text of foreach is that of the library with single blanks. The exceptions are C81_every_element_refuted and C81_last_value_refuted."
  },
  {
   "property": "C82",
   "status": "proved",
   "theorems": [
    "C82_title",
    "C82_title_unique",
    "C82_found",
    "C82_listing",
    "C82_all",
    "C82_html",
    "C82_fresh",
    "C82_html_fresh",
    "C82_crash",
    "C82_symbol_refuted",
    "C82_function_refuted",
    "C82_macro_refuted",
    "C82_variable_refuted"
   ],
   "note": "C82_listing shows when the listings of C82_found exist. The exceptions are C82_crash with C82_macro_refuted, C82_variable_refuted, C82_function_refuted and C82_symbol_refuted. Entries with an opening brace are left out because the text passes through the format function."
  },
  {
   "property": "C83",
   "status": "proved",
   "theorems": [
    "C83_short",
    "C83_code",
    "C83_version",
    "C83_about",
    "C83_help",
    "C83_builtins",
    "C83_funcs",
    "C83_manual",
    "C83_doc",
    "C83_names",
    "C83_clear_never",
    "C83_quote_ends",
    "C83_variable_refuted"
   ],
   "note": "Every line is a short form, a command or code; what the stepping, break, clear, list, stack, code, locals and globals commands do is C43, C44, C53 to C55, C74 and C75. The exceptions are C83_variable_refuted, the second part of C83_doc, C83_quote_ends and C83_clear_never. Names and signatures with an opening brace are left out because the lines pass through the format function."
  },
  {
   "property": "C84",
   "status": "proved",
   "theorems": [
    "C84_value",
    "C84_sets",
    "C84_fn",
    "C84_maker",
    "C84_made_function",
    "C84_counters",
    "C84_hidden",
    "C84_global_refuted"
   ],
   "note": "C84_made_function is the call of a made function after the call of its maker, composed from C84_maker, C84_fn and C84_value; C84_sets is the assignment, C84_counters the independence for any interleaving of calls. The exceptions are C84_global_refuted and C84_hidden."
  },
  {
   "property": "C85",
   "status": "proved",
   "theorems": [
    "C85_statement",
    "C85_program",
    "C85_saved",
    "C85_unchanged"
   ],
   "note": "The relation never of SpecNever lists the ways to get to a loop without end; functions called by map and reduce are not among them. C85_unchanged is the example with both directions."
  },
  {
   "property": "C86",
   "status": "proved",
   "theorems": [
    "C86_arity",
    "C86_form",
    "C86_unbound",
    "C86_item"
   ],
   "note": "C86_arity and C86_unbound give the whole place with the lines of the active calls (stack_text of C75 without a mark); C86_form and C86_item speak about calls evaluated in programs. Names with an opening brace are excluded because the formatting function replaces them; a name equal to the text for null is excluded too."
  },
  {
   "property": "C87",
   "status": "proved",
   "theorems": [
    "C87_break",
    "C87_break_debugger",
    "C87_platform",
    "C87_need",
    "C87_pi"
   ],
   "note": "The state after break is the state before with the text added to the output. pi is given to 30 decimal places in C87_pi; the difference to the returned fraction is at most half a unit of the last bit."
  },
  {
   "property": "C88",
   "status": "proved",
   "theorems": [
    "C88_atom",
    "C88_list",
    "C88_evaluates_refuted"
   ],
   "note": "C88_atom speaks about operands that are single tokens and gives both directions; C88_list about lists."
  }
 ]
}