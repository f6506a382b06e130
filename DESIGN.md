# Formal model of the FUEL lisp interpreter (C++ implementation)

Target: `/repo/CppLisp/CppLispInterpreter` (tokenizer, parser, values, scopes,
interpreter, builtin environment, command line program) and
`/repo/CppLisp/CppLispDebugger` (the debugger).  The C# and Haxe ports are not
modelled.  The code was read as text and never built or run.

## 1. How the code is modelled

* Every model definition is a total Gallina function and carries a comment with
  the file and lines it models.  Loops are structural recursions.  The evaluator
  is recursive on explicit fuel (`run n`, `drun n` with a debugger); when the
  fuel is used up the outcome is `NoFuel`, which no theorem counts as a result.
  Theorems speak about runs as relations: "there is a fuel with which the run
  ends with this outcome in this state" (`ends_with` in `SpecRun.v`).  C32
  proves that more fuel never changes an outcome.
* A C++ computation has one of these outcomes (`out`, Base.v):
  `Val v`; `Throw e`, a C++ exception (`ELisp` LispException with its Data,
  `ELispBase`, `EOutOfRange`, `EInvalidArg`, `EStopDebugger`);
  `Undef u`, undefined behaviour with its kind; `Unmod what`, a part of the
  outside world that is not modelled; `NoFuel`.  Undefined and unmodelled
  outcomes are never mapped to a value.
* Kinds of undefined behaviour: null dereference, vector index, signed overflow
  and shifts, division by zero, empty stack, reading a union member of the wrong
  kind, ctype function with a negative char, recursion along a cyclic value or a
  cyclic chain of scopes (the C++ stack overflows), a std::map whose comparison
  is no strict weak order, a variant whose Value is not of the kind Type says
  (`UBTag`) and an unknown address (`UBBadPtr`).  That `UBTag`, `UBBadPtr` and
  `UBScopeChain` never occur is proved (C26, C47).
* Strings are lists of bytes (`ascii`).  `int` is `Z` with 32-bit range checks.
  `double` is the IEEE binary64 of the standard library's `SpecFloat` (no
  axioms); `strtod` and `"%f"` are modelled exactly.
* State (`State.v`): heaps for vectors, dictionaries and scopes, counters for
  fresh addresses, the text written, the lines still to be read, the files, what
  the environment allows, and the debugger's memory.  Every other C++ object is
  immutable after its construction and is modelled by value; pointers carry an
  identity tag because lists are compared by pointer.  A null `shared_ptr` is a
  constructor of its own.
* Statements are written in the vocabulary of the `Spec*.v` files.  These do not
  use helper functions of the model, except for the entry points whose runs they
  speak about and the types of values and states.
* Where the code violates a plausible claim, the claim is stated with the
  exact exception, and a theorem `..._refuted` proves the naive form false with a
  concrete witness.

## 2. Files (rocq/theories)

Model:

| file | models |
|---|---|
| `Base.v` | byte strings, ctype functions, 32-bit int, outcomes |
| `CppString.v` | csstring.h, csstring.cpp, std::stoi, atoi, to_string |
| `Num.v` | doubles, std::stod, "%f", fmod, floor, ceil, trunc, round |
| `Token.v`, `Tokenizer.v`, `Parser.v` | Token.h/.cpp, Tokenizer.cpp, Parser.cpp, DecorateWithBlock of Lisp.cpp |
| `Value.v` | csobject.h (object), Variant.h (LispVariant), cstypes.h (function wrapper), macro classes of Environment.h |
| `State.v` | Scope.h (members), containers of cstypes.h, the state monad |
| `Show.v` | ToString, conversions, operators and comparisons of Variant.cpp and csobject.cpp |
| `ScopeOps.v` | Scope.cpp, Exception.cpp, argument checks of Environment.cpp |
| `Builtins.v` | the functions of Environment.cpp that do not call the evaluator |
| `Table.v` | the registration table of CreateDefaultScope (names, signatures, documentation, flags) |
| `Eval.v` | Interpreter.cpp; special forms, import, map, reduce, apply, eval, evalstr, closures of Environment.cpp; Lisp::Eval |
| `LispTop.v` | CreateDefaultScope, Lisp::Eval, Lisp::SaveEval |
| `Debugger.v` | CppLispDebugger/Debugger.cpp, Utils.cpp |
| `Cli.v` | fuel.cpp |

`Conformance.v` and `ConformanceMain.v` replay the repository's unit tests of the interpreter and of the
command line program in the model.  These are tests of the model, not proofs of properties.  The tests left out
there (import of the whole standard library, listings of the documentation) give the expected
results in the model too; the exceptions are those that need the clock, libm or bytes above 127.

Specifications: `SpecLex`, `SpecParse`, `SpecRun`, `SpecVal`, `SpecText`, `SpecNum`, `SpecList`,
`SpecDict`, `SpecForm`, `SpecCalc`, `SpecMacro`, `SpecRead`, `SpecDebug`, `SpecCli`, `SpecIo`, `SpecFloats`,
`SpecLang`, `SpecMix`, `SpecMath`, `SpecCall`, `SpecShow`, `SpecMod`, `SpecLib`, `SpecExpand`, `SpecReach`, `SpecLoop`,
`SpecDoc`, `SpecCmd`, `SpecClos`, `SpecFn`, `SpecNever`, `SpecPlace`.

Property theorems (nothing else but their examples): `PropLex`, `PropParse`, `PropRun`, `PropText`,
`PropNum`, `PropList`, `PropDict`, `PropForm`, `PropCalc`, `PropMacro`, `PropRead`, `PropDebug`,
`PropCli`, `PropIo`, `PropFloat`, `PropLang`, `PropMix`, `PropCall`, `PropShow`, `PropMod`, `PropLib`, `PropExpand`, `PropReach`,
`PropLoop`, `PropDoc`, `PropCmd`, `PropFn`, `PropNever`, `PropPlace`, `PropHere`, `PropOut`.

Proofs: evaluator-wide invariants in `FuelProofs` (fuel), `RelProofs` (preorders respected by
every effect), `FrameProofs` (scopes of callers), `Wf`, `WfRead`, `WfProofs`
(well-formedness), `RunProofs`; tokenizer and parser in `TokProofs`, `ClassifyProofs`,
`LexProofs`, `ParseProofs`; the rest in `TextProofs`, `BuiltinProofs`, `StrProofs`, `ErrProofs`,
`NumProofs`, `ListProofs`, `DictProofs`, `FormProofs`, `ClosProofs`, `CalcProofs`, `MacroProofs`,
`QuoteProofs`, `ReadProofs`, `DebugProofs`, `PromptProofs`, `QuietProofs`, `VisitProofs`,
`CliProofs`, `IoProofs`, `FloatProofs`, `RealProofs`, `LangProofs`, `DefnProofs`,
`ProgProofs`, `SampleProofs`, `MixProofs`, `SmallProofs`, `MathProofs`,
`CallProofs`, `ShowProofs`, `ModProofs`, `LibProofs`, `ExpandProofs`, `ReachProofs`, `LoopProofs`, `EachProofs`, `DocProofs`, `CmdProofs`, `FnProofs`, `NeverProofs`, `PlaceProofs`, `HereProofs`, `OutProofs`.

## 3. Plan per property

* C01 - C06: the tokenizer as a left-to-right state machine; induction over the
  text with one lemma per kind of token.
* C07 - C09: the parser with its explicit stack; round trip by induction on
  trees, balance by an invariant on the stack depth.
* C10, C12, C13, C14, C48: operators of LispVariant; case analysis and arithmetic.
* C11, C31: evaluator; induction on the expression, on the number of rounds.
* C15 - C17, C49: text functions; induction on texts.
* C18 - C20: refinement of the sorted association list to a finite map.
* C21 - C23: builtins on heap lists, read back as mathematical lists, with
  frame conditions.
* C24, C25, C27, C28, C29, C30, C41, C50, C51: equations for names, special
  forms and calls, for arbitrary sub-programs and states.
* C26, C32, C33, C34, C47: invariants of the whole evaluator, by induction on
  fuel with one preservation lemma per builtin.
* C35, C36, C46: outcomes of the entry points, travel of exceptions.
* C37 - C40: macro expander, replacement of parameters, quoting; induction on
  trees.
* C42, C52: printing, tokenizing, parsing and evaluating composed.
* C43, C44, C53 - C55: the evaluator with the debugger; simulation of the
  evaluator without one, command histories at the prompt.
* C45: the command line program as a function of the argument list.
* C56, C57, C58: builtins on files, output and texts; induction on texts.
* C59: rounding of IEEE numbers is exact on integers below 2^53; refinement of
  the operators on doubles to integer arithmetic.
* C60: the evaluation of fn and def inside defn, step by step.
* C61: a big-step semantics of a small language (`SpecLang.v`); mutual induction over its
  derivations, with invariants for the global scope, the current scope and what a run may
  change; then from the text of a program to its code with C52.
* C62 - C69: builtins on every combination of kinds of arguments; case analysis, induction on
  argument lists; the tables of names and numbers of arguments are checked entry by entry.
* C70: exact rational value of a double, integer division, the exactness lemmas of C59.
* C71 - C73: equations for calls with spliced arguments, apply, evalstr, rval and setf of
  places, for arbitrary sub-programs and states.
* C74, C75: what one command at the prompt writes; induction over lines, breakpoints, frames
  and variables.
* C76, C77: equations for def and gdef with any name operand, and for import with any file
  and any module text.
* C78: the semantics of C61 on the text of the library; induction on the rest of the sequence.
* C79: the expansion of a script as a stage of its own; induction on the parsed code; witnesses for the exceptions.
* C80: the memory as a graph of scopes, lists and dictionaries; the invariant of `Wf` is stated relative to a set-aside part of
  the memory that nothing else refers to, and kept by every built-in function and by the evaluator; C80 is its instance for
  everything that cannot be reached.
* C81: a rule for the loop with an invariant chosen by the reader, proved by induction on the rounds; instances for println and
  for functions of the language of programs.
* C82: relations between lists of variables and lists of entries; induction on the variables; the fresh interpreter by computation.
* C83: unfolding the loop of the prompt once for each command; lists of functions as in C82 by induction on the variables; clear by induction on the answers.
* C84: the semantics of C61 in a scope whose names may stand for variables of scopes around it; induction on the order of the calls for the counters.
* C85: induction on the relation of the statements that never end; for the loop induction on the fuel with the invariant, each ended round being given by C61.
* C86: the evaluation is followed to the place where the error is made; the frames by induction on the chain of scopes.
* C87: unfolding of the functions; the frames as in C75; pi by exact integer arithmetic.
* C88: the equation for calls of special forms, used in C24 to C41.

## 4. Simplifications

* Function arguments whose order of evaluation C++ leaves open are evaluated
  from left to right (it matters only if two of them fail).
* Loops over a list work on the elements the list had when the loop started.
  A C++ loop whose body changes the vector it runs over is undefined.
* All scopes share one Output and one Input.  The copy TextWriter sends to
  std::cout is not modelled.
* std::map with keys that have no strict weak order: undefined only when the
  inconsistency is visible to the search for a key.
* Bytes above 127 passed to ctype functions are undefined (plain char is signed).
* `<<` beyond INT_MAX is undefined (C++11).
* The configuration is the one of the CMake build on Linux:
  `_DISABLE_DEBUGGER` undefined, `ENABLE_COMPILE_TIME_MACROS` defined, glibc
  behaviour of strtod.
* The debugger: every round of DebuggerLoop starts on a fresh heap; token
  positions are unbounded; whether a session has a value is modelled, the value
  is not.
* Files have a name and a text; writing replaces the text; which names can be
  written is a parameter.  Relative and absolute paths are different names.
* No bound on memory or on the C++ stack, apart from the infinite recursions
  named above.

## 5. Not modelled

* C# and Haxe ports; the Qt and Visual Studio test programs; dynamic loading of
  the debugger library (fuel.cpp 62-112, 407-431 - whether it is found is a
  parameter of the host); dllmain.cpp; stdafx.
* `Unmod` outcomes: the clock (tickcount, date-time), the
  functions of libm that are not exactly rounded, reading from std::cin when the
  program was started with an empty input text, a documentation text whose
  output throws, a scope stored as a macro, dictionary keys whose comparison
  throws, the text of the value of a debugging session.  `sleep` does nothing.
* The elapsed time and the compiler name printed by the command line program are
  parameters of the host.
* Android/Qt special cases (`#if defined(QT_CORE_LIB)`), Windows paths.
* Members that no code path reads: LispVariant::CachedFunction, hash functions.

## 6. Trusted base and axioms

Trusted: the kernel of Coq 8.16.1 (with its virtual machine, used for the
witnesses and examples; `coqchk` checks them without it), and the reading of the
C++ code recorded in the comments of the model.

No axioms are used.  `Print Assumptions` is written below every property
theorem; its answer is "Closed under the global context" for each of the
theorems in the list below.  (`coqchk` lists seven constants
`Coq.ssr.ssrunder.Under_rel.*` because a standard library file that is loaded
contains a sealed module; no theorem depends on them.)

The list is grouped by property; `MANIFEST.json` has the same names with notes.

| property | theorems, each closed under the global context |
|---|---|
| C01 A string literal denotes exactly the text that was escaped into it | `C01_string_literal`, `C01_escaping_any_text`, `C01_bad_escape_rejected`, `C01_literal_valid_or_rejected` |
| C02 Source text written from a list of tokens is read back as that list | `C02_tokens_read_back` |
| C03 Comments do not change the meaning of a script | `C03_comment_inserted`, `C03_comment_inserted_error`, `C03_empty_comment_swallows` |
| C04 Tokens carry the line on which they end | `C04_line_of_token`, `C04_semicolon_in_string_refuted` |
| C05 The tokenizer drops no source text | `C05_no_text_dropped`, `C05_one_token_per_word`, `C05_symbol_dropped_refuted` |
| C06 Integer literals denote their value or are rejected | `C06_int_literal`, `C06_out_of_range_throws`, `C06_printed_int_is_literal`, `C06_out_of_range_escapes` |
| C07 Parsing inverts printing of code | `C07_parse_inverts_print`, `C07_parse_written_source` |
| C08 Unbalanced brackets are reported, balanced ones are accepted | `C08_accepted_iff_balanced`, `C08_unbalanced_error`, `C08_trailing_code_error`, `C08_parser_terminates` |
| C09 The quote mark abbreviates the quote form | `C09_mark_abbreviates`, `C09_nested_quote_loses_datum`, `C09_quote_before_close_undefined` |
| C10 Integer arithmetic is exact or undefined, never wrong | `C10_exact`, `C10_overflow_undefined`, `C10_negate`, `C10_negate_undefined`, `C10_one_operand`, `C10_division`, `C10_division_determined`, `C10_division_undefined` |
| C11 Arithmetic expressions compute their mathematical value | `C11_value`, `C11_overflow` |
| C12 Equality behaves like equality on scalars | `C12_integers`, `C12_booleans`, `C12_strings`, `C12_symbols`, `C12_integer_lists`, `C12_mixed_transitive_refuted`, `C12_double_transitive_refuted`, `C12_nested_lists_refuted` |
| C13 Ordering operators agree with each other | `C13_integers`, `C13_strings`, `C13_order_irreflexive`, `C13_order_transitive`, `C13_order_total` |
| C14 Converting an integer to text and back is the identity | `C14_int_of_str`, `C14_str_injective` |
| C15 Text functions obey their laws | `C15_trim`, `C15_trim_determined`, `C15_trim_idempotent`, `C15_trim_8bit_refuted`, `C15_replace`, `C15_replace_nothing`, `C15_replace_determined`, `C15_replace_self`, `C15_replace_gone`, `C15_replace_by_nothing_refuted`, `C15_search`, `C15_search_from`, `C15_slice`, `C15_slice_splits` |
| C16 Format inserts each argument at its own place | `C16_format`, `C16_format_too_few`, `C16_braces_refuted` |
| C17 Splitting into lines and joining gives the text back | `C17_lines`, `C17_split_join`, `C17_readline` |
| C18 A dictionary is a finite map | `C18_make`, `C18_set`, `C18_remove`, `C18_clear`, `C18_get`, `C18_contains_key`, `C18_length`, `C18_keys`, `C18_keys_known`, `C18_keys_unique`, `C18_contains_value` |
| C19 A dictionary with mixed keys is not a map | `C19_text_is_number`, `C19_order_refuted`, `C19_mixed_keys_undefined`, `C19_wrong_key_found` |
| C20 Values survive a dictionary | `C20_kept`, `C20_symbol_becomes_string`, `C20_nil_becomes_zero`, `C20_dictionary_loses_type`, `C20_empty_undefined` |
| C21 List constructors and selectors obey the list laws | `C21_list`, `C21_cons`, `C21_cons_short`, `C21_cons_pair`, `C21_append`, `C21_reverse`, `C21_len`, `C21_first`, `C21_last`, `C21_rest`, `C21_nth`, `C21_first_cons`, `C21_rest_cons`, `C21_reverse_twice`, `C21_reverse_append`, `C21_first_empty_undefined`, `C21_last_empty_undefined`, `C21_rest_empty_undefined`, `C21_nth_outside_undefined`, `C21_not_a_list`, `C21_reachable_states_numbered` |
| C22 map and reduce visit the elements in order | `C22_map`, `C22_map_stops_at_failure`, `C22_map_only_so`, `C22_reduce`, `C22_reduce_stops_at_failure`, `C22_reduce_only_so` |
| C23 push and pop insert and remove at the given place | `C23_push`, `C23_pop`, `C23_pop_push`, `C23_push_ignored`, `C23_pop_ignored`, `C23_push_negative_undefined` |
| C24 Only the named variable changes on assignment | `C24_setf`, `C24_unbound` |
| C25 Reading a variable after assigning it returns the assigned value | `C25_read_back`, `C25_stale`, `C25_stale_refuted` |
| C26 Variable lookup always terminates | `C26_chains_end`, `C26_lookup`, `C26_assign`, `C26_depth`, `C26_no_endless_chain` |
| C27 def binds locally | `C27_def`, `C27_gdef` |
| C28 Parameters are bound to the arguments in order | `C28_call` |
| C29 if evaluates exactly one branch | `C29_branch`, `C29_no_else`, `C29_condition_fails`, `C29_needs_boolean` |
| C30 and and or evaluate left to right and stop as documented | `C30_and`, `C30_and_fails`, `C30_or`, `C30_or_refuted`, `C30_or_short_circuit_refuted` |
| C31 while repeats its body exactly while the condition holds | `C31_rounds`, `C31_counting` |
| C32 Evaluation is deterministic and independent of the step budget of the model | `C32_eval`, `C32_save`, `C32_expression`, `C32_budget` |
| C33 Output already written is never changed | `C33_eval`, `C33_save`, `C33_expression`, `C33_call`, `C33_cut_off` |
| C34 Evaluation leaves the scopes of the callers as they were | `C34_expression`, `C34_call`, `C34_reachable_numbered`, `C34_dangling_link_refuted` |
| C35 Errors of the script become error values | `C35_value`, `C35_error`, `C35_error_with_position`, `C35_others_escape`, `C35_never_escapes_refuted` |
| C36 An error leaves a usable interpreter | `C36_flag_kept`, `C36_usual_result`, `C36_after_error_refuted` |
| C37 Macro expansion is the identity on code without macros | `C37_expansion`, `C37_identity`, `C37_nil_refuted` |
| C38 Macro parameters are replaced by the argument expressions | `C38_run_time`, `C38_expansion`, `C38_too_few`, `C38_capture_refuted`, `C38_literal`, `C38_too_few_run`, `C38_atom_undefined` |
| C39 quote returns its argument unevaluated | `C39_quote`, `C39_eval` |
| C40 quasiquote copies everything except unquoted parts | `C40_filled`, `C40_identity`, `C40_pair_refuted`, `C40_run` |
| C41 return leaves only the function it is written in | `C41_return_marks`, `C41_block`, `C41_caller_continues`, `C41_global_leak_refuted` |
| C42 Printed values read back as the same value | `C42_read_back`, `C42_read_back_texts`, `C42_fresh`, `C42_nil_refuted`, `C42_text_refuted` |
| C43 The breakpoint list behaves like a list of distinct places | `C43_set`, `C43_clear`, `C43_clear_unknown`, `C43_clear_all`, `C43_distinct`, `C43_entry_of_place`, `C43_no_entry`, `C43_hidden_refuted` |
| C44 The debugger stops where it was told to | `C44_commands`, `C44_stops`, `C44_passes`, `C44_condition`, `C44_bad_condition`, `C44_special_form`, `C44_call`, `C44_out_of_main` |
| C45 The command line program does what its arguments say, in any order of the options | `C45_help`, `C45_version`, `C45_unknown`, `C45_paths`, `C45_order`, `C45_path_order_refuted`, `C45_twice_refuted`, `C45_files`, `C45_script`, `C45_no_script_refuted`, `C45_shell`, `C45_shell_exit`, `C45_shell_end_of_input`, `C45_shell_expression`, `C45_debug` |
| C46 Errors inside functions lose their position | `C46_no_position`, `C46_no_report` |
| C47 Values are of the kind their type tag says | `C47_result`, `C47_stored`, `C26_no_endless_chain` |
| C48 Bit operators work on two's complement 32-bit integers | `C48_bitwise`, `C48_not`, `C48_shift_left`, `C48_shift_left_undefined`, `C48_shift_right`, `C48_shift_right_undefined` |
| C49 Strings as sequences | `C49_len_reverse_first`, `C49_rest`, `C49_empty_refused`, `C49_last`, `C49_nth` |
| C50 Special forms get their arguments unevaluated, functions get values | `C50_special_form`, `C50_call`, `C50_argument_fails` |
| C51 Atoms evaluate to themselves and symbols to what they stand for | `C51_atom`, `C51_symbol`, `C51_unknown_symbol` |
| C52 Running a script evaluates the code its text denotes | `C52_script` |
| C53 A debugger with nothing to do changes nothing | `C53_evaluation`, `C53_program` |
| C54 How a debugging session ends and starts again | `C54_exit`, `C54_end_of_input`, `C54_restart`, `C54_normal_end`, `C54_stopped`, `C54_error`, `C54_restart_while_stopped`, `C54_restart_refuted` |
| C55 Frames and expressions at the debugger's prompt | `C55_frames`, `C55_expression` |
| C56 What is written to a file is read back | `C56_write`, `C56_write_failed`, `C56_read`, `C56_exists`, `C56_write_read`, `C56_missing_told_refuted` |
| C57 What print writes, returns and records | `C57_print`, `C57_println`, `C57_collected`, `C57_gettrace`, `C57_switch_off_refuted`, `C57_trace_local`, `C57_gettrace_local`, `C57_trace_crash_refuted` |
| C58 Which texts are integers | `C58_parse_integer`, `C58_parse_junk`, `C58_int_text`, `C58_int_int`, `C58_int_bool`, `C58_other_types` |
| C59 Doubles without a fraction compute exactly | `C59_many`, `C59_two`, `C59_divide`, `C59_negate`, `C59_order`, `C59_equal`, `C59_float_int`, `C59_float_float`, `C59_float_bool`, `C59_int_double`, `C59_int_overflow`, `C59_int_float_int`, `C59_str`, `C59_parse_float`, `C59_text_back`, `C59_beyond_53_refuted`, `C59_infinity_refuted`, `C59_minus_zero_refuted` |
| C60 What defining a function does | `C60_defn` |
| C61 Programs compute what they mean | `C61_statement`, `C61_program`, `C61_fibonacci`, `C61_gcd`, `C61_squares` |
| C62 Operators on operands of mixed kinds | `C62_text`, `C62_lists`, `C62_arithmetic`, `C62_division`, `C62_division_undefined`, `C62_sum`, `C62_order`, `C62_refused`, `C62_refused_sum`, `C62_refused_order` |
| C63 Equality across kinds | `C63_symbol`, `C63_nil`, `C63_undefined`, `C63_int_bool`, `C63_text`, `C63_refused`, `C63_transitive_refuted` |
| C64 Other names of functions | `C64_same` |
| C65 Wrong numbers of arguments | `C65_fixed`, `C65_range`, `C65_if`, `C65_unchecked_refuted` |
| C66 The arguments of a call | `C66_call`, `C66_count`, `C66_argscount`, `C66_args`, `C66_arg`, `C66_arg_out`, `C66_outside_refuted` |
| C67 Searching a list | `C67_list` |
| C68 Small functions | `C68_not`, `C68_type`, `C68_typestr`, `C68_sym`, `C68_upper`, `C68_lower`, `C68_case_undefined`, `C68_nop`, `C68_flush`, `C68_version`, `C68_fuel`, `C68_copyright` |
| C69 Removing a variable | `C69_delvar` |
| C70 Rounding, absolute values and square roots | `C70_floor`, `C70_ceiling`, `C70_round`, `C70_truncate`, `C70_whole`, `C70_not_finite`, `C70_abs`, `C70_abs_whole`, `C70_sqrt` |
| C71 Spliced arguments of a call | `C71_call`, `C71_rest_refuted` |
| C72 apply, evalstr and rval | `C72_apply`, `C72_apply_no_list`, `C72_apply_no_function`, `C72_apply_fails`, `C72_evalstr`, `C72_evalstr_fails`, `C72_evalstr_ends`, `C72_evalstr_main`, `C72_rval` |
| C73 Assignment to places | `C73_place`, `C73_out_of_range`, `C73_computed`, `C73_place_fails`, `C73_after_failure_refuted`, `C73_nested_refuted` |
| C74 The listing of the program | `C74_code`, `C74_code_of_text`, `C74_braces_refuted` |
| C75 What the debugger lists | `C75_breakpoints`, `C75_stack`, `C75_variables`, `C75_vars` |
| C76 Names of definitions | `C76_def`, `C76_no_name`, `C76_name_fails`, `C76_value_fails` |
| C77 Import of modules | `C77_import`, `C77_empty`, `C77_missing`, `C77_several`, `C77_stops`, `C77_some_files`, `C77_copy_refuted`, `C77_here_refuted` |
| C78 Functions of the standard library | `C78_find_number`, `C78_find_text`, `C78_find_character`, `C78_second_number`, `C78_second_character`, `C78_length_numbers`, `C78_length_text` |
| C79 Expansion of a script before it is run | `C79_stages`, `C79_listed`, `C79_stumbles`, `C79_macro`, `C79_silent_refuted`, `C79_quote_refuted`, `C79_data_refuted` |
| C80 Code changes only what it can reach | `C80_sound`, `C80_eval`, `C80_call`, `C80_aside_eval`, `C80_aside_call`, `C80_locals`, `C80_healthy`, `C80_local_refuted`, `C80_list_refuted` |
| C81 The loop function foreach of the standard library | `C81_rule`, `C81_lines`, `C81_calls`, `C81_numbers`, `C81_characters`, `C81_every_element_refuted`, `C81_last_value_refuted` |
| C82 The documentation of functions | `C82_title`, `C82_title_unique`, `C82_found`, `C82_listing`, `C82_all`, `C82_html`, `C82_fresh`, `C82_html_fresh`, `C82_crash`, `C82_symbol_refuted`, `C82_function_refuted`, `C82_macro_refuted`, `C82_variable_refuted` |
| C83 The lines typed at the prompt of the debugger | `C83_short`, `C83_code`, `C83_version`, `C83_about`, `C83_help`, `C83_builtins`, `C83_funcs`, `C83_manual`, `C83_doc`, `C83_names`, `C83_clear_never`, `C83_quote_ends`, `C83_variable_refuted` |
| C84 Functions made by functions | `C84_value`, `C84_sets`, `C84_fn`, `C84_maker`, `C84_made_function`, `C84_counters`, `C84_hidden`, `C84_global_refuted` |
| C85 Loops that never end | `C85_statement`, `C85_program`, `C85_saved`, `C85_unchanged` |
| C86 Errors name their place | `C86_arity`, `C86_form`, `C86_unbound`, `C86_item` |
| C87 What a program learns about its surroundings | `C87_break`, `C87_break_debugger`, `C87_platform`, `C87_need`, `C87_pi` |
| C88 Unquoting outside of a template | `C88_atom`, `C88_list`, `C88_evaluates_refuted` |
