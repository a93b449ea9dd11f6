{
 "claims": [
  {
   "property": "C01",
   "status": "proved",
   "theorems": [
    "C01_lossless",
    "C01_ranges_select"
   ],
   "note": ""
  },
  {
   "property": "C02",
   "status": "partial",
   "theorems": [
    "C02_no_crash_partial",
    "C02_finishes",
    "C02_crashes",
    "C02_no_crash_refuted"
   ],
   "note": "False as stated: a backslash followed by a multi-byte character inside a string literal makes split_saturating(2) cut a character and panic (C02_crashes, C02_no_crash_refuted). Proved: that is the only crash, and tokenizing never loops."
  },
  {
   "property": "C03",
   "status": "proved",
   "theorems": [
    "C03_same_text"
   ],
   "note": "The hypothesis on tokenizing is the one of the property (see C02)."
  },
  {
   "property": "C04",
   "status": "proved",
   "theorems": [
    "C04_diagnostics_in_token"
   ],
   "note": ""
  },
  {
   "property": "C05",
   "status": "proved",
   "theorems": [
    "C05_same_words",
    "C05_layout"
   ],
   "note": ""
  },
  {
   "property": "C06",
   "status": "proved",
   "theorems": [
    "C06_parser_finishes",
    "C06_bound_irrelevant",
    "C06_consumes",
    "C06_script_finishes"
   ],
   "note": "The bound is on the depth of nested calls; parsing time can be exponential in the nesting of parentheses."
  },
  {
   "property": "C07",
   "status": "proved",
   "theorems": [
    "C07_no_crash",
    "C07_parses_or_rejects"
   ],
   "note": ""
  },
  {
   "property": "C08",
   "status": "partial",
   "theorems": [
    "C08_operands_kept_partial",
    "C08_operand_occurs_partial",
    "C08_refuted",
    "C08_repeated_key_refuted"
   ],
   "note": "Refuted: an operand directly before the operator ! is dropped, and of two map entries with the same key one is dropped. For all other scripts the operands of the expression are those written, as multisets."
  },
  {
   "property": "C09",
   "status": "proved",
   "theorems": [
    "C09_precedence",
    "C09_three"
   ],
   "note": ""
  },
  {
   "property": "C10",
   "status": "partial",
   "theorems": [
    "C10_reread",
    "C10_round_trip_partial",
    "C10_refuted"
   ],
   "note": "Refuted as stated: a conditional comes back with its alternative in parentheses, a call or function in argument or function position is printed without parentheses, the null character, the empty block and a loop over a range are not understood. Exact result for a large class of expressions: what comes back, and that it is the same expression just when it holds no conditional. Floats other than whole numbers are included (printed as in C102)."
  },
  {
   "property": "C11",
   "status": "proved",
   "theorems": [
    "C11_exact",
    "C11_rejected",
    "C11_leading_zeros",
    "C11_reads_back"
   ],
   "note": "Digit sequences with superfluous leading zeros are rejected as two adjacent literals."
  },
  {
   "property": "C12",
   "status": "proved",
   "theorems": [
    "C12_string_literal"
   ],
   "note": ""
  },
  {
   "property": "C13",
   "status": "proved",
   "theorems": [
    "C13_lookup_innermost",
    "C13_lookup_nowhere",
    "C13_define",
    "C13_undefine",
    "C13_is_defined"
   ],
   "note": "Lookup, definition, removal over scope chains of any length."
  },
  {
   "property": "C14",
   "status": "proved",
   "theorems": [
    "C14_data_stable",
    "C14_too_deep"
   ],
   "note": "Data evaluates to itself up to the recursion limit; beyond it the recursion error."
  },
  {
   "property": "C15",
   "status": "proved",
   "theorems": [
    "C15_quote"
   ],
   "note": ""
  },
  {
   "property": "C16",
   "status": "proved",
   "theorems": [
    "C16_if",
    "C16_other_branch"
   ],
   "note": ""
  },
  {
   "property": "C17",
   "status": "proved",
   "theorems": [
    "C17_let",
    "C17_let_finishes"
   ],
   "note": ""
  },
  {
   "property": "C18",
   "status": "proved",
   "theorems": [
    "C18_call_keeps_variables",
    "C18_symbol_keeps",
    "C18_data_keeps"
   ],
   "note": "Caller's variables after a call of a user function."
  },
  {
   "property": "C19",
   "status": "proved",
   "theorems": [
    "C19_capture",
    "C19_rebinding"
   ],
   "note": ""
  },
  {
   "property": "C20",
   "status": "proved",
   "theorems": [
    "C20_call_independent_of_caller"
   ],
   "note": "For the call of a function value itself; curried calls are C57."
  },
  {
   "property": "C21",
   "status": "proved",
   "theorems": [
    "C21_macro"
   ],
   "note": ""
  },
  {
   "property": "C22",
   "status": "proved",
   "theorems": [
    "C22_for",
    "C22_one_result_each"
   ],
   "note": ""
  },
  {
   "property": "C23",
   "status": "proved",
   "theorems": [
    "C23_sequence",
    "C23_stops"
   ],
   "note": ""
  },
  {
   "property": "C24",
   "status": "proved",
   "theorems": [
    "C24_builtin_free_finishes"
   ],
   "note": ""
  },
  {
   "property": "C25",
   "status": "partial",
   "theorems": [
    "C25_recursion_limit_refuted",
    "C25_recursion_limit_partial"
   ],
   "note": "The statement is false: builtins restart the depth count. Proved: the limit is respected by evaluation that does not pass through a builtin."
  },
  {
   "property": "C26",
   "status": "proved",
   "theorems": [
    "C26_command",
    "C26_argument_fails",
    "C26_words_unique"
   ],
   "note": ""
  },
  {
   "property": "C27",
   "status": "proved",
   "theorems": [
    "C27_no_application_no_effect",
    "application_of_builtin"
   ],
   "note": ""
  },
  {
   "property": "C28",
   "status": "proved",
   "theorems": [
    "C28_outer_scopes",
    "C28_builtins",
    "C28_outer_variable"
   ],
   "note": "For the evaluator and every modelled builtin."
  },
  {
   "property": "C29",
   "status": "proved",
   "theorems": [
    "C29_eval",
    "C29_eval_quoted",
    "C29_exec"
   ],
   "note": ""
  },
  {
   "property": "C30",
   "status": "proved",
   "theorems": [
    "C30_try"
   ],
   "note": ""
  },
  {
   "property": "C31",
   "status": "partial",
   "theorems": [
    "C31_codes_refuted",
    "C31_distinct_refuted",
    "C31_codes_partial",
    "C31_published_partial"
   ],
   "note": "Refuted: permission-denied, program-not-found and syntax-error report code 9 while 6, 7, 8 are published, so reported codes collide. Proved: reported = published exactly for the other six kinds; published codes exist and are distinct."
  },
  {
   "property": "C32",
   "status": "proved",
   "theorems": [
    "C32_exact_arithmetic",
    "C32_exactly_function"
   ],
   "note": "Any number (at least two) of operand expressions with integer values, any host."
  },
  {
   "property": "C33",
   "status": "partial",
   "theorems": [
    "C33_remainder_refuted",
    "C33_remainder_partial"
   ],
   "note": "Refuted: remainder by zero (and MIN % -1) panics. Exact outcome proved for all pairs of integers."
  },
  {
   "property": "C34",
   "status": "partial",
   "theorems": [
    "C34_booleans_refuted",
    "C34_trichotomy_partial",
    "C34_less_equal_partial",
    "C34_transitive"
   ],
   "note": "Refuted for booleans: false and true are unequal and neither is less. Proved for integers, floats other than NaN, strings, bytes and lists and maps of these of any nesting; transitivity for all values."
  },
  {
   "property": "C35",
   "status": "proved",
   "theorems": [
    "C35_equivalence",
    "C35_not_equal"
   ],
   "note": "All expressions, including functions and their captured variables; reflexivity for expressions without NaN."
  },
  {
   "property": "C36",
   "status": "proved",
   "theorems": [
    "C36_take_drop",
    "C36_rev",
    "C36_rev_text",
    "C36_cons",
    "C36_append",
    "C36_len",
    "C36_tail"
   ],
   "note": "Argument expressions of any kind with the given values, any host."
  },
  {
   "property": "C37",
   "status": "proved",
   "theorems": [
    "C37_zip",
    "C37_unzip_zip",
    "C37_zip_unzip",
    "C37_chunk"
   ],
   "note": "All chunk sizes including zero and negative ones."
  },
  {
   "property": "C38",
   "status": "proved",
   "theorems": [
    "C38_map",
    "C38_map_pure",
    "C38_filter",
    "C38_filter_pure",
    "C38_reduce",
    "C38_foldl",
    "C38_foldr",
    "C38_folds_pure",
    "C38_map_staged",
    "C38_filter_staged",
    "C38_reduce_staged",
    "C38_reduce_staged2",
    "C38_filter_staged_refuted"
   ],
   "note": "Any function, including failing ones and ones with side effects. The forms with fewer arguments, which give a function of the missing arguments, are proved for functions whose outcome does not depend on the variables of the caller and that assign none of them. C38_filter_staged_refuted shows why the claim speaks of data lists: on code the two forms of filter differ."
  },
  {
   "property": "C39",
   "status": "partial",
   "theorems": [
    "C39_head_refuted",
    "C39_head_partial"
   ],
   "note": "Refuted: list@head of a non-empty list is None. Exact outcome proved for all lists."
  },
  {
   "property": "C40",
   "status": "proved",
   "theorems": [
    "C40_insert",
    "C40_remove",
    "C40_has",
    "C40_index",
    "C40_union",
    "C40_intersect",
    "C40_difference",
    "C40_keys_values_items",
    "C40_from_items",
    "C40_from_items_last"
   ],
   "note": "Maps of any size as key-sorted lists of entries."
  },
  {
   "property": "C41",
   "status": "proved",
   "theorems": [
    "C41_ranges"
   ],
   "note": "All pairs of integers."
  },
  {
   "property": "C42",
   "status": "proved",
   "theorems": [
    "C42_insert_list",
    "C42_insert_map"
   ],
   "note": "All lists, maps, positions and values."
  },
  {
   "property": "C43",
   "status": "partial",
   "theorems": [
    "C43_split_join_partial",
    "C43_split_refuted",
    "C43_len",
    "C43_string_len_refuted",
    "C43_string_len_partial",
    "C43_rev"
   ],
   "note": "Split and join are inverse for every separator (also the empty one), and no piece contains a non-empty separator, provided no variable is called arg0; with such a variable it is false. len counts characters; string@len counts bytes (refuted, true for ASCII)."
  },
  {
   "property": "C44",
   "status": "partial",
   "theorems": [
    "C44_only_letters",
    "C44_rotates_partial",
    "C44_undone_partial",
    "C44_rot13",
    "C44_undone_refuted"
   ],
   "note": "Only letters change, for all shifts. A shift is a rotation and can be undone for shifts from 0 to 230; for negative shifts the claim is false because the shift is cut to 8 bits."
  },
  {
   "property": "C45",
   "status": "partial",
   "theorems": [
    "C45_fact_partial",
    "C45_fact_negative",
    "C45_fact_overflow",
    "C45_fact_refuted",
    "C45_sum",
    "C45_product",
    "C45_sum_refuted",
    "C45_pow_partial",
    "C45_pow_refuted",
    "C45_iseven",
    "C45_isodd_partial",
    "C45_isodd_refuted"
   ],
   "note": "Exact when the result fits; when it does not, fact, sum and product crash or return the lowest 64 bits instead of reporting an error (exact outcome of fact proved for both build modes). pow is exact with error for exponents from 0 to 2^32-1 and wrong above; isodd is wrong for negative odd numbers."
  },
  {
   "property": "C46",
   "status": "partial",
   "theorems": [
    "C46_no_escapes",
    "C46_undoes_styles_partial",
    "C46_undoes_styles_refuted"
   ],
   "note": "Proved for all texts and all styles except dark white and href, for which it is false."
  },
  {
   "property": "C47",
   "status": "proved",
   "theorems": [
    "C47_session",
    "C47_one_way",
    "C47_some_way"
   ],
   "note": "Texts on which the parser crashes (C05) end the session; every other sequence of lines falls into inputs in exactly one way."
  },
  {
   "property": "C48",
   "status": "proved",
   "theorems": [
    "C48_pipeline",
    "C48_programs"
   ],
   "note": "A failing stage is an expression that fails or a program that cannot be started, given its input or waited for; the exit status of a program that ran is not looked at by the code. C48_pipeline covers mixed pipelines of programs and functions of any length (spec relation flows); C48_programs gives the exact sequence of requests for pipelines of programs."
  },
  {
   "property": "C49",
   "status": "partial",
   "theorems": [
    "C49_cp_existing",
    "C49_mv_existing",
    "C49_same",
    "C49_cp_copies",
    "C49_cp_finishes_partial",
    "C49_cp_finishes_refuted",
    "C49_mv_moves",
    "C49_shell_cp",
    "C49_shell_mv"
   ],
   "note": "Refuted: copying a directory into itself never finishes; copying a path to itself succeeds (without any change) although the destination exists. Everything else proved, for trees without symbolic links and paths without dot-dot, with failures of the operating system at any point."
  },
  {
   "property": "C50",
   "status": "proved",
   "theorems": [
    "C50_levels_and_names",
    "C50_hidden",
    "C50_shown",
    "C50_enabled",
    "C50_set_level",
    "C50_disable",
    "C50_monotone"
   ],
   "note": "Messages with one text argument; hidden messages with any arguments. The shown text is given exactly."
  },
  {
   "property": "C51",
   "status": "proved",
   "theorems": [
    "C51_accepted_scripts",
    "C51_start",
    "C51_integers_fit",
    "C51_session"
   ],
   "note": ""
  },
  {
   "property": "C52",
   "status": "partial",
   "theorems": [
    "C52_line_shown_partial",
    "C52_line_visible_partial",
    "C52_number_exact",
    "C52_refuted",
    "C52_long_line_crashes"
   ],
   "note": "Refuted: an error that starts at the beginning of a line is reported with the number of the line before. The number is right exactly for errors that start later in their line. With overflow checks, printing crashes for lines longer than the error."
  },
  {
   "property": "C53",
   "status": "partial",
   "theorems": [
    "C53_evaluated_again_refuted",
    "C53_evaluated_once_partial",
    "C53_arithmetic_once",
    "C53_comparisons_once",
    "C53_logic_once"
   ],
   "note": "Refuted for arithmetic on operands whose value is code. Proved for all others: arithmetic on operands whose values are data evaluates them from left to right, each once, and stops at the first failure without evaluating the rest; comparisons and logic evaluate each operand once, whatever its value."
  },
  {
   "property": "C54",
   "status": "partial",
   "theorems": [
    "C54_full_application",
    "C54_one_at_a_time",
    "C54_take_drop",
    "C54_exact_operators",
    "C54_plus_refuted",
    "C54_plus_partial",
    "C54_fn_curry_refuted",
    "C54_fn_curry_partial",
    "C54_fn_curry_functions"
   ],
   "note": "The curried builtin functions of the shell agree with the functions they stand for, applied at once or one argument at a time. False as stated for + on strings ((+ \"a\") \"b\" is \"ba\") and for fn@curry when a user variable is called arg0; proved outside these cases, for builtin functions and for functions of the user."
  },
  {
   "property": "C55",
   "status": "proved",
   "theorems": [
    "C55_id",
    "C55_const",
    "C55_flip",
    "C55_compose"
   ],
   "note": "The functions are the parsed and evaluated Dune sources of the fn module. Arguments are pure expressions; how f and g act on values is a hypothesis (acts), shown satisfiable for list@cons and list@len."
  },
  {
   "property": "C56",
   "status": "proved",
   "theorems": [
    "C56_flatten",
    "C56_flatten_nesting",
    "C56_arguments",
    "C56_arguments_nesting"
   ],
   "note": "Both flattening functions: the one for program arguments and the builtin one, which also dissolves maps."
  },
  {
   "property": "C57",
   "status": "partial",
   "theorems": [
    "C57_curried_call_sees_caller_refuted",
    "C20_call_independent_of_caller"
   ],
   "note": "The statement is false (witness by computation); it holds for the single-argument call (C20)."
  },
  {
   "property": "C58",
   "status": "partial",
   "theorems": [
    "C58_negation_refuted",
    "C58_negation_partial"
   ],
   "note": "Refuted: negating the smallest integer wraps or crashes depending on the build. Exact outcome proved for all integers."
  },
  {
   "property": "C59",
   "status": "partial",
   "theorems": [
    "C59_nth_refuted",
    "C59_nth_partial"
   ],
   "note": "Refuted: a position outside the list crashes. Exact outcome proved for all lists and positions."
  },
  {
   "property": "C60",
   "status": "partial",
   "theorems": [
    "C60_file_runs_once_partial",
    "C60_syntax_error_partial",
    "C60_file_runs_once",
    "C60_syntax_error",
    "C60_status_refuted",
    "C60_evaluation_status_refuted"
   ],
   "note": "Refuted: the status is 0 also after syntax and evaluation errors. Evaluation exactly once (or not at all) proved."
  },
  {
   "property": "C61",
   "status": "partial",
   "theorems": [
    "C61_exec_partial",
    "C61_evaluated_twice_refuted"
   ],
   "note": "Refuted: the value is evaluated a second time by the call of report. The exact behaviour is proved."
  },
  {
   "property": "C62",
   "status": "proved",
   "theorems": [
    "C62_value_shown_once",
    "C62_none"
   ],
   "note": "For shells in which report is still the builtin."
  },
  {
   "property": "C63",
   "status": "proved",
   "theorems": [
    "C63_denotes",
    "C63_no_others",
    "C63_unique"
   ],
   "note": ""
  },
  {
   "property": "C64",
   "status": "proved",
   "theorems": [
    "C64_write",
    "C64_read",
    "C64_read_back",
    "C64_append"
   ],
   "note": "For trees without symbolic links. A byte value that is valid UTF-8 is read back as a text."
  },
  {
   "property": "C65",
   "status": "proved",
   "theorems": [
    "C65_rm",
    "C65_mkdir",
    "C65_rmdir",
    "C65_tests"
   ],
   "note": "For trees without symbolic links; a failed rm may have removed a part."
  },
  {
   "property": "C66",
   "status": "partial",
   "theorems": [
    "C66_int",
    "C66_int_all",
    "C66_int_empty",
    "C66_choose",
    "C66_choose_all",
    "C66_choose_empty",
    "C66_shuffle",
    "C66_shuffle_all",
    "C66_no_crash_refuted"
   ],
   "note": "Refuted in one part: rand@int with an empty range and rand@choose with an empty list crash the shell, and these are described exactly. Bounds, membership, permutation and reachability of every value proved."
  },
  {
   "property": "C67",
   "status": "partial",
   "theorems": [
    "C67_lines_unique",
    "C67_lines",
    "C67_head",
    "C67_tail_partial",
    "C67_no_text",
    "C67_tail_refuted"
   ],
   "note": "Refuted for fs@tail, which gives the last lines in reverse order; C67_tail_partial says exactly that. The rest is proved."
  },
  {
   "property": "C68",
   "status": "proved",
   "theorems": [
    "C68_cd"
   ],
   "note": "Three cases: entered, found but not entered, not found."
  },
  {
   "property": "C69",
   "status": "partial",
   "theorems": [
    "C69_function_refuted",
    "C69_sys_cd",
    "C69_agree_partial"
   ],
   "note": "Refuted: cd in a function tells the process but the variable goes away with the scope of the function; sys@cd never tells the process. Outside functions the two agree after cd."
  },
  {
   "property": "C70",
   "status": "proved",
   "theorems": [
    "C70_include",
    "C70_import",
    "C70_rejected"
   ],
   "note": ""
  },
  {
   "property": "C71",
   "status": "proved",
   "theorems": [
    "C71_int_text",
    "C71_back",
    "C71_int_float"
   ],
   "note": ""
  },
  {
   "property": "C72",
   "status": "partial",
   "theorems": [
    "C72_set",
    "C72_set_value_refuted",
    "C72_unset",
    "C72_defined"
   ],
   "note": "Refuted in one part: set stores the expression unevaluated. The rest, and exactly what set stores, is proved; after unset in a scope with an outer scope the outer value reappears."
  },
  {
   "property": "C73",
   "status": "partial",
   "theorems": [
    "C73_exit",
    "C73_exit_plain",
    "C73_exit_other",
    "C73_not_caught",
    "C73_last",
    "C73_code_refuted"
   ],
   "note": "Refuted in one part: codes are cut to 32 bits, so that 2^32 is reported as 0; exact code proved. What the operating system keeps of the code is not modelled."
  },
  {
   "property": "C74",
   "status": "partial",
   "theorems": [
    "C74_create_partial",
    "C74_refused",
    "C74_create_refuted"
   ],
   "note": "Refuted for titles with a line feed, which break the frame. Proved for titles of one line and wrapped lines that fit the width (the wrapping library is a parameter). Refusals of sizes proved."
  },
  {
   "property": "C75",
   "status": "partial",
   "theorems": [
    "C75_joinx",
    "C75_joinx_rectangles",
    "C75_joinx_heights",
    "C75_joiny_partial",
    "C75_joiny_rectangles_partial",
    "C75_joiny_blank",
    "C75_joiny_refuted"
   ],
   "note": "joinx proved; the result ends with a line feed. joiny refuted: texts are trimmed, so blank rows at the ends are lost, and a blank text crashes the shell. Proved for texts that have nothing to trim."
  },
  {
   "property": "C76",
   "status": "proved",
   "theorems": [
    "C76_ls",
    "C76_usable"
   ],
   "note": "On the modelled disk without failing system calls."
  },
  {
   "property": "C77",
   "status": "partial",
   "theorems": [
    "C77_tree_partial",
    "C77_depth_partial",
    "C77_root",
    "C77_depth_refuted",
    "C77_unreadable_refuted"
   ],
   "note": "Refuted: the depth is ignored, an unreadable directory looks empty, and the root crashes the shell. Proved: below the root and with every directory readable the map describes the directory exactly, for any depth."
  },
  {
   "property": "C78",
   "status": "partial",
   "theorems": [
    "C78_glob",
    "C78_usable",
    "C78_error",
    "C78_malformed"
   ],
   "note": "The matching library is a parameter. Proved but for malformed patterns, which crash the shell instead of giving an error (C78_malformed)."
  },
  {
   "property": "C79",
   "status": "partial",
   "theorems": [
    "C79_sleep_partial",
    "C79_negative",
    "C79_sleep_refuted",
    "C79_float",
    "C79_other",
    "C79_now"
   ],
   "note": "Refuted for negative integers, which wait 2^64 + n milliseconds; the exact time is proved for all integers and finite floats."
  },
  {
   "property": "C80",
   "status": "partial",
   "theorems": [
    "C80_write",
    "C80_clear",
    "C80_move_to",
    "C80_move_partial",
    "C80_move_refuted",
    "C80_title_refuted"
   ],
   "note": "Refuted: moving by 0 moves by 1, and the sequence that sets the title is never ended. The rest is proved against a small terminal."
  },
  {
   "property": "C81",
   "status": "partial",
   "theorems": [
    "C81_named_partial",
    "C81_character",
    "C81_function_keys_refuted",
    "C81_distinct_refuted",
    "C81_distinct_partial"
   ],
   "note": "Refuted for the function keys, none of which is given as in the table; F5 and page-up give the same text. Proved for all other keys."
  },
  {
   "property": "C82",
   "status": "partial",
   "theorems": [
    "C82_json",
    "C82_toml",
    "C82_refused",
    "C82_empty_refuted"
   ],
   "note": "Refuted for the empty text, which is no JSON but gives None. The rest is proved; the libraries that read the texts are parameters."
  },
  {
   "property": "C83",
   "status": "proved",
   "theorems": [
    "C83_parse",
    "C83_rejected",
    "C83_exec",
    "C83_eval",
    "C83_not_run"
   ],
   "note": "The empty text is excluded; parse@expr gives None for it."
  },
  {
   "property": "C84",
   "status": "partial",
   "theorems": [
    "C84_hint_partial",
    "C84_first",
    "C84_history",
    "C84_hint_refuted",
    "C84_elsewhere_refuted"
   ],
   "note": "Refuted: t is completed to texit 0, and a line inside a command (like i) gets the whole command. Proved for every other beginning of a command; the exact hint is proved for all lines."
  },
  {
   "property": "C85",
   "status": "partial",
   "theorems": [
    "C85_entered",
    "C85_unentered_partial",
    "C85_middle_refuted",
    "C85_place_refuted"
   ],
   "note": "The library that finds files is a parameter. Refuted when the working directory cannot be entered and the cursor is inside the line, or the completer begins inside the path; proved for the cursor at the end."
  },
  {
   "property": "C86",
   "status": "partial",
   "theorems": [
    "C86_modules",
    "C86_directories",
    "C86_working_directory",
    "C86_family_partial",
    "C86_family_refuted",
    "C86_names"
   ],
   "note": "Refuted for os@family on Amazon Linux (android) and Solus (unix); the rest is proved."
  },
  {
   "property": "C87",
   "status": "proved",
   "theorems": [
    "C87_one_way",
    "C87_trim",
    "C87_others",
    "C87_again",
    "C87_whitespace"
   ],
   "note": "For strings and symbols, with any expression as argument."
  },
  {
   "property": "C88",
   "status": "partial",
   "theorems": [
    "C88_words_unique",
    "C88_words",
    "C88_words_again",
    "C88_chars",
    "C88_paragraphs_partial",
    "C88_paragraphs_refuted"
   ],
   "note": "Words and characters proved. Refuted for paragraphs: more than one blank line gives empty paragraphs and paragraphs beginning with a line feed; the exact pieces are proved."
  },
  {
   "property": "C89",
   "status": "partial",
   "theorems": [
    "C89_tests",
    "C89_replace",
    "C89_same",
    "C89_gone_refuted",
    "C89_gone_partial"
   ],
   "note": "Refuted in one part: replacing can make the old text come up again. It cannot when the new text is not empty and has no character in common with the old one. The exact result is proved for all texts."
  },
  {
   "property": "C90",
   "status": "partial",
   "theorems": [
    "C90_upper_lower",
    "C90_again",
    "C90_title",
    "C90_title_again",
    "C90_is_upper_partial",
    "C90_is_upper_refuted"
   ],
   "note": "Refuted in one part: is-upper and is-lower are false for texts with a space or digit, hence for results of to-upper and to-lower. The rest is proved, and exactly when is-upper holds."
  },
  {
   "property": "C91",
   "status": "partial",
   "theorems": [
    "C91_split_at_partial",
    "C91_split_at_refuted"
   ],
   "note": "Refuted: positions count bytes, and one inside a character or after the end crashes the shell. Exact outcome proved for all texts and positions."
  },
  {
   "property": "C92",
   "status": "proved",
   "theorems": [
    "C92_width"
   ],
   "note": "Lines are the pieces between line feeds."
  },
  {
   "property": "C93",
   "status": "partial",
   "theorems": [
    "C93_printing",
    "C93_text",
    "C93_empty_refuted"
   ],
   "note": "Refuted in one part: without arguments println and echo print nothing. The exact output for all other calls is proved."
  },
  {
   "property": "C94",
   "status": "proved",
   "theorems": [
    "C94_input",
    "C94_fails",
    "C94_read"
   ],
   "note": "The line editor and the terminal are the host."
  },
  {
   "property": "C95",
   "status": "partial",
   "theorems": [
    "C95_help",
    "C95_everything_refuted"
   ],
   "note": "Refuted in one part: functions written in the language itself (math@max) and modules are not explained. Exact behaviour proved for all arguments."
  },
  {
   "property": "C96",
   "status": "partial",
   "theorems": [
    "C96_shift",
    "C96_determined",
    "C96_exact",
    "C96_other_amounts",
    "C96_error_refuted",
    "C96_others"
   ],
   "note": "Refuted in one part: other amounts crash a debug build and are taken modulo 64 in a release build. Proved for amounts from 0 to 63, and the exact outcome for others."
  },
  {
   "property": "C97",
   "status": "partial",
   "theorems": [
    "C97_abs",
    "C97_least_refuted"
   ],
   "note": "Refuted for the least integer: it crashes a debug build and keeps its sign in a release build. Proved for all others."
  },
  {
   "property": "C98",
   "status": "proved",
   "theorems": [
    "C98_rounding",
    "C98_total",
    "C98_others"
   ],
   "note": "Rounding is modelled exactly, on the bits of the float; the specification is in rational numbers."
  },
  {
   "property": "C99",
   "status": "proved",
   "theorems": [
    "C99_arithmetic",
    "C99_determined",
    "C99_special",
    "C99_complete"
   ],
   "note": "The specification rounds rational numbers; the model computes on the bits."
  },
  {
   "property": "C100",
   "status": "proved",
   "theorems": [
    "C100_exact",
    "C100_rejected"
   ],
   "note": "The value is compared with the rational number that the digits denote. A literal beyond the greatest float gives an infinity."
  },
  {
   "property": "C101",
   "status": "partial",
   "theorems": [
    "C101_finite",
    "C101_infinite",
    "C101_others",
    "C101_mixed_refuted"
   ],
   "note": "Refuted for an integer and a float: they are never equal, less or greater. Proved for two floats, and the exact outcome for mixed ones."
  },
  {
   "property": "C102",
   "status": "partial",
   "theorems": [
    "C102_fraction",
    "C102_shortest",
    "C102_whole",
    "C102_special",
    "C102_read_back_refuted"
   ],
   "note": "Refuted for whole floats: 1.0 is printed as 1 and read as an integer. Proved for all floats that are no whole numbers; for the others the exact outcome: whole numbers are read as integers (the same number below 2^53) or refused outside the range of integers; infinities and NaN are read as names. The printing of floats is that of the Rust library, modelled by its documented behaviour (shortest digits, then nearest)."
  },
  {
   "property": "C103",
   "status": "partial",
   "theorems": [
    "C103_points_into_text",
    "C103_shown",
    "C103_crash",
    "C103_refuted"
   ],
   "note": "Proved for builds without overflow checks. Refuted with overflow checks: a piece of several lines whose last line has more than 72 characters; this is the only crash (C103_crash)."
  },
  {
   "property": "C104",
   "status": "proved",
   "theorems": [
    "C104_builtin",
    "C104_evaluation",
    "C104_no_overflow_crash",
    "C104_errors_shown",
    "C104_too_few",
    "C104_happens",
    "C104_overflow_happens",
    "C104_refuted"
   ],
   "note": "The list is CrashSpec.v. C104_refuted: a program that crashes the shell. Not modelled: failures of standard output, exhausted memory and stack."
  },
  {
   "property": "C105",
   "status": "partial",
   "theorems": [
    "C105_choice",
    "C105_apply",
    "C105_count",
    "C105_list",
    "C105_list_refuted",
    "C105_apply_refuted"
   ],
   "note": "Refuted for list@list: it gives its arguments unevaluated (exact outcome C105_list); fn@apply evaluates items that are code once more (exact outcome C105_apply). The rest is proved."
  },
  {
   "property": "C106",
   "status": "partial",
   "theorems": [
    "C106_parse",
    "C106_block",
    "C106_none",
    "C106_quote",
    "C106_eval_quote_refuted"
   ],
   "note": "Refuted for sys@quote: it gives a quotation, which must be evaluated once more (exact outcome C106_quote). sys@parse is proved, with the texts that crash the tokenizer as the third outcome."
  },
  {
   "property": "C107",
   "status": "proved",
   "theorems": [
    "C107_vars",
    "C107_no_enclosing_scope",
    "C107_cwd"
   ],
   "note": "That the bindings are sorted by name is a hypothesis here and a property of every environment (C109)."
  },
  {
   "property": "C108",
   "status": "proved",
   "theorems": [
    "C108_ascii",
    "C108_each_character",
    "C108_alphanumeric",
    "C108_empty",
    "C108_others"
   ],
   "note": "Which characters beyond ASCII are letters or digits is a parameter (Unicode tables of the standard library of Rust); for these the claim is that the text is of the kind if each character is."
  },
  {
   "property": "C109",
   "status": "proved",
   "theorems": [
    "C109_accepted_scripts",
    "C109_start",
    "C109_evaluation",
    "C109_maps",
    "C109_session",
    "C109_all_variables"
   ],
   "note": ""
  },
  {
   "property": "C110",
   "status": "proved",
   "theorems": [
    "C110_root",
    "C110_unique",
    "C110_square",
    "C110_integer_square",
    "C110_special"
   ],
   "note": "Rust promises that f64::sqrt is the correctly rounded root; the model uses the algorithm of the standard library of Coq, which is proved here to be that"
  },
  {
   "property": "C111",
   "status": "partial",
   "theorems": [
    "C111_integer",
    "C111_others",
    "C111_host",
    "C111_pi",
    "C111_pi_constant",
    "C111_library",
    "C111_log",
    "C111_log_self",
    "C111_log_base",
    "C111_powers_refuted"
   ],
   "note": "refuted: with the best natural logarithms log10 1000 is less than 3; the rest is proved"
  },
  {
   "property": "C112",
   "status": "partial",
   "theorems": [
    "C112_outcome",
    "C112_zero_refuted",
    "C112_one_refuted",
    "C112_whole_refuted"
   ],
   "note": "refuted: the formula squares the logarithm; fact 0.0 is NaN on every machine and fact 1.0 is 3.0"
  },
  {
   "property": "C113",
   "status": "proved",
   "theorems": [
    "C113_fixed",
    "C113_library",
    "C113_cursor",
    "C113_alternate",
    "C113_size",
    "C113_flush",
    "C113_mode"
   ],
   "note": ""
  },
  {
   "property": "C114",
   "status": "partial",
   "theorems": [
    "C114_to_string",
    "C114_twice",
    "C114_wrap",
    "C114_wrap_width",
    "C114_wrap_negative_refuted",
    "C114_canon",
    "C114_debug"
   ],
   "note": "refuted: a negative width is taken for one of more than 2^63 columns; the rest is proved"
  },
  {
   "property": "C115",
   "status": "proved",
   "theorems": [
    "C115_source_default",
    "C115_source_intro",
    "C115_source_read",
    "C115_definitions",
    "C115_new_shell",
    "C115_leap",
    "C115_month"
   ],
   "note": ""
  },
  {
   "property": "C116",
   "status": "partial",
   "theorems": [
    "C116_weekday_partial",
    "C116_unique",
    "C116_early_refuted",
    "C116_negative_refuted",
    "C116_late_refuted"
   ],
   "note": "proved for the years 1 to 2^53; refuted for year 0, negative years (negative days of the week) and the year 2^53 + 3 (floats)"
  },
  {
   "property": "C117",
   "status": "partial",
   "theorems": [
    "C117_calendar_partial",
    "C117_framed",
    "C117_crash_refuted"
   ],
   "note": "proved for the years 1 to 2^53; refuted for later years: the shell crashes on a negative number of spaces before the heading. What the line breaking library does to the lines is a parameter; C117_framed assumes that it removes at most spaces at their ends"
  },
  {
   "property": "C118",
   "status": "partial",
   "theorems": [
    "C118_even",
    "C118_list",
    "C118_distinct",
    "C118_width",
    "C118_wide_refuted",
    "C118_fits_refuted"
   ],
   "note": "proved except for the last sentence, which is refuted: the padding of the frame is not counted, so a frame can be wider than the terminal by two columns for each element; and the bytes of nested frames are counted instead of their columns, so lists that fit are not framed"
  },
  {
   "property": "C119",
   "status": "partial",
   "theorems": [
    "C119_map",
    "C119_panics",
    "C119_total",
    "C119_crash_refuted"
   ],
   "note": "the last sentence is refuted for builds with overflow checks: C119_panics says exactly which values crash them (a list under a key longer than the terminal less three); other builds never crash"
  },
  {
   "property": "C120",
   "status": "proved",
   "theorems": [
    "C120_startup",
    "C120_new",
    "C120_prompt",
    "C120_incomplete",
    "C120_shown_unique"
   ],
   "note": "directories of less than 2^62 characters"
  },
  {
   "property": "C121",
   "status": "partial",
   "theorems": [
    "C121_join",
    "C121_empty_refuted"
   ],
   "note": "proved for lists with at least one element; for the empty list the statement is refuted: the text is None"
  },
  {
   "property": "C122",
   "status": "partial",
   "theorems": [
    "C122_statements",
    "C122_new",
    "C122_definitions",
    "C122_exit",
    "C122_status_refuted",
    "C122_concat",
    "C122_get"
   ],
   "note": "proved but for the status: exit, quit and q always end the shell with status 0, so that exit reports the status it is given is refuted (the start-up script replaces the built-in exit)"
  },
  {
   "property": "C123",
   "status": "partial",
   "theorems": [
    "C123_ssh",
    "C123_scp",
    "C123_option_refuted"
   ],
   "note": "proved if the caller has no variable called -X or -r; otherwise refuted: the value of the variable replaces the option"
  },
  {
   "property": "C124",
   "status": "partial",
   "theorems": [
    "C124_new",
    "C124_glob",
    "C124_dot",
    "C124_contains_refuted"
   ],
   "note": "proved with the condition that the name contains the text once; a name that contains it again after the first place is left out, so the statement is refuted: as listed names begin with ./, the dot finds exactly the names without a dot. Names of less than 2^62 characters"
  },
  {
   "property": "C125",
   "status": "partial",
   "theorems": [
    "C124_new",
    "C125_include",
    "C125_use",
    "C125_unread",
    "C125_rejected",
    "C125_empty",
    "C125_leaves_refuted"
   ],
   "note": "proved but for one variable: the name of the file stays behind as the variable file, so that use leaves all variables as they were is refuted"
  },
  {
   "property": "C126",
   "status": "partial",
   "theorems": [
    "C126_new",
    "C126_definitions",
    "C126_report",
    "C126_reports",
    "C126_val_refuted"
   ],
   "note": "proved for less than 2^62 reports but for the variables: val takes the value reported, and the message sets the variable _, so that no variable of the user changes is refuted"
  },
  {
   "property": "C127",
   "status": "partial",
   "theorems": [
    "C127_function",
    "C127_topic",
    "C127_me",
    "C127_hidden_refuted"
   ],
   "note": "proved for arguments whose value is the topic or a builtin function; a variable with the name of a topic hides it (refuted)"
  },
  {
   "property": "C128",
   "status": "proved",
   "theorems": [
    "C128_new",
    "C128_write",
    "C128_append",
    "C128_program",
    "C128_feed",
    "C128_file"
   ],
   "note": "the left side is an expression or a program whose output is captured; disks as in C64"
  },
  {
   "property": "C129",
   "status": "partial",
   "theorems": [
    "C129_new",
    "C129_pick",
    "C129_integers",
    "C129_bound",
    "C129_mixed_refuted"
   ],
   "note": "proved for values of one type that are compared by their contents; an integer and a float are not compared as numbers, the second is given (refuted)"
  },
  {
   "property": "C130",
   "status": "proved",
   "theorems": [
    "C130_same",
    "C130_new",
    "C130_definition",
    "C130_banner"
   ],
   "note": "the names the banner uses are those of a new shell (proved for every new shell); the calendar is a parameter of the host"
  },
  {
   "property": "C131",
   "status": "proved",
   "theorems": [
    "C131_new",
    "C131_definitions",
    "C131_picture",
    "C131_unique",
    "C131_fits"
   ],
   "note": "the table of descriptions is in WeatherSpec.v; the request to the weather service is not part of it"
  },
  {
   "property": "C132",
   "status": "partial",
   "theorems": [
    "C132_same",
    "C132_new",
    "C132_definitions",
    "C132_dashboard",
    "C132_cal",
    "C132_one_day_refuted"
   ],
   "note": "everything but the last sentence is proved, for a line breaker that keeps lines that are short enough except for spaces at their ends; banner and calendar can show different days, because the clock is read twice (refuted); the branch with a key for the weather service is not covered"
  },
  {
   "property": "C133",
   "status": "partial",
   "theorems": [
    "C133_game",
    "C133_plays",
    "C133_ends",
    "C133_outcomes",
    "C133_color",
    "C133_stuck",
    "C133_arguments_refuted"
   ],
   "note": "everything but the last sentence is proved, for any engine behind the interface of the crate chess-engine; without an argument the shell crashes (refuted)"
  },
  {
   "property": "C134",
   "status": "partial",
   "theorems": [
    "C134_same",
    "C134_new",
    "C134_defined",
    "C134_say",
    "C134_fits_refuted"
   ],
   "note": "everything but the last sentence is proved, for texts whose lines need no wrapping; the bubble can be wider than the terminal (refuted)"
  },
  {
   "property": "C135",
   "status": "proved",
   "theorems": [
    "C135_script",
    "C135_ready",
    "C135_start",
    "C135_run"
   ],
   "note": "the whole script, as the parser reads the included file; both readings of the clock give the same time (C132 treats different ones)"
  },
  {
   "property": "C136",
   "status": "proved",
   "theorems": [
    "C136_ask",
    "C136_no_key",
    "C136_set",
    "C136_key_alone",
    "C136_new"
   ],
   "note": "an answer that is not UTF-8 is not treated here"
  }
 ]
}
