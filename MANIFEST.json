{
 "claims": [
  {
   "property": "C01",
   "status": "proved",
   "theorems": [
    "C01_ids_contiguous",
    "C01_creation_order",
    "C01_blocks"
   ],
   "note": "For every list of files and options; N is the sum of what the distinct files offer. Ids are natural numbers (the tool's int counter is assumed not to overflow)."
  },
  {
   "property": "C02",
   "status": "proved",
   "theorems": [
    "C02_rewritten_once",
    "C02_skipped_files_are_inert"
   ],
   "note": "Skipped files: repeated name, parse failure, no mutants. Assumes equal names mean the same file."
  },
  {
   "property": "C03",
   "status": "proved",
   "theorems": [
    "C03_coverage_numbering",
    "C03_sites"
   ],
   "note": "Whole runs and site by site."
  },
  {
   "property": "C04",
   "status": "proved",
   "theorems": [
    "C04_described_once",
    "C04_request_is_harmless"
   ],
   "note": "Assumes the prelude location lies inside the file."
  },
  {
   "property": "C05",
   "status": "proved",
   "theorems": [
    "C05_flat_tree"
   ],
   "note": "Decoding is unique; indices other than 0 are children exactly once; tree describes the tidied mutation tree."
  },
  {
   "property": "C06",
   "status": "proved",
   "theorems": [
    "C06_tidy_keeps_entries",
    "C06_tidy_is_tidy",
    "C06_tidy_idempotent"
   ],
   "note": "Polymorphic in the mutation type, so labelled occurrences are covered."
  },
  {
   "property": "C07",
   "status": "proved",
   "theorems": [
    "C07_tests_match_actions",
    "C07_c_logical"
   ],
   "note": "All site kinds, both languages; the three helper functions that encode && and || in C are covered by C07_c_logical (and their use in programs by C16)."
  },
  {
   "property": "C08",
   "status": "proved",
   "theorems": [
    "C08_exactly_the_listed"
   ],
   "note": "Items may be signed and surrounded by blanks; numbers must not overflow int after subtracting the first id."
  },
  {
   "property": "C09",
   "status": "partial",
   "theorems": [
    "C09_answers_are_stable",
    "C09_flag_is_safe",
    "C09_flag_is_exact",
    "C09_c_atomic_queries_partial",
    "C09_c_alone_partial",
    "C09_c_threads_refuted"
   ],
   "note": "Proved for C++; C proved with atomic queries and for a thread initialising alone, refuted for threads that initialise at the same time (strtok)."
  },
  {
   "property": "C10",
   "status": "partial",
   "theorems": [
    "C10_same_for_lists_partial",
    "C10_refuted"
   ],
   "note": "Proved for lists of items that begin with decimal ints (any text may follow the number), refuted for other values; C64 says what both languages do with every value."
  },
  {
   "property": "C11",
   "status": "proved",
   "theorems": [
    "C11_same_behaviour",
    "C11_never_stuck"
   ],
   "note": "Calls of the functions of one mutated file with one thread, operands unsequenced (the C++17 order is C12). Finishing, undefined behaviour, intermediate memories (output) and divergence; the mutated program never gets stuck."
  },
  {
   "property": "C12",
   "status": "partial",
   "theorems": [
    "C12_sequenced_partial",
    "C12_refuted"
   ],
   "note": "Proved where the operand that comes second is delayed; refuted otherwise (by-reference left operand)."
  },
  {
   "property": "C13",
   "status": "partial",
   "theorems": [
    "C13_one_mutant_partial",
    "C13_operands_needed",
    "C13_unique",
    "C13_c_refuted",
    "C13_undefined_refuted"
   ],
   "note": "Proved if the operands that the mutant drops but that are not delayed are harmless, and without condition if it drops none; refuted for dropped operands with effects (C) or undefined behaviour (C and C++). The full behaviour is C48."
  },
  {
   "property": "C14",
   "status": "proved",
   "theorems": [
    "C14_like_unset",
    "C14_inert"
   ],
   "note": "States and answers are those of an unset variable."
  },
  {
   "property": "C15",
   "status": "partial",
   "theorems": [
    "C15_smallest",
    "C15_source_partial",
    "C15_refuted"
   ],
   "note": "Proved for C++, and for C unless the second and third mutant of && or || are enabled without the first, where it is refuted."
  },
  {
   "property": "C16",
   "status": "proved",
   "theorems": [
    "C16_first",
    "C16_second",
    "C16_third"
   ],
   "note": "First mutant on whole programs; second and third on the operator as described by C48: truth value of the operand, with the evaluation of the other operand as in the original (second) or before (third)."
  },
  {
   "property": "C17",
   "status": "proved",
   "theorems": [
    "C17_removed",
    "C17_one_removed"
   ],
   "note": "Any set of removals, and one removal as a one-place change."
  },
  {
   "property": "C18",
   "status": "partial",
   "theorems": [
    "C18_sites",
    "C18_layout",
    "C18_recorded_exactly_without_optimisation",
    "C18_recorded_exactly_partial",
    "C18_refuted"
   ],
   "note": "Proved without optimisation and whenever every site has a mutant; refuted with optimisation."
  },
  {
   "property": "C19",
   "status": "partial",
   "theorems": [
    "C19_exact_under_concurrency"
   ],
   "note": "For arbitrary non-overlapping non-empty sites; same exception as C18. A line of the tracking file is appended atomically."
  },
  {
   "property": "C20",
   "status": "partial",
   "theorems": [
    "C20_in_bounds_without_optimisation",
    "C20_in_bounds_partial",
    "C20_refuted"
   ],
   "note": "Proved without optimisation and whenever every site has a mutant; refuted with optimisation."
  },
  {
   "property": "C21",
   "status": "proved",
   "theorems": [
    "C21_every_site_has_a_mutant"
   ],
   "note": "For mutations as the visitor creates them (hypothesis plausible)."
  },
  {
   "property": "C22",
   "status": "partial",
   "theorems": [
    "C22_coverage_partial",
    "C22_coverage_unoptimised",
    "C22_refuted"
   ],
   "note": "Proved if every site has a mutant, in particular without optimisation, and (in C) the tracking file can be opened; refuted with optimisation."
  },
  {
   "property": "C23",
   "status": "proved",
   "theorems": [
    "C23_optimisation_only_removes"
   ],
   "note": "All site kinds."
  },
  {
   "property": "C24",
   "status": "proved",
   "theorems": [
    "C24_comparison_operators",
    "C24_comparison_wrappers",
    "C24_logical_operators",
    "C24_operand_replacement_refuted"
   ],
   "note": "Comparisons (either kind of operand, including unordered floats), the two negation wrappers and the logical operators. The operand replacements of comparisons, which the statement leaves out, are not covered (C24_operand_replacement_refuted)."
  },
  {
   "property": "C25",
   "status": "partial",
   "theorems": [
    "C25_operators",
    "C25_skipped_sites",
    "C25_unsigned_refuted"
   ],
   "note": "All replacement operators at sites; skipped sites 0 op 1 for signed types; refuted for unsigned types (0u - 1u). Shifts follow C++20, which defines the most cases."
  },
  {
   "property": "C26",
   "status": "partial",
   "theorems": [
    "C26_replacements",
    "C26_insertions",
    "C26_skipped_not",
    "C26_minus_one_refuted",
    "C26_unsigned_not_refuted"
   ],
   "note": "Replacements, insertions, and the skipped sites ~0, ~1 of signed type; refuted for the skipped sites -1 (~1 is -2) and ~1u."
  },
  {
   "property": "C27",
   "status": "proved",
   "theorems": [
    "C27_same_text",
    "C27_written_files"
   ],
   "note": "For nodes typed as Clang types them (clang_node): value and truth value of a bool are known together, result types follow from operand types, increments take modifiable l-values. For pairs of sites and for the files of a run."
  },
  {
   "property": "C28",
   "status": "proved",
   "theorems": [
    "C28_inserted_text",
    "C28_deterministic",
    "C28_written_files"
   ],
   "note": "Stated on the text written to each file."
  },
  {
   "property": "C29",
   "status": "proved",
   "theorems": [
    "C29_nested",
    "C29_balanced",
    "C29_file",
    "C29_buffer",
    "C29_buffer_file"
   ],
   "note": "C29_buffer relates the model of edits to the text and deltas that Clang keeps. Whole files of a run, for trees whose places do not touch (touching statements are C30); array size rewrites of the constants pass are assumed absent. The text of a node with its call is Cst.mutate, which is also what the behaviour properties are about."
  },
  {
   "property": "C30",
   "status": "partial",
   "theorems": [
    "C30_spaced_partial",
    "C30_touching",
    "C30_refuted"
   ],
   "note": "Proved if something separates the statements; refuted, for every pair, if not."
  },
  {
   "property": "C31",
   "status": "proved",
   "theorems": [
    "C31_short_snippets",
    "C31_long_snippets"
   ],
   "note": "Both the short and the snipped form."
  },
  {
   "property": "C32",
   "status": "partial",
   "theorems": [
    "C32_text_recovered_partial",
    "C32_text_recovered_lf_partial",
    "C32_utf8_partial",
    "C32_utf8_lf_partial",
    "C32_refuted",
    "C32_split_token_refuted"
   ],
   "note": "Proved for every file in UTF-8 if what precedes the beginning and the end of the range on their lines is ASCII and the last token is on one line (line ends are read as line feeds); refuted for non-ASCII text earlier on the line and for a last token split by backslash-newline."
  },
  {
   "property": "C33",
   "status": "partial",
   "theorems": [
    "C33_array_sizes",
    "C33_arguments_partial",
    "C33_static_assertions",
    "C33_negative_values",
    "C33_refuted",
    "C33_enumeration_refuted"
   ],
   "note": "Array sizes and static assertions in full; arguments for values from 0 to 2^64-1; refuted for negative values and for unscoped enumerations."
  },
  {
   "property": "C34",
   "status": "partial",
   "theorems": [
    "C34_constant_code_untouched",
    "C34_expressions_only_in_functions",
    "C34_specialization_refuted"
   ],
   "note": "Every listed context, except that the exact statement says which specializations of constexpr variable templates are left out: lambdas in their initialisers still get removals (refuted)."
  },
  {
   "property": "C35",
   "status": "proved",
   "theorems": [
    "C35_exactly_the_removable_statements",
    "C35_removed_once"
   ],
   "note": "Positions are paths in the AST; 'traversed' is the specification's open_path."
  },
  {
   "property": "C36",
   "status": "proved",
   "theorems": [
    "C36_largest_id",
    "C36_every_mutant_is_shown",
    "C36_other_ids_unknown"
   ],
   "note": "Every id of every info tree of a run, and ids outside."
  },
  {
   "property": "C37",
   "status": "partial",
   "theorems": [
    "C37_good_ranges_accepted",
    "C37_bad_ranges_rejected_partial",
    "C37_refuted"
   ],
   "note": "Good ranges are always accepted; bad ones are rejected unless they end on an earlier line at a larger column (refuted)."
  },
  {
   "property": "C38",
   "status": "proved",
   "theorems": [
    "C38_failed_files_exact"
   ],
   "note": "Any sequence of files and diagnostics for which main finishes."
  },
  {
   "property": "C39",
   "status": "proved",
   "theorems": [
    "C39_interrupted_run",
    "C39_prefix"
   ],
   "note": "Stopping points between file system writes; the atomicity of a single write is left to LLVM."
  },
  {
   "property": "C40",
   "status": "partial",
   "theorems": [
    "C40_accepted_partial",
    "C40_text_determines_type",
    "C40_bool_refuted",
    "C40_register_refuted",
    "C40_vector_element_refuted",
    "C40_xvalue_refuted",
    "C40_extension_refuted"
   ],
   "note": "Generated functions, their calls, the way arguments are written, and the type and value category of the call, for nodes typed as Clang types them. Refuted for ++ on bool before C++17, register variables in C, vector elements, x-values and __extension__."
  },
  {
   "property": "C41",
   "status": "partial",
   "theorems": [
    "C41_inserted",
    "C41_outermost_partial",
    "C41_refuted",
    "C41_dollar_refuted"
   ],
   "note": "Proved for all inserted texts among each other and towards the text after them, and towards the text before them where the last mutation at the offset replaces an expression; refuted for operators in C++ and after a dollar sign."
  },
  {
   "property": "C42",
   "status": "proved",
   "theorems": [
    "C42_rule",
    "C42_not_mutated"
   ],
   "note": "The rule (members and arguments of temporaries) and its use; what the rule misses is C50."
  },
  {
   "property": "C43",
   "status": "partial",
   "theorems": [
    "C43_errors_do_not_stop_others_partial",
    "C43_driver_error_refuted",
    "C43_missing_command_refuted",
    "C43_forwarded_clear_refuted"
   ],
   "note": "Proved for accepted command lines, refuted for driver errors that do not stop and for missing compile commands; relies on ChainedDiagnosticConsumer not forwarding clear()."
  },
  {
   "property": "C44",
   "status": "partial",
   "theorems": [
    "C44_strtok_results_partial",
    "C44_refuted"
   ],
   "note": "strtok only. Proved for C++ and for an unset variable, refuted for C."
  },
  {
   "property": "C45",
   "status": "partial",
   "theorems": [
    "C45_cpp_tolerates_partial",
    "C45_refuted"
   ],
   "note": "Proved for C++, refuted for C."
  },
  {
   "property": "C46",
   "status": "partial",
   "theorems": [
    "C46_labels_and_declarations_stay_partial",
    "C46_value_refuted",
    "C46_fallthrough_refuted"
   ],
   "note": "Removed statements are never declarations, labels or null statements, and are components of a block; refuted for the value of a statement expression and for [[fallthrough]]."
  },
  {
   "property": "C47",
   "status": "partial",
   "theorems": [
    "C47_self_inverse",
    "C47_only_self_inverse_dropped",
    "C47_unsigned_minus_refuted",
    "C47_c_not_refuted"
   ],
   "note": "Which replacements are dropped, exactly; proved for signed minus, bitwise not and C++ logical not; refuted for unsigned minus and for ! in C."
  },
  {
   "property": "C48",
   "status": "proved",
   "theorems": [
    "C48_exact"
   ],
   "note": "Any set of enabled mutants, both languages."
  },
  {
   "property": "C49",
   "status": "partial",
   "theorems": [
    "C49_builtin_argument_refuted",
    "C49_constexpr_lambda_refuted",
    "C49_unevaluated_refuted"
   ],
   "note": "Refuted for constant arguments of built-ins, constexpr lambdas and decltype operands; the contexts that are left alone are those of C34."
  },
  {
   "property": "C50",
   "status": "partial",
   "theorems": [
    "C50_temporaries_refuted"
   ],
   "note": "Refuted for member calls on a temporary; C42 is the positive part."
  },
  {
   "property": "C51",
   "status": "partial",
   "theorems": [
    "C51_static_assertions_recorded_partial",
    "C51_arrays_recorded_partial",
    "C51_case_label_refuted",
    "C51_typedef_refuted"
   ],
   "note": "Exactly the static assertions and constant-sized arrays in reach are rewritten; refuted for case labels and typedefs."
  },
  {
   "property": "C52",
   "status": "proved",
   "theorems": [
    "C52_tree_follows_nesting",
    "C52_order",
    "C52_positions_added"
   ],
   "note": "About the tree with positions (paths in the AST) attached to mutations; C52_positions_added says that it is otherwise the written tree."
  },
  {
   "property": "C53",
   "status": "proved",
   "theorems": [
    "C53_expressions",
    "C53_unary_operators",
    "C53_binary_operators"
   ],
   "note": "Equivalences, for each kind of mutation; removals are C35. The exceptions are those the code documents; that some are too coarse or too fine is C42, C49, C50."
  },
  {
   "property": "C54",
   "status": "proved",
   "theorems": [
    "C54_places",
    "C54_places_exist",
    "C54_whole_tool"
   ],
   "note": "Combines C29, C35, C48, C52 and C53. Conditions: the file has no rewritten array bounds or static assertions (C33), the ranges are those of the text, and for the behaviour a well-formed program without coverage mode."
  },
  {
   "property": "C55",
   "status": "partial",
   "theorems": [
    "C55_binary_partial",
    "C55_unary_partial",
    "C55_alternative_binary",
    "C55_alternative_unary",
    "C55_alternative_refuted",
    "C55_macro_refuted"
   ],
   "note": "The text is right if and only if the operator is a token of the file that is as long as the usual one; refuted for alternative tokens (except or) and for operators that come from a macro, with a behaviour that differs with no mutant enabled."
  },
  {
   "property": "C56",
   "status": "proved",
   "theorems": [
    "C56_when",
    "C56_exact",
    "C56_nested"
   ],
   "note": "An equivalence for when and where a construct is found, exactness of the wrapped part, and nesting. Expansion is given as a tree per invocation; how Clang builds it is not modelled."
  },
  {
   "property": "C57",
   "status": "partial",
   "theorems": [
    "C57_grammar_partial",
    "C57_comma_refuted",
    "C57_braces_refuted",
    "C57_semicolon_refuted"
   ],
   "note": "Proved if no comma operator is mutated only as an implicit conversion, no brace list with side effects is assigned in C++, and statements have their semicolon in the file; each of the three is refuted otherwise. The rest of the grammar is a parameter."
  },
  {
   "property": "C58",
   "status": "proved",
   "theorems": [
    "C58_catalogue",
    "C58_no_dead_action"
   ],
   "note": "Stated on the groups of the information file; C07 ties them to the generated code, C23 and C24-C26, C47 say what optimisation removes."
  },
  {
   "property": "C59",
   "status": "partial",
   "theorems": [
    "C59_moved_partial",
    "C59_c",
    "C59_name_refuted",
    "C59_return_refuted"
   ],
   "note": "C59_moved_partial says exactly which code is moved into a lambda; C59_c that in C none is. The refutations show text in which __func__, or a return statement of a statement expression, has become part of a lambda; the meaning of these two constructs is not part of the executable language model (Lang), so the change of behaviour is read off the text."
  },
  {
   "property": "C60",
   "status": "partial",
   "theorems": [
    "C60_only_comments",
    "C60_described_partial",
    "C60_cpp",
    "C60_logical_refuted"
   ],
   "note": "Proved but for one clause: && and || of C are not described by a comment (C60_logical_refuted), so C60_described_partial leaves them out. In C++ (C60_cpp) every node is described."
  },
  {
   "property": "C61",
   "status": "partial",
   "theorems": [
    "C61_no_mutant",
    "C61_removed_partial",
    "C61_removed_exact",
    "C61_switch_refuted",
    "C61_goto_refuted"
   ],
   "note": "No mutant: proved for all programs. Removal: proved if no goto enters a component of a block from outside and case labels stand before components of the body of their switch (and, per set of mutants, exactly if nothing enters what is removed); refuted for the device of Duff and for goto into a loop. Expressions are abstract; coverage builds are the matter of C86."
  },
  {
   "property": "C62",
   "status": "proved",
   "theorems": [
    "C62_closed",
    "C62_coverage"
   ],
   "note": "The text after the statement is that of the file; a semicolon that comes out of a macro expansion is not seen by the tool (C57_semicolon_refuted). Carriage returns, raw strings, trigraphs and delimiters of comments that are split over lines are not modelled."
  },
  {
   "property": "C63",
   "status": "proved",
   "theorems": [
    "C63_kept",
    "C63_sites"
   ],
   "note": "A list, independent of what the omissions are good for; C24-C26 and C47 say how far they are redundant."
  },
  {
   "property": "C64",
   "status": "proved",
   "theorems": [
    "C64_read",
    "C64_not_read",
    "C64_every_value",
    "C64_one_meaning"
   ],
   "note": "Proved for first ids up to 2^31 (totality); the library functions are modelled after the language standards."
  },
  {
   "property": "C65",
   "status": "proved",
   "theorems": [
    "C65_operators",
    "C65_skipped_sites",
    "C65_expressions",
    "C65_minus",
    "C65_times_zero_refuted",
    "C65_zero_over_refuted",
    "C65_sign_of_zero_refuted"
   ],
   "note": "Proved up to the sign of zero and apart from new NaNs, both refuted otherwise; IEEE 754 with rounding to nearest as in Coq's SpecFloat."
  },
  {
   "property": "C66",
   "status": "proved",
   "theorems": [
    "C66_text_runs_as_modelled",
    "C66_text_enables_the_listed"
   ],
   "note": "For all ids that fit an int. The semantics of the fragment of C and C++ (CText.v, CRun.v) is part of the trusted base; malloc is assumed to succeed."
  },
  {
   "property": "C67",
   "status": "proved",
   "theorems": [
    "C67_text_asks",
    "C67_text_records",
    "C67_records_as_modelled"
   ],
   "note": "For every behaviour of the surroundings, seen as a sequence of requests and answers. The closing of a C++ stream at the end of its block is not a request."
  },
  {
   "property": "C68",
   "status": "partial",
   "theorems": [
    "C68_text_does_what_is_described",
    "C68_text_of_three",
    "C68_texts_together",
    "C68_text_accepted_partial"
   ],
   "note": "The reading, the behaviour and the sequence of declarations are proved for all nodes that Clang makes (clang_node); acceptance by a compiler (C68_text_accepted_partial) leaves out the operands for which C40 is refuted."
  },
  {
   "property": "C69",
   "status": "partial",
   "theorems": [
    "C69_written_files",
    "C69_prelude_c",
    "C69_prelude_cpp_partial",
    "C69_prelude_cpp_needs",
    "C69_prelude_cpp_refuted",
    "C69_placeholder_refuted"
   ],
   "note": "For all runs. Missing: the prelude for C++ uses std::getenv, size_t and uint64_t, which its headers need not declare (C69_prelude_cpp_partial, C69_prelude_cpp_needs, C69_prelude_cpp_refuted); a placeholder declared after a mutated function puts the definitions after their uses (C69_placeholder_refuted)."
  },
  {
   "property": "C70",
   "status": "proved",
   "theorems": [
    "C70_whole_text"
   ],
   "note": "For all runs, programs and values of the variable. The rest of the file (other than prelude, functions and calls) is given by its syntax tree; one thread; files in which the tool rewrites constants (C33) are left out, as in C54."
  },
  {
   "property": "C71",
   "status": "proved",
   "theorems": [
    "C71_lines",
    "C71_constant_shift_partial",
    "C71_constant_shift_refuted",
    "C71_byte_order_mark_refuted"
   ],
   "note": "For all runs. That all lines after the block move by the same number is proved in coverage mode or without statements that are followed by a comment but no semicolon (C71_constant_shift_partial), refuted otherwise; the place of a byte order mark is refuted too."
  },
  {
   "property": "C72",
   "status": "partial",
   "theorems": [
    "C72_directives",
    "C72_headers_partial",
    "C72_feature_macros_refuted",
    "C72_own_names_refuted"
   ],
   "note": "The directives: proved for all runs (C72_directives). Headers: proved but for those that the block includes and the file includes only after it (C72_headers_partial), refuted for these (C72_feature_macros_refuted); names of the file that the headers of the block turn into macros: refuted (C72_own_names_refuted). Continued lines and comments around # are not modelled."
  },
  {
   "property": "C73",
   "status": "proved",
   "theorems": [
    "C73_read_back",
    "C73_largest_id",
    "C73_unknown_ids",
    "C73_every_mutant_is_reported",
    "C73_lines_are_there",
    "C73_can_be_written",
    "C73_ascii_snippets",
    "C73_short_snippets",
    "C73_cut_snippets_refuted"
   ],
   "note": "Proved for every JSON text of the information of every run. There is such a text exactly if file names and snippets are UTF-8 (C73_can_be_written); true of snippets of ASCII files and of short ones, refuted for snippets that are cut in the middle of a character (C73_cut_snippets_refuted)."
  },
  {
   "property": "C74",
   "status": "partial",
   "theorems": [
    "C74_unnoticed_partial",
    "C74_increment_refuted",
    "C74_division_refuted"
   ],
   "note": "Proved for all sets of such mutants that insert neither ++ nor --, one direction (what the mutated program does, the original does). False in general: x + y; with ++x for x changes x (C74_increment_refuted), and with / for + has undefined behaviour if y is 0 (C74_division_refuted)."
  },
  {
   "property": "C75",
   "status": "partial",
   "theorems": [
    "C75_shown_partial",
    "C75_one_reading",
    "C75_operand_refuted",
    "C75_operands_refuted"
   ],
   "note": "Proved for all operands that are parenthesised or have no word that is an operator. False otherwise: for a bitor b, -(a bitor b) is shown as - a bitor b (C75_operand_refuted), and (a bitor b) & c as a bitor b & c (C75_operands_refuted). The reading is unique (C75_one_reading)."
  },
  {
   "property": "C76",
   "status": "partial",
   "theorems": [
    "C76_unrecorded_partial",
    "C76_unrecorded_unoptimised",
    "C76_like_coverage",
    "C76_finishing",
    "C76_finishing_like_coverage",
    "C76_logical_refuted",
    "C76_shadowed_refuted"
   ],
   "note": "Proved for all programs in which every site has a mutant (so without optimisations for all) and enabled mutants other than those of && and || in C; for all mutants if the coverage build can finish from every state it gets to (C76_finishing). False otherwise: in C these operators are recorded after both operands, which may not return (C76_logical_refuted), and a site without mutants takes the id of the next site (C76_shadowed_refuted). Compared with the coverage build itself (C76_like_coverage) the order of operands may be that of C++17."
  },
  {
   "property": "C77",
   "status": "partial",
   "theorems": [
    "C77_finds_the_file_partial",
    "C77_largest_id",
    "C77_unknown_ids",
    "C77_dot_refuted",
    "C77_slashes_refuted",
    "C77_other_directory_refuted"
   ],
   "note": "Proved for all runs, ids, spellings and file systems if the name of the mutated file has no repeated slashes or dots and the directory of the mutated code is not a dot. False otherwise (C77_dot_refuted, C77_slashes_refuted); nor does the script notice that the file is not in the directory (C77_other_directory_refuted)."
  },
  {
   "property": "C78",
   "status": "proved",
   "theorems": [
    "C78_every_file",
    "C78_one_run",
    "C78_other_files",
    "C78_none",
    "C78_coverage",
    "C78_never_stuck"
   ],
   "note": "Proved for all lists of files, first ids and values of the variable.  What the mutants are is that of C48 (operands that are not needed may be evaluated all the same); the files are in the same language, and static functions of the same name are not modelled."
  },
  {
   "property": "C79",
   "status": "partial",
   "theorems": [
    "C79_unrecorded_partial",
    "C79_finishing",
    "C79_like_coverage",
    "C79_logical_refuted",
    "C79_shadowed_refuted"
   ],
   "note": "Proved for all lists of files, first ids, mutants, calls and orders of evaluation, with the exceptions of C76: mutants of && and || in C if the program may not finish (C79_logical_refuted; C79_finishing has the others), and places without mutants (C79_shadowed_refuted).  The lines that different files write are taken together; the order of the lines is not modelled."
  },
  {
   "property": "C80",
   "status": "proved",
   "theorems": [
    "C80_every_thread",
    "C80_none",
    "C80_coverage",
    "C80_never_stuck"
   ],
   "note": "Proved for all programs, numbers of threads, interleavings, lists of files and values.  Memory is sequentially consistent, threads take turns between the steps of Lang.v, a query or a record is one step (in C this leaves out two first queries at the same time, refuted in C09), and a data race of the program is not undefined behaviour."
  },
  {
   "property": "C81",
   "status": "partial",
   "theorems": [
    "C81_unrecorded_partial",
    "C81_finishing",
    "C81_like_coverage",
    "C81_logical_refuted",
    "C81_shadowed_refuted"
   ],
   "note": "Proved for all programs, threads, interleavings, files and mutants, with the exceptions of C76: mutants of && and || in C if the program cannot always end (C81_logical_refuted; C81_finishing has the others), and places without mutants (C81_shadowed_refuted).  The simplifications of C80 apply."
  },
  {
   "property": "C82",
   "status": "partial",
   "theorems": [
    "C82_replaced_partial",
    "C82_replaced_finishing",
    "C82_texts_partial",
    "C82_texts_finishing",
    "C82_lines",
    "C82_logical_refuted",
    "C82_shadowed_refuted"
   ],
   "note": "Proved for all runs, files, programs and mutants, with the hypotheses of C70 and the exceptions of C76: mutants of && and || in C if the coverage build cannot always finish (C82_logical_refuted; C82_texts_finishing has the others), and places without mutants (C82_shadowed_refuted).  The tracking file is fresh and can be opened.  C82_replaced_partial and C82_replaced_finishing: the same for files in which constants are replaced (as in C85)."
  },
  {
   "property": "C83",
   "status": "partial",
   "theorems": [
    "C83_original_partial",
    "C83_others",
    "C83_no_new",
    "C83_stopped_partial",
    "C83_other_name_refuted",
    "C83_included_refuted"
   ],
   "note": "Proved if no name is given, for the first time, after a file read for it; false in general for one file given by two names (C83_other_name_refuted) and for a file given after a file that it includes (C83_included_refuted).  Clang is any function of the files it reads; that it reads current contents for every translation unit is assumed."
  },
  {
   "property": "C84",
   "status": "partial",
   "theorems": [
    "C84_variables_partial",
    "C84_members_partial",
    "C84_only_constants",
    "C84_once",
    "C84_forgotten_refuted"
   ],
   "note": "Proved for variables whose types are nests of templates or of arrays, and members with nests of arrays; false for eight other shapes of declarations (C84_forgotten_refuted).  Values must not be negative (C33)."
  },
  {
   "property": "C85",
   "status": "proved",
   "theorems": [
    "C85_replaced_constants"
   ],
   "note": "C70 without the assumption that no constants are replaced.  Assumes, beside what C70 does, that the replaced text has no characters of mutated operators; that a constant means its value is the meaning of the replacement (C33, C84)."
  },
  {
   "property": "C86",
   "status": "proved",
   "theorems": [
    "C86_unrecorded",
    "C86_coverage_build",
    "C86_recorded"
   ],
   "note": "For all functions and placements of removals, both directions, hanging and undefined behaviour included.  Expressions are abstract, as in C61; a call records its id each time it is executed (that only the first call writes it is C67)."
  },
  {
   "property": "C87",
   "status": "partial",
   "theorems": [
    "C87_written_partial",
    "C87_script",
    "C87_coverage_run",
    "C87_json_error",
    "C87_no_file",
    "C87_unwritable_refuted",
    "C87_same_file_refuted"
   ],
   "note": "Proved if no file is given after a file that is read for it (C83), the information file can be opened and is none of the sources, and, for the JSON, names and snippets are UTF-8 (C73).  False if it cannot be opened: the status is 0 then (C87_unwritable_refuted); and if it is a source (C87_same_file_refuted)."
  },
  {
   "property": "C88",
   "status": "partial",
   "theorems": [
    "C88_defined",
    "C88_defined_twice",
    "C88_again_refuted"
   ],
   "note": "The first sentence is false (C88_again_refuted); the second is proved for all runs (C88_defined, C88_defined_twice) in which nothing in the line itself is mutated. That a compiler rejects two definitions is not part of the model."
  }
 ]
}