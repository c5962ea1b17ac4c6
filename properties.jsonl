{"id": "C01", "title": "Mutant ids are unique and contiguous across a whole run", "statement": "After one run of the tool over any list of files, the mutant ids listed in the mutation info file are exactly 0, 1, ..., N-1, each listed once, where N is the total number of mutants created; ids increase in the order in which mutants were created, and the ids of different files occupy disjoint consecutive blocks.", "quantifier": "for every list of input files, every per-file tree of mutation opportunities and every number of mutants (including zero) per opportunity", "why_tests_cant": "Numbering depends on the shape of an unbounded AST and on the order of an unbounded list of files; tests fix a few of them.", "anchors": ["src/libdredd/src/mutate_ast_consumer.cc ApplyMutations, HandleTranslationUnit", "src/dredd/src/main.cc main (mutation_id)", "src/libdredd/src/mutation_replace_expr.cc AddMutationInstance"]}
{"id": "C02", "title": "Files that are skipped cost nothing", "statement": "A file that fails to parse, that repeats an earlier file of the same run, or that offers no mutants is left byte-for-byte unchanged, gets no entry in the mutation info file and consumes no mutant ids; every other file is rewritten exactly once, and the ids given to later files are the same as if the skipped files had not been listed.", "quantifier": "for every sequence of inputs mixing good, erroneous, repeated and mutant-free files", "why_tests_cant": "Interleavings of good, bad and repeated files are unbounded.", "anchors": ["src/libdredd/src/new_mutate_frontend_action_factory.cc MutateFrontendAction::BeginInvocation", "src/libdredd/src/mutate_ast_consumer.cc HandleTranslationUnit"]}
{"id": "C03", "title": "Coverage builds and mutant builds agree on numbering", "statement": "Running with --only-track-mutant-coverage produces the same mutation info and the same number of mutants, site by site, as running without it on the same input and the same other options, so coverage ids can be used with the mutated build.", "quantifier": "for every input and every setting of the other options", "why_tests_cant": "The one bespoke test compares one small file.", "anchors": ["src/libdredd/src/mutation_replace_expr.cc GenerateMutatorFunction", "src/libdredd/src/mutation_replace_binary_operator.cc GenerateMutatorFunction, HandleCLogicalOperator", "src/libdredd/src/mutation_replace_unary_operator.cc GenerateMutatorFunction", "src/libdredd/src/mutation_remove_stmt.cc Apply"]}
{"id": "C04", "title": "Every mutant is described exactly once in the mutation info of its file", "statement": "If the mutation info file is requested, then for every mutated file the set of ids described in that file's entry is exactly the block of ids allocated to the file, and no id is described twice; requesting the info does not change which ids are allocated.", "quantifier": "for every tree of mutation opportunities, every starting id, with and without info requested", "why_tests_cant": "Needs all tree shapes, including nodes whose opportunities yield no mutants.", "anchors": ["src/libdredd/src/mutate_ast_consumer.cc ApplyMutations"]}
{"id": "C05", "title": "The flat mutation tree in the info file encodes one rooted tree", "statement": "In each file entry, node 0 is the root, every other node is listed as a child exactly once, child indices are in range and larger than their parent's index, so following children from node 0 visits every node once, and doing so reproduces the tree of nested mutation opportunities.", "quantifier": "for every mutation tree", "why_tests_cant": "Index arithmetic in a recursive append; tests look at a few JSON files.", "anchors": ["src/libdredd/src/mutate_ast_consumer.cc ApplyMutations", "src/libdredd/include/libdredd/protobufs/dredd.proto"]}
{"id": "C06", "title": "Simplifying the mutation tree loses nothing", "statement": "Tidying the mutation tree keeps every mutation exactly once and in the same creation order, keeps the relation 'nested inside' and 'at the same node' between mutations, removes every empty subtree and every mutation-free single-child chain, and running it again changes nothing.", "quantifier": "for every mutation tree", "why_tests_cant": "Trees are unbounded; the recursion mutates vectors in place.", "anchors": ["src/libdredd/src/mutation_tree_node.cc TidyUp, Compress, PruneEmptySubtrees, IsEmpty"]}
{"id": "C07", "title": "The action described for an id is the action the generated code performs", "statement": "For every mutation site, the k-th mutant described in the info file is selected by exactly the test for local id base+k in the generated mutator function, and the expression that this test returns is the one named by the described action; the function tests exactly the described mutants and otherwise returns the original expression.", "quantifier": "for every operator, operand type, constant-ness of operands, language and option setting, and every base id", "why_tests_cant": "The generated functions range over all operator/type/constant combinations.", "anchors": ["src/libdredd/src/mutation_replace_expr.cc GenerateMutatorFunction, AddMutationInstance", "src/libdredd/src/mutation_replace_binary_operator.cc GenerateMutatorFunction, OperatorKindToAction", "src/libdredd/src/mutation_replace_unary_operator.cc GenerateMutatorFunction, OperatorKindToAction"]}
{"id": "C08", "title": "DREDD_ENABLED_MUTATION enables exactly the listed mutants of the file", "statement": "In a mutated file with first id f and n mutants, if the environment variable is a comma-separated list of decimal ints (empty items allowed) then every query for local id i < n answers true iff f+i is in the list; if the variable is unset every query answers false. All bitset accesses are in bounds.", "quantifier": "for every list, every f and n, every i, every number of words in the bitset", "why_tests_cant": "Unbounded lists and id ranges; bit arithmetic at word boundaries.", "anchors": ["src/libdredd/src/mutate_ast_consumer.cc GetRegularDreddPreludeCpp, GetRegularDreddPreludeC"]}
{"id": "C09", "title": "The answer never changes during the life of a thread, and threads do not interfere", "statement": "For every interleaving of queries by any number of threads, each query returns the value that the environment variable had determined when that thread made its first query; the fast-path flag that lets mutator functions skip the query is false only if no mutant of the file is enabled in that thread.", "quantifier": "for every number of threads, every interleaving of queries and of changes to the environment variable", "why_tests_cant": "All schedules and histories.", "anchors": ["src/libdredd/src/mutate_ast_consumer.cc GetRegularDreddPreludeCpp, GetRegularDreddPreludeC (thread_local initialized, enabled_bitset, __dredd_some_mutation_enabled)"]}
{"id": "C10", "title": "C and C++ programs read the variable the same way", "statement": "For every value of the environment variable, the prelude put in C files and the prelude put in C++ files enable the same mutants.", "quantifier": "for every string", "why_tests_cant": "All strings; the two preludes use different parsing functions.", "anchors": ["src/libdredd/src/mutate_ast_consumer.cc GetRegularDreddPreludeCpp (find, substr, stoi), GetRegularDreddPreludeC (strtok, atoi)"]}
{"id": "C11", "title": "With no mutant enabled, the mutated program behaves like the original", "statement": "If no mutant id of the file is enabled, every result the mutated program can produce (value, final memory, or undefined behaviour) is one the original program can produce, for programs built from side-effecting expressions and structured statements, in C and in C++ (the operand order that C++17 prescribes is a separate property).", "quantifier": "for every program, every initial memory, every evaluation order the language allows and every environment value that enables no mutant of the file", "why_tests_cant": "All programs and all executions.", "anchors": ["src/libdredd/src/mutation_replace_expr.cc ReplaceExprWithFunctionCall, GenerateMutatorFunction", "src/libdredd/src/mutation_replace_binary_operator.cc ReplaceOperator, GenerateMutatorFunction, HandleCLogicalOperator", "src/libdredd/src/mutation_replace_unary_operator.cc Apply", "src/libdredd/src/mutation_remove_stmt.cc Apply"]}
{"id": "C12", "title": "C++17 sequencing of assignments is preserved", "statement": "In C++17 the right operand of an assignment is evaluated before the left one; the mutated program with no mutant enabled respects this.", "quantifier": "for every assignment and every initial memory", "why_tests_cant": "Needs all operand shapes; the existing tests never mix an index expression with a side effect on the index.", "anchors": ["src/libdredd/src/mutation_replace_binary_operator.cc ReplaceOperator, GenerateMutatorFunction (HasSideEffects decides by-reference or lambda)"]}
{"id": "C13", "title": "Enabling one mutant gives exactly the described source-level mutant", "statement": "If exactly one mutant id is enabled, every result of the mutated program is a result of the original program with just that one site changed as the info file describes.", "quantifier": "for every program, site, action and initial memory", "why_tests_cant": "All programs, sites and executions.", "anchors": ["src/libdredd/src/mutation_replace_expr.cc GenerateMutatorFunction", "src/libdredd/src/mutation_replace_binary_operator.cc GenerateMutatorFunction", "src/libdredd/src/mutation_replace_unary_operator.cc GenerateMutatorFunction", "src/libdredd/src/mutation_remove_stmt.cc Apply"]}
{"id": "C14", "title": "Mutants of other files are inert", "statement": "Enabling any set of ids outside a file's block has no effect on that file's code.", "quantifier": "for every list of ids and every block", "why_tests_cant": "All lists; interacts with integer subtraction of the file's first id.", "anchors": ["src/libdredd/src/mutate_ast_consumer.cc GetRegularDreddPreludeCpp, GetRegularDreddPreludeC"]}
{"id": "C15", "title": "Several enabled mutants at one site: the smallest id wins", "statement": "If several mutants of the same site are enabled, the site behaves as if only the one with the smallest id were.", "quantifier": "for every site and every set of enabled ids", "why_tests_cant": "All subsets of mutants of all sites.", "anchors": ["src/libdredd/src/mutation_replace_expr.cc GenerateMutatorFunction", "src/libdredd/src/mutation_replace_binary_operator.cc GenerateMutatorFunction, HandleCLogicalOperator", "src/libdredd/src/mutation_replace_unary_operator.cc GenerateMutatorFunction"]}
{"id": "C16", "title": "The C encoding of && and || mutants is exact", "statement": "In C files, enabling the first mutant of a && or || makes it behave exactly like the other operator, including which operands are evaluated; the second and third give the truth value of the left and right operand.", "quantifier": "for every pair of side-effecting operands and every initial memory", "why_tests_cant": "All operands and memories; relies on De Morgan with short-circuiting.", "anchors": ["src/libdredd/src/mutation_replace_binary_operator.cc HandleCLogicalOperator"]}
{"id": "C17", "title": "Removing a statement removes that statement only", "statement": "For each removable statement, enabling its id makes execution skip precisely that statement (including any break, continue, return or goto-free jump in it) and leaves the statements around it unchanged; with the id not enabled the statement runs as before.", "quantifier": "for every nest of compound, conditional, loop and switch statements and every execution", "why_tests_cant": "All statement nests and control-flow outcomes.", "anchors": ["src/libdredd/src/mutation_remove_stmt.cc Apply", "src/libdredd/src/mutate_visitor.cc TraverseCompoundStmt"]}
{"id": "C18", "title": "Coverage mode records exactly the mutants that are reached", "statement": "In a coverage build, when the tracking file is set, the ids appended during a run of the program are exactly the ids of the mutants whose site was reached, each once per process.", "quantifier": "for every program, every sequence of reached sites and every number of mutants per site (including zero)", "why_tests_cant": "All call histories.", "anchors": ["src/libdredd/src/mutate_ast_consumer.cc GetMutantTrackingDreddPreludeCpp, GetMutantTrackingDreddPreludeC", "src/libdredd/src/mutation_replace_expr.cc GenerateMutatorFunction", "src/libdredd/src/mutation_replace_binary_operator.cc GenerateMutatorFunction", "src/libdredd/src/mutation_replace_unary_operator.cc GenerateMutatorFunction"]}
{"id": "C19", "title": "Coverage recording is exact under concurrency", "statement": "When several threads reach sites concurrently, every reached mutant is still appended exactly once and no other id is appended.", "quantifier": "for every number of threads and every interleaving of their steps", "why_tests_cant": "All schedules.", "anchors": ["src/libdredd/src/mutate_ast_consumer.cc GetMutantTrackingDreddPreludeCpp (std::atomic exchange), GetMutantTrackingDreddPreludeC (atomic_exchange)"]}
{"id": "C20", "title": "Coverage bookkeeping stays inside its array", "statement": "Every access to the already_recorded array in a coverage build has an index smaller than the array size.", "quantifier": "for every mutated file and every reached site", "why_tests_cant": "All files; depends on sites with no mutants.", "anchors": ["src/libdredd/src/mutate_ast_consumer.cc GetMutantTrackingDreddPreludeCpp, GetMutantTrackingDreddPreludeC"]}
{"id": "C21", "title": "Without optimisation every site has a mutant", "statement": "With --no-mutation-opts every mutation opportunity yields at least one mutant.", "quantifier": "for every operator, type and language", "why_tests_cant": "All operator and type combinations; the coverage guarantees depend on it.", "anchors": ["src/libdredd/src/mutation_replace_expr.cc GenerateConstantReplacement", "src/libdredd/src/mutation_replace_binary_operator.cc GetReplacementOperators, GenerateArgumentReplacement", "src/libdredd/src/mutation_replace_unary_operator.cc GenerateUnaryOperatorReplacement"]}
{"id": "C22", "title": "Coverage builds do not change what the program computes", "statement": "In a coverage build every result of the program is a result of the original program; only the tracking file is affected.", "quantifier": "for every program, memory and evaluation order", "why_tests_cant": "All programs and executions.", "anchors": ["src/libdredd/src/mutation_replace_expr.cc GenerateMutatorFunction", "src/libdredd/src/mutation_replace_binary_operator.cc HandleCLogicalOperator", "src/libdredd/src/mutation_remove_stmt.cc Apply"]}
{"id": "C23", "title": "Optimisation only removes mutants", "statement": "For every site the list of actions produced with optimisations is a sublist (same order) of the one produced with --no-mutation-opts.", "quantifier": "for every operator, type, language and constant-ness of operands", "why_tests_cant": "All combinations.", "anchors": ["src/libdredd/src/mutation_replace_binary_operator.cc GetReplacementOperators, GenerateArgumentReplacement", "src/libdredd/src/mutation_replace_unary_operator.cc GenerateUnaryOperatorReplacement", "src/libdredd/src/mutation_replace_expr.cc GenerateMutatorFunction"]}
{"id": "C24", "title": "The reduced mutant sets for comparisons and logical operators are sufficient", "statement": "For <, <=, >, >=, ==, != and (in C++) &&, ||: any test suite that kills every mutant kept by the optimiser at that expression also kills every mutant it dropped there (other operators, the two boolean constants, the negation and, for && and ||, negated operands), for unconstrained operands, including unordered floating-point operands.", "quantifier": "for every test suite (set of operand pairs) and every operand values", "why_tests_cant": "Quantifies over all test suites.", "anchors": ["src/libdredd/src/mutation_replace_binary_operator.cc IsRedundantReplacementForBooleanValuedOperator", "src/libdredd/src/mutation_replace_expr.cc IsBooleanReplacementRedundantForBinaryOperator, IsRedundantOperatorInsertionBeforeBinaryExpr, IsRedundantOperatorInsertionBeforeLogicalOperatorArgument"]}
{"id": "C25", "title": "Arithmetic replacements dropped as redundant are redundant", "statement": "For integer operands, every arithmetic or shift replacement that is dropped because an operand is the constant 0 or 1 gives, whenever it is defined, the same value as some mutant kept for the expression (an operand or a constant) or as the original expression.", "quantifier": "for every integer type, every operand values, every operator pair", "why_tests_cant": "All operand values of all types.", "anchors": ["src/libdredd/src/mutation_replace_binary_operator.cc IsRedundantReplacementForArithmeticOperator, GenerateArgumentReplacement", "src/libdredd/src/mutate_visitor.cc HandleBinaryOperator"]}
{"id": "C26", "title": "Unary mutants dropped as redundant are redundant", "statement": "For integer operands, every unary replacement or insertion dropped because the operand is the constant 0, 1 or -1 gives the same value as a constant replacement kept for the expression or as the original expression.", "quantifier": "for every integer type and operator", "why_tests_cant": "All types; signed and unsigned behave differently.", "anchors": ["src/libdredd/src/mutation_replace_unary_operator.cc IsRedundantReplacementOperator, IsOperatorSelfInverse", "src/libdredd/src/mutation_replace_expr.cc IsRedundantUnaryMinusInsertion, IsRedundantUnaryNotInsertion, IsRedundantUnaryLogicalNotInsertion", "src/libdredd/src/mutate_visitor.cc HandleUnaryOperator"]}
{"id": "C27", "title": "No two generated functions clash", "statement": "Within one file, two mutator functions with the same name and the same parameter types have identical text, so the declarations inserted in the file never contain conflicting definitions; in C two functions with the same name are identical.", "quantifier": "for every pair of mutation sites in a file", "why_tests_cant": "All pairs of sites.", "anchors": ["src/libdredd/src/mutation_replace_expr.cc GetFunctionName, AddOptimisationSpecifier", "src/libdredd/src/mutation_replace_binary_operator.cc GetFunctionName", "src/libdredd/src/mutation_replace_unary_operator.cc GetFunctionName", "src/libdredd/src/util.cc SpaceToUnderscore"]}
{"id": "C28", "title": "Inserted declarations are deterministic and precede their uses", "statement": "The text inserted at the prelude location depends only on the set of generated functions, not on the order in which they were generated or stored; it consists of the prelude followed by each distinct function once, and the prelude comes before every function.", "quantifier": "for every set of functions and every iteration order of the hash set", "why_tests_cant": "All insertion orders.", "anchors": ["src/libdredd/src/mutate_ast_consumer.cc HandleTranslationUnit (dredd_declarations, sorted_dredd_declarations, InsertTextBefore)"]}
{"id": "C29", "title": "Nested rewrites of an expression come out properly nested", "statement": "After all insertions and replacements for an expression tree have been made in id order, the text at the expression is the expression's original text with every mutated node wrapped in its call, inner nodes inside outer ones, all parentheses balanced, and all text outside the expression unchanged.", "quantifier": "for every nest of mutated expressions over every source text", "why_tests_cant": "All expression nests; depends on the order of insertions at equal offsets.", "anchors": ["src/libdredd/src/mutation_replace_expr.cc ReplaceExprWithFunctionCall", "src/libdredd/src/mutation_replace_binary_operator.cc ReplaceOperator", "src/libdredd/src/mutation_replace_unary_operator.cc Apply", "src/libdredd/src/mutate_ast_consumer.cc ApplyMutations"]}
{"id": "C30", "title": "Statement wrappers of neighbouring statements stay apart", "statement": "When several statements of a block are wrapped for removal, each wrapper contains exactly its own statement.", "quantifier": "for every sequence of neighbouring statements, with or without white space between them", "why_tests_cant": "All layouts.", "anchors": ["src/libdredd/src/mutation_remove_stmt.cc Apply"]}
{"id": "C31", "title": "Snippets are faithful and bounded", "statement": "The snippet stored for a source range is the exact text of the range if that has at most 36 characters; otherwise it has exactly 36 characters, begins with the first 10 and ends with the last 10 characters of the range with ' ... [snip] ... ' between.", "quantifier": "for every buffer and every range in it", "why_tests_cant": "All texts and ranges.", "anchors": ["src/libdredd/src/util.cc InfoForSourceRange::InfoForSourceRange"]}
{"id": "C32", "title": "Recorded line and column numbers recover the source text", "statement": "For every file using line-feed line ends and every range in it, the text that query_mutant_info.py extracts from the original file with the recorded start and end positions is exactly the text of the range.", "quantifier": "for every file content and every range, single-line or multi-line", "why_tests_cant": "All file contents and ranges.", "anchors": ["src/libdredd/src/util.cc InfoForSourceRange::InfoForSourceRange", "scripts/query_mutant_info.py get_text_for_source_range"]}
{"id": "C33", "title": "Compile-time constants are rewritten to their value", "statement": "Where a constant expression (array size, static assertion, template argument, __builtin_frame_address argument) is replaced by a literal, the literal denotes the value of the expression.", "quantifier": "for every constant value of every integer type", "why_tests_cant": "All values, including negative ones.", "anchors": ["src/libdredd/src/mutate_ast_consumer.cc RewriteExpressionsInMainFile, RewriteExpressionInMainFileToIntegerConstant"]}
{"id": "C34", "title": "Code that must stay constant is never mutated", "statement": "No mutation is created at or beneath a static assertion, constexpr function, constexpr or constinit variable, C static local initialiser, case label expression, array size, template argument, lambda capture, parameter default, user-defined literal, constant expression, noexcept operand, expression operand of sizeof/alignof, constexpr-if condition, new-array size or decltype cast (removal of a whole expression statement excepted); and expressions are mutated only inside functions.", "quantifier": "for every AST", "why_tests_cant": "All ASTs.", "anchors": ["src/libdredd/src/mutate_visitor.cc TraverseDecl, TraverseVarDecl, TraverseStmt, TraverseCaseStmt, VisitExpr, IsInFunction"]}
{"id": "C35", "title": "Exactly the removable statements of a block get a removal mutant", "statement": "In every traversed block, each component statement (after skipping case/default labels) that is wholly in the main file and is not a null statement, declaration or label (and, with optimisations, not a block or a side-effect-free expression) gets exactly one removal mutant, and nothing else does.", "quantifier": "for every AST", "why_tests_cant": "All ASTs.", "anchors": ["src/libdredd/src/mutate_visitor.cc TraverseCompoundStmt"]}
{"id": "C36", "title": "The query script covers every mutant", "statement": "For every info file the tool writes, --largest-mutant-id prints N-1 (or -1 if N is 0), every id from 0 to N-1 can be queried and maps to the group that created it, and the operator text shown for a mutant is the operator used in the generated code.", "quantifier": "for every info file the tool can produce", "why_tests_cant": "All runs.", "anchors": ["scripts/query_mutant_info.py build_mutant_to_node_mapping, main, show_info_for_replace_expr, show_info_for_replace_unary_operator, show_info_for_replace_binary_operator"]}
{"id": "C37", "title": "Backwards source ranges are rejected", "statement": "The consistency check made before mutating an expression accepts a source range iff it ends after it starts.", "quantifier": "for every pair of positions", "why_tests_cant": "All positions.", "anchors": ["src/libdredd/src/util.cc SourceRangeConsistencyCheck"]}
{"id": "C38", "title": "The list of failed files is exact", "statement": "The files reported as not mutated are exactly the main files for which at least one error or fatal error was reported, each once.", "quantifier": "for every sequence of diagnostics over any number of files", "why_tests_cant": "All diagnostic histories.", "anchors": ["src/dredd/src/log_failed_files_diagnostic_consumer.cc HandleDiagnostic", "src/dredd/src/main.cc main"]}
{"id": "C39", "title": "An interrupted run leaves a prefix of the full run", "statement": "If the tool stops between two files, the files already rewritten have exactly the text and ids they get in the complete run, the remaining files are untouched, and no info file has been written.", "quantifier": "for every list of files and every stopping point", "why_tests_cant": "All crash points.", "anchors": ["src/dredd/src/main.cc main", "src/libdredd/src/mutate_ast_consumer.cc HandleTranslationUnit"]}
{"id": "C40", "title": "Generated replacements are well typed", "statement": "Every operator that a mutator function applies to its arguments is allowed by the language for the argument types, so the mutated file compiles whenever the original did.", "quantifier": "for every operator, operand type, value category and language", "why_tests_cant": "All type combinations.", "anchors": ["src/libdredd/src/mutation_replace_binary_operator.cc IsValidReplacementOperator", "src/libdredd/src/mutation_replace_unary_operator.cc IsValidReplacementOperator", "src/libdredd/src/mutation_replace_expr.cc CanMutateLValue"]}
{"id": "C41", "title": "Inserted function names never fuse with the preceding token", "statement": "At each place where a call to a generated function is inserted, the character before the inserted name cannot be part of an identifier, so the name is a token of its own.", "quantifier": "for every source text and every set of mutations starting at the same place", "why_tests_cant": "All layouts of the source text.", "anchors": ["src/libdredd/src/mutation_replace_expr.cc PrecedingCharacterIsIdentifierCharacter, ReplaceExprWithFunctionCall", "src/libdredd/src/mutation_replace_binary_operator.cc ReplaceOperator", "src/libdredd/src/mutation_replace_unary_operator.cc Apply"]}
{"id": "C42", "title": "Mutations nested in temporaries are suppressed exactly by the documented rule", "statement": "An expression is exempted from mutation for temporary-lifetime reasons iff it is a materialised temporary, or an l-value or pointer valued member access or call from which one is reached through a chain of l-value or pointer valued member bases and call arguments.", "quantifier": "for every expression tree", "why_tests_cant": "All expression trees.", "anchors": ["src/libdredd/src/mutate_visitor.cc MayDependOnLifetimeOfMaterializedTemporaryStorage"]}
{"id": "C43", "title": "A file with errors does not stop the others from being processed", "statement": "Whatever subset of the input files fails to compile, the tool (debug build) runs to the end without tripping its own assertions about diagnostics, and writes the mutation info of the files that were mutated.", "quantifier": "for every sequence of good and erroneous files", "why_tests_cant": "All sequences; the existing tests put the erroneous file last or alone.", "anchors": ["src/dredd/src/main.cc main (assertions on getNumErrors and GetFilesWithErrors)", "src/libdredd/src/new_mutate_frontend_action_factory.cc BeginInvocation (clears the diagnostic client)"]}
{"id": "C44", "title": "The inserted runtime does not disturb library state of the program", "statement": "Calls made by the inserted prelude do not change the results of the program's own later calls of C library functions.", "quantifier": "for every program history that interleaves its own library calls with queries of mutated code, every environment value", "why_tests_cant": "All histories; single-file tests never tokenise a string across files.", "anchors": ["src/libdredd/src/mutate_ast_consumer.cc GetRegularDreddPreludeC (strtok)"]}
{"id": "C45", "title": "Coverage recording tolerates an unwritable tracking file", "statement": "If the tracking file cannot be opened, a coverage build still behaves like the original program.", "quantifier": "for every program and every outcome of opening the file", "why_tests_cant": "Failure of an operating system call at any reached site.", "anchors": ["src/libdredd/src/mutate_ast_consumer.cc GetMutantTrackingDreddPreludeC (fopen result unchecked), GetMutantTrackingDreddPreludeCpp"]}
{"id": "C46", "title": "Removing statements does not change what is left of the program", "statement": "Wrapping statements for removal leaves the value of every expression and the validity of the program unchanged: a wrapped statement is never one whose value, or whose position directly before a label, the program depends on.", "quantifier": "for every program, including GNU statement expressions and statement attributes", "why_tests_cant": "All programs; the tests contain no statement expression and no [[fallthrough]].", "anchors": ["src/libdredd/src/mutate_visitor.cc TraverseCompoundStmt", "src/libdredd/src/mutation_remove_stmt.cc Apply"]}
{"id": "C47", "title": "Dropping a self-inverse operator is covered by inserting it again", "statement": "The optimiser drops the replacement of -x, ~x or !x by x; for integer operands this mutant has the same value as the kept mutant that inserts the same operator once more before the expression, or as a kept constant replacement, or as the original, whenever the original is defined.", "quantifier": "for every integer type, language and operand value", "why_tests_cant": "All operand values of all types.", "anchors": ["src/libdredd/src/mutation_replace_unary_operator.cc IsOperatorSelfInverse, GenerateUnaryOperatorReplacement", "src/libdredd/src/mutation_replace_expr.cc GenerateUnaryOperatorInsertionNonLValue"]}
{"id": "C48", "title": "Exact effect of every set of enabled mutants", "statement": "For every set of enabled mutants the mutated program behaves like the source program in which at each site the enabled mutant with the smallest id replaces the operation and enabled removals remove their statement, except that an operand which the replacement does not need is still evaluated unless dredd passed it as a lambda (never in C; in C++ exactly operands that have side effects - for a unary operator: if the whole operation has side effects - and right operands of && and ||).", "quantifier": "for every program, set of enabled ids, initial memory and evaluation order the language allows", "why_tests_cant": "All programs, all subsets of mutants and all executions.", "anchors": ["src/libdredd/src/mutation_replace_expr.cc ReplaceExprWithFunctionCall, GenerateMutatorFunction", "src/libdredd/src/mutation_replace_binary_operator.cc ReplaceOperator, GenerateMutatorFunction, HandleCLogicalOperator", "src/libdredd/src/mutation_replace_unary_operator.cc Apply", "src/libdredd/src/mutation_remove_stmt.cc Apply"]}
{"id": "C49", "title": "Only code that is evaluated at run time is mutated", "statement": "No mutation is created inside code that is never evaluated (operands of decltype, typeid, _Generic) or that the compiler must evaluate (arguments that built-in functions and inline assembly require to be constant, bodies of constexpr lambdas), beyond the contexts C34 lists.", "quantifier": "for every AST", "why_tests_cant": "All ASTs; the tests have a case for __builtin_frame_address only.", "anchors": ["src/libdredd/src/mutate_visitor.cc TraverseCallExpr, TraverseLambdaExpr, TraverseStmt, VisitExpr"]}
{"id": "C50", "title": "No mutated l-value refers into a temporary", "statement": "An l-value or pointer obtained from a temporary object, through member access, call arguments or a member call on it, is never replaced by a call of a mutator function, so that no reference outlives the temporary.", "quantifier": "for every AST", "why_tests_cant": "All ASTs; all ways to obtain a reference from a temporary.", "anchors": ["src/libdredd/src/mutate_visitor.cc MayDependOnTemporary, VisitExpr"]}
{"id": "C51", "title": "Constants that the compiler needs stay constant", "statement": "If the initialiser of a const variable is mutated, every place in which the compiler needs the variable's value as a constant (static assertions, array sizes, template arguments, case labels, typedefs of arrays) no longer mentions the variable but its value.", "quantifier": "for every AST", "why_tests_cant": "All ASTs and all combinations of definition and use.", "anchors": ["src/libdredd/src/mutate_visitor.cc TraverseStaticAssertDecl, VisitVarDecl, VisitFieldDecl, VisitTemplateArgumentLoc", "src/libdredd/src/mutate_ast_consumer.cc RewriteExpressionInMainFileToIntegerConstant, HandleTranslationUnit"]}
{"id": "C52", "title": "The mutation tree follows the nesting of the source", "statement": "In the mutation info file, the ancestors of a mutation are exactly the mutations of code that encloses the code it changes (a removed statement encloses the expressions in it), and its group contains exactly the mutations of the same code; ids increase from left to right and from the inside out.", "quantifier": "for every AST, language and optimisation setting, every pair of mutations", "why_tests_cant": "All ASTs: the tests compare a handful of info files.", "anchors": ["src/libdredd/src/mutate_visitor.cc PushMutationTreeRAII, TraverseStmt, TraverseCompoundStmt, VisitExpr", "src/libdredd/src/mutation_tree_node.cc TidyUp, Compress, PruneEmptySubtrees"]}
{"id": "C53", "title": "No eligible expression or operator is missed", "statement": "An expression is replaced, and a unary or binary operator is replaced, exactly if it is wholly in the main file, inside a function, of a supported type, not in a context that must stay constant, and none of the listed exceptions applies (l-values that are not read or cannot be incremented, initialiser lists, null pointers, arguments that decide argument-dependent lookup, expressions that refer to temporaries, bit-fields passed by reference, conditions that declare a variable; with optimisations: parentheses, operands of casts, expression statements and operators with operands known to be 0 or 1).", "quantifier": "for every AST, language and optimisation setting, every node of it", "why_tests_cant": "All ASTs: a rule that skips too much only shows up as mutants that are silently missing.", "anchors": ["src/libdredd/src/mutate_visitor.cc VisitExpr, HandleExpr, HandleUnaryOperator, HandleBinaryOperator, MutatingMayAffectArgumentDependentLookup, MayDependOnLifetimeOfMaterializedTemporaryStorage, IsConversionOfEnumToConstructor, VisitVarDecl"]}
{"id": "C54", "title": "The written file is the described program, end to end", "statement": "If the places of a file at which the rules of C35 and C53 demand a change of its syntax tree are where Clang says they are and no inserted token fuses with its neighbour, then the file that a run writes consists of the prelude (for the first id and number of mutants of this file), the generated functions and the original functions with exactly those places changed; with any set of ids enabled, it behaves like the program described by these mutants, and like the original one if no enabled id belongs to it.", "quantifier": "for every run over any number of files, every syntax tree and every program text it belongs to, every language semantics with unsequenced operands, every value of the variable that lists ids, every execution", "why_tests_cant": "It quantifies over programs, their executions and sets of mutants at once; the tests compare the text of fixed files and never relate it to what the AST rules demand.", "anchors": ["src/libdredd/src/mutate_visitor.cc MutateVisitor", "src/libdredd/src/mutate_ast_consumer.cc HandleTranslationUnit, ApplyMutations", "src/libdredd/src/mutation_replace_expr.cc Apply", "src/libdredd/src/mutation_replace_unary_operator.cc Apply", "src/libdredd/src/mutation_remove_stmt.cc Apply"]}
{"id": "C55", "title": "The operator of a mutated operation is taken over by the generated function", "statement": "Whatever way the operator of a mutated operation is written - with its usual token, with an alternative token such as bitor or not, split over lines, or through a macro - the rewritten operation is a call in which the operator no longer occurs, so that with no mutant enabled it is applied once.", "quantifier": "for every operation, every spelling of its operator, every text of operands and surroundings", "why_tests_cant": "A test has one spelling; the test for macros records an output in which a macro operator is still in the argument and is thus applied twice, and nothing runs that output.", "anchors": ["src/libdredd/src/mutation_replace_binary_operator.cc Apply", "src/libdredd/src/mutation_replace_unary_operator.cc Apply", "src/libdredd/src/mutation_replace_expr.cc Apply", "test/single_file/macro_pasting.c.noopt.expected"]}
{"id": "C56", "title": "What is written around a construct that uses macros is around exactly this construct", "statement": "If a construct is mutated or removed, then the part of the main file that is wrapped is seen by the compiler as exactly the tokens of that construct: the ends never lie inside a macro invocation, its arguments, a macro definition or an included file, and the wrapped parts of two constructs are nested or disjoint as the constructs are. A construct is found in this way if and only if it consists of whole tokens and macro invocations of the main file whose first and last token are not pasted or made by the preprocessor.", "quantifier": "for every source with any nesting of object-like and function-like macros and any construct given by its first and last token", "why_tests_cant": "The tests have a few fixed macros; which combinations of nested invocations, arguments and pasted tokens begin or end a construct is unbounded.", "anchors": ["src/libdredd/src/util.cc GetSourceRangeInMainFile, getSourceLocationInMainFileForExtremeOfRange"]}
{"id": "C57", "title": "Mutated code follows the grammar of the language", "statement": "If a file follows the grammar of C or C++, then so does the mutated file: every inserted call has exactly the arguments it is meant to have, an operand that is wrapped in a call, cast or lambda is a form of expression that may stand there whatever operators are around it, and an inserted if statement has a complete statement as its body.", "quantifier": "for every syntax tree over an arbitrary rest of the language (any further productions, white space and comments), both languages, all options", "why_tests_cant": "The tests check fixed outputs. Which operators, comma operators, brace lists and conversions surround a mutated expression is unbounded, and whether the text parses is only seen by compiling it.", "anchors": ["src/libdredd/src/mutation_replace_expr.cc ReplaceExprWithFunctionCall", "src/libdredd/src/mutation_replace_binary_operator.cc ReplaceOperator", "src/libdredd/src/mutation_replace_unary_operator.cc Apply", "src/libdredd/src/mutation_remove_stmt.cc Apply"]}
{"id": "C58", "title": "Without optimisation a site has exactly the mutants of the catalogue", "statement": "With --no-mutation-opts the mutants listed for a site are exactly those of the catalogue of mutation operators, each once: a binary operator is replaced by every other operator of its family that is defined for the operand types (&& and || also by == and != in C++, == and != on truth values by && and ||) and, unless it assigns, by either operand; a unary operator by its operand and every operator that can stand in its place; an l-value is incremented and decremented; an r-value is negated, complemented and replaced by 0, 1 and -1 (or true and false) as its type allows. Every action of the information file's schema can occur.", "quantifier": "for all sites, both languages, all types and operators", "why_tests_cant": "The tests show some operators on some types; a replacement that is missing for one combination of operator and operand types would go unnoticed, and mutation scores would silently be too high.", "anchors": ["src/libdredd/src/mutation_replace_expr.cc GenerateMutatorFunction", "src/libdredd/src/mutation_replace_binary_operator.cc GetReplacementOperators, GenerateArgumentReplacement", "src/libdredd/src/mutation_replace_unary_operator.cc GenerateUnaryOperatorReplacement, IsValidReplacementOperator", "src/libdredd/include/libdredd/protobufs/dredd.proto"]}
{"id": "C59", "title": "Code is executed in the function in which it was written", "statement": "With no mutant enabled, a construct of the source whose meaning depends on the enclosing function - the name of the function, a return, break or continue of a statement expression, co_await - means the same in the mutated file, because code stays in the function in which it was written. (In C it does. In C++ exactly the mutated operands with side effects and the right operands of && and || are moved into a lambda, and then it need not.)", "quantifier": "for all mutations, both languages, all options; the places to which code is moved are characterised exactly", "why_tests_cant": "The mutated program compiles and runs, so nothing is seen unless a test happens to use such a construct inside an operand that Clang takes to have side effects.", "anchors": ["src/libdredd/src/mutation_replace_expr.cc ReplaceExprWithFunctionCall", "src/libdredd/src/mutation_replace_binary_operator.cc ReplaceOperator", "src/libdredd/src/mutation_replace_unary_operator.cc Apply"]}
{"id": "C60", "title": "--show-ast-node-types adds one comment per mutated node and changes nothing else", "statement": "A run with --show-ast-node-types gives the same mutants, ids and information file and rewrites the same files as a run without it; the text of each file is the same but for comments, each right after the name of a called function and closed before the parenthesis; there is exactly one comment, with class and address, for each mutated statement and expression (as the README says).", "quantifier": "for all lists of files, mutation trees, options and texts", "why_tests_cant": "The option is not covered by tests; that it changes nothing but comments, however edits are nested, is a statement about all programs.", "anchors": ["src/libdredd/src/mutation_replace_expr.cc ReplaceExprWithFunctionCall", "src/libdredd/src/mutation_replace_binary_operator.cc ReplaceOperator, HandleCLogicalOperator", "src/libdredd/src/mutation_replace_unary_operator.cc Apply", "src/libdredd/src/mutation_remove_stmt.cc Apply", "README.md Debugging Dredd"]}
{"id": "C61", "title": "Statement removal is right in the presence of jumps", "statement": "In functions with labels, goto, switch (with case labels anywhere in its body), break, continue and return: with no mutant enabled the mutated function performs the same events, returns the same values, hangs or fails as the original one; with mutants enabled it behaves as the function in which the statements of these mutants are null statements.", "quantifier": "for every function, every placement of the removal tests that the tool can choose, every set of enabled mutants and every meaning of expressions (including non-terminating and undefined ones)", "why_tests_cant": "It is about all combinations of nested jumps; a test runs a few programs, and the jumps of goto and switch into a removed statement are not tested at all.", "anchors": ["src/libdredd/src/mutate_visitor.cc TraverseCompoundStmt", "src/libdredd/src/mutation_remove_stmt.cc Apply"]}
{"id": "C62", "title": "What is inserted after a removed statement is code, and the statement keeps its semicolon", "statement": "In the mutated file the brace that closes the block around a removable statement is never part of a comment; if the next token after the statement is a semicolon, possibly after white space and comments, that semicolon is inside the block; if a preprocessor directive comes first, the block gets a semicolon of its own; in all other cases no semicolon is added; and the code after it is the same as before. When only coverage is tracked, just a call is put in front.", "quantifier": "for every file, every statement in it and every text after the statement: comments of both kinds in any number, spliced lines, directives", "why_tests_cant": "There are infinitely many arrangements of comments, line splices and directives; each test has one of them.", "anchors": ["src/libdredd/src/mutation_remove_stmt.cc Apply, IsNextTokenHash"]}
{"id": "C63", "title": "What optimisation leaves out is a fixed list", "statement": "With optimisations on, the mutants listed for a site are exactly those of the catalogue (C58), each once, but for these: insertions before comparisons (and, in C++, before && and || and their operands) and where they would give a constant; replacements by a constant the expression is known to have, and the weaker of true and false for comparisons, && and ||; all but two other operators for a comparison and all but one for && and || in C++; operators that give an operand or a constant because an operand is known to be 0 or 1; operands of comparisons and operands known to be 0, 1 or -1; for unary operators the operand of !, - and ~, and - and ! for operands known to be 0, 1 or (-) -1. The operators that are not mutated at all are 0 op 1, -1, ~0 and ~1.", "quantifier": "for every site of every type, integer or floating point, and everything the compiler may know about it", "why_tests_cant": "The list has to be checked for every operator, type and combination of known values; that nothing else is left out is a universal statement.", "anchors": ["src/libdredd/src/mutation_replace_expr.cc GenerateMutatorFunction, IsRedundantOperatorInsertion, IsBooleanReplacementRedundantForBinaryOperator", "src/libdredd/src/mutation_replace_binary_operator.cc IsRedundantReplacementOperator, IsRedundantReplacementForArithmeticOperator, GenerateArgumentReplacement, GenerateBinaryOperatorReplacement", "src/libdredd/src/mutation_replace_unary_operator.cc IsRedundantReplacementOperator", "src/libdredd/src/mutate_visitor.cc HandleUnaryOperator, HandleBinaryOperator"]}
{"id": "C64", "title": "Every value of DREDD_ENABLED_MUTATION has a known effect", "statement": "Whatever text DREDD_ENABLED_MUTATION holds, the first query of a thread is determined by its comma-separated items read from left to right: an empty item is ignored; an item that begins with a number (after white space and possibly a sign) that is a valid int lists that number, whatever text follows it; an item that does not begin with a number throws std::invalid_argument in C++ and lists mutant 0 in C; a number outside the range of int throws std::out_of_range in C++ and is undefined behaviour in C; subtracting the first id of the file from a number near the smallest int is undefined behaviour. If no item fails, every query of the thread answers whether the id is among those listed; otherwise the first query ends as the first failing item says.", "quantifier": "for every string, C and C++, first id and number of mutants of the file, and sequence of queries", "why_tests_cant": "All strings; the two preludes split and parse the value with different library functions.", "anchors": ["src/libdredd/src/mutate_ast_consumer.cc GetRegularDreddPreludeCpp (find, substr, erase, stoi), GetRegularDreddPreludeC (strtok, atoi)"]}
{"id": "C65", "title": "Floating-point mutants dropped as redundant are redundant, but for NaN and the sign of zero", "statement": "For operands of a floating-point type: every replacement of +, -, * and / that is dropped because an operand is the constant 0.0 or 1.0 gives the same number as the original expression or as a mutant kept at that expression, unless it gives NaN by multiplying infinity by zero or dividing zero by zero; the mutants of 0.0 op 1.0, which is not mutated as an operator at all, all give exactly the value of the original or of a constant kept for it; and every constant or minus sign dropped, and every mutant of -x, gives the same number as a mutant kept for the expression (before an operand of && or || in C++: the same truth value). The exceptions are real: x * 0.0 for x + 0.0 is lost when x is infinite, 0.0 / y for 0.0 + y when y is zero, and the sign of the zero x * 0.0 when x is negative.", "quantifier": "for every binary floating-point format of IEEE 754, every operand values (infinities, NaNs, subnormal numbers and zeros included), every operator pair and both languages", "why_tests_cant": "All pairs of floating-point operands in all formats.", "anchors": ["src/libdredd/src/mutation_replace_binary_operator.cc IsRedundantReplacementForArithmeticOperator, GenerateArgumentReplacement", "src/libdredd/src/mutation_replace_expr.cc GenerateFloatConstantReplacement, IsRedundantUnaryMinusInsertion", "src/libdredd/src/mutation_replace_unary_operator.cc IsRedundantReplacementOperator, IsOperatorSelfInverse", "src/libdredd/src/mutate_visitor.cc HandleBinaryOperator, HandleUnaryOperator"]}
{"id": "C66", "title": "The inserted prelude, read and run as C or C++, enables exactly the listed mutants", "statement": "The text that the tool inserts at the start of a mutated file is a program in C or C++. Read by the grammar of the language and run by its rules (integer promotions and conversions, 64-bit arithmetic, undefined behaviour, exceptions of std::stoi, destructive strtok, freed memory), its variables start in the state, and every call of __dredd_enabled_mutation in every state gives the value and the new state, that the state-machine model of C08-C10, C14, C44 and C64 says. Hence for every value of DREDD_ENABLED_MUTATION that lists ids, a call answers true exactly for the mutants whose ids are listed.", "quantifier": "for every first id and number of mutants of a file that fit an int, both languages, every value of the variable, every state of the thread, every state of the library, every sequence of calls", "why_tests_cant": "The text is a template filled with numbers and run on texts of any length; tests try a few.", "anchors": ["src/libdredd/src/mutate_ast_consumer.cc GetRegularDreddPreludeCpp, GetRegularDreddPreludeC, GetDreddPreludeCpp, GetDreddPreludeC"]}
{"id": "C67", "title": "The inserted coverage prelude, read and run as C or C++, records exactly the ids of the sites reached", "statement": "In coverage mode the inserted text, read and run as C or C++, asks of its surroundings, in this order and nothing else: to mark the site and tell whether it was marked before, the value of DREDD_MUTANT_TRACKING_FILE, to open the file it names for appending, to write for each mutant of the site a line with its id, and (in C) to close the file; it stops after the first of these that says there is nothing to do. If the file cannot be opened, C++ writes nothing and C has undefined behaviour. This is what the model of C18-C20 and C45 has a thread do.", "quantifier": "for every first id, number of mutants, site, both languages, and all answers of the surroundings", "why_tests_cant": "All answers of the environment, the file system and other threads.", "anchors": ["src/libdredd/src/mutate_ast_consumer.cc GetMutantTrackingDreddPreludeCpp, GetMutantTrackingDreddPreludeC"]}
{"id": "C68", "title": "The inserted mutator functions, read as C or C++, return what the information file says", "statement": "The declarations that dredd inserts for the mutated expressions and operators of a file, in whatever order, are text that reads as a sequence of function definitions of C or C++ and nothing else. The code put around an expression calls the definition read for it with the id of the first of its mutants. Run, the definition returns: the expression that the information file describes for the first mutant of the group that is enabled, applied to its arguments (pointers followed, lambdas called); the original expression if none is; in coverage mode the original expression after recording as many ids as the information file lists, from the first. For && and || in C the three definitions around the operands and the whole give together the truth value that the enabled mutant describes. What is read is also accepted by a compiler, types and parameter names included, where C40 says so.", "quantifier": "for every expression, operator, operand type, option, language, set of enabled mutants, and every sequence of such declarations", "why_tests_cant": "All combinations of operators, types, constants, options and enabled ids; that any order of declarations reads back needs induction over the text.", "anchors": ["src/libdredd/src/mutation_replace_expr.cc GenerateMutatorFunction", "src/libdredd/src/mutation_replace_binary_operator.cc GenerateMutatorFunction, HandleCLogicalOperator", "src/libdredd/src/mutation_replace_unary_operator.cc GenerateMutatorFunction", "src/libdredd/src/mutate_ast_consumer.cc HandleTranslationUnit"]}
{"id": "C69", "title": "Everything that the inserted code mentions is declared before it", "statement": "In a written file the text before the place of the prelude is unchanged, then comes the prelude, then the mutator functions, then the rest, provided that nothing before that place is mutated. The names with the prefix __dredd_ in the code put around expressions and statements are defined by the prelude or by the functions; these definitions have only such names, and the prelude and the functions do not define the same name. The functions mention only their parameters, the names defined by the prelude, and names that the headers included by the prelude declare; they do so whichever macros the compiler defines. The prelude for C mentions a name only after its declaration or that of a standard header it includes. The prelude for C++ does so but for std::getenv and, in mutation mode, size_t and uint64_t without std::, which the headers it includes need not declare (a gap in the prelude).", "quantifier": "for every list of files, option, language, tree of mutations, first id, number of mutants, and set of predefined macros", "why_tests_cant": "Tests compile with one or two standard libraries, whose headers include each other and so declare more than is promised; that any set of mutations leaves no undeclared name is a statement about all files.", "anchors": ["src/libdredd/src/mutate_ast_consumer.cc HandleTranslationUnit, GetRegularDreddPreludeCpp, GetRegularDreddPreludeC, GetMutantTrackingDreddPreludeCpp, GetMutantTrackingDreddPreludeC, kDreddPreludeHeadersCpp, kDreddPreludeHeadersC", "src/libdredd/src/mutate_visitor.cc TraverseDecl, GetDreddPreludeStartLocation", "src/libdredd/src/mutation_replace_expr.cc Apply", "src/libdredd/src/mutation_replace_binary_operator.cc Apply", "src/libdredd/src/mutation_replace_unary_operator.cc Apply"]}
{"id": "C70", "title": "The written file, read and executed, behaves like the program with the listed mutants", "statement": "A written file consists of the text before the prelude, a prelude, mutator functions, and the rest of the file with calls at the places to be mutated. The prelude and the functions can be read as C or C++. The file as read is executed: a call of a mutator function is a call of the one definition among those read that has this name and takes lambda expressions exactly where they are given; its parameters are passed as the types that were read say; the statements of its body are executed as they stand; whether a mutant is enabled is found out by running the prelude's own function, which reads the environment variable. Everything that the file so executed can do - results, memory and output, undefined behaviour, running for ever - the program in which exactly the mutants listed in the variable are applied can do, and if none of them is in the file, the original program. In coverage mode, where the function that records coverage is run, the original program can do it.", "quantifier": "for every run of the tool, written file, syntax tree, options, language, program of that file, value of the variable, function of the file and arguments", "why_tests_cant": "Tests compile some mutated files and enable some mutants; that overload resolution, the text of the functions, the text of the prelude and the text of the calls fit together for all programs and all sets of mutants cannot be tested.", "anchors": ["src/libdredd/src/mutate_ast_consumer.cc HandleTranslationUnit, ApplyMutations, GetRegularDreddPreludeCpp, GetRegularDreddPreludeC, GetMutantTrackingDreddPreludeCpp, GetMutantTrackingDreddPreludeC", "src/libdredd/src/mutate_visitor.cc TraverseDecl, HandleExpr, HandleUnaryOperator, HandleBinaryOperator, TraverseCompoundStmt", "src/libdredd/src/mutation_replace_expr.cc Apply, GenerateMutatorFunction, ReplaceExprWithFunctionCall", "src/libdredd/src/mutation_replace_binary_operator.cc Apply, GenerateMutatorFunction, ReplaceOperator, HandleCLogicalOperator", "src/libdredd/src/mutation_replace_unary_operator.cc Apply, GenerateMutatorFunction", "src/libdredd/src/mutation_remove_stmt.cc Apply"]}
{"id": "C71", "title": "Lines that are not mutated stay, and line numbers move by a known amount", "statement": "A written file is the original one with one added block, which begins with the comment // DREDD PRELUDE START, and changes at the mutated places. If no operator or constant that the tool replaces goes over the end of a line: characters of the file other than replaced operators and constants are in the written file, in the same order, before or after the block; the number of the line of each is that in the original file, plus the number of lines of the block if it stands after it, plus one for every mutated statement before it that is followed by a comment but by no semicolon (none in coverage mode); and lines in which nothing mutated begins or ends are still lines, with the same text.", "quantifier": "for every list of files, options, tree of mutations and text, every offset and every range of lines", "why_tests_cant": "Users rely on it for diagnostics, debuggers, __LINE__ and diffs; tests compare a few files as a whole.", "anchors": ["src/libdredd/src/mutate_ast_consumer.cc HandleTranslationUnit", "src/libdredd/src/mutation_remove_stmt.cc Apply", "src/libdredd/src/mutation_replace_expr.cc ReplaceExprWithFunctionCall", "src/libdredd/src/mutation_replace_binary_operator.cc Apply, HandleCLogicalOperator", "src/libdredd/src/mutation_replace_unary_operator.cc Apply"]}
{"id": "C72", "title": "The preprocessing directives of a file stay, in order, with those of the block at one place", "statement": "If nothing is mutated in lines that begin with #, and no # is replaced, the directives of a written file are the directives of the original file, each with its text and in the same order, with the directives of the added block inserted together at the place of the block: the inclusion of six or seven standard headers and, in mutation mode, a conditional definition of thread_local. In particular no inserted text is taken for a directive and no directive of the file is swallowed by inserted text. A header is therefore first included after the same directives of the file as before, unless the block includes it and comes first. That case is a gap: a file that defines a feature macro such as _GNU_SOURCE before its first #include gets its standard headers without it.", "quantifier": "for every list of files, options, language, tree of mutations and text", "why_tests_cant": "Depends on how texts that are inserted combine with all possible surroundings, line by line.", "anchors": ["src/libdredd/src/mutate_ast_consumer.cc HandleTranslationUnit, kDreddPreludeHeadersCpp, kDreddPreludeHeadersC", "src/libdredd/src/mutation_remove_stmt.cc Apply", "src/libdredd/src/mutation_replace_expr.cc Apply", "src/libdredd/src/mutation_replace_binary_operator.cc Apply", "src/libdredd/src/mutation_replace_unary_operator.cc Apply"]}
{"id": "C73", "title": "The information file, as text, tells the query script everything about every mutant", "statement": "The JSON text of the mutation information of a run, with any white space and any of the escapes that JSON allows, is read back as the same information, and the query script run on the file works: with --largest-mutant-id it prints the number of mutants minus one; with --show-info-for-mutant it prints, for every id of the run, where the mutant is, the original code and the replacement, taken from the file below the prefix of the original code, and ends with status 0; for any other number it prints that the id is unknown and ends with status 1. It never ends with an exception, provided the original file is there and has the recorded lines, which files in UTF-8 do. This relies on fields with default values (id 0, the first enumerator of an action) being written. It holds as long as the strings of the information are UTF-8; a snippet that is shortened in the middle of a multi-byte character is not.", "quantifier": "for every list of files, options, tree of mutations, layout and escaping of the JSON text, pair of prefixes and id", "why_tests_cant": "Tests look at a few ids of a few files; the claim is about all mutants, all ways to write the file, and the absence of exceptions.", "anchors": ["src/libdredd/include/libdredd/protobufs/dredd.proto MutationInfo", "src/dredd/src/main.cc main", "src/libdredd/src/util.cc InfoForSourceRange", "scripts/query_mutant_info.py main, build_mutant_to_node_mapping, get_text_for_source_range, show_info_for_mutant"]}
{"id": "C74", "title": "Mutants of expression statements without side effects cannot be noticed", "statement": "When optimisations are on, no mutants are made in statements of a block that are expressions without side effects, because there is no point. That is so: with --no-mutation-opts such mutants exist, and a program in which only such mutants are enabled, any number of them together, removals included, gives results, output and states of memory that the original program also gives, and runs for ever only if the original program does, unless the behaviour of the original program is undefined. Two kinds of mutants are exceptions: ++ and -- inserted before a variable have a side effect although the original expression has none, and a replacement such as / for + can make the behaviour undefined.", "quantifier": "for every language of values and memory in which reading has no effect, program, set of enabled mutants of side-effect-free expression statements, call and order of evaluation", "why_tests_cant": "Which mutants are left out on purpose cannot be seen in a test of the mutants that exist; the claim is about all executions of all programs with the mutants that would have been made.", "anchors": ["src/libdredd/src/mutate_visitor.cc TraverseCompoundStmt", "src/libdredd/src/mutation_replace_expr.cc GenerateMutatorFunction", "src/libdredd/src/mutation_remove_stmt.cc Apply"]}
{"id": "C75", "title": "The code shown for a mutant groups as the mutant does", "statement": "The text that the query script shows for a mutant can be read as C or C++ by itself: by the grammar of expressions it is the operands of the original expression, each as it is read in the source file, joined by the operator of the mutant. So no operator in an operand, whatever its precedence, and no comment or line break changes what the mutant is shown to be; and the text can be read in one way only. This holds unless an operand has operators that are words (bitor, and, sizeof) and otherwise only words, dots and white space: such operands are shown without parentheses.", "quantifier": "for every run over every list of files, id of a mutant, contents of the original files, and reading of the operands", "why_tests_cant": "The operands are arbitrary expressions with arbitrary layout; tests look at a few shown texts and nothing parses them.", "anchors": ["scripts/query_mutant_info.py parenthesise_if_needed", "scripts/query_mutant_info.py get_text_for_source_range", "scripts/query_mutant_info.py main"]}
{"id": "C76", "title": "A mutant that the coverage build does not record makes no difference", "statement": "If, on some input, no execution of the coverage build of a file writes the id of an enabled mutant to the tracking file, then everything the mutated program can do on this input with these mutants enabled (results, output on the way, undefined behaviour, running for ever) the original program can do too. So a test need not be run with mutants that it does not cover. This holds for files in which every site has a mutant, and for all mutants but those of && and || in C; for these too if the coverage build can always finish.", "quantifier": "for every program, input, order of evaluation, set of enabled mutants and called function", "why_tests_cant": "Relates all executions of two different builds of an arbitrary program with arbitrarily many mutants enabled; tests compare a few tracking files with expected ones.", "anchors": ["src/libdredd/src/mutate_ast_consumer.cc GetMutantTrackingDreddPreludeCpp", "src/libdredd/src/mutate_ast_consumer.cc GetMutantTrackingDreddPreludeC", "src/libdredd/src/mutate_ast_consumer.cc GetRegularDreddPreludeCpp", "src/libdredd/src/mutate_ast_consumer.cc GetRegularDreddPreludeC", "src/libdredd/src/mutation_replace_expr.cc MutationReplaceExpr::GenerateMutatorFunction", "src/libdredd/src/mutation_replace_binary_operator.cc MutationReplaceBinaryOperator::GenerateMutatorFunction", "src/libdredd/src/mutation_replace_binary_operator.cc MutationReplaceBinaryOperator::HandleCLogicalOperator", "src/libdredd/src/mutation_replace_unary_operator.cc MutationReplaceUnaryOperator::GenerateMutatorFunction", "src/libdredd/src/mutation_remove_stmt.cc MutationRemoveStmt::Apply"]}
{"id": "C77", "title": "The query script finds the original file, however the directories are written", "statement": "Asked for a mutant, the query script reports on it with the text of the file that has, below the directory of the original code, the name that the mutated file has below the directory of the mutated code. How the two directories and the information file are written on the command line (repeated slashes, dots, a slash at the end) makes no difference. This holds for file names without repeated slashes and dots and for directories other than the dot.", "quantifier": "for every run, id, spelling of the paths, file system and layout of the JSON text", "why_tests_cant": "There are infinitely many spellings of a path; the tests call the script with one spelling each.", "anchors": ["scripts/query_mutant_info.py show_info_for_mutant", "scripts/query_mutant_info.py main"]}
{"id": "C78", "title": "A program linked from several mutated files", "statement": "A program whose files were mutated, in one run of the tool or in several, behaves like the program in which, in every file, exactly the mutants are made whose ids DREDD_ENABLED_MUTATION lists; with the files of one run, these are the mutants that one gets by numbering through all files. Functions in files without a listed mutant are the original ones; if no file has one, the program behaves like the original program, and so does a program linked from files mutated for coverage, if every place with a call for mutants has at least one mutant and the tracking file can be opened. (With the operand order of C++17: if the operand that comes second at assignments and shifts has side effects.) Files of several runs can have mutants with the same id, and all of them are made.", "quantifier": "for every list of files, choice of first ids, value of the variable, call, memory and order of evaluation", "why_tests_cant": "Programs, files and sets of enabled mutants are infinitely many, and a call can go back and forth between files whose preludes are initialised at different times.", "anchors": ["src/libdredd/src/mutate_ast_consumer.cc HandleTranslationUnit", "src/dredd/src/main.cc main", "src/libdredd/src/mutate_ast_consumer.cc GetRegularDreddPreludeCpp, GetRegularDreddPreludeC"]}
{"id": "C79", "title": "Coverage of programs linked from several files", "statement": "If no execution of the program linked from the files mutated for coverage, called in some way, writes the id of an enabled mutant to the tracking file, then the program linked from the mutated files, with these mutants enabled and called in that way, behaves like the original program: every result, memory, undefined behaviour and divergence of the one is possible in the other. This holds whatever first ids the files have, thus also for files of several runs that share ids; mutants of && and || in C need a program that can always finish, and every mutated place needs a mutant.", "quantifier": "for every list of files, choice of first ids, set of enabled mutants, call, memory and order of evaluation", "why_tests_cant": "Programs, files and sets of mutants are infinitely many; that a mutant is not recorded is about all executions, and each file records with tables of its own.", "anchors": ["src/libdredd/src/mutate_ast_consumer.cc GetMutantTrackingDreddPreludeCpp GetMutantTrackingDreddPreludeC", "src/dredd/src/main.cc main", "src/libdredd/src/mutation_remove_stmt.cc MutationRemoveStmt::Apply", "src/libdredd/src/mutation_replace_expr.cc MutationReplaceExpr::GenerateMutatorFunction"]}
{"id": "C80", "title": "Mutated programs with several threads", "statement": "A program of mutated C++ files with several threads, which start others and take turns after any step, behaves like the program in which exactly the listed mutants are made in every file, whatever thread runs the code and whenever it makes its first query: what it ends with, undefined behaviour, the memories that it gets to, and running for ever - also with every thread having its turns, so that a mutant cannot make the other threads wait for ever. With no listed mutant it behaves like the original program, and so does the program mutated for coverage, whose threads share the arrays of recorded ids. No thread gets stuck. For C the same holds if no two threads make their first query at the same time (see C09).", "quantifier": "for every program, number of threads, way of starting and ending threads, interleaving, list of files, value of the variable and memory", "why_tests_cant": "Interleavings are unboundedly many, a test sees one of them, and the state of the preludes of each thread changes at another time.", "anchors": ["src/libdredd/src/mutate_ast_consumer.cc GetRegularDreddPreludeCpp GetRegularDreddPreludeC", "src/libdredd/src/mutate_ast_consumer.cc GetMutantTrackingDreddPreludeCpp GetMutantTrackingDreddPreludeC"]}
{"id": "C81", "title": "Coverage of programs with several threads", "statement": "If in no interleaving a thread of the program mutated for coverage writes the id of an enabled mutant to the tracking file, then the mutated program with these mutants enabled, begun in the same way, behaves like the original program: whatever it ends with, its undefined behaviour, the memories that it gets to, and that it runs for ever, also with every thread having its turns, is possible in the original. Mutants of && and || in C need a program that can always end, and every mutated place needs a mutant.", "quantifier": "for every program, number of threads, way of starting and ending threads, set of enabled mutants and memory; about all interleavings", "why_tests_cant": "A coverage run sees one interleaving; the array of recorded ids is shared by the threads while each thread has its own enabled mutants.", "anchors": ["src/libdredd/src/mutate_ast_consumer.cc GetMutantTrackingDreddPreludeCpp GetMutantTrackingDreddPreludeC", "src/libdredd/src/mutate_ast_consumer.cc GetRegularDreddPreludeCpp GetRegularDreddPreludeC", "src/libdredd/src/mutation_remove_stmt.cc MutationRemoveStmt::Apply", "src/libdredd/src/mutation_replace_expr.cc MutationReplaceExpr::GenerateMutatorFunction"]}
{"id": "C82", "title": "Coverage, from the written files", "statement": "If a run of the tool writes a file, the run with coverage tracking over the same files writes it, too, and both texts can be read: a prelude, functions, and the declarations with calls. If the text with coverage tracking, executed as it is read, never writes a line with the id of an enabled mutant to the tracking file, then the text without it, executed as it is read with the environment variable listing these mutants, behaves like the original program. Mutants of && and || in C need a coverage build that can always finish, and every mutated place needs a mutant.", "quantifier": "for every run of the tool, written file, program, call, value of the variable and memory; about all executions of both texts", "why_tests_cant": "It relates all executions of three programs, two of which are printed by the tool; a coverage test compares a few printed texts and runs.", "anchors": ["src/libdredd/src/mutate_ast_consumer.cc MutateAstConsumer::HandleTranslationUnit GetMutantTrackingDreddPreludeCpp GetMutantTrackingDreddPreludeC GetRegularDreddPreludeCpp GetRegularDreddPreludeC", "src/libdredd/src/mutation_remove_stmt.cc MutationRemoveStmt::Apply", "src/libdredd/src/mutation_replace_expr.cc MutationReplaceExpr::GenerateMutatorFunction", "src/libdredd/src/mutation_replace_binary_operator.cc MutationReplaceBinaryOperator::GenerateMutatorFunction", "src/libdredd/src/mutation_replace_unary_operator.cc MutationReplaceUnaryOperator::GenerateMutatorFunction"]}
{"id": "C83", "title": "Files are mutated from their original text", "statement": "The tool overwrites every file as soon as it has been handled, while later files are still to be read. Nevertheless the mutants, their ids, the mutation info and the texts that are left behind are those of the files as they were before the run, if no file is given after a file that is read for it (an included file, or the same file by another name). Files that are not given are left alone in any case. A run that is stopped between two files leaves the files handled so far as the whole run would, and all others as they were.", "quantifier": "for all file systems, lists of names with repetitions, options, and whatever Clang finds in the files", "why_tests_cant": "The tests mutate one file, or files that have nothing to do with each other; what later files see of earlier ones depends on names and includes without bound.", "anchors": ["src/dredd/src/main.cc main", "src/libdredd/src/new_mutate_frontend_action_factory.cc MutateFrontendAction::BeginInvocation", "src/libdredd/src/mutate_ast_consumer.cc MutateAstConsumer::HandleTranslationUnit"]}
{"id": "C84", "title": "Constants in declared types are replaced by their values", "statement": "In C++, every integer constant that is a template argument or array size in the type of a variable is replaced by its value in the mutated file, however deep it is in a nest of templates or of arrays, so that the type does not depend on variables whose initial values are mutated. Nothing else is replaced, and constants that several variables share are replaced once.", "quantifier": "for all declarations, types of any depth and constants", "why_tests_cant": "Types nest without bound; the tests have a few nests of std::array.", "anchors": ["src/libdredd/src/mutate_visitor.cc MutateVisitor::TraverseVarDecl MutateVisitor::TraverseDecl MutateVisitor::TraverseParmVarDecl MutateVisitor::SaveConstantTemplateArgumentForRewrite", "src/libdredd/src/mutate_ast_consumer.cc MutateAstConsumer::RewriteExpressionsInMainFile MutateAstConsumer::RewriteExpressionInMainFileToIntegerConstant"]}
{"id": "C85", "title": "Mutated files with replaced constants behave as the listed mutants say", "statement": "If the tool also replaces constants by their values in a file - sizes of arrays, arguments of templates and of builtin functions, conditions of static assertions - the written file is the original text with these replacements, the calls at the mutated places and what is put in front of the declarations. It can be read, and executed it can only do what the original program with exactly the listed mutants can do; with none of its mutants, or in a coverage build, only what the original program can.", "quantifier": "for all files, programs, replacements of text that has no characters of mutated operators, lists of enabled mutants, and executions", "why_tests_cant": "Replacements and mutations of one file are made by the same rewriter, at positions of the original text, and their number and nesting is unbounded; the tests compare the output of a few files.", "anchors": ["src/libdredd/src/mutate_ast_consumer.cc MutateAstConsumer::HandleTranslationUnit MutateAstConsumer::RewriteExpressionsInMainFile MutateAstConsumer::RewriteExpressionInMainFileToIntegerConstant MutateAstConsumer::ApplyMutations", "src/libdredd/src/mutation_replace_expr.cc", "src/libdredd/src/mutation_replace_binary_operator.cc", "src/libdredd/src/mutation_replace_unary_operator.cc", "src/libdredd/src/mutation_remove_stmt.cc"]}
{"id": "C86", "title": "Coverage of statement removal is right in the presence of jumps", "statement": "In functions with labels, goto, switch (with case labels anywhere in its body), break, continue and return: the coverage build performs the same events, returns the same values, hangs or fails as the original function, but for the ids that it records; it records exactly the removals whose tests would be made; and if it does not record a removal, enabling that mutant makes no difference, even if the statement is entered by a jump.", "quantifier": "for every function, every placement of removals that the tool can choose, every set of enabled mutants, every memory and every meaning of expressions (including non-terminating and undefined ones)", "why_tests_cant": "It is about all combinations of nested jumps in two builds of a function; a test runs a few programs of which it knows what they do.", "anchors": ["src/libdredd/src/mutation_remove_stmt.cc MutationRemoveStmt::Apply", "src/libdredd/src/mutate_visitor.cc MutateVisitor::TraverseCompoundStmt"]}
{"id": "C87", "title": "The information file is left behind and is about the files left behind", "statement": "When the tool ends with status 0 and --mutation-info-file was given, that file holds the JSON form of the mutants that are now in the given files, found in the files as they were before the run; every given file was mutated from its original text, and no other file has changed. query_mutant_info.py, run on what is left behind, prints the largest id, rejects ids of no mutant and reports every mutant with the text of an original kept in another directory. The status is not 0 if a given file has errors or the information cannot be written as JSON. A run with --only-track-mutant-coverage on the same files ends with the same status and leaves the same information file.", "quantifier": "for all file systems, lists of names with repetitions, options, whatever Clang finds in the files, and whatever layout protobuf gives the JSON text", "why_tests_cant": "Goes through the tool, the disk and the script; the tests have one layout and files that can be written.", "anchors": ["src/dredd/src/main.cc main", "src/libdredd/src/new_mutate_frontend_action_factory.cc", "src/libdredd/src/mutate_ast_consumer.cc MutateAstConsumer::HandleTranslationUnit", "scripts/query_mutant_info.py main"]}
{"id": "C88", "title": "Files that are mutated already are not mutated again", "statement": "A file that a run of the tool has written, given to the tool again, is rejected, left alone, or made into a program. What happens: every written file defines, on a line of its own, the function that tells whether a mutant is enabled (or that records mutants); a second run in the same mode that finds something to mutate writes a file with this line twice, which no compiler accepts.", "quantifier": "for every list of files, options, trees of mutations and texts, of the first and of the second run", "why_tests_cant": "The tests mutate every file once; what a second run does follows for all files only from where the block is put and what is kept of the text.", "anchors": ["src/libdredd/src/mutate_ast_consumer.cc MutateAstConsumer::HandleTranslationUnit", "src/libdredd/src/mutate_ast_consumer.cc MutateAstConsumer::GetRegularDreddPreludeC"]}
