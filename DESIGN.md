# Verification design for dredd

Code under study: mc-imperial/dredd (mutant schemata for C and C++), read as text in /repo.
All paths below are relative to `/repo/src/libdredd/src` unless they start with `scripts/` or
`src/`.

## Trusted base

* Coq 8.16.1's kernel (and `coqchk`).
* What `Print Assumptions` prints beneath each property theorem.  The aim is
  "Closed under the global context" for all of them; any exception is listed in the table of results.
* The faithfulness of the model: each definition in a `Model`-type file cites the file and lines it
  transcribes.  Generated text is checked against the repository's own expected outputs
  (`test/single_file/*.expected`) by `Example`s, which are tests of the model, not proofs.
* Clang is not modelled.  Every question dredd asks Clang (type, value category, constant value,
  side effects, opcode, parent node, source offsets) is a field of a record that is universally
  quantified in the theorems.  Facts about Clang that a theorem needs are explicit hypotheses.
* The libraries that generated code calls are modelled by small functions: `std::getenv`, `std::stoi`,
  `atoi`, `strtok`, `std::string::find/substr/erase`, atomic exchange, file append.
* The reader and the semantics of the fragment of C and C++ in which the preludes and the mutator functions are
  written (`CText.v`, `CRun.v`; `FunText.v`, and `behaves` in `FunSpec.v`; `TextLang.v` for calls of functions that were read).
  Preprocessing directives are skipped, so `thread_local` is taken to be the language's; `malloc` is assumed to
  succeed; a stream is closed when its block ends, without a request of its own; the value of a variable of the
  environment has no null character.
* What the standard headers included by the preludes are sure to declare (`c_header`, `cpp_header` in `NameSpec.v`, from
  the C11 and C++17 standards; only the names that matter here are listed).
* The C/C++ semantics used for the preservation theorems is a small-step semantics of a core language
  (`Lang.v`), given in full in the model.  Undefined behaviour is a distinct outcome.  Values, memory and the
  operations on them are parameters, about which a few laws are assumed (fields of the record `lang`, e.g.
  that converting twice to a type is converting once); `SimExample.v` gives an instance.  Simplifications: one
  file at a time (functions of other files are library functions), no threads, no goto, no exceptions, no
  destructors, operands are unsequenced (any interleaving; calls are not interleaved) except for the
  C++17 rules about assignments and shifts, which are a switch.

## Which parts are modelled

| Code | Coq file |
|---|---|
| `mutation_tree_node.cc` | `MutTree.v` |
| `mutate_ast_consumer.cc` ApplyMutations, HandleTranslationUnit; `new_mutate_frontend_action_factory.cc`; `src/dredd/src/main.cc` | `Run.v` |
| preludes (`mutate_ast_consumer.cc` 253-473) as text and as state machines | `PreludeText.v`, `Prelude.v`, `PreludeC.v` (steps of `strtok`), `Tracking.v`; C66 and C67 prove that the text, read and run as C or C++, does what the state machines do |
| C and C++ as used by the inserted text: reader and semantics | `CText.v`, `CRun.v`; function definitions: `FunText.v`; preprocessing directives and scopes: `NameSpec.v`; whole files: `TextLang.v` |
| `mutation_replace_expr.cc`, `mutation_replace_binary_operator.cc`, `mutation_replace_unary_operator.cc`, `mutation_remove_stmt.cc` | `Clang.v`, `GenExpr.v`, `GenBinary.v`, `GenUnary.v`, `GenStmt.v` |
| clang::Rewriter as used by Apply | `Rewriter.v` (cells), `Operator.v` (operators not in the file), `RewriteBuffer.v` (Clang's buffer and deltas; C29_buffer proves that they agree) |
| C/C++ core language, calls of generated functions | `Lang.v` |
| syntax trees with their text, meaning and mutation sites; what Apply writes for them | `Cst.v` |
| the prelude as the runtime of a program | `Runtime.v` |
| executing programs (for examples) | `LangRun.v`, `SimExample.v` |
| `mutate_visitor.cc` | `Sites.v` (HandleUnaryOperator, HandleBinaryOperator), `Visitor.v` |
| `util.cc` | `SourceRange.v`, `Macro.v` (ranges in the main file) |
| `scripts/query_mutant_info.py` | `Query.v`, `QueryText.v` (file reading), `InfoScript.v` (the whole script on the text) |
| `dredd.proto` and its JSON form, `src/dredd/src/main.cc` 174-191 | `InfoJson.v` |
| `log_failed_files_diagnostic_consumer.cc`, diagnostics and assertions of `src/dredd/src/main.cc` | `Diagnostics.v` |
| `mutate_ast_consumer.cc` 177-251 (constants) | `ConstRewrite.v` |
| constants in the types of declarations (`mutate_visitor.cc` 148-190, 864-889) | `DeclTypes.v` |
| `--show-ast-node-types` | `NodeTypes.v` |
| `src/dredd/src/main.cc` on a disk that the run changes, with the information file | `Disk.v`, `InfoFile.v` |
| paths in `scripts/query_mutant_info.py` | `PathText.v` |
| the end of a statement in the text (`mutation_remove_stmt.cc`) | `StmtEnd.v` |
| programs linked from several mutated files, with threads | `Linked.v`, `Threads.v` |
| statements with goto, switch and labels, mutated and in a coverage build | `Jump.v`, `JumpCover.v` |

Not modelled: Clang parsing and Sema, how protobuf chooses layout and escapes of the JSON text, command-line parsing,
CMake/test scaffolding, the Python regression scripts other than the query script.

## Per property: what is modelled and how it will be proved

* C01, C04 - ApplyMutations as a recursive function on the tidied tree threading the id counter and the
  flat node list; the list of described ids is proved to be the interval by induction on the tree, then
  on the list of files.  A site is any function from base id to a list of instances numbered from the
  base; each real site kind is proved to be one.
* C02, C39 - the run is a fold over the inputs with a state (counter, processed set, outputs, info);
  skipping and prefix laws by induction on the list.
* C03 - the site functions take the mode as argument; equality by case analysis of the generators.
* C05 - decoder of the flat list; round trip by induction on the tree with an offset-shift lemma.
* C06 - MutTree functions with a fuel-free structural formulation of the `while`; order and ancestry
  are stated on paths.
* C07 - mutator functions are modelled as structured bodies plus a printer that yields the exact
  text; the theorem relates instance k to line k for all site profiles.  For && and || in C the truth
  values computed by the three helper functions are related to the instances.
* C08, C09, C10, C14 - prelude as a state machine over machine words with the UB and exception outcomes
  explicit; threads as an indexed family of states; all interleavings by induction.
  C10 is expected to be refuted on malformed input, and proved on well-formed lists.
* C11, C12, C13, C15, C16, C17, C22, C48 - core language with side effects and unspecified evaluation order;
  mutated language with mutator calls, by-value, by-reference, pointer and lambda arguments.  What a source-level
  mutant is: `SimSpec.v` and `MutantSpec.v`.  Proof: a simulation relation between terms of the mutated and of
  the source-level program (`SimRel.v`), each step of the former is matched by steps of the latter
  (`SimProof.v`), generated code is related to the source (`SimMutate.v`), the runtime answers as it should
  (`SimTop.v`, using C08 and C18).
* C18, C19, C20 - recording function as a step machine for any number of threads; C18 and C20 expected to be
  refuted in the presence of sites without mutants, proved if all sites have a mutant; C21 connects.
* C21, C23 - case analysis of the generators over all profiles.
* C24 - kill sets over arbitrary operand pairs; subsumption by case analysis of the four possible
  orderings (less, equal, greater, unordered).
* C25, C26 - fixed-width integer arithmetic with UB as None; dropped replacements compared with kept
  ones.  Exceptions expected (unsigned negation of 1; constants division) and recorded.
* C27 - names as strings; equality of names and parameter types implies equality of function text:
  the names are words over finite tables of endings that are checked to be uniquely decodable, and
  everything else in a function is determined by the decoded key, under stated facts about how Clang
  types nodes (`clang_node` in ClashSpec.v). Lifted to the functions inserted in each written file.
* C28 - sorted duplicate-free insertion; permutation invariance.
* C29, C30, C41 - Rewriter as per-offset insert lists; rendering of nested edits by induction on the
  expression tree: the edits are followed in a document that keeps the text inserted after an offset's token
  apart from that inserted before it (`NestProof.v`), which agrees with the rewriter's cells where no place
  ends at the beginning of another one.  C30 and C41 are refuted in general, with positive versions.
* C31, C32, C37 - functions on strings and positions.  C37 expected to be refuted.  C32 for files in UTF-8, with
  the encoding of characters written out in SourceRangeSpec.v (`encode`).
* C33 - decimal printing of the two's complement value; expected to be refuted for negative values.
* C34, C35, C42, C46, C49, C50, C51 - the visitor as a recursive function on an abstract AST whose nodes carry what
  the visitor asks Clang for (`Visitor.v`); positions are paths, contexts are lists of enclosing nodes with the
  child's role (`VisitorSpec.v`).  C34 and C35 by induction on the AST with an invariant for the state of the
  visitor; C35 and C51 are equivalences.  The others: rules proved, exceptions refuted with small programs.
* C52 - positions attached to the mutations of the tree; the traversal only appends to the current node, which
  gives for every subtree an invariant on ancestors, group and order (`VisitorTree.v`).
* C53 - the conditions for each kind of mutation as records of propositions (`ExactSpec.v`); the boolean checks
  decide them, and one induction gives the set of declared variables and of mutations after every traversal
  (`ExactProof.v`).
* C54 - positions of the syntax tree are attached to the places of the text, in order (`EndSpec.v`); a strictly
  sorted list is determined by its elements, so these are the mutations found (C35, C52, C53), and C29 and C48
  apply (`EndProof.v`).
* C55 - edits with the place of the operator as a parameter (`Operator.v`); what the rewritten text is follows from
  C29 with the operator left in place or cut, and is then compared with the wanted text (`OperatorProof.v`).  The
  wrong behaviour is computed by the interpreter (`LangRun.v`).
* C56 - the source as a list of tokens and macro invocations with their expansion as a tree; locations are paths
  (`Macro.v`).  A location determines and is determined by a position in the preprocessed source (`MacroSpec.v`);
  the checks at each level of the path decide whether this is the first or last one (`MacroProof.v`).  This is what
  C29 and C54 assume of ranges.
* C57 - a context-free grammar with holes for the code that Dredd writes; the rest of the language (productions, white
  space) is a parameter.  `fits d t`: the concrete syntax tree t is one of the grammar at a place of category d.
  Mutation preserves it (induction on the tree) under `careful`, which names the three things that can go wrong.
  C29, C48 and C54 give the meaning of a file through this tree; C41, C55, C56 and C57 say when the text is read as
  that tree.
* C58 - a catalogue of mutation operators by families and types, written down separately; equivalence with the
  described actions by case analysis (`CatalogueSpec.v`).
* C59 - the offsets at which text that opens a lambda is inserted, equal to a separate description of the operands
  that are moved; partial, since constructs that depend on the enclosing function are not in the language model.
* C60 - the functions that write text once more with the comment (`NodeTypes.v`), up to a whole run; the two texts are
  related by `commented`, preserved by edits of the rewrite buffer (induction on edits, tree and list of files).
* C61 - a small-step semantics with continuations for statements with goto, switch, break, continue and return over an
  arbitrary meaning of expressions (`Jump.v`); a simulation in both directions that includes divergence, with the
  placement of tests by TraverseCompoundStmt as a relation.
* C62 - the loop over comments and the test for a semicolon or hash sign, on the text that follows (`StmtEnd.v`); a
  reader for code, comments and literals that works character by character (`StmtEndSpec.v`); induction on the text.
* C63 - the omissions written down per action, by families and known values (`OmitSpec.v`); equivalence with the
  described actions by case analysis.
* C64 - the same model as C08: an item either lists ids or fails (PreludeSpec.v: `reads`, `fails`), every text is
  a comma-separated list of items each of which is of exactly one kind (`C64_every_value`, `C64_one_meaning`), and the
  initialisation follows the items (`C64_read`, `C64_not_read`).
* C65 - floating-point values and operations are those of Coq's `SpecFloat` (IEEE 754, rounding to nearest, one NaN) in
  any format with 1 < prec < emax (FloatSpec.v); FloatProof.v shows that multiplying and dividing by one and adding zero
  are exact there, and then goes through the cases of the redundancy tests. Clang's knowledge of constants is a
  hypothesis (`known_float`: the value is bitwise 0.0, 1.0 or -1.0). Contraction, wider evaluation (FLT_EVAL_METHOD),
  other rounding modes and floating-point exceptions are not modelled.
* C66, C67 - the inserted text is read (`CText.v`: tokens, declarations, statements and expressions of the fragment of C
  and C++ in which it is written) and run (`CRun.v`: values with their types, promotions, conversions, 64-bit words,
  undefined behaviour, exceptions; whatever concerns the surroundings - environment, strtok, atomic exchange, files - is a
  request with an answer, so that other threads and failures are covered by quantifying over the answers). The text is
  read once for all numbers (`CTextProof.v`), the loop over the items by induction on the text (`CRunProof.v`, `CRunC.v`),
  the loop over the lines by induction on their number (`CRunTrack.v`). `TextSpec.v` says what the runs should be.
* C68 - mutator functions are read by the tokeniser and the statement parser of C66, extended by types, parameters and
  definitions (`FunText.v`).  What a body does (`behaves`), what it should do (`does`, `do_together`) and what a compiler
  accepts (`accepted`) are in `FunSpec.v`, on the tree that is read, not on the structure from which dredd prints.
  Reading is compositional: a text that `lexes` as tokens can be followed by any other; types, returned expressions and
  lines are read by case analysis, names and numbers for all values, bodies by induction on the lines (`FunProof.v`,
  `FunProof2.v`); every generated function is of that form (`FunProof3.v`, where the assumptions about Clang's nodes of
  C27 are used: without them, a const l-value in C would give a type that does not parse).
* C69 - `NameSpec.v` reads the preprocessing directives of a text (conditional inclusion, for any set of predefined
  macros), lists what the included headers declare, and checks scopes on what the reader of C66 and C68 yields.  The
  prelude is checked once for all numbers; functions by the reading lemmas of C68; names in the inserted code by
  scanning words (`NameProof.v`, `NameProof2.v`); the text before the prelude is unchanged because no edit touches it
  (`NameTop.v`).
* C70 - `TextLang.v` gives the meaning of a written file: calls of mutator functions are resolved among the definitions
  read from the text (by name and by which arguments are lambda expressions), parameters are passed as the types that
  were read say, bodies are executed as read by `behaves` of C68, and whether a mutant is enabled is found out by
  running the prelude that was read (C66, C67).  It is related step by step to the model of calls in `Lang.v`
  (`TextLangProof.v`, `TextLangProof2.v`, `TextLangProof3.v`), so that C15, C16 and C54 apply (`TextTop.v`).
  Simplifications: the user's own code and the guards of removed statements are taken from the syntax tree instead of
  being parsed again; overload resolution looks only at which arguments are lambda expressions (that the types of the
  others fit is C40); an exception of the prelude counts as undefined behaviour; one thread.
* C71 - `LineSpec.v` says what a line is, which characters of a file are replaced (operators, constants) and where
  mutated constructs begin and end; `LineProof.v` gives for any sequence of edits the place of every character of
  the original text in the result, by induction over the edits and the text; `LineTop.v` counts the line feeds of
  all texts that are inserted, for every kind of mutation.
* C72 - the reader of directives of C69 (`NameSpec.v`) is run on the original and on the edited text side by side
  (`HeaderRun.v`): by induction over the characters the two are in the same directive, or both in none; every text that
  is inserted, and every generated function, contains no # (`HeaderProof.v`).  `HeaderTop.v` adds the block.
  Not modelled: directives that begin after white space, are continued over lines, or are in comments.
* C73 - `InfoJson.v`: the messages of dredd.proto and their JSON form as main.cc asks for it.  `InfoScript.v`: the
  whole of query_mutant_info.py, from the bytes of the file to what is printed and the exit status, with exceptions as
  an outcome; json.load is a recursive descent reader.  `InfoSpec.v`: JSON texts as a relation (RFC 8259; any white
  space and escapes), and the report that should be printed.  `InfoRead.v`: the reader inverts the relation, by mutual
  induction.  `InfoProof.v`: the script on the JSON form does what C36 says of the information.  `InfoLines.v`: recorded
  lines exist; which values have a text.  How protobuf lays out the text is not modelled: the theorems hold for every
  layout.
* C74 - `QuietSpec.v`: expressions without side effects (Expr::HasSideEffects, without volatile objects: reading is
  assumed to have no effect), and that all enabled mutants are in statements that are such expressions.
  `QuietProof.v`: relation between a program and the one in which such statements are erased, as a weak simulation in
  both directions; evaluating an expression without effects ends, since it becomes smaller at each step, and leaves
  memory alone.  `QuietTop.v`: the original program and the exact mutant (C48) erase to the same program.
* C75 - `ShownSpec.v`: a lexer and a grammar of expressions (as relations between tokens, tree and remaining tokens),
  which know nothing about the tool, and what tree a mutant should be.  Texts outside the grammar (braces, lambdas,
  template arguments, `::`, casts to named types, raw strings) have no reading, so nothing is said about operands that
  contain them.  `ShownProof.v`: reading is deterministic; an expression in parentheses is read as it is by itself;
  `ShownTop.v`: what bare characters can lex to, and each form of phrase.
* C76 - `CoverSpec.v`: the executions of the coverage build that do not record an enabled mutant.  `CoverProof.v`: the two
  builds are run side by side; their terms differ in the generated functions only, and in C in the calls around the
  operands of `&&` and `||`, during which the coverage build waits.  A query that is answered with true comes with a record
  of the same site.  `CoverTop.v`: the two builds start related, and the tracking file has the ids of all sites
  that are marked as recorded.  If a mutant of `&&` or `||` acts in C, the coverage build has a call waiting that records
  it (`pending`), and cannot finish before making that call; so where it always can finish these mutants need no exception.
* C77 - `PathText.v`: str(Path(..)) of Python, which the paths among the arguments go through.  `PathSpec.v`: when two texts
  are the same path, as rewriting rules for slashes and dots.  `PathProof.v`: the text that Python gives back is the same path
  and depends on the path only; with C73 this gives the report.
* C78 - `Linked.v`: a program made of mutated files, each with its own prelude, flag and bits; a test in file k goes to the
  prelude of file k.  (In the text of each file ids begin with 0; in the model of the program the ids of file k are moved behind
  those of the files before it, which tells the preludes apart.)  `LinkedProof.v`: the relation of C48 holds with
  a runtime that works file by file - the flag of one file says nothing about the mutants of another -, and the ids
  can be moved.  Not modelled: files in different languages, static functions of the same name.
* C79 - C76 for the linked programs of C78.  `LinkedCoverProof.v`: the calls of the mutants of a place are all to the prelude of
  one file (the places of a file do not reach into the next one), so each file keeps its own account of what it has
  written; the relation of C76 then holds with the preludes taken together.
* C80 - `Threads.v`: threads with a term and an environment each, which share memory and take turns after any step; the
  system can start threads and let something happen when one ends.  Each thread has its own state of the
  preludes (`thread_local` in C++, `__thread` in C), or all share one (the arrays of the coverage build).  `ThreadsProof.v`: the relation of C48 holds
  thread by thread; a step without counterpart makes the thread's weight smaller, so that in a fair execution each
  thread gets its turns in the other program as well.  Not modelled: memory orders weaker than sequential consistency, data
  races as undefined behaviour, and two queries or records at the same time (for first queries in C see C09).
* C81 - C79 for the threads of C80.  `ThreadsCoverProof.v`: the relation of C76 holds thread by thread, the mutated program having
  a state of the preludes for each thread and the coverage build one for all; a call that will record an enabled mutant keeps its
  thread from ending, whatever the other threads do.  `ThreadsProof.v` turns a relation between moves into one between executions
  (`Executions`), here and for C80.
* C82 - C76 for the texts of C70.  `TextCoverProof.v`: the steps of the model are steps of the text (`step_back`, the converse of
  `step_same` of C70), so that what no execution of the text records no execution of the model does; the prelude of the coverage
  build, executed as it is read, keeps "what is marked has its lines in the file" (`kept_disk`); then the proof of C76 applies, with
  the two preludes executed from their texts as runtimes, and C70 leads from the text to the model and from the coverage build to the
  original.  `TextCoverSpec.v`: what a line of the tracking file is.
* C83 - `Disk.v` runs the tool on a disk: names denote files, Clang is a function of the files it reads, and every mutated file is
  overwritten before the next one is read.  `DiskProof.v`: invariant over the names handled so far (the state is that of `Run.v` over
  the original files, and only the written files differ from the original disk).  Not modelled: temporary files and renaming, and
  the caches of Clang's FileManager.
* C84 - `DeclTypes.v` has types as they are written (template specialisations, arrays, other names, derived types), what
  SaveConstantTemplateArgumentForRewrite and the loop over array sizes collect, and the replacements of `ConstRewrite.v` (C33).
  `DeclTypesSpec.v`: the constants a type needs.  Proved by induction over types.  What counts as sugar to Clang (`getAs`,
  `TypeLoc`) is taken from its documentation; qualifiers and dependent types are not modelled.
* C85 - C29, C54, C70 and C82 are about files in which no constants are replaced.  `RespellSpec.v` says when two programs are the same
  but for their spelling (`bare` leaves the tree, its kinds, values and sites).  `RespellProof.v`: replacements commute with the edits
  of the sites (they change the characters, insertions do not, and the operators they replace are elsewhere); the induction of
  `NestProof.v` is then done over a document that already has the replacements, for the tree whose pieces of text are those of the
  document.  `RespellTop.v` carries C70 over, since neither the meaning nor the number of mutants depends on the spelling.  That the
  value of a constant means the same as the constant is not modelled further (C33, C84).  `RespellCover.v` carries C82 over in the
  same way; both runs make the same replacements, so both written files have the same respelled program.
* C86 - the coverage build of a function of C61 (`JumpCover.v`): a call that records in front of the statement, so that case labels
  before the statement become labels of the call.  Recording is an event of an extended machine (`recorder`), so that the semantics
  of `Jump.v` is used for both builds.  `JumpCoverProof.v`: a simulation in both directions between the function with tests, none of
  them enabled, and the coverage build, whose state is behind by the steps between the call and the statement; jumps are found at
  corresponding places (`find_label_corr`, `find_case_corr`).  An execution with unrecorded mutants makes none of their tests.
* C87 - `InfoFile.v` has main.cc 132-193 on the disk of C83: the run with its count of errors, MessageToJsonString as any function that may
  fail, and the stream that is written without a test whether it is open.  C83 gives the state after the run, the count is shown by
  induction over the names to tell whether a file has errors, and C73 the script on the disk that is left behind.  C03 gives the
  comparison with a coverage run (`C87_coverage_run`).
* C88 - from C71, which says where the block is and that lines in which nothing is mutated stay, and the text of the preludes.  The trees
  of the second run are arbitrary (`TwiceProof.v`).
* C36 - the script's mapping and tables on the JSON tree.
* C38 - fold over diagnostics.
* C40 - a small type checker for built-in operators on numbers, parameters (by value, reference, pointer or
  `std::function`) and results (`TypeSpec.v`); case analysis of the generators (`TypeProof.v`).  All arithmetic
  types are taken to convert to each other; function overloading and access control are not modelled.
* C47 - as C26.
* C43 - ClangTool's diagnostics counters as a state machine; the answer depends on whether the chained
  consumer forwards clear(), so that is a parameter.
* C44, C45 - `strtok` with its saved pointer; opening the tracking file may fail.

## Findings

Each is a theorem `..._refuted` with a concrete witness.

* C09 (C files): `strtok` keeps one saved pointer per process.  Two threads that initialise at the same
  time steal each other's tokens and afterwards disagree for good about which mutants are enabled
  (`C09_c_threads_refuted`, variable `0,1`).
* C10: a malformed item such as `x` makes a C++ program throw, but enables mutant 0 of a C program; an item
  beyond int makes C++ throw and is undefined in C (`C10_refuted`).
* C18, C20: with optimisations a site can be left with no mutant (`2 != 1` in C++: both constants and the
  negation are dropped).  Its coverage call `record(k, 0)` still marks element k, so the next site at k
  is never recorded (`C18_refuted`), and if it is the last site of the file, element k lies outside the
  array (`C20_refuted`).
* C44 (C files): the prelude's `strtok` loop destroys the program's own `strtok` position if the first
  query happens between two of its calls; the next call reads freed memory (`C44_refuted`).
* C45 (C files): the result of `fopen` is not checked; an unwritable tracking file gives
  `fprintf(NULL, ...)` (`C45_refuted`).
* C32: Clang's columns count bytes, the query script's count characters, so a non-ASCII character earlier on
  the line shifts the text shown for a mutant (`C32_refuted`); and the end column is the last token's column
  plus its length, which is wrong when the last token is split by backslash-newline
  (`C32_split_token_refuted`).
* C33: the value of a constant argument is read as unsigned, so `A<-1>` becomes `A<4294967295>`, which is a
  narrowing error for an `int` parameter (`C33_refuted`; `C33_negative_values` for all negative values).  An
  unscoped enumerator becomes a plain number, which is not accepted for a parameter of the enumeration
  (`C33_enumeration_refuted`).
* C37: the consistency check accepts a range that ends on an earlier line, provided the end column is larger
  (`C37_refuted`).
* C43: a driver error that does not stop the driver (`C43_driver_error_refuted`) or a file without compile
  command (`C43_missing_command_refuted`) trips an assertion of main in a debug build.  That erroneous files
  before good ones do not trip it relies on the chained consumer not forwarding `clear()`
  (`C43_forwarded_clear_refuted` shows what would happen).
* C24 (beyond its statement): replacing a comparison by one of its operands is dropped as well, and is not
  subsumed: tests can kill all kept mutants of `x < y` and not the mutant `y`
  (`C24_operand_replacement_refuted`).
* C25: `0u + 1u` is no mutation site because all its mutants are taken to be constants; replacing + by - would
  give the largest value, which no kept mutant yields (`C25_unsigned_refuted`).
* C26: `-1` is no mutation site, but its mutant `~1` is -2 (`C26_minus_one_refuted`); the mutant `-1u` of
  `~1u` is lost likewise (`C26_unsigned_not_refuted`).
* C47: replacing `-u` by `u` is dropped because a second minus can be inserted, but none is inserted before
  unsigned values (`C47_unsigned_minus_refuted`); in C, `!!x` is not `x` (`C47_c_not_refuted`).
* C12: the left operand of an assignment is passed by reference if Clang sees no side effects in it, and is
  then evaluated in any order with the right operand, while C++17 demands right before left:
  `*p = redirect();` where redirect changes p (`C12_refuted`; no mutant is enabled).  Likewise for shifts.
* C13: in C, operands are evaluated before the generated function is called, so the mutant that replaces
  `next()` by 0 still calls `next` (`C13_c_refuted`).  In C++ this happens only to operands without side
  effects, but these can be undefined: with `x / y` replaced by 0, the division by zero remains
  (`C13_undefined_refuted`).  `C48_exact` says what happens in all cases.
* C15: in C, with the second and third mutant of `&&` enabled together the result is 1 whatever the
  operands are (`C15_refuted`).
* C22: as C20, the record of a site without mutants can be out of bounds (`C22_refuted`).
* C30: with nothing between two statements, `x=1;y=2;`, the second wrapper opens before the first one
  closes: `if (!..(0)) { x=1;if (!..(1)) {  }y=2; }`, so mutant 0 removes both statements and mutant 1
  removes nothing (`C30_refuted`; `C30_touching` says this of every such pair).
* C41: a space is inserted only for replaced expressions, but in C++ an l-value such as `++x` or `x = 1` has
  only its operator mutated: `else++x;` becomes `else__dredd_replace_unary_operator_PreInc_int(x, 0);`
  (`C41_refuted`).  Macro names ending with `$` are not recognised either (`C41_dollar_refuted`).  In C the
  same happens where the conversion around an operator has an unsupported type, as in
  `enum E f(int x) {return-x;}`.
* C34: a variable that is a specialization of a variable template is traversed by another function of Clang's
  visitor, so statements of a lambda in a constexpr specialization's initialiser are wrapped for removal
  (`C34_specialization_refuted`).
* C46: the last statement of a GNU statement expression is wrapped, so the expression loses its value
  (`C46_value_refuted`: `return ({ f(); });` no longer compiles).  `[[fallthrough]];` is wrapped and is then no
  longer directly before the label (`C46_fallthrough_refuted`).
* C49: only `__builtin_frame_address` is treated specially; the argument of `__builtin_return_address(0)` and the
  like is mutated (`C49_builtin_argument_refuted`), as are bodies of constexpr lambdas
  (`C49_constexpr_lambda_refuted`) and operands of decltype in declarations (`C49_unevaluated_refuted`).
* C50: the arguments of a member call do not include its object, so `make().at(0)` is mutated although it refers
  into a temporary (`C50_temporaries_refuted`).
* C51: `const int n = 2;` in a function has its initialiser mutated; `case n:` (`C51_case_label_refuted`) and
  `typedef int t[n];` (`C51_typedef_refuted`) then no longer compile.
* C40: before C++17, `++b` on a bool gets the mutant `--b`, which no standard allows (`C40_bool_refuted`).  In C,
  every use of a `register` variable has its address taken (`C40_register_refuted`), and elements of vectors
  (`v[0] = x`) are bound to references (`C40_vector_element_refuted`): the mutated file does not compile.  An
  x-value such as `std::move(x)` is passed and returned by value, so `int&& r = std::move(x);` no longer refers to
  x (`C40_xvalue_refuted`).  `__extension__ e` is taken for an operator (`C40_extension_refuted`).
* C55: the token of an operator is removed by `ReplaceText(getOperatorLoc(), length of the usual spelling, ...)`.
  If the operator comes from a macro (in C also `not` and `compl` of `<iso646.h>`), that does nothing, so
  `return MINUS x;` becomes `__dredd_replace_unary_operator_Minus_int(MINUS ..., 8)` and returns `x` with no mutant
  enabled (`C55_macro_refuted`).  The repository's own `test/single_file/macro_pasting.c.noopt.expected`, line 75,
  records such an output.  A binary operator from a macro gives a call with an argument too few.  For alternative
  tokens of C++ only the first characters are replaced: `x bitor y` becomes `(x ,itor y, 0)`
  (`C55_alternative_refuted`); only `or` has the right length (`C55_alternative_binary`,
  `C55_alternative_unary`).
* C57: a comma operator below an implicit conversion is not mutated itself, and the conversion is not seen to be a
  comma operator: in C `long f(void) { return g(), 1; }` becomes
  `return __dredd_replace_expr_long(g(), __dredd_replace_expr_int_one(1, 0), 3);`, a call with three arguments for two
  parameters (`C57_comma_refuted`); in C++ the same where there are no side effects.  `x = {g()};` in C++ has
  `static_cast<int>({g()})` written (`C57_braces_refuted`).  A statement whose semicolon comes from a macro,
  `f() END`, becomes `if (...) { f() } END` (`C57_semicolon_refuted`).  None of these compile.
* C59: in C++ an operand with side effects becomes the body of a lambda.  `return report(__func__);` becomes
  `return __dredd_replace_expr_int([&]() -> int { return static_cast<int>(report(__func__)); }, 0);`, which compiles
  and, with no mutant enabled, reports `operator()` instead of the name of the function (`C59_name_refuted`).  A
  `return` in a GNU statement expression leaves the lambda instead of the function (`C59_return_refuted`).  By the
  same reasoning `break` and `continue` in a statement expression and `co_await` in an operand no longer compile.
  The theorems on behaviour (C48, C54) are for the language of Lang.v, which has neither statement expressions nor
  `__func__`.
* C60: the README says that `--show-ast-node-types` inserts a comment for each statement or expression that is
  mutated.  `&&` and `||` of C get none (`C60_logical_refuted`): HandleCLogicalOperator
  (mutation_replace_binary_operator.cc:571-585) does not look at the option.  It is a debugging aid, so minor.
* C61: TraverseCompoundStmt (mutate_visitor.cc:664-674) takes care that the test of a removal comes after case labels,
  since otherwise `a branch to the label would branch straight into the body of the 'if' statement that simulates
  statement removal`.  That is done for labels directly before the statement only.  A case label or the label of a
  goto further inside a statement, as in the device of Duff, has the same effect: with the mutant that removes the
  loop enabled, the loop is still entered (`C61_switch_refuted`, `C61_goto_refuted`).  With no mutant enabled nothing
  changes (`C61_no_mutant`).

**Redundancy of floating-point mutants (C65).** With optimisations on, `x + 0.0` is not mutated to `x * 0.0`, and
`0.0 + y` not to `0.0 / y`, as if these were 0.0. For infinite x and for y = 0 they are NaN, which no kept mutant gives
(`C65_times_zero_refuted`, `C65_zero_over_refuted`), and for negative x the former is -0.0
(`C65_sign_of_zero_refuted`). These are the only cases in which something is lost (`C65_operators`). For integers
`0 / y` with y = 0 is undefined, so there dropping it is right (C25).

**Names that the inserted code needs (C69).**
* The prelude for C++ calls `std::getenv` but does not include `<cstdlib>`; in mutation mode it also uses `size_t` and
  `uint64_t` without `std::`, which `<cstddef>` and `<cinttypes>` need not declare (mutate_ast_consumer.cc:253-345).
  With the usual standard libraries other headers happen to declare them (`C69_prelude_cpp_needs`,
  `C69_prelude_cpp_refuted`; with these three names given the prelude is complete, `C69_prelude_cpp_partial`).
* The prelude is put at the placeholder `__dredd_prelude_start`, if the file declares it
  (mutate_visitor.cc:134-140).  Functions before it are still mutated, so if there are any, calls come before the
  definitions (`C69_placeholder_refuted`).  Any declaration of a function of that name is taken, also one inside a class, a
  namespace or a function.

**Lines (C71).**
* A mutated statement that is followed by a comment but no semicolon, such as `while (c) { ... } // comment`, gets a
  line feed after the comment (mutation_remove_stmt.cc:113-154), so that lines after it move by one more; `__LINE__`
  and numbers of lines in diagnostics are then not those of the original plus a constant
  (`C71_constant_shift_refuted`; in coverage mode they are, `C71_constant_shift_partial`).
* If there is no placeholder, the block is put at offset 0, before a byte order mark that the file may begin with,
  which is then in the middle of the file (`C71_byte_order_mark_refuted`; mutate_ast_consumer.cc:139-146).

**Preprocessing (C72).**
* The block comes first in the file, if there is no placeholder, and includes standard headers
  (mutate_ast_consumer.cc:58-75).  A file in C that begins with `#define _GNU_SOURCE` or another
  macro that headers look at now has these headers included before the definition, which then has no effect
  (`C72_feature_macros_refuted`).  The comment at the start of the block tells what to do, namely to declare the
  placeholder after the inclusions of the file.
* `<stdbool.h>` makes `bool`, `true` and `false` macros; a file in C that declares a type or constants with these
  names no longer compiles (`C72_own_names_refuted`).  The same holds for `thread_local` and for names that other
  headers of the block declare.

**The information file (C73).**
* Snippets of more than 36 bytes are cut after 10 bytes and before the last 10 (util.cc:150-165), wherever these are.
  If that is in the middle of a character of two or more bytes, the snippet is not UTF-8 although the file is
  (`C73_cut_snippets_refuted`).  The snippet is stored in a proto3 `string`, which must be UTF-8: protobuf then either
  refuses to write the file (`Error writing JSON data`, exit status 1, after the source files have been overwritten) or
  writes something else than the snippet, depending on its version.
* `operator` is given as LNot for `__extension__` (`UnaryOperator_MAX`, mutation_replace_unary_operator.cc:524-526; in
  a debug build the assertion fails); the query script does not look at it.

**What optimisation leaves out (C74).**
* "There is no point mutating a side-effect free expression statement" (mutate_visitor.cc:681) is not quite true.  The
  expression has no side effects, but some of its mutants have: `x + y;` has the mutant `++x + y;`
  (`C74_increment_refuted`), and the mutant `x / y;`, whose behaviour is undefined if `y` is 0 (`C74_division_refuted`).
  A test suite can kill these mutants, which are not made unless `--no-mutation-opts` is given.
* The last expression statement of a GNU statement expression, as in `({ f(); x; })`, is also a statement of a block
  without side effects, but its value is used.  Optimisation leaves out all its mutants.  (By reading; statement
  expressions are not modelled.)

**Words that are operators (C75).**
* `parenthesise_if_needed` (query_mutant_info.py:52) takes operands that consist of letters, digits, dots and white space
  for identifiers or numbers.  In C++ `a bitor b` and `a and b` are such texts.  The script shows the mutant
  `-(a bitor b)` as `- a bitor b` (`C75_operand_refuted`), and the mutant `(a bitor b) & c` as `a bitor b & c`
  (`C75_operands_refuted`); both are different expressions.

**Mutants that are not recorded although they matter (C76).**
* In C the coverage build records the mutants of `&&` and `||` in the `_outer` function, hence after both operands have
  been evaluated (mutation_replace_binary_operator.cc:836-875), whereas the mutants act in the `_lhs` function, before the
  right operand is evaluated.  If the right operand does not return, say because it crashes, exits or runs for ever, the
  operator is not in the tracking file, although with `||` for `&&` the right operand is not evaluated and the test
  goes on (`C76_logical_refuted`).  In C++ the record comes first.
* A site that is left without mutants by the optimisations has the id of the next site and marks it as recorded without
  writing anything.  The mutants of the next site are not in the file although they make a difference
  (`C76_shadowed_refuted`; the cause is that of C18 and C20).

**The prefix of a file name that is cut off (C77).**
* `show_info_for_mutant` (query_mutant_info.py:268) cuts as many characters off the file name as the directory of the
  mutated code has, without looking whether the name begins with the directory.  If the user names another directory, the
  report is about another file, or about none, without a word about the reason (`C77_other_directory_refuted`).
* The directory has been tidied up by `pathlib.Path`, the file name has not.  For the name `/home//new/a.c` and the
  directory `/home//new` the script looks for `w/a.c` below the other directory (`C77_slashes_refuted`).  With `.` for the directory and names without a directory - as they are in the information file if they
  are in the compilation database - the first character of the name is cut off (`C77_dot_refuted`).

**Files that have been rewritten when they are read (C83).**
* Repeated files are recognised by the text of their names (new_mutate_frontend_action_factory.cc:61).  A file given as
  `add.c` and as `a/../add.c`, or through a link, is mutated, and then the result is mutated again, its prelude included
  (`C83_other_name_refuted`); the result has two preludes, and the mutation info describes a text that no longer exists.
* A file that includes another given file, as in `#include "add.c"`, is read after the included file has been rewritten if it is
  given later.  Clang finds the prelude of the included file in the translation unit; whatever this leads to (in the
  counterexample, `C83_included_refuted`, an error, so that the file is not mutated), the result depends on the order in which the
  files are given.  Giving including files first avoids this.
* Both are about a model in which Clang sees the current contents of every file; the caches of the library are not part of the
  repository.

**Constants in types that are not replaced (C84).**
* Inside a function the initial value of `const int N = 7;` is mutated, whereupon `N` is no longer a constant; the tool replaces `N` by
  7 where types need it.  It does so only if the type of a variable is, but for other names, a template specialisation
  (mutate_visitor.cc:167-177) or, as it is written, an array (mutate_ast_consumer.cc:197-207).  `N` stays in
  `std::array<int, N> *p`, `int (*q)[N]`, `std::array<int, N> a[2]`, `std::vector<int[N]> v`, in arrays with another name, in the types
  of parameters of lambda expressions, which are not traversed (359-365), in members of local classes that are templates, and in
  typedefs (`C84_forgotten_refuted`; the last is also in C51).  The mutated file does not compile then.

**The information file can be missing after a run with status 0 (C87).**
* main.cc:184-185 opens a `std::ofstream` and writes to it without a test.  If the file cannot be opened (its directory does not exist,
  say), the sources are overwritten with their mutated texts, no information file is written or the one of an earlier run stays, and the
  status is 0 (`C87_unwritable_refuted`).  The information cannot be had by running the tool again, since the sources are mutated by then.
* If the JSON text cannot be produced, the status is 1, but only after all sources have been overwritten, and the information file of an
  earlier run stays (`C87_json_error`).
* If the information file is one of the sources, it replaces the mutated text (`C87_same_file_refuted`).

**A mutated file can be mutated again, with a result that does not compile (C88).**
* Nothing in mutate_ast_consumer.cc:76-88 tests whether a file begins with the comment `// DREDD PRELUDE START`.  A second run in the same
  mode puts a second block in the file, so that `__dredd_enabled_mutation` is defined twice (`C88_again_refuted`; `C88_defined_twice` for
  all files).  The original text is lost, as files are overwritten in place.
