# A Rocq model of kwilteam/kuneiform

The model is a set of total, computable Gallina functions that follow the code of `/repo` function by function; every
definition cites the file and lines it models and says where it simplifies.  Beside the model there is a small set of
*specification* files, written on lists, characters and relations without using the model's functions; the property
theorems (`Prop*.v`) speak about the model only through these specifications.  Everything the property theorems rest on is
checked by `coqc` from a clean checkout; no bounded search stands for a proof.  Where a check is *computed* (`vm_compute` on
the finite tables of the generated lexer and parser) it is a lemma, and the theorem on all inputs follows from it by induction.

This file is made by `tools/design.py` from `tools/design_head.md`, `tools/how.json`, `tools/notes.json` and `tools/design_tail.md`.

## From bytes to the result: how the layers fit

1. bytes to characters: `Utf8` (specification `Utf8Spec`), C35.
2. characters to tokens: two models that are proved equal.  `LexRules`, `Lexer` state the 84 rules as regular expressions;
   `AtnData`, `Atn`, `AtnLexer` decode the serialized integers of `kuneiform_lexer.go` and interpret them as ANTLR's simulator
   does, with error recovery; `LexCache` adds the DFA cache shared by all goroutines.  Specification: `LexSpec` (shapes of the
   tokens), `ScanSpec` (what the token source yields).  C02, C39, C42.
3. tokens to a parse tree: three models that are proved to agree.  `Parser` is a recursive-descent parser shaped like the rule
   functions; `AtnParser`, `AtnTree` are the walks through the decoded parser ATN; `GoParser`, `ParserCode`, `Predict` are the
   statements of the 51 rule functions themselves, with `Sync`, `Match` and `AdaptivePredict`, up to the first error reported;
   `Recovery` goes on after errors with ANTLR's default error strategy.
   Specification: `Grammar` (the grammar as data with its derivations), `TreeSpec` (parse trees), `PredictSpec`.  C01, C40, C45-C48 (C48: `FirstRun` to `FirstText`).
   `Message` words the reports, `Fetch` orders them among the lexer's (specifications `MessageSpec`, `FetchSpec`), C51, C52, C62;
   `Work` counts steps, C53; `Stack` counts calls, C61.
   `LexPos` adds line and column counters (specification `PlaceSpec`), C49; `ParseCache` and `Asking` the DFAs shared by all parsers, C50.
4. parse tree to schema: `Visitor` (on typed trees) and `TreeVisitor` (kfparser/visitor.go statement by statement on generic
   trees, with panics and trace output), proved equal on every parse tree.  Specification: `Denote` (tokens write a schema),
   `FaultSpec`.  C05, C06, C07, C15, C34, C41.
5. validation: `Validator`, `Node` (the validator as an object that may be reused).  Specification: `ValidSpec`, `NodeSpec`.
   C08-C14, C16, C17, C43, C44.
6. ParseKF, listener, errors: `ParseKF`, `Run` (with mode and trace).  Specification: `ParseSpec`, `RunSpec`.  C18-C20, C28, C36.
7. output: `GoJson` (specification `JsonSpec`, RFC 8259 as a relation), C21-C23; `PrintSpec`, `LayoutSpec` (texts of tokens and
   schemas), C04, C31-C33; `Annotation` (`AnnotSpec`), C24, C25; `Types` (`TypesSpec`), C30.
   Relations between texts: `OrderSpec` (C54), `DocSpec` (what docs/syntax.md describes, C55), `RenameSpec` (C57), `CutSpec`
   (texts cut off, C60), `JsonCut` (outputs cut off, C59).
8. programs: `Js` (what JavaScript sees, C58), `CliSteps` (runs of the program interleaved and stopped, C56), `Flags`, `Path`, `Cli`, `Wasm` (specifications `FlagSpec`, `PathSpec`, `CliSpec`), C26-C29, C37, C38.


## Properties, one by one

### C01 Syntax acceptance is exactly the grammar

*Modelled and proved*: `Grammar.v` states the rules as EBNF data with an inductive derivation relation; `Parser.v` is proved to accept exactly the derivable token sequences (ParserSound, ParserComplete, ParserGrammar), by induction on trees and tokens, and C40/C45 link the generated tables and code to the same relation.

*Note*: For every text, errors.Is(err, ErrInvalidSyntax) iff the text's tokens are not a derivation of the grammar of Grammar.v.

*Theorems*: `C01_syntax_error_iff_not_in_grammar`, `C01_in_grammar_gives_schema_or_fault`

### C02 Tokenisation is lossless, longest-match and first-rule

*Modelled and proved*: Regular expressions with derivatives against shapes on characters (`LexSpec`); the lexer yields the unique longest-match, first-rule split, by induction on the text.

*Note*: Lexer = longest match, first rule, lossless, fails exactly where no rule matches.

*Theorems*: `C02_tokens_longest_match_first_rule`, `C02_tokens_lossless`, `C02_fails_exactly_where_no_rule_matches`, `C02_tokens_unique`

### C03 Names in an accepted schema are identifiers and never keywords

*Modelled and proved*: Names of an accepted schema are texts of name tokens (Segments), whose shapes are given in `NameSpec`.

*Note*: Names are identifiers and not reserved; the claim for index names (may be reserved, e.g. #table) is refuted and stated so in the property.

*Theorems*: `C03_names_are_identifiers_and_not_reserved`, `C03_index_names_not_reserved_refuted`

### C04 Layout outside SQL does not matter

*Modelled and proved*: The texts with given visible tokens are exactly the layouts of those tokens (`LayoutSpec`, `Bigram`, `Spacing`).

*Note*: Only visible tokens matter; the texts of a program's tokens are exactly their layouts; insertion and removal.

*Theorems*: `C04_layouts_of_a_program`, `C04_insert`, `C04_remove`, `C04_same_visible_tokens_same_result`

### C05 The schema mirrors the declarations, in order

*Modelled and proved*: `Denote.v` relates tokens to schemas without parse trees; the visitor composed with the parser is proved equal to it in both directions.

*Note*: The schema returned is the one the relation `denotes` assigns to the tokens, in both directions, and it is unique.

*Theorems*: `C05_schema_is_what_the_text_writes`, `C05_what_the_text_writes_is_returned`, `C05_text_writes_one_schema`

### C06 init is unique, last, private and updating

*Modelled and proved*: From C05 and the fault relation of `FaultSpec`.

*Note*: Init is last, private, updating; two are refused; nothing else can be called init.

*Theorems*: `C06_init_last_private_unique`, `C06_no_other_action_named_init`, `C06_two_inits_refused`

### C07 Action attributes mean what they say

*Modelled and proved*: Attribute lists as lists of words; meaning and faults by induction.

*Note*: Meaning of attribute lists and their faults, for every list.

*Theorems*: `C07_attributes_mean`, `C07_attributes_fault`, `C07_faulty_attributes_refused`, `C07_every_action_as_written`

### C08 Top-level names are unique

*Modelled and proved*: Consequences of `valid_schema` (`ValidSpec`) through C16.

*Note*: Uniqueness of top-level names, and refusal of duplicates.

*Theorems*: `C08_top_level_names_unique`, `C08_duplicates_refused`

### C09 Table members and parameters are unique

*Modelled and proved*: As C08.

*Note*: Uniqueness of members, attributes, foreign-key events, parameters.

*Theorems*: `C09_members_and_parameters_unique`

### C10 Attribute/type compatibility

*Modelled and proved*: As C08, with the exact error.

*Note*: Compatibility, and the exact error when nothing before is wrong.

*Theorems*: `C10_attribute_type_compatible`, `C10_incompatible_refused`

### C11 Index columns exist

*Modelled and proved*: As C08; witness for the refuted half.

*Note*: The exact set an index may list is proved; the literal claim (columns only) is refuted by a witness.

*Theorems*: `C11_index_columns_resolve`, `C11_index_columns_are_columns_refuted`

### C12 Foreign keys resolve

*Modelled and proved*: As C08; witness for the refuted half.

*Note*: Foreign keys resolve to members of the tables; columns-only and equal-count claims refuted by a witness.

*Theorems*: `C12_foreign_keys_resolve`, `C12_keys_are_columns_and_counts_agree_refuted`

### C13 Calls resolve

*Modelled and proved*: As C08, with the exact error.

*Note*: Calls resolve, and the exact errors when nothing before is wrong.

*Theorems*: `C13_calls_resolve`, `C13_unresolved_refused`

### C14 Argument variables are in scope

*Modelled and proved*: As C08, with induction over the statements of an action.

*Note*: Argument variables are parameters or receivers of earlier statements.

*Theorems*: `C14_argument_variables_in_scope`, `C14_receivers_distinct`

### C15 SQL statements are vetted and kept verbatim

*Modelled and proved*: Statement texts from C05; vetting from C16 with the imported parsers as arguments.

*Note*: SQL statements vetted, and stored as a verbatim piece of the source.

*Theorems*: `C15_statements_verbatim_or_call`, `C15_statements_vetted`

### C16 Validation accepts exactly the valid schemas

*Modelled and proved*: `ValidSpec` says on lists when a schema is valid; `Validator` follows the Go code with maps; equivalence by induction over the schema.

*Note*: validate accepts exactly valid_schema, for every behaviour of the imported parsers.

*Theorems*: `C16_accepts_exactly_valid`

### C17 Reported semantic errors are truthful and ordered

*Modelled and proved*: `first_fault` of `ValidSpec` is the report of `Validator`.

*Note*: The report is exactly the first fault in order; unique; exhaustive.

*Theorems*: `C17_reports_first_fault`, `C17_one_report`, `C17_always_a_verdict`

### C18 ParseKF returns normally, with a schema exactly when there is no error

*Modelled and proved*: ParseKF as a function of text, listener and world, panics explicit.

*Note*: Outcomes of ParseKF characterised; panics end in the listener.

*Theorems*: `C18_no_error_iff_accepted`, `C18_nil_error_means_schema`, `C18_every_outcome`

### C19 Errors are classified correctly

*Modelled and proved*: errors.Is as reachability along Unwrap; classification per outcome.

*Note*: errors.Is classification and termination; assumes the imported parsers' errors do not wrap this module's sentinels or list (foreign_world, separate_world).

*Theorems*: `C19_invalid_syntax_iff`, `C19_invalid_syntax_only`, `C19_misdeclared_has_its_sentinel`, `C19_invalid_has_its_sentinel`, `C19_errors_is_ends`

### C20 A used listener poisons later parses

*Modelled and proved*: Listener histories by induction over calls.

*Note*: Listener histories.

*Theorems*: `C20_used_listener_fails`, `C20_histories_only_grow`, `C20_first_error_stays`

### C21 JSON output is well-formed and lossless

*Modelled and proved*: RFC 8259 as a relation between values and characters; ToJSON's text has the value of the schema, and only that one.

*Note*: ToJSON of every node type with a ToJSON method; Attribute.Value restricted to nil or string (all Parse ever stores). RFC 8259 relation with proof that a text has at most one value.

*Theorems*: `C21_json_reads_back`, `C21_json_has_one_reading`, `C21_json_of_any_bytes`

### C22 JSON output determines the schema

*Modelled and proved*: The JSON value determines the schema (JsonUnique).

*Note*: For well-formed strings equal up to nil/empty of omitempty fields; for results of Parse equal. Ill-formed strings and nil/empty: refuted by witnesses.

*Theorems*: `C22_json_determines_schema`, `C22_json_determines_characters`, `C22_json_determines_result`, `C22_ill_formed_refuted`, `C22_nil_hidden_refuted`

### C23 JSON output is safe to embed

*Modelled and proved*: Character set of the text by induction over the encoder.

*Note*: Every node, every byte content.

*Theorems*: `C23_json_is_safe`

### C24 Annotations emitted by Parse are readable by ParseAnnotation

*Modelled and proved*: Annotation tokens composed with ParseAnnotation.

*Note*: For every accepted text each stored annotation is the text of annotation tokens of the source and is read back exactly when string values have no inner quote or line feed (equivalence); the unrestricted claim is refuted with an escaped quote.

*Theorems*: `C24_stored_annotation_reads_back`, `C24_exactly_simple_values`, `C24_escaped_quote_refuted`

### C25 ParseAnnotation is total and accepts exactly its documented shape

*Modelled and proved*: Backtracking matcher with Go's preference order against a left-to-right specification.

*Note*: Never panics; error condition as an equivalence; on success the attributes are exactly those found left to right, without overlap, by a specification that does not mention regular expressions. Strings are byte lists.

*Theorems*: `C25_never_panics`, `C25_error_exactly`, `C25_result_exactly`, `C25_attributes_shape`

### C26 CLI exit codes tell the outcome

*Modelled and proved*: A run of the program as a step relation (`CliSpec`), equivalent to `Cli`.

*Note*: Exit code given by an equivalence with a step-by-step relation; distinctness; only the output file changes.

*Theorems*: `C26_exit_code_tells_the_step`, `C26_codes_are_distinct`, `C26_success_means_translated`, `C26_only_the_output_changes`, `C26_what_is_printed`

### C27 A successful CLI run leaves exactly the JSON in the output file

*Modelled and proved*: File contents after OpenFile without O_TRUNC and a write that may fail.

*Note*: The claim as stated is refuted in two ways (no truncation; write error lost); the exact content of the file and the exact condition under which it is the JSON are proved, and that the JSON then denotes the schema the input writes.

*Theorems*: `C27_exact_content`, `C27_exactly_the_json`, `C27_file_holds_the_schema`, `C27_overwrite_refuted`, `C27_failed_write_reported_as_success`, `C27_failed_write_refuted`

### C28 --trace turns tracing on

*Modelled and proved*: Flags, then tracing in `Run`/`TreeVisitor`.

*Note*: Refuted: no command line turns tracing on; the switch changes nothing. That tracing is harmless, silent when off, and prints the visited contexts and the error when on is proved on the statement-by-statement model of ParseKF and the visitor (Run.v, TreeVisitor.v).

*Theorems*: `C28_trace_flag_refuted`, `C28_never_traces`, `C28_trace_flag_changes_nothing`, `C28_tracing_is_harmless`, `C28_silent_without_trace`, `C28_trace_prints`

### C29 The WASM entry point reports errors and JSON consistently

*Modelled and proved*: Wrapper function over ParseKF and ToJSON.

*Note*: js.Value arguments are the byte strings String() gives.

*Theorems*: `C29_wasm_result`, `C29_error_iff_rejected`, `C29_other_argument_counts`

### C30 Keyword look-ups are case-insensitive partial bijections

*Modelled and proved*: Look-ups against the documented spellings with ToLower abstract.

*Note*: unicode.ToLower is any function meeting the stated facts about it; U+0130 refutes ASCII-only.

*Theorems*: `C30_lookups_exact`, `C30_ascii_case_variants`, `C30_one_to_one`, `C30_injective`, `C30_only_ascii_refuted`

### C31 Every well-formed valid schema can be written and read back

*Modelled and proved*: A printer for plain schemas; parse of print is the schema.

*Note*: writable iff plain; every plain valid schema is parsed from some text; reprinting with single blanks keeps the result.

*Theorems*: `C31_writable_iff_plain`, `C31_every_plain_valid_schema_is_parsed_from_some_text`, `C31_reprint`

### C32 Call statements keep their tokens

*Modelled and proved*: Concatenated token texts lexed again.

*Note*: Exact condition for the stored call text to re-tokenise; unconditional claim refuted by a witness.

*Theorems*: `C32_call_text`, `C32_call_text_kept_refuted`

### C33 SQL text may contain any character but the terminators

*Modelled and proved*: Shape of the SQL tokens.

*Note*: SQL token = keyword, white space, everything to the first ';' or '}' or the end; opacity of string literals refuted by a witness.

*Theorems*: `C33_sql_extends_to_first_terminator`, `C33_sql_token_ends_at_terminator`, `C33_string_literals_opaque_refuted`

### C34 Literal values are stored verbatim

*Modelled and proved*: Shapes of literal tokens.

*Note*: Values are digit strings or quoted literals; with C05 they are the token texts.

*Theorems*: `C34_values_verbatim`

### C35 Invalid UTF-8 input cannot produce invalid output

*Modelled and proved*: UTF-8 decoding of any bytes, encoding of any characters.

*Note*: Byte-level reading, result strings valid and lossless, JSON valid.

*Theorems*: `C35_input_is_read_as_utf8`, `C35_reading_is_unique`, `C35_valid_input_unchanged`, `C35_result_is_valid`, `C35_json_of_result_is_valid`

### C36 Error messages count the errors

*Modelled and proved*: Error texts computed and compared with a specification of counts.

*Note*: Texts of semantic and syntax errors exactly; the counting claim is refuted by a witness.

*Theorems*: `C36_semantic_error_text`, `C36_syntax_error_text`, `C36_number_printed_is_decimal`, `C36_counts_other_errors_refuted`, `C36_message_of_each_kind`, `C36_the_message_tells_the_kind`

### C37 The CLI's output path

*Modelled and proved*: filepath functions against a specification of paths.

*Note*: Paths as in filepath on Unix; symbolic links are left to the operating system (resolve).

*Theorems*: `C37_output_path`, `C37_output_path_defined`, `C37_slice_in_range`, `C37_outputs_are_separate_refuted`

### C38 The command line has one meaning

*Modelled and proved*: Meaning of a command line as a relation; unique; the program decides it.

*Note*: cobra and pflag, which are not in /repo, are modelled from their documented behaviour.

*Theorems*: `C38_meaning_is_unique`, `C38_meaning_decides`, `C38_meaningless_fails`, `C38_output_spellings`, `C38_default_output`, `C38_unknown_flag_fails`

### C39 The generated lexer tables scan as the lexical rules say

*Modelled and proved*: The serialized lexer ATN is decoded and simulated; a table of pairs (configurations, derivative of the rules) is explored and checked by computation, and the simulation on all texts follows by induction.

*Note*: The integers of the table are read out of the Go source by tools/atn_data.py; the simulator is modelled from ANTLR's published source, without its DFA cache.

*Theorems*: `C39_tables_scan_as_specified`, `C39_no_character_lost`, `C39_tables_give_the_tokens`, `C39_go_strings_are_code_points`

### C40 The generated parser tables accept exactly the grammar

*Modelled and proved*: Each rule's part of the parser ATN is compared with an expression by a computed bisimulation; walks are derivations, by induction.

*Note*: The table is a network of states; acceptance is a walk through it with a stack of return states and precedence tests, and the trees built along the walks are proved to be parse trees. Which of several walks the runtime takes is the subject of C45 and C46.

*Theorems*: `C40_tables_accept_the_grammar`, `C40_tables_accept_the_language`, `C40_syntax_error_iff_tables_refuse`, `C40_tables_build_parse_trees`, `C40_a_tree_is_built_for_every_program`

### C41 The result does not depend on how the parser resolved ambiguities

*Modelled and proved*: Every parse tree of a text gives the same result; and the tables give such trees.

*Note*: On the statement-by-statement visitor over generic parse trees (TreeVisitor.v); a parse tree is any tree that follows the grammar (TreeSpec.v). Which one ANTLR builds is the subject of C45.

*Theorems*: `C41_bytes_to_result`, `C41_any_parse_tree_gives_the_result`, `C41_a_parse_tree_exists`, `C41_visitor_is_safe`, `C41_tables_to_result`, `C41_tables_give_something`

### C42 Parses do not influence one another through the shared lexer cache

*Modelled and proved*: An interleaving semantics of lexers sharing the DFA; invariant: every cached edge and accept is what the uncached simulation computes.

*Note*: Lexers sharing the process-wide DFA cache, stepping in any interleaving; runtime modelled from the published antlr4-go source; the prediction cache of the parser is the subject of C50.

*Theorems*: `C42_any_schedule`, `C42_as_if_alone`, `C42_nobody_is_blocked`, `C42_every_schedule_ends`, `C42_parses_are_independent`

### C43 What a validator that is used more than once accepts

*Modelled and proved*: The validator as state; histories of Accept calls against several schemas taken as one.

*Note*: The validator as an object whose maps survive errors. The literal claim that a used validator judges as a new one is refuted by witnesses and stated so in the property.

*Theorems*: `C43_new_validator`, `C43_history`, `C43_disjoint_schemas`, `C43_names_stay_taken`, `C43_reuse_changes_nothing_refuted`

### C44 Accept on a single schema element

*Modelled and proved*: Accept per node type in every state.

*Note*: Accept on every node type in every state of the validator; statements say where a verdict depends on earlier calls.

*Theorems*: `C44_column`, `C44_attribute`, `C44_table`, `C44_table_report`, `C44_action`, `C44_extension_panics`, `C44_index_after_its_table`, `C44_index_alone`, `C44_foreign_key_after_schemas`, `C44_foreign_key_alone`

### C45 The generated parser code parses exactly the language

*Modelled and proved*: A computed check relates the statements of every rule function to the states of the ATN with FIRST and FOLLOW sets (closed under the transitions); soundness, completeness (given a reliable prediction) and termination (token consumption and a rank on calls) by induction on the execution.

*Note*: Rule functions read out of the Go source by tools/parser_code.py as statements of a small language (GoParser.v); up to the first reported error (what comes after it is C47). Trees for adaptive_predict and for any predictor.

*Theorems*: `C45_the_call_ends`, `C45_one_result`, `C45_trees_follow_the_grammar`, `C45_error_iff_not_a_program`, `C45_never_wrong`, `C45_code_to_result`, `C45_code_gives_one_thing`

### C46 Prediction is right, and two tokens of lookahead decide every choice

*Modelled and proved*: AdaptivePredict simulated; its answers for every pair of tokens and every precedence are computed and compared with the tokens that can follow each alternative; for the operator loop a re-association lemma, by induction on the stack of callers, shows that taking an operator inside is as good as taking it outside.

*Note*: AdaptivePredict's first (SLL) stage is modelled from the published antlr4-go source, without its DFA cache (C50 adds it); the second stage is proved unreachable here.

*Theorems*: `C46_two_tokens_decide`, `C46_right_answer`, `C46_first_stage_suffices`, `C46_operators_group_by_level`

### C47 The parser survives every wrong text: it ends, without a panic, with at least one report and no flood of reports

*Modelled and proved*: The same statements as for C45, run on after errors (Recovery.v: Match/RecoverInline with single-token deletion and insertion, Sync, errorExit with ReportError, Recover and SetError(nil), the fail-safe consume). Ending: a measure on tokens left, then error states not yet seen, and a computed check of every function for every lookahead token that a call made without consuming leads deeper or consumes (RecoveryTable.v, RecoveryProof.v). Verdict: simulation with the run that stops at the first error (RecoveryProof2.v). Panics: every state recovery asks about has the transitions it takes. Count: reports + tokens left + (not recovering) never grows.

*Note*: Error strategy of antlr4-go v4.13.0 modelled from its published source (Recovery.v). C47_whatever_recovery_goes_by shows that ending and the verdict do not depend on the token sets recovery goes by.

*Theorems*: `C47_the_parser_ends`, `C47_one_result`, `C47_no_panic`, `C47_reported_iff_not_a_program`, `C47_no_more_reports_than_tokens`, `C47_whatever_recovery_goes_by`

### C48 The first syntax error is reported at the first token that cannot stand where it stands

*Modelled and proved*: Two inductions over the run of the rule functions up to the first error (FirstRun.v gives its place), with the walks of the ATN as specification of what can come: everything matched can be completed from the current ATN state under the current callers (FirstProof2.v; computed: from every state the rule can be finished, FirstTable.v), and tokens that can be continued from the current state are never failed at (FirstProof3.v; two-token decisions: every alternative takes the first token, and without a viable one the second is reported). The continuation is made a text in FirstText.v by the layout theorems of C04/C31.

*Note*: Token level for every sequence of tokens; text level for texts without lexing errors (for these tokens_of exists always, C01 ff.; unrecognised characters are reported by the lexer instead).

*Theorems*: `C48_first_report_is_the_first_wrong_token`, `C48_one_place`, `C48_text_before_is_right`

### C49 Error messages name the line and column of the place they are about

*Modelled and proved*: AtnLexer.v run again with the line and column counters (LexPos.v); by induction on the simulator's loop the counters are a fold over the characters passed, also when the accept state remembered lies behind; the fold is counting line feeds (PlaceSpec.v). Reports stay within the tokens: invariant of the run with recovery (PlaceRun.v). The first place is C48.

*Note*: The words after line:column are ANTLR's and arbitrary here. The theorem about Parse is for texts without lexing errors; places of lexing errors are in C49_recorded_places, all messages together in C52. The words are those of C51. A lone carriage return does not count as a line end.

*Theorems*: `C49_recorded_places`, `C49_one_place`, `C49_messages_say_where`, `C49_parse_error_names_the_first_wrong_place`

### C50 Parses do not influence each other through the parser's cached decisions

*Modelled and proved*: ParseCache.v: DFAs with states, edges and start states per precedence, and threads that ask for predictions, one cache access per step. Invariant: every edge is what computeReachSet gives, every undecided state is one of the sets reachable at this decision; computed: antlr's equality, which ignores reachesIntoOuterContext, separates these sets (ParseCacheProof.v). Asking.v is the rule functions as such threads, proved to be GoParser.v and Recovery.v when alone (AskingProof.v).

*Note*: An access to the cache is one atomic step (the runtime locks stateMu/edgeMu around each). Trees and error reports are stated as two programs over the same rule functions. The prediction-context cache of the runtime only shares equal objects and is not modelled.

*Theorems*: `C50_as_if_alone`, `C50_trees_any_schedule`, `C50_errors_any_schedule`, `C50_enough_statements`, `C50_nobody_is_blocked`, `C50_every_schedule_ends`, `C50_parsers_ask_legitimately`, `C50_parses_are_independent`

### C51 What syntax errors say is a token that stands there and tokens that can come there

*Modelled and proved*: Message.v transcribes the wording of the runtime with the name tables of the generated parser; MessageSpec.v states the forms. MessageRun.v: an invariant of the recovering run (every state at which something is expected has at least one nameable token; precedence tests follow the prediction that asked the same predicate). FirstNames.v: every element of NextTokens at the first error, and of Look in context for single-token insertion, can come there, by the completeness of the walks of C48.

*Note*: Of the messages of the parser; those of the lexer are in C52. Two stronger claims are refuted by counterexamples: that everything that can come is named (after a column type the constraints are not), and that what is named can come at the very place (after "#i btree(", the message asks for the parenthesis after the index kind). Failed predicates are never reported (proved).

*Theorems*: `C51_every_message_is_worded`, `C51_first_message_names_what_can_come`, `C51_parse_error_text`, `C51_named_is_all_that_can_come_refuted`, `C51_named_can_come_here_refuted`

### C52 The messages of a text are those of its lexing errors and of its parse errors, each once, the first being that of the first error

*Modelled and proved*: Fetch.v repeats the recovering parser (C47) with the furthest token fetched, and merges the lexer's events by it. FetchProof.v: simulation with Recovery.v plus an invariant (the current token is always fetched, at most two more are); FetchProof2.v: at the end everything is fetched; FetchProof3.v, FetchText.v: the merge is an interleaving, cut at each report by what was fetched then.

*Note*: Refuted by counterexamples: that every message is on one line (those of the lexer show line ends as they are), and that messages come in the order of the text. The exact order is that of the model's run; the theorems bound it within two tokens of the report.

*Theorems*: `C52_every_text_gets_its_messages`, `C52_every_text_is_read_in_one_way`, `C52_each_error_has_its_message`, `C52_order`, `C52_reports_say_where`, `C52_reports_are_worded`, `C52_first_report_names_what_can_come`, `C52_no_message_iff_valid`, `C52_first_message`, `C52_no_more_messages_than_characters`, `C52_parse_error_text`, `C52_the_listener_can_be_so`, `C52_messages_on_one_line_refuted`, `C52_messages_in_the_order_of_the_text_refuted`

### C53 The work is bounded: lexing at most quadratic, linear for every program and for every text whose comments close; parsing linear for every text

*Modelled and proved*: Work.v counts looks of the lexer simulation and statements of the recovering parser (Recovery.v with a counter). LexWork.v: a promising prefix outlives the token found by one character, strings and comments excepted; induction over the scan. WorkTable.v: by the kernel, no more than 26 statements pass without a token or recovery state being used up; WorkProof.v, WorkBound.v: the measure that ends recovery (C47) therefore bounds the count.

*Note*: Units of work: looks at a character (LA(1) of the lexer simulation) and statements of the rule functions; the constant of the parser is that of the proof (26 statements without progress, 20 calls deep, 502 recovery positions per token), programs take about four statements a token. A linear bound on lexing for all texts is refuted.

*Theorems*: `C53_lexing_ends`, `C53_lexing_at_most_quadratic`, `C53_lexing_linear_when_comments_close`, `C53_lexing_linear_for_programs`, `C53_lexing_linear_refuted`, `C53_parsing_ends`, `C53_the_run_counted`, `C53_parsing_linear`

### C54 The order of declarations does not matter, and a declaration stands or falls on its own

*Modelled and proved*: OrderSpec.v splits a program into declarations by Denote.v's relations. OrderProof.v: denotation of the pieces composes in any order; valid_schema (C16) is invariant under permutation, grows by what is new, and survives the removal of what is not referred to.

*Note*: Extensions stay in front of the declarations (the grammar demands it) and in order. Texts are related by their declarations, each with the tokens that write it; the layout between tokens is free.

*Theorems*: `C54_a_text_is_its_declarations`, `C54_any_order`, `C54_refused_alike`, `C54_only_the_order_within_a_kind_counts`, `C54_more_declarations`, `C54_fewer_declarations`

### C55 What docs/syntax.md describes is accepted and means what it says, within three limits

*Modelled and proved*: DocSpec.v states the document on words and characters. DocProof.v turns words into tokens that Denote.v gives the same meaning, and shows that such a spelling is a layout of them (C04). The three limits are proved as `_refuted`.

*Note*: NUMBER and STRING are not defined by the document; digits and quoted text without quotes, backslashes and line breaks are taken. The document's restrictions on functions, keywords and joins in SQL are up to the imported SQL parser, which is an argument of the model.

*Theorems*: `C55_documented_texts_mean_what_is_documented`, `C55_documented_texts_are_accepted`, `C55_statements_start_with_one_of_five_words`, `C55_every_documented_name_refuted`, `C55_lines_in_any_order_refuted`, `C55_every_other_sql_statement_refuted`

### C56 Runs of the command line program beside each other, stopped at any moment

*Modelled and proved*: CliSteps.v splits the run of Cli.v into steps; `C56_alone_it_is_the_run` proves the two agree. CliStepsProof.v has the invariant: how many bytes of the JSON each run has written, and the file as the longest of these over its old content.

*Note*: Steps: reading the input, opening the output, each byte written, closing. POSIX lets writes interleave; a system that makes the whole Write atomic has fewer schedules. Removal of files by others is not modelled.

*Theorems*: `C56_alone_it_is_the_run`, `C56_the_output_at_any_moment`, `C56_a_new_output_is_a_beginning`, `C56_nothing_else_changes`, `C56_exit_code_as_if_alone`, `C56_runs_keep_their_places`, `C56_one_good_run_suffices`, `C56_running_again_repairs`, `C56_input_is_kept_refuted`, `C56_one_of_the_inputs_refuted`

### C57 Declared names have no meaning of their own

*Modelled and proved*: RenameSpec.v defines the renamed schema. RenameProof.v carries valid_schema and invalid_schema (C16, C17) over, list by list.

*Note*: The statements are opaque to the model, so the renamed statements are those that the imported parsers understand in the same way with the new names. Types, attributes, annotations and extension settings are not renamed.

*Theorems*: `C57_renaming_keeps_validity`, `C57_renaming_keeps_the_fault`, `C57_renamed_texts`

### C58 What JavaScript sees of parseKuneiform

*Modelled and proved*: JsSpec.v says with an inductive relation how 16-bit units are read as text. Js.v models the call; JsProof.v proves decoding and encoding against the relation; PropJs.v carries C29 over.

*Note*: The conversions between JavaScript strings and Go strings belong to Go's syscall/js and wasm_exec.js, which are not in /repo: modelled from their documentation. Texts are returned without a leading byte order mark, which TextDecoder would drop.

*Theorems*: `C58_strings_are_texts`, `C58_string_argument`, `C58_same_json_as_the_command_line`, `C58_other_values_are_refused`, `C58_one_argument`, `C58_different_strings_refuted`

### C59 An output that was cut short is not taken for a complete one

*Modelled and proved*: JsonCut.v follows bracket depth through a text: every JSON text comes back to depth 0, a proper beginning of an object does not; bytes and characters scan alike. PropCut.v combines it with C56 and C27.

*Note*: With the runs of C56, each of which writes its output byte by byte.

*Theorems*: `C59_a_beginning_is_not_json`, `C59_json_in_a_new_file_is_complete`, `C59_one_run`, `C59_json_is_old_or_new_refuted`

### C60 A file that was cut off declares nothing damaged

*Modelled and proved*: CutLex.v compares the tokens of a text and of its beginning (only the last token can change; it is a comment if what is left is a program). CutProof.v: declarations can be told apart from their beginning (the unambiguous trees of C05), cut characters are read as U+FFFD and can only stand in a comment. PropTrunc.v combines them with C27.

*Note*: The whole file need only have a schema (o_result), it need not pass validation.

*Theorems*: `C60_the_declarations_are_the_first_ones`, `C60_a_cut_file_lacks_whole_declarations`, `C60_what_is_accepted_was_written`, `C60_the_output_for_a_cut_file`, `C60_each_beginning_is_a_cut`, `C60_every_cut_is_refused_refuted`

### C61 Calls nest no deeper than the text has tokens

*Modelled and proved*: Stack.v is Recovery.v's run with the greatest length of its context chain. StackProof.v checks by computation on the statements of the rule functions that only fn_arg_expr can be entered again from itself and that it consumes a token before, for each next token; the bound is by induction on the run. StackDeep.v follows the run into n parentheses.

*Note*: Counts the calls of rule functions; each has a bounded number of runtime calls above it.

*Theorems*: `C61_calls_nest_no_deeper_than_the_tokens`, `C61_each_run_is_measured`, `C61_the_run_measured`, `C61_constant_depth_refuted`

### C62 The first syntax error does not depend on what stands behind it

*Modelled and proved*: StableRun.v runs Recovery.v on two inputs side by side, along the run without recovery of FirstRun.v: as long as two common tokens are left, both runs take the same steps (predictions depend on two tokens: C46) and the first error is set and reported alike. StableText.v: the words of a report depend on the tokens up to it. With C49 and C52.

*Note*: Common beginnings are given as items of the scans (tokens, layout, unreadable characters). Two tokens are needed: the wrong one and the next (single token deletion looks at it).

*Theorems*: `C62_first_report_stays`, `C62_first_syntax_message_stays`, `C62_first_message_stays`, `C62_parse_error_begins_the_same`, `C62_agreeing_texts_refuted`

### C63 What comes back is at most linear in what was put in

*Modelled and proved*: SizeJson.v gives the length of indented JSON in terms of a size of values with a depth; SizeProof.v goes by induction through JsonSpec/ParseSpec's denotation, showing that each construct's JSON is paid for by its tokens. Messages: from C52's wordings and places, with the lengths of decimals, quotations and of the 85 names a list of expected tokens can have.

*Note*: 32 is enough but not claimed to be least: 16 is too little. Invalid UTF-8 is counted as the bytes it is in.

*Theorems*: `C63_json_of_what_was_written`, `C63_json_is_linear`, `C63_every_message_is_linear`, `C63_error_text_is_linear`, `C63_sixteen_times_refuted`

### C64 Line ends may be LF or CR LF

*Modelled and proved*: BreakSpec.v defines the change of line ends and the schema with edited statements. BreakProof.v goes by induction through layouts (LayoutSpec) in both directions; a CR LF can be split between two tokens only inside layout, as every token kind extended by CR is extended by LF; the tokens changed are SQL statements only, and denotation is carried over construct by construct. Acceptance follows with C57.

*Note*: Positions in messages are not part of it: lines are counted by LF, columns by characters.

*Theorems*: `C64_crlf_says_the_same`, `C64_lf_says_the_same`, `C64_same_syntax`, `C64_same_outcome`, `C64_accepted_alike`, `C64_accepted_back`, `C64_refuted_string_over_a_line_end`, `C64_refuted_word_alone`

### C65 A declaration that is commented out is not there

*Modelled and proved*: OutSpec.v defines the two ways. The tokens before and behind keep apart (LayoutProof), so the new text is a layout of them (induction over the lines for //); with C54 the declarations are those that stay, and what was accepted stays accepted.

*Note*: The text before the declaration must not end in a line comment without its line end (nothing after it would be seen anyway).

*Theorems*: `C65_in_a_block`, `C65_line_by_line`, `C65_declaration_in_a_block`, `C65_declaration_line_by_line`, `C65_the_rest_is_accepted`, `C65_refuted_a_comment_removes`

### C66 Annotations can be written and read back

*Modelled and proved*: AnnWrite.v defines the written form; by induction over the attributes the body has exactly these attributes (C25's specification), so C25 gives the result; C25's shapes give the converse.

*Note*: Strings are bytes; the expression's white space is ASCII.

*Theorems*: `C66_spread_out`, `C66_written_reads_back`, `C66_results_exactly`, `C66_read_again`, `C66_one_text_one_annotation`, `C66_refuted_every_result`

### C67 The order of the parts of a declaration does not matter for acceptance

*Modelled and proved*: ShuffleSpec.v defines the relation part by part; validity, as specified on lists in ValidSpec.v, is carried over each part (names are permuted, lookups stay), the relation is symmetric, and C18 gives the texts. The refutations are concrete texts.

*Note*: The two programs may also differ in configuration values of extensions, action modifiers and annotations, which validation does not read.

*Theorems*: `C67_valid_in_any_order`, `C67_accepted_alike`, `C67_columns_in_any_order`, `C67_parameters_in_any_order`, `C67_indexes_in_any_order_refuted`, `C67_statements_in_any_order_refuted`

### C68 Abbreviations and the optional "do" change nothing

*Modelled and proved*: SpellSpec.v defines the spellings of a token and respells a list token by token; what tokens say (Denote.v) and what the grammar derives are carried over by induction, where a rule reaches none of these words by its reachable rules; C18 gives the outcome.

*Note*: Other words with one meaning and two spellings do not exist in the language.

*Theorems*: `C68_same_outcome`, `C68_still_a_program`, `C68_synonyms_everywhere`, `C68_can_be_respelled`, `C68_do_everywhere_refuted`

### C69 Nothing of a program is ignored and nothing is made up

*Modelled and proved*: KeepSpec.v lists the words of a schema and cuts tokens into chunks; by induction over what tokens say (Denote.v), with permutations where the schema sorts by kind, the chunks' texts are the schema's words.

*Note*: Keywords are not counted (types, attributes without value, visibility and so on are C05's and C07's).

*Theorems*: `C69_nothing_lost_nothing_invented`, `C69_every_word_is_found`, `C69_no_word_from_nowhere`, `C69_no_more_words_than_tokens`

### C70 From the bytes of the input to everything that is returned and printed, with the messages the code really gives

*Modelled and proved*: Whole.v composes the stages as one function of bytes and fuel; a world with the messages of the code is built (by an axiom-free choice of fuel), and the function is proved equal to parse_bytes in that world, so that every theorem about all worlds holds of the code.

*Note*: Joins C39, C41, C45, C47 and C52: the messages are no longer an argument. Only the imported SQL and action parsers are.

*Theorems*: `C70_the_real_world`, `C70_the_call_ends`, `C70_the_code_in_the_real_world`, `C70_tracing_is_harmless`, `C70_accepts_exactly`, `C70_every_outcome`, `C70_the_error_says_where`, `C70_programs_are_determined`, `C70_the_program_reports_syntax_errors`, `C70_wasm_reports_syntax_errors`

## Trusted base

* **Coq 8.16.1's kernel**, including its `vm_compute` machine (used for finite checks on the generated tables and for examples).
* **Axioms**: none.  Every property theorem is followed by `Print Assumptions`, and each prints
  "Closed under the global context".  vcheck lists seven `library_axioms` `Coq.ssr.ssrunder.Under_rel.*`: they are the fields of a
  module type of the standard library (ssreflect's `under` tactic) that comes with loading the standard library; no theorem
  here depends on them.
* **Three generators** copy data out of `/repo`: `tools/atn_data.py` (the serialized integers of both ATNs into `AtnData.v`),
  `tools/parser_code.py` (the statements of the rule functions into `ParserCode.v`) and by hand the grammar of `Grammar.v` and the rules of
  `LexRules.v` (no `.g4` file is in `/repo`; C39, C40 and C45 prove these against the generated integers and code, so a slip there
  would show as a failed proof).
* **The specifications** named above, and the reading of the Go sources the model's comments document.

### Modelled

* `kfparser/parser.go`, `kfparser/visitor.go`, `utils/error_listener.go`, `utils/annotation.go`, `schema/*.go`, `cmd/root.go`,
  `main.go`, `wasm/wasm.go`: every function.
* `kfgrammar/kuneiform_lexer.go`, `kuneiform_parser.go`: the serialized ATNs, the token constants, the rule functions, the
  context types as far as the visitor uses them (typed child access, `GetText`, `GetStart`/`GetStop` text ranges).
* antlr4-go v4.13.0 (not in `/repo`; modelled from its published source): ATN deserialization, the lexer simulator with error
  recovery and its DFA cache, the token stream (channel filter, when tokens are fetched), `Match`, `Sync`, `LL1Analyzer`, tree building, the
  default error strategy (which errors are reported at which token, what is skipped or conjured up after one, and how it is worded),
  `AdaptivePredict` and its DFA cache.  Its second (full context) stage and one shortcut are not modelled; C46 proves that
  neither is reached.
* Go: UTF-8 conversion of strings, `encoding/json` for these structs, the regular expressions of `annotation.go` with leftmost-first
  semantics, `path/filepath` on Unix, `errors.Is`, panics and `recover` in ParseKF.
* cobra/pflag: as far as this command line uses them, from their documented behaviour.

### Not modelled

* The imported SQL and action parsers (`kwil-db`): arguments (`externals`) that return any result; theorems hold for every
  behaviour.  Where needed, hypotheses say that their errors do not wrap this module's sentinels (`foreign_world`).
* What the listener gets is an argument (`world`) of the functions of ParseKF.v, so that the theorems about `Parse` hold for any
  messages; Recovery.v, LexPos.v, Message.v and Fetch.v say which ones it gets (C47, C49, C51, C52), and Whole.v puts them in (C70).
* The cache of prediction contexts (it only makes equal contexts the same object).
* `unicode.ToLower` beyond the stated facts, the file system beyond the outcomes of the calls made, JavaScript values beyond
  `String()`, symbolic links.
* Memory exhaustion, stack use other than the nesting of the rule functions (C61), goroutine data races outside the two DFA caches.

## Testing the model

`GoTests.v` (made by `tools/go_tests.py`) runs the repository's own tests on the model: all 81 cases of
`kfparser/parser_test.go` (valid syntax with the expected schema, nil slices told from empty ones; invalid syntax; invalid
semantics with the expected sentinel) and `utils/annotation_test.go`.  They are examples, not proofs; a model that does
something else than the code is expected to do would not compile.

## Testing the theorems

`seeded/LOG.jsonl` records wrong programs made from the model (`tools/mutate.py` and by hand): the definition edited, the edit,
the claim it breaks and the theorems that then fail.  Survivors led to tighter theorems or are shown to be equivalent programs.
