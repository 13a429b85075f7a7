{
 "claims": [
  {
   "property": "C01",
   "status": "proved",
   "theorems": [
    "C01_syntax_error_iff_not_in_grammar",
    "C01_in_grammar_gives_schema_or_fault"
   ],
   "note": "For every text, errors.Is(err, ErrInvalidSyntax) iff the text's tokens are not a derivation of the grammar of Grammar.v."
  },
  {
   "property": "C02",
   "status": "proved",
   "theorems": [
    "C02_tokens_longest_match_first_rule",
    "C02_tokens_lossless",
    "C02_fails_exactly_where_no_rule_matches",
    "C02_tokens_unique"
   ],
   "note": "Lexer = longest match, first rule, lossless, fails exactly where no rule matches."
  },
  {
   "property": "C03",
   "status": "proved",
   "theorems": [
    "C03_names_are_identifiers_and_not_reserved",
    "C03_index_names_not_reserved_refuted"
   ],
   "note": "Names are identifiers and not reserved; the claim for index names (may be reserved, e.g. #table) is refuted and stated so in the property."
  },
  {
   "property": "C04",
   "status": "proved",
   "theorems": [
    "C04_layouts_of_a_program",
    "C04_insert",
    "C04_remove",
    "C04_same_visible_tokens_same_result"
   ],
   "note": "Only visible tokens matter; the texts of a program's tokens are exactly their layouts; insertion and removal."
  },
  {
   "property": "C05",
   "status": "proved",
   "theorems": [
    "C05_schema_is_what_the_text_writes",
    "C05_what_the_text_writes_is_returned",
    "C05_text_writes_one_schema"
   ],
   "note": "The schema returned is the one the relation `denotes` assigns to the tokens, in both directions, and it is unique."
  },
  {
   "property": "C06",
   "status": "proved",
   "theorems": [
    "C06_init_last_private_unique",
    "C06_no_other_action_named_init",
    "C06_two_inits_refused"
   ],
   "note": "Init is last, private, updating; two are refused; nothing else can be called init."
  },
  {
   "property": "C07",
   "status": "proved",
   "theorems": [
    "C07_attributes_mean",
    "C07_attributes_fault",
    "C07_faulty_attributes_refused",
    "C07_every_action_as_written"
   ],
   "note": "Meaning of attribute lists and their faults, for every list."
  },
  {
   "property": "C08",
   "status": "proved",
   "theorems": [
    "C08_top_level_names_unique",
    "C08_duplicates_refused"
   ],
   "note": "Uniqueness of top-level names, and refusal of duplicates."
  },
  {
   "property": "C09",
   "status": "proved",
   "theorems": [
    "C09_members_and_parameters_unique"
   ],
   "note": "Uniqueness of members, attributes, foreign-key events, parameters."
  },
  {
   "property": "C10",
   "status": "proved",
   "theorems": [
    "C10_attribute_type_compatible",
    "C10_incompatible_refused"
   ],
   "note": "Compatibility, and the exact error when nothing before is wrong."
  },
  {
   "property": "C11",
   "status": "proved",
   "theorems": [
    "C11_index_columns_resolve",
    "C11_index_columns_are_columns_refuted"
   ],
   "note": "The exact set an index may list is proved; the literal claim (columns only) is refuted by a witness."
  },
  {
   "property": "C12",
   "status": "proved",
   "theorems": [
    "C12_foreign_keys_resolve",
    "C12_keys_are_columns_and_counts_agree_refuted"
   ],
   "note": "Foreign keys resolve to members of the tables; columns-only and equal-count claims refuted by a witness."
  },
  {
   "property": "C13",
   "status": "proved",
   "theorems": [
    "C13_calls_resolve",
    "C13_unresolved_refused"
   ],
   "note": "Calls resolve, and the exact errors when nothing before is wrong."
  },
  {
   "property": "C14",
   "status": "proved",
   "theorems": [
    "C14_argument_variables_in_scope",
    "C14_receivers_distinct"
   ],
   "note": "Argument variables are parameters or receivers of earlier statements."
  },
  {
   "property": "C15",
   "status": "proved",
   "theorems": [
    "C15_statements_verbatim_or_call",
    "C15_statements_vetted"
   ],
   "note": "SQL statements vetted, and stored as a verbatim piece of the source."
  },
  {
   "property": "C16",
   "status": "proved",
   "theorems": [
    "C16_accepts_exactly_valid"
   ],
   "note": "validate accepts exactly valid_schema, for every behaviour of the imported parsers."
  },
  {
   "property": "C17",
   "status": "proved",
   "theorems": [
    "C17_reports_first_fault",
    "C17_one_report",
    "C17_always_a_verdict"
   ],
   "note": "The report is exactly the first fault in order; unique; exhaustive."
  },
  {
   "property": "C18",
   "status": "proved",
   "theorems": [
    "C18_no_error_iff_accepted",
    "C18_nil_error_means_schema",
    "C18_every_outcome"
   ],
   "note": "Outcomes of ParseKF characterised; panics end in the listener."
  },
  {
   "property": "C19",
   "status": "proved",
   "theorems": [
    "C19_invalid_syntax_iff",
    "C19_invalid_syntax_only",
    "C19_misdeclared_has_its_sentinel",
    "C19_invalid_has_its_sentinel",
    "C19_errors_is_ends"
   ],
   "note": "errors.Is classification and termination; assumes the imported parsers' errors do not wrap this module's sentinels or list (foreign_world, separate_world)."
  },
  {
   "property": "C20",
   "status": "proved",
   "theorems": [
    "C20_used_listener_fails",
    "C20_histories_only_grow",
    "C20_first_error_stays"
   ],
   "note": "Listener histories."
  },
  {
   "property": "C21",
   "status": "proved",
   "theorems": [
    "C21_json_reads_back",
    "C21_json_has_one_reading",
    "C21_json_of_any_bytes"
   ],
   "note": "ToJSON of every node type with a ToJSON method; Attribute.Value restricted to nil or string (all Parse ever stores). RFC 8259 relation with proof that a text has at most one value."
  },
  {
   "property": "C22",
   "status": "proved",
   "theorems": [
    "C22_json_determines_schema",
    "C22_json_determines_characters",
    "C22_json_determines_result",
    "C22_ill_formed_refuted",
    "C22_nil_hidden_refuted"
   ],
   "note": "For well-formed strings equal up to nil/empty of omitempty fields; for results of Parse equal. Ill-formed strings and nil/empty: refuted by witnesses."
  },
  {
   "property": "C23",
   "status": "proved",
   "theorems": [
    "C23_json_is_safe"
   ],
   "note": "Every node, every byte content."
  },
  {
   "property": "C24",
   "status": "proved",
   "theorems": [
    "C24_stored_annotation_reads_back",
    "C24_exactly_simple_values",
    "C24_escaped_quote_refuted"
   ],
   "note": "For every accepted text each stored annotation is the text of annotation tokens of the source and is read back exactly when string values have no inner quote or line feed (equivalence); the unrestricted claim is refuted with an escaped quote."
  },
  {
   "property": "C25",
   "status": "proved",
   "theorems": [
    "C25_never_panics",
    "C25_error_exactly",
    "C25_result_exactly",
    "C25_attributes_shape"
   ],
   "note": "Never panics; error condition as an equivalence; on success the attributes are exactly those found left to right, without overlap, by a specification that does not mention regular expressions. Strings are byte lists."
  },
  {
   "property": "C26",
   "status": "proved",
   "theorems": [
    "C26_exit_code_tells_the_step",
    "C26_codes_are_distinct",
    "C26_success_means_translated",
    "C26_only_the_output_changes",
    "C26_what_is_printed"
   ],
   "note": "Exit code given by an equivalence with a step-by-step relation; distinctness; only the output file changes."
  },
  {
   "property": "C27",
   "status": "proved",
   "theorems": [
    "C27_exact_content",
    "C27_exactly_the_json",
    "C27_file_holds_the_schema",
    "C27_overwrite_refuted",
    "C27_failed_write_reported_as_success",
    "C27_failed_write_refuted"
   ],
   "note": "The claim as stated is refuted in two ways (no truncation; write error lost); the exact content of the file and the exact condition under which it is the JSON are proved, and that the JSON then denotes the schema the input writes."
  },
  {
   "property": "C28",
   "status": "proved",
   "theorems": [
    "C28_trace_flag_refuted",
    "C28_never_traces",
    "C28_trace_flag_changes_nothing",
    "C28_tracing_is_harmless",
    "C28_silent_without_trace",
    "C28_trace_prints"
   ],
   "note": "Refuted: no command line turns tracing on; the switch changes nothing. That tracing is harmless, silent when off, and prints the visited contexts and the error when on is proved on the statement-by-statement model of ParseKF and the visitor (Run.v, TreeVisitor.v)."
  },
  {
   "property": "C29",
   "status": "proved",
   "theorems": [
    "C29_wasm_result",
    "C29_error_iff_rejected",
    "C29_other_argument_counts"
   ],
   "note": "js.Value arguments are the byte strings String() gives."
  },
  {
   "property": "C30",
   "status": "proved",
   "theorems": [
    "C30_lookups_exact",
    "C30_ascii_case_variants",
    "C30_one_to_one",
    "C30_injective",
    "C30_only_ascii_refuted"
   ],
   "note": "unicode.ToLower is any function meeting the stated facts about it; U+0130 refutes ASCII-only."
  },
  {
   "property": "C31",
   "status": "proved",
   "theorems": [
    "C31_writable_iff_plain",
    "C31_every_plain_valid_schema_is_parsed_from_some_text",
    "C31_reprint"
   ],
   "note": "writable iff plain; every plain valid schema is parsed from some text; reprinting with single blanks keeps the result."
  },
  {
   "property": "C32",
   "status": "proved",
   "theorems": [
    "C32_call_text",
    "C32_call_text_kept_refuted"
   ],
   "note": "Exact condition for the stored call text to re-tokenise; unconditional claim refuted by a witness."
  },
  {
   "property": "C33",
   "status": "proved",
   "theorems": [
    "C33_sql_extends_to_first_terminator",
    "C33_sql_token_ends_at_terminator",
    "C33_string_literals_opaque_refuted"
   ],
   "note": "SQL token = keyword, white space, everything to the first ';' or '}' or the end; opacity of string literals refuted by a witness."
  },
  {
   "property": "C34",
   "status": "proved",
   "theorems": [
    "C34_values_verbatim"
   ],
   "note": "Values are digit strings or quoted literals; with C05 they are the token texts."
  },
  {
   "property": "C35",
   "status": "proved",
   "theorems": [
    "C35_input_is_read_as_utf8",
    "C35_reading_is_unique",
    "C35_valid_input_unchanged",
    "C35_result_is_valid",
    "C35_json_of_result_is_valid"
   ],
   "note": "Byte-level reading, result strings valid and lossless, JSON valid."
  },
  {
   "property": "C36",
   "status": "proved",
   "theorems": [
    "C36_semantic_error_text",
    "C36_syntax_error_text",
    "C36_number_printed_is_decimal",
    "C36_counts_other_errors_refuted",
    "C36_message_of_each_kind",
    "C36_the_message_tells_the_kind"
   ],
   "note": "Texts of semantic and syntax errors exactly; the counting claim is refuted by a witness."
  },
  {
   "property": "C37",
   "status": "proved",
   "theorems": [
    "C37_output_path",
    "C37_output_path_defined",
    "C37_slice_in_range",
    "C37_outputs_are_separate_refuted"
   ],
   "note": "Paths as in filepath on Unix; symbolic links are left to the operating system (resolve)."
  },
  {
   "property": "C38",
   "status": "proved",
   "theorems": [
    "C38_meaning_is_unique",
    "C38_meaning_decides",
    "C38_meaningless_fails",
    "C38_output_spellings",
    "C38_default_output",
    "C38_unknown_flag_fails"
   ],
   "note": "cobra and pflag, which are not in /repo, are modelled from their documented behaviour."
  },
  {
   "property": "C39",
   "status": "proved",
   "theorems": [
    "C39_tables_scan_as_specified",
    "C39_no_character_lost",
    "C39_tables_give_the_tokens",
    "C39_go_strings_are_code_points"
   ],
   "note": "The integers of the table are read out of the Go source by tools/atn_data.py; the simulator is modelled from ANTLR's published source, without its DFA cache."
  },
  {
   "property": "C40",
   "status": "proved",
   "theorems": [
    "C40_tables_accept_the_grammar",
    "C40_tables_accept_the_language",
    "C40_syntax_error_iff_tables_refuse",
    "C40_tables_build_parse_trees",
    "C40_a_tree_is_built_for_every_program"
   ],
   "note": "The table is a network of states; acceptance is a walk through it with a stack of return states and precedence tests, and the trees built along the walks are proved to be parse trees. Which of several walks the runtime takes is the subject of C45 and C46."
  },
  {
   "property": "C41",
   "status": "proved",
   "theorems": [
    "C41_bytes_to_result",
    "C41_any_parse_tree_gives_the_result",
    "C41_a_parse_tree_exists",
    "C41_visitor_is_safe",
    "C41_tables_to_result",
    "C41_tables_give_something"
   ],
   "note": "On the statement-by-statement visitor over generic parse trees (TreeVisitor.v); a parse tree is any tree that follows the grammar (TreeSpec.v). Which one ANTLR builds is the subject of C45."
  },
  {
   "property": "C42",
   "status": "proved",
   "theorems": [
    "C42_any_schedule",
    "C42_as_if_alone",
    "C42_nobody_is_blocked",
    "C42_every_schedule_ends",
    "C42_parses_are_independent"
   ],
   "note": "Lexers sharing the process-wide DFA cache, stepping in any interleaving; runtime modelled from the published antlr4-go source; the prediction cache of the parser is the subject of C50."
  },
  {
   "property": "C43",
   "status": "proved",
   "theorems": [
    "C43_new_validator",
    "C43_history",
    "C43_disjoint_schemas",
    "C43_names_stay_taken",
    "C43_reuse_changes_nothing_refuted"
   ],
   "note": "The validator as an object whose maps survive errors. The literal claim that a used validator judges as a new one is refuted by witnesses and stated so in the property."
  },
  {
   "property": "C44",
   "status": "proved",
   "theorems": [
    "C44_column",
    "C44_attribute",
    "C44_table",
    "C44_table_report",
    "C44_action",
    "C44_extension_panics",
    "C44_index_after_its_table",
    "C44_index_alone",
    "C44_foreign_key_after_schemas",
    "C44_foreign_key_alone"
   ],
   "note": "Accept on every node type in every state of the validator; statements say where a verdict depends on earlier calls."
  },
  {
   "property": "C45",
   "status": "proved",
   "theorems": [
    "C45_the_call_ends",
    "C45_one_result",
    "C45_trees_follow_the_grammar",
    "C45_error_iff_not_a_program",
    "C45_never_wrong",
    "C45_code_to_result",
    "C45_code_gives_one_thing"
   ],
   "note": "Rule functions read out of the Go source by tools/parser_code.py as statements of a small language (GoParser.v); up to the first reported error (what comes after it is C47). Trees for adaptive_predict and for any predictor."
  },
  {
   "property": "C46",
   "status": "proved",
   "theorems": [
    "C46_two_tokens_decide",
    "C46_right_answer",
    "C46_first_stage_suffices",
    "C46_operators_group_by_level"
   ],
   "note": "AdaptivePredict's first (SLL) stage is modelled from the published antlr4-go source, without its DFA cache (C50 adds it); the second stage is proved unreachable here."
  },
  {
   "property": "C47",
   "status": "proved",
   "theorems": [
    "C47_the_parser_ends",
    "C47_one_result",
    "C47_no_panic",
    "C47_reported_iff_not_a_program",
    "C47_no_more_reports_than_tokens",
    "C47_whatever_recovery_goes_by"
   ],
   "note": "Error strategy of antlr4-go v4.13.0 modelled from its published source (Recovery.v). C47_whatever_recovery_goes_by shows that ending and the verdict do not depend on the token sets recovery goes by."
  },
  {
   "property": "C48",
   "status": "proved",
   "theorems": [
    "C48_first_report_is_the_first_wrong_token",
    "C48_one_place",
    "C48_text_before_is_right"
   ],
   "note": "Token level for every sequence of tokens; text level for texts without lexing errors (for these tokens_of exists always, C01 ff.; unrecognised characters are reported by the lexer instead)."
  },
  {
   "property": "C49",
   "status": "proved",
   "theorems": [
    "C49_recorded_places",
    "C49_one_place",
    "C49_messages_say_where",
    "C49_parse_error_names_the_first_wrong_place"
   ],
   "note": "The words after line:column are ANTLR's and arbitrary here. The theorem about Parse is for texts without lexing errors; places of lexing errors are in C49_recorded_places, all messages together in C52. The words are those of C51. A lone carriage return does not count as a line end."
  },
  {
   "property": "C50",
   "status": "proved",
   "theorems": [
    "C50_as_if_alone",
    "C50_trees_any_schedule",
    "C50_errors_any_schedule",
    "C50_enough_statements",
    "C50_nobody_is_blocked",
    "C50_every_schedule_ends",
    "C50_parsers_ask_legitimately",
    "C50_parses_are_independent"
   ],
   "note": "An access to the cache is one atomic step (the runtime locks stateMu/edgeMu around each). Trees and error reports are stated as two programs over the same rule functions. The prediction-context cache of the runtime only shares equal objects and is not modelled."
  },
  {
   "property": "C51",
   "status": "proved",
   "theorems": [
    "C51_every_message_is_worded",
    "C51_first_message_names_what_can_come",
    "C51_parse_error_text",
    "C51_named_is_all_that_can_come_refuted",
    "C51_named_can_come_here_refuted"
   ],
   "note": "Of the messages of the parser; those of the lexer are in C52. Two stronger claims are refuted by counterexamples: that everything that can come is named (after a column type the constraints are not), and that what is named can come at the very place (after \"#i btree(\", the message asks for the parenthesis after the index kind). Failed predicates are never reported (proved)."
  },
  {
   "property": "C52",
   "status": "proved",
   "theorems": [
    "C52_every_text_gets_its_messages",
    "C52_every_text_is_read_in_one_way",
    "C52_each_error_has_its_message",
    "C52_order",
    "C52_reports_say_where",
    "C52_reports_are_worded",
    "C52_first_report_names_what_can_come",
    "C52_no_message_iff_valid",
    "C52_first_message",
    "C52_no_more_messages_than_characters",
    "C52_parse_error_text",
    "C52_the_listener_can_be_so",
    "C52_messages_on_one_line_refuted",
    "C52_messages_in_the_order_of_the_text_refuted"
   ],
   "note": "Refuted by counterexamples: that every message is on one line (those of the lexer show line ends as they are), and that messages come in the order of the text. The exact order is that of the model's run; the theorems bound it within two tokens of the report."
  },
  {
   "property": "C53",
   "status": "proved",
   "theorems": [
    "C53_lexing_ends",
    "C53_lexing_at_most_quadratic",
    "C53_lexing_linear_when_comments_close",
    "C53_lexing_linear_for_programs",
    "C53_lexing_linear_refuted",
    "C53_parsing_ends",
    "C53_the_run_counted",
    "C53_parsing_linear"
   ],
   "note": "Units of work: looks at a character (LA(1) of the lexer simulation) and statements of the rule functions; the constant of the parser is that of the proof (26 statements without progress, 20 calls deep, 502 recovery positions per token), programs take about four statements a token. A linear bound on lexing for all texts is refuted."
  },
  {
   "property": "C54",
   "status": "proved",
   "theorems": [
    "C54_a_text_is_its_declarations",
    "C54_any_order",
    "C54_refused_alike",
    "C54_only_the_order_within_a_kind_counts",
    "C54_more_declarations",
    "C54_fewer_declarations"
   ],
   "note": "Extensions stay in front of the declarations (the grammar demands it) and in order. Texts are related by their declarations, each with the tokens that write it; the layout between tokens is free."
  },
  {
   "property": "C55",
   "status": "proved",
   "theorems": [
    "C55_documented_texts_mean_what_is_documented",
    "C55_documented_texts_are_accepted",
    "C55_statements_start_with_one_of_five_words",
    "C55_every_documented_name_refuted",
    "C55_lines_in_any_order_refuted",
    "C55_every_other_sql_statement_refuted"
   ],
   "note": "NUMBER and STRING are not defined by the document; digits and quoted text without quotes, backslashes and line breaks are taken. The document's restrictions on functions, keywords and joins in SQL are up to the imported SQL parser, which is an argument of the model."
  },
  {
   "property": "C56",
   "status": "proved",
   "theorems": [
    "C56_alone_it_is_the_run",
    "C56_the_output_at_any_moment",
    "C56_a_new_output_is_a_beginning",
    "C56_nothing_else_changes",
    "C56_exit_code_as_if_alone",
    "C56_runs_keep_their_places",
    "C56_one_good_run_suffices",
    "C56_running_again_repairs",
    "C56_input_is_kept_refuted",
    "C56_one_of_the_inputs_refuted"
   ],
   "note": "Steps: reading the input, opening the output, each byte written, closing. POSIX lets writes interleave; a system that makes the whole Write atomic has fewer schedules. Removal of files by others is not modelled."
  },
  {
   "property": "C57",
   "status": "proved",
   "theorems": [
    "C57_renaming_keeps_validity",
    "C57_renaming_keeps_the_fault",
    "C57_renamed_texts"
   ],
   "note": "The statements are opaque to the model, so the renamed statements are those that the imported parsers understand in the same way with the new names. Types, attributes, annotations and extension settings are not renamed."
  },
  {
   "property": "C58",
   "status": "proved",
   "theorems": [
    "C58_strings_are_texts",
    "C58_string_argument",
    "C58_same_json_as_the_command_line",
    "C58_other_values_are_refused",
    "C58_one_argument",
    "C58_different_strings_refuted"
   ],
   "note": "The conversions between JavaScript strings and Go strings belong to Go's syscall/js and wasm_exec.js, which are not in /repo: modelled from their documentation. Texts are returned without a leading byte order mark, which TextDecoder would drop."
  },
  {
   "property": "C59",
   "status": "proved",
   "theorems": [
    "C59_a_beginning_is_not_json",
    "C59_json_in_a_new_file_is_complete",
    "C59_one_run",
    "C59_json_is_old_or_new_refuted"
   ],
   "note": "With the runs of C56, each of which writes its output byte by byte."
  },
  {
   "property": "C60",
   "status": "proved",
   "theorems": [
    "C60_the_declarations_are_the_first_ones",
    "C60_a_cut_file_lacks_whole_declarations",
    "C60_what_is_accepted_was_written",
    "C60_the_output_for_a_cut_file",
    "C60_each_beginning_is_a_cut",
    "C60_every_cut_is_refused_refuted"
   ],
   "note": "The whole file need only have a schema (o_result), it need not pass validation."
  },
  {
   "property": "C61",
   "status": "proved",
   "theorems": [
    "C61_calls_nest_no_deeper_than_the_tokens",
    "C61_each_run_is_measured",
    "C61_the_run_measured",
    "C61_constant_depth_refuted"
   ],
   "note": "Counts the calls of rule functions; each has a bounded number of runtime calls above it."
  },
  {
   "property": "C62",
   "status": "proved",
   "theorems": [
    "C62_first_report_stays",
    "C62_first_syntax_message_stays",
    "C62_first_message_stays",
    "C62_parse_error_begins_the_same",
    "C62_agreeing_texts_refuted"
   ],
   "note": "Common beginnings are given as items of the scans (tokens, layout, unreadable characters). Two tokens are needed: the wrong one and the next (single token deletion looks at it)."
  },
  {
   "property": "C63",
   "status": "proved",
   "theorems": [
    "C63_json_of_what_was_written",
    "C63_json_is_linear",
    "C63_every_message_is_linear",
    "C63_error_text_is_linear",
    "C63_sixteen_times_refuted"
   ],
   "note": "32 is enough but not claimed to be least: 16 is too little. Invalid UTF-8 is counted as the bytes it is in."
  },
  {
   "property": "C64",
   "status": "proved",
   "theorems": [
    "C64_crlf_says_the_same",
    "C64_lf_says_the_same",
    "C64_same_syntax",
    "C64_same_outcome",
    "C64_accepted_alike",
    "C64_accepted_back",
    "C64_refuted_string_over_a_line_end",
    "C64_refuted_word_alone"
   ],
   "note": "Positions in messages are not part of it: lines are counted by LF, columns by characters."
  },
  {
   "property": "C65",
   "status": "proved",
   "theorems": [
    "C65_in_a_block",
    "C65_line_by_line",
    "C65_declaration_in_a_block",
    "C65_declaration_line_by_line",
    "C65_the_rest_is_accepted",
    "C65_refuted_a_comment_removes"
   ],
   "note": "The text before the declaration must not end in a line comment without its line end (nothing after it would be seen anyway)."
  },
  {
   "property": "C66",
   "status": "proved",
   "theorems": [
    "C66_spread_out",
    "C66_written_reads_back",
    "C66_results_exactly",
    "C66_read_again",
    "C66_one_text_one_annotation",
    "C66_refuted_every_result"
   ],
   "note": "Strings are bytes; the expression's white space is ASCII."
  },
  {
   "property": "C67",
   "status": "proved",
   "theorems": [
    "C67_valid_in_any_order",
    "C67_accepted_alike",
    "C67_columns_in_any_order",
    "C67_parameters_in_any_order",
    "C67_indexes_in_any_order_refuted",
    "C67_statements_in_any_order_refuted"
   ],
   "note": "The two programs may also differ in configuration values of extensions, action modifiers and annotations, which validation does not read."
  },
  {
   "property": "C68",
   "status": "proved",
   "theorems": [
    "C68_same_outcome",
    "C68_still_a_program",
    "C68_synonyms_everywhere",
    "C68_can_be_respelled",
    "C68_do_everywhere_refuted"
   ],
   "note": "Other words with one meaning and two spellings do not exist in the language."
  },
  {
   "property": "C69",
   "status": "proved",
   "theorems": [
    "C69_nothing_lost_nothing_invented",
    "C69_every_word_is_found",
    "C69_no_word_from_nowhere",
    "C69_no_more_words_than_tokens"
   ],
   "note": "Keywords are not counted (types, attributes without value, visibility and so on are C05's and C07's)."
  },
  {
   "property": "C70",
   "status": "proved",
   "theorems": [
    "C70_the_real_world",
    "C70_the_call_ends",
    "C70_the_code_in_the_real_world",
    "C70_tracing_is_harmless",
    "C70_accepts_exactly",
    "C70_every_outcome",
    "C70_the_error_says_where",
    "C70_programs_are_determined",
    "C70_the_program_reports_syntax_errors",
    "C70_wasm_reports_syntax_errors"
   ],
   "note": "Joins C39, C41, C45, C47 and C52: the messages are no longer an argument. Only the imported SQL and action parsers are."
  }
 ]
}