{"id": "C01", "title": "Syntax acceptance is exactly the grammar", "statement": "For every input text, Parse reports a syntax error if and only if the text does not split (by longest match, earliest rule) into tokens forming a derivation of the Kuneiform grammar that ends at end of input; nothing outside the grammar is silently accepted and nothing inside it is refused.", "quantifier": "every input text of every length", "why_tests_cant": "The set of texts is infinite and an over- or under-acceptance can hide behind any token combination; tests sample a few dozen texts.", "anchors": ["kfgrammar/kuneiform_parser.go: Source_unit and all rule functions", "kfgrammar/kuneiform_parser.go: serializedATN", "kfparser/parser.go: ParseKF"]}
{"id": "C02", "title": "Tokenisation is lossless, longest-match and first-rule", "statement": "For every input text, the tokens (visible and hidden) concatenated in order give back exactly the text; each token is the longest prefix any lexical rule matches, ties going to the earliest rule; tokenisation fails exactly at a position where no rule matches any non-empty prefix. Hence a character is never dropped or duplicated without a reported error.", "quantifier": "every input text and every position in it", "why_tests_cant": "Longest-match interactions (SQL_STMT against identifiers, keywords against identifiers, comments against operators) depend on arbitrarily long look-ahead.", "anchors": ["kfgrammar/kuneiform_lexer.go: serializedATN, RuleNames", "kfparser/parser.go: ParseKF (NewInputStream, NewKuneiformLexer)"]}
{"id": "C03", "title": "Names in an accepted schema are identifiers and never keywords", "statement": "Whenever Parse succeeds, the database name and every table, column, action, extension and alias name in the result, and every name in an index or foreign key, is a letter followed by letters, digits and underscores, and is none of the reserved words (including any case variant of the five SQL keywords); every index name is such an identifier, and every action input is '$' followed by such an identifier. (An index's own name may be a reserved word: '#table' is accepted, so the claim for index names is refuted by a witness.)", "quantifier": "every accepted text and every name in its schema", "why_tests_cant": "A reserved word leaking as a name needs a particular text; tests check four keywords in four positions.", "anchors": ["kfgrammar/kuneiform_lexer.go: IDENTIFIER, keyword rules", "kfparser/visitor.go: VisitSource_unit, VisitTable_decl, VisitColumn_def, VisitIndex_def, VisitAction_decl"]}
{"id": "C04", "title": "Layout outside SQL does not matter", "statement": "Two texts whose visible tokens are the same produce the same result. In a syntactically valid text, inserting white space, line breaks or closed comments between two tokens never changes the visible tokens, hence neither the schema nor the errors, except directly after an SQL statement, between a '/' and an inserted comment, and inside a line comment; removing layout changes nothing wherever the two neighbours do not merge into one token. The texts with given visible tokens are exactly the layouts of these tokens.", "quantifier": "every text, every token boundary, every white space run or comment inserted there", "why_tests_cant": "There are infinitely many layouts of each program.", "anchors": ["kfgrammar/kuneiform_lexer.go: WS, TERMINATOR, BLOCK_COMMENT, LINE_COMMENT", "kfparser/parser.go: ParseKF"]}
{"id": "C05", "title": "The schema mirrors the declarations, in order", "statement": "For every accepted text the result lists exactly the declared extensions, tables and actions, each in source order, with exactly the declared columns, types, attributes and values, indexes, foreign keys, parameters, annotations and statements in source order; nothing is lost, added, reordered or attributed to the wrong declaration.", "quantifier": "every accepted text", "why_tests_cant": "Tests compare a handful of small schemas; loss or swap may need particular counts or mixes of declarations.", "anchors": ["kfparser/visitor.go: VisitSource_unit and all Visit* functions"]}
{"id": "C06", "title": "init is unique, last, private and updating", "statement": "Whenever Parse succeeds, at most one action is named 'init'; if the text has an init block it is the last action, not public, mutability 'update', with no inputs, annotations or auxiliaries, wherever the block appears; a text with two or more init blocks is refused with ErrMultiInit; no ordinary action can be named init.", "quantifier": "every text, every placement and number of init blocks", "why_tests_cant": "Placement and counts are unbounded; the only tests have one init block at the end.", "anchors": ["kfparser/visitor.go: VisitSource_unit, VisitInit_decl", "schema/types.go: InitActionName"]}
{"id": "C07", "title": "Action attributes mean what they say", "statement": "For every action: it is public iff its attribute list has 'public'; its mutability is 'view' iff the list has 'view' and 'update' otherwise; its auxiliaries are [owner] iff the list has 'owner', none otherwise; two visibility words, two 'view' or two 'owner' are refused with the corresponding 'already specified' error whatever their order and whatever else is in the list, visibility before mutability before auxiliary.", "quantifier": "every attribute list, of every length and order", "why_tests_cant": "Attribute lists are unbounded sequences; tests cover five.", "anchors": ["kfparser/visitor.go: VisitAction_attr_list, VisitAction_decl"]}
{"id": "C08", "title": "Top-level names are unique", "statement": "Whenever validation succeeds, table names are pairwise distinct, action names are pairwise distinct and extension aliases (names where there is no alias) are pairwise distinct; conversely a duplicate is refused.", "quantifier": "every schema", "why_tests_cant": "Duplicates can be at any pair of positions among any number of declarations.", "anchors": ["schema/validator.go: VisitSchema"]}
{"id": "C09", "title": "Table members and parameters are unique", "statement": "Whenever validation succeeds, within each table all column names and index names are pairwise distinct (columns and indexes share one name space), each column has no attribute type twice, each foreign key has at most one action per event, and each action has no parameter twice.", "quantifier": "every schema", "why_tests_cant": "As above: unbounded positions and counts.", "anchors": ["schema/validator.go: VisitTable, VisitColumn, VisitForeignKey, VisitAction"]}
{"id": "C10", "title": "Attribute/type compatibility", "statement": "Whenever validation succeeds, no int column carries min_length or max_length and no text column carries min or max; conversely such a column is refused with ErrAttributeNotAllow unless an earlier error is reported.", "quantifier": "every schema, table, column and attribute position", "why_tests_cant": "The rule must hold at each position in unbounded attribute lists.", "anchors": ["schema/validator.go: VisitColumn"]}
{"id": "C11", "title": "Index columns exist", "statement": "Every column an accepted index names is a column of its table. (The code also accepts names of indexes declared up to and including that index: the exact accepted set is established and the literal claim is refuted by a witness.)", "quantifier": "every schema, table and index", "why_tests_cant": "Needs all combinations of index and column names; no test uses an index name as a column.", "anchors": ["schema/validator.go: VisitTable, VisitIndex"]}
{"id": "C12", "title": "Foreign keys resolve", "statement": "Every foreign key of an accepted schema refers to a declared table (declared before or after), all its child keys are members of its own table and all its parent keys are members of the referenced table. (Members include index names; 'columns only' is refuted by a witness, as is equality of the two key counts.)", "quantifier": "every schema, table and foreign key, every declaration order", "why_tests_cant": "Reference graphs between tables are unbounded, including forward and self references.", "anchors": ["schema/validator.go: VisitSchema (fk loop), VisitForeignKey"]}
{"id": "C13", "title": "Calls resolve", "statement": "Whenever validation succeeds, each action-call statement names a declared action (declared before or after the caller) and each extension call names a declared extension alias; otherwise ErrActionNotFound or ErrExtensionNotFound.", "quantifier": "every schema, action and statement, every statement parser behaviour", "why_tests_cant": "Call graphs are unbounded, including forward and recursive calls.", "anchors": ["schema/validator.go: visitActions"]}
{"id": "C14", "title": "Argument variables are in scope", "statement": "Whenever validation succeeds, every '$' variable passed directly as an argument in a call is a parameter of the enclosing action or a receiver of an earlier extension call in the same action (never of a later statement or of another action), every '@' variable passed directly is @caller, and receivers of one statement are distinct.", "quantifier": "every schema, action, statement position and argument", "why_tests_cant": "Scoping is a property of statement histories of any length.", "anchors": ["schema/validator.go: checkArgRef, visitActions"]}
{"id": "C15", "title": "SQL statements are vetted and kept verbatim", "statement": "Whenever Parse succeeds each statement the action grammar classifies as SQL has been accepted by the SQL parser and regenerated without error, and its stored text is character for character the source text from its keyword through its semicolon, layout included.", "quantifier": "every accepted text, action and SQL statement", "why_tests_cant": "SQL text is arbitrary.", "anchors": ["schema/validator.go: visitActions", "kfparser/visitor.go: VisitAction_stmt", "kfgrammar/kuneiform_lexer.go: SQL_STMT"]}
{"id": "C16", "title": "Validation accepts exactly the valid schemas", "statement": "Validation of any schema succeeds if and only if the schema satisfies the declarative rules (uniqueness, compatibility, reference and scoping rules above) for the given statement and SQL parsers; there is no further hidden requirement.", "quantifier": "every schema, whether produced by Parse or built by hand, and every behaviour of the external parsers", "why_tests_cant": "Both directions range over all schemas.", "anchors": ["schema/validator.go: VisitSchema"]}
{"id": "C17", "title": "Reported semantic errors are truthful and ordered", "statement": "If validation fails with one of the sentinel errors then the schema really has a fault of that kind at the reported place and the phases before that one are clean: extensions, then tables with their columns and indexes, then actions with parameters, then foreign keys, then statements, each in declaration order.", "quantifier": "every rejected schema", "why_tests_cant": "Requires all combinations of several simultaneous faults.", "anchors": ["schema/validator.go", "schema/errors.go"]}
{"id": "C18", "title": "ParseKF returns normally, with a schema exactly when there is no error", "statement": "For every input, mode and listener, and whatever the external parsers do (including panicking), ParseKF returns normally; with a fresh or nil listener the error is nil if and only if the text is syntactically valid, the visitor raises no fault and validation succeeds, and in that case the result is the (non-nil) schema.", "quantifier": "every input text, mode and external parser behaviour", "why_tests_cant": "Panics and named-result/defer interactions show only on particular inputs.", "anchors": ["kfparser/parser.go: ParseKF, Parse"]}
{"id": "C19", "title": "Errors are classified correctly", "statement": "With a fresh or nil listener the returned error satisfies errors.Is(err, ErrInvalidSyntax) if and only if the text is syntactically invalid; for a syntactically valid text it satisfies errors.Is with exactly the sentinel of the visitor or validation fault; the unwrap chain is finite.", "quantifier": "every rejected text", "why_tests_cant": "The error list can contain itself; termination and classification must hold for every list it can hold.", "anchors": ["utils/error_listener.go: ErrorList, Unwrap", "kfparser/parser.go: ParseKF"]}
{"id": "C20", "title": "A used listener poisons later parses", "statement": "If ParseKF is given a listener that already holds an error it returns an error for every text and keeps the earlier first error; over any sequence of ParseKF calls sharing a listener, the first error recorded is the one every later call unwraps to, and no call ever removes an error.", "quantifier": "every sequence of ParseKF calls on one listener", "why_tests_cant": "Histories of calls are unbounded.", "anchors": ["utils/error_listener.go: ErrorList", "kfparser/parser.go: ParseKF"]}
{"id": "C21", "title": "JSON output is well-formed and lossless", "statement": "For every schema ToJSON yields a text that an RFC 8259 parser reads back as an object holding exactly the schema's data: same names, order, types, attribute values and statements, whatever characters (quotes, backslashes, control characters, line separators, any Unicode) the strings contain.", "quantifier": "every schema with every string content", "why_tests_cant": "Escaping must be right for each of the million code points in each position and nesting.", "anchors": ["schema/schema.go: ToJSON, astMarshal, struct tags"]}
{"id": "C22", "title": "JSON output determines the schema", "statement": "Two values of one type with well-formed UTF-8 strings and the same JSON are equal up to nil versus empty for fields marked omitempty; two results of Parse with the same JSON are equal. (Without well-formedness the claim is refuted: different ill-formed bytes are written alike.)", "quantifier": "every pair of schemas", "why_tests_cant": "Injectivity quantifies over pairs.", "anchors": ["schema/schema.go: struct tags, astMarshal"]}
{"id": "C23", "title": "JSON output is safe to embed", "statement": "The JSON text contains no raw '<', '>', '&', U+2028 or U+2029, no raw control character other than the layout newlines, and is valid UTF-8.", "quantifier": "every schema with every string content", "why_tests_cant": "All strings.", "anchors": ["schema/schema.go: astMarshal"]}
{"id": "C24", "title": "Annotations emitted by Parse are readable by ParseAnnotation", "statement": "For every accepted text and each annotation string of each action, ParseAnnotation succeeds and returns the target and exactly the attributes written in the source, in order, provided string values contain no quote or line feed; with an escaped quote the claim fails (witness).", "quantifier": "every accepted text and annotation", "why_tests_cant": "Regular-expression matching over all attribute values.", "anchors": ["utils/annotation.go: ParseAnnotation", "kfparser/visitor.go: VisitAnnotation_decl"]}
{"id": "C25", "title": "ParseAnnotation is total and accepts exactly its documented shape", "statement": "For every string ParseAnnotation returns without panicking; it reports an error iff the string is shorter than three bytes, has no '(' or does not end in ')'; otherwise the target is the text before the first '(' and every attribute name is a non-empty run of letters, digits and underscores and every value a digit run or a quoted string without inner quote or line feed, occurring in this order in the input.", "quantifier": "every string", "why_tests_cant": "Index arithmetic and regex matches over all strings.", "anchors": ["utils/annotation.go: ParseAnnotation, regexAnnotation"]}
{"id": "C26", "title": "CLI exit codes tell the outcome", "statement": "For every argument list and every outcome of directory creation, file reading, parsing and file opening: exit code 0 without --version implies the input was read and parsed without error and the output file was opened; each failure class yields its own code, the first failing step deciding; nothing is written unless parsing and serialisation succeed.", "quantifier": "every argument list and file-system behaviour", "why_tests_cant": "Fault combinations at each step.", "anchors": ["cmd/root.go: rootCmd, writeToFile, Execute"]}
{"id": "C27", "title": "A successful CLI run leaves exactly the JSON in the output file", "statement": "After exit code 0 the output file's content is the schema's JSON. (Refuted in two ways: an existing longer file keeps its tail because the file is not truncated, and a failed write is reported as success because the deferred close overwrites the error. The exact content is established; the claim holds when the file did not exist or was no longer and the write succeeds.)", "quantifier": "every earlier file content and every write outcome", "why_tests_cant": "Depends on file history and on faults at the write.", "anchors": ["cmd/root.go: writeToFile"]}
{"id": "C28", "title": "--trace turns tracing on", "statement": "Running the CLI with --trace parses in trace mode. (Refuted: the flag is not bound to the variable.) Tracing never changes the result: for every text, listener and pair of modes ParseKF gives the same result and errors; without the trace bit nothing is printed, and with it the visited contexts are printed, the root first, then one line with the error.", "quantifier": "every command line; every text, listener and mode value", "why_tests_cant": "All command lines.", "anchors": ["cmd/root.go: init, rootCmd", "kfparser/visitor.go: NewKuneiformVisitor"]}
{"id": "C29", "title": "The WASM entry point reports errors and JSON consistently", "statement": "parseKuneiform called with one argument returns a map in which 'error' is present iff Parse or serialisation failed, and 'json' is the JSON of Parse's schema on success and empty on failure; with any other number of arguments it returns the fixed message.", "quantifier": "every argument list", "why_tests_cant": "All inputs.", "anchors": ["wasm/wasm.go: parse, parseWrapper"]}
{"id": "C30", "title": "Keyword look-ups are case-insensitive partial bijections", "statement": "GetColumnType, GetAttributeType and GetIndexType return the documented type for every case variant of each documented word and an error for all other words; distinct words give distinct types and every declared type is reached. (The claim 'only ASCII spellings are accepted' is refuted by U+0130 in place of i.)", "quantifier": "every string", "why_tests_cant": "All strings and case variants.", "anchors": ["schema/types.go: GetColumnType, GetAttributeType, GetIndexType"]}
{"id": "C31", "title": "Every well-formed valid schema can be written and read back", "statement": "The schemas some text writes are exactly the plain ones: no owner, identifier names, literal values, nil for nothing, statements and annotations that are such, at most one init block, last. So for every plain valid schema there is a text that Parse maps to exactly that schema; and printing the tokens of an accepted text with single blanks gives a text with the same schema again.", "quantifier": "every valid schema", "why_tests_cant": "All schemas.", "anchors": ["kfparser/parser.go: Parse", "kfparser/visitor.go", "kfgrammar/"]}
{"id": "C32", "title": "Call statements keep their tokens", "statement": "The stored text of a call statement re-tokenises to the tokens the author wrote. (Refuted: white space is dropped, so 'not f($a)' is stored as 'notf($a)' and '$a and $b' as '$aand$b'. Established: it holds exactly for the call statements in which no word operator stands before a name, a number or 'not', and no variable stands before 'and' or 'or'.)", "quantifier": "every call statement", "why_tests_cant": "All token sequences.", "anchors": ["kfparser/visitor.go: VisitAction_stmt", "kfgrammar/kuneiform_parser.go: Fn_arg_expr"]}
{"id": "C33", "title": "SQL text may contain any character but the terminators", "statement": "An SQL statement token extends from its keyword over white space to the first ';' or '}' whatever lies between, quotes included; so a ';' or '}' inside an SQL string literal always ends the statement (the claim 'string literals are opaque' is refuted).", "quantifier": "every text starting with an SQL keyword", "why_tests_cant": "All texts.", "anchors": ["kfgrammar/kuneiform_lexer.go: SQL_STMT"]}
{"id": "C34", "title": "Literal values are stored verbatim", "statement": "Whenever Parse succeeds each min/max/min_length/max_length value is a non-empty digit string and each default, extension-config and annotation value a digit string or a single-quoted literal, exactly as written, quotes and escapes included; bare attributes carry no value.", "quantifier": "every accepted text", "why_tests_cant": "All literals.", "anchors": ["kfparser/visitor.go: VisitColumn_constraint, VisitExt_config_list", "kfgrammar/kuneiform_lexer.go: UNSIGNED_NUMBER_LITERAL, STRING_LITERAL"]}
{"id": "C35", "title": "Invalid UTF-8 input cannot produce invalid output", "statement": "For every byte string given to Parse, each maximal ill-formed byte is read as U+FFFD, so all strings of the result and of the JSON are valid UTF-8, and a well-formed input is read back unchanged.", "quantifier": "every byte string", "why_tests_cant": "All byte strings.", "anchors": ["kfparser/parser.go: ParseKF (NewInputStream)"]}
{"id": "C36", "title": "Error messages count the errors", "statement": "The error text names the first error and how many more there were. (Refuted: after a single syntax error the list contains itself and the message announces one more error.) For a semantic error the text is exactly that error's.", "quantifier": "every rejected text", "why_tests_cant": "All error lists.", "anchors": ["utils/error_listener.go: ErrorList.Error", "kfparser/parser.go: ParseKF"]}
{"id": "C37", "title": "The CLI's output path", "statement": "Translating file p into directory d writes to the file named <name>.json directly inside d, where <name> is the last element of p without its extension (all from the last dot), for every p with a last element and every d; the slice that cuts off the extension is always in range. (The claim that different inputs have different outputs is refuted: x/a.kf and y/a.kf share one, the second run replaces the first's result.)", "quantifier": "every input path and output directory", "why_tests_cant": "All path spellings.", "anchors": ["cmd/root.go: rootCmd (54-55, 78)"]}
{"id": "C38", "title": "The command line has one meaning", "statement": "A command line determines at most one combination of help, version, output directory and arguments, the run depends on nothing else, flags may stand before or after the file, long or short, in one argument or two, the last setting counts, ./build is the default; a command line with an unknown flag or a missing or bad value ends with code 1 and changes nothing.", "quantifier": "every argument list", "why_tests_cant": "All argument lists.", "anchors": ["cmd/root.go: rootCmd, Execute, init"]}
{"id": "C39", "title": "The generated lexer tables scan as the lexical rules say", "statement": "For every text, the generated lexer (its serialized table run by the ANTLR lexer simulator, with its error recovery) terminates and delivers exactly the one sequence the lexical rules define: at each place the longest token any rule matches, the first rule winning ties, white space and comments on the hidden channel; where no rule matches, an error for the longest stretch that could have begun a token (plus the offending character), after which scanning goes on. No character is lost or duplicated, no item is empty, and the sequence has no error exactly when the text splits into tokens.", "quantifier": "every text (sequence of Unicode code points)", "why_tests_cant": "The table is a list of integers that no test reads; all texts.", "anchors": ["kfgrammar/kuneiform_lexer.go: kuneiformlexerLexerInit, serializedATN", "kfparser/parser.go: ParseKF (24-30)"]}
{"id": "C40", "title": "The generated parser tables accept exactly the grammar", "statement": "The serialized table of the generated parser accepts a token sequence followed by end of file, with the operator precedences it encodes, if and only if the grammar derives it; and ParseKF reports a syntax error for exactly those texts that the generated lexer and parser tables do not accept.", "quantifier": "every token sequence; every text", "why_tests_cant": "The table is a list of integers describing infinitely many sentences.", "anchors": ["kfgrammar/kuneiform_parser.go: kuneiformparserParserInit, serializedATN", "kfgrammar/kuneiform_lexer.go: serializedATN", "kfparser/parser.go: ParseKF"]}
{"id": "C41", "title": "The result does not depend on how the parser resolved ambiguities", "statement": "The grammar is ambiguous, so a text can have several parse trees. Whatever parse tree of the text the parser builds, ParseKF returns the same schema and the same errors; every syntactically valid text has a parse tree; and on no parse tree does the visitor dereference nil, slice out of bounds or fail a type assertion.", "quantifier": "every text, every parse tree of it, every listener and mode", "why_tests_cant": "All trees of all texts; a test sees only the tree this ANTLR release happens to build.", "anchors": ["kfparser/visitor.go: KFVisitor (all Visit methods)", "kfparser/parser.go: ParseKF", "kfgrammar/kuneiform_parser.go: Source_unit, fn_arg_expr"]}
{"id": "C42", "title": "Parses do not influence one another through the shared lexer cache", "statement": "The generated lexer keeps one cache of automaton states for the whole process, filled in by every parse. Whatever texts have been or are being lexed by other goroutines, and however their steps interleave, the tokens of a text (and the failure to lex it) are those of a fresh process lexing that text alone; no parse waits for another forever, and every schedule ends.", "quantifier": "any number of texts, any interleaving of their lexers' steps, any earlier contents of the cache that lexing produced", "why_tests_cant": "All interleavings of all sets of texts; the race detector and stress tests see a few.", "anchors": ["kfgrammar/kuneiform_lexer.go: KuneiformLexerInit, NewKuneiformLexer", "kfparser/parser.go: ParseKF"]}
{"id": "C43", "title": "What a validator that is used more than once accepts", "statement": "A new validator accepts exactly the valid schemas and reports the first fault otherwise. Schemas given to one validator one after the other are all accepted if and only if, at every point, the schemas so far taken together form one valid schema; so schemas without common names do not disturb one another, while a table, action or extension name of an accepted schema can never be declared again, whatever Accept calls (successful, failing or panicking) come between. A used validator does not judge a schema as a new one does: it accepts references into earlier schemas and refuses a corrected schema after a rejected one (refuted with witnesses).", "quantifier": "every sequence of Accept calls on one validator, every schema, every behaviour of the statement parsers", "why_tests_cant": "All histories of calls, including the state left behind by failed ones.", "anchors": ["schema/validator.go: ContextValidator, NewCtxValidator, VisitSchema", "schema/schema.go: Accept"]}
{"id": "C44", "title": "Accept on a single schema element", "statement": "Accept on a column, attribute, table or action succeeds exactly when that element satisfies its own rules (foreign keys of a table and statements of an action are not looked at), whatever the validator did before; on an extension it always panics; an index is judged against the table accepted just before it and a foreign key against the tables of the schemas accepted before it, so that with a new validator an index with columns and every foreign key are refused.", "quantifier": "every node, every earlier sequence of Accept calls", "why_tests_cant": "All nodes in all states of the validator.", "anchors": ["schema/schema.go: Accept methods", "schema/validator.go: VisitTable, VisitColumn, VisitAttribute, VisitIndex, VisitForeignKey, VisitAction, VisitExtension"]}
{"id": "C45", "title": "The generated parser code parses exactly the language", "statement": "For every sequence of tokens, p.Source_unit() returns or reports a syntax error: if the tokens form a program it returns a parse tree of the grammar whose leaves are those tokens, and reports no error; otherwise it reports a syntax error. Followed from the characters of a text through the lexer's tables and the parser's code, ParseKF's result is the one the language definition gives. Even with a prediction that answers arbitrarily among the alternatives, the code comes to one of the two and never returns a tree that does not follow the grammar.", "quantifier": "every token sequence, every text, every behaviour of the prediction (for the last part)", "why_tests_cant": "All inputs, including all erroneous ones and all nestings; a wrong token mask, a missing Sync or a loop that consumes nothing shows only on particular inputs.", "anchors": ["kfgrammar/kuneiform_parser.go: every rule function from Source_unit to Fn_arg_expr", "kfparser/parser.go: ParseKF"]}
{"id": "C46", "title": "Prediction is right, and two tokens of lookahead decide every choice", "statement": "Whenever the generated parser asks ANTLR's AdaptivePredict which way to go, the answer depends only on the next two tokens (or the end of file) and the precedence, not on what follows nor on the callers, and never needs the second (full context) stage; if the rest of the input can be parsed at all from there, it can be parsed through the alternative answered. Operators in call arguments are grouped by their levels: after an operand the loop takes an operator exactly if it binds at least as tightly as the surrounding operator asks.", "quantifier": "every decision the code asks about, every precedence it passes, every stack of callers, every remaining input", "why_tests_cant": "Unbounded inputs and stacks of callers.", "anchors": ["kfgrammar/kuneiform_parser.go: calls of GetInterpreter().AdaptivePredict in Table_decl, Column_def_list, Fn_name, fn_arg_expr", "kfgrammar/kuneiform_parser.go: staticData.serializedATN"]}
{"id": "C47", "title": "The parser survives every wrong text: it ends, without a panic, with at least one report and no flood of reports", "statement": "On every sequence of tokens the generated parser with ANTLR's default error recovery ends and does not panic; the list of syntax errors it reports is determined by the tokens, is empty exactly if they are a program of the grammar, and has at most one error more than there are tokens. That it ends, and when it reports nothing, holds whatever token sets recovery goes by.", "quantifier": "every sequence of tokens; for the last sentence also every choice of the sets of tokens that recovery skips to or conjures up", "why_tests_cant": "Unbounded inputs, in particular wrong ones: an error may come anywhere, and recovery from it may loop, recurse without consuming or hit an ATN state it does not expect.", "anchors": ["kfgrammar/kuneiform_parser.go: all rule functions with errorExit, Sync, RecoverInline, Recover", "kfparser/parser.go: ParseKF 62-67", "antlr4-go DefaultErrorStrategy"]}
{"id": "C48", "title": "The first syntax error is reported at the first token that cannot stand where it stands", "statement": "If a text is not syntactically valid, the first error the parser reports is at a token (or at the end of the text) such that everything before it can be continued to a syntactically valid text, while no syntactically valid text has the same tokens up to and including the reported one. There is exactly one such place, so the first report never comes late, never comes early and never points elsewhere.", "quantifier": "every text that lexes and every sequence of tokens, and every continuation", "why_tests_cant": "Each of the infinitely many wrong texts has its own place, and that nothing can follow is a statement about all continuations; ANTLR's adaptive prediction may look several tokens ahead and fails at a token other than the one the decision is taken at.", "anchors": ["kfgrammar/kuneiform_parser.go: all rule functions, GetErrorHandler().Sync, AdaptivePredict, Match", "utils/error_listener.go: SyntaxError", "kfparser/parser.go: ParseKF 62-67"]}
{"id": "C49", "title": "Error messages name the line and column of the place they are about", "statement": "The line (from 1) and column (from 0, in characters) in every syntax error message are those where the offending token, the unrecognised characters or the end of the text stand. If the tokens of a text are no program, the error returned by Parse starts with \"syntax error: line L:C \", where L:C is the first place the text goes wrong: what stands before it can be continued to a syntactically valid text, and no valid text has the same tokens up to and including the one at L:C; the error ends with the number of reports.", "quantifier": "every text of code points, every message wording, every report", "why_tests_cant": "Unbounded texts: the counters are updated character by character, restored when the longest match is shorter than what was read, and carried over tokens, multi-line comments and lexing errors.", "anchors": ["utils/error_listener.go: SyntaxError 58-64, ErrorList.Error", "kfparser/parser.go: ParseKF 62-67", "kfgrammar/kuneiform_lexer.go: serialized ATN", "antlr4-go LexerATNSimulator.Consume, captureSimState, BaseLexer.NextToken"]}
{"id": "C50", "title": "Parses do not influence each other through the parser's cached decisions", "statement": "Whatever calls of Parse ran before or run at the same time in the process, in whatever order their accesses to the shared decision caches of the generated parser come, every call gets the prediction answers, the parse tree and the syntax errors it would get alone in a fresh process; no call is ever blocked by another, and every schedule comes to an end.", "quantifier": "every number of calls, every token sequences, every interleaving of cache accesses, and every notion of equal cache states at least as fine as antlr4-go's", "why_tests_cant": "Interleavings and histories are unbounded; a cache entry computed under one precedence, context or caller and reused under another would show only in particular combinations of texts.", "anchors": ["kfgrammar/kuneiform_parser.go: staticData.decisionToDFA 278-282, NewKuneiformParser 300, all AdaptivePredict calls", "kfparser/parser.go: ParseKF 31, 62", "antlr4-go ParserATNSimulator: AdaptivePredict, execATN, computeTargetState, addDFAEdge, addDFAState"]}
{"id": "C51", "title": "What syntax errors say is a token that stands there and tokens that can come there", "statement": "Every syntax error that the parser reports is put into words without panicking, on one line, as one of: extraneous input 'T' expecting E, mismatched input 'T' expecting E, missing E at 'T', no viable alternative at input 'T'. T is the text of the token the error is at, with tabs and line ends escaped (for the last form the text of one or more tokens ending with it); E is at least one token type, by its fixed text in quotes or its name. For the first error of a text every type in E can come there (the text before it, then such a token, can be continued to a valid text), or it can come one token later; a token called missing can come there with the token found after it. The whole error text of Parse is: syntax error: line L:C, this message, and the number of reports.", "quantifier": "every text of code points, every report of the parser on it", "why_tests_cant": "Unbounded texts and errors: the expected tokens are computed from the rule invocation stack and the shared transition network at the point of failure, after recoveries of unbounded kinds.", "anchors": ["utils/error_listener.go: SyntaxError 58-64, ErrorList.Error", "kfparser/parser.go: ParseKF 62-67", "kfgrammar/kuneiform_parser.go: LiteralNames, SymbolicNames, RuleNames 34-75, all rule functions", "antlr4-go DefaultErrorStrategy: ReportNoViableAlternative, ReportInputMisMatch, ReportUnwantedToken, ReportMissingToken, ReportFailedPredicate, escapeWSAndQuote; IntervalSet.StringVerbose, toTokenString, elementName"]}
{"id": "C52", "title": "The messages of a text are those of its lexing errors and of its parse errors, each once, the first being that of the first error", "statement": "On every text of code points the one error listener of lexer and parser gets one list of messages: for each piece of the text that cannot be read, in order, 'line L:C token recognition error at:' and the piece; and for each report of the parser, in order, its place and words (C51). A report comes after the messages of everything unreadable before its token, and before those of everything unreadable behind the second token after it (the first report: behind the next token). The list is empty exactly for the texts of the language, and never longer than the text has characters plus one. The first message is that of the first unreadable piece, or that of the first wrong token when nothing unreadable stands before it. The error text of Parse is 'syntax error:', the first message, and the number of all messages. A message may span lines (an unreadable piece is shown as it is), and messages need not come in the order of the text.", "quantifier": "every text of code points", "why_tests_cant": "Unbounded texts and mixtures of errors; the order depends on how far predictions and recoveries of unbounded kinds have made the token stream read ahead.", "anchors": ["kfparser/parser.go: ParseKF 31-67 (lexer and parser report to one listener)", "utils/error_listener.go: SyntaxError 58-64, ErrorList.Error", "kfgrammar/kuneiform_lexer.go; kfgrammar/kuneiform_parser.go: all rule functions", "antlr4-go CommonTokenStream: lazyInit, Sync, fetch, Consume, LT; BaseLexer: NextToken, notifyListeners, Recover; ParserATNSimulator: execATN"]}
{"id": "C53", "title": "The work is bounded: lexing at most quadratic, linear for every program and for every text whose comments close; parsing linear for every text", "statement": "On every text the lexer ends, after looking at a character at most (n+1)(n+2)/2 times, n being the length of the text; at most 3n+1 times if every '/*' has a '*/' after it, and for every text that is accepted. There is no linear bound for all texts: 'k times an opened comment that is never closed' takes more than 1.5 k^2 looks. Source_unit on any n tokens, errors and recovery included, ends after at most 783120(n+1) statements of the generated rule functions; each prediction among them looks at no more than two tokens (C46).", "quantifier": "every text of code points; every list of tokens", "why_tests_cant": "A bound on the work for inputs of all sizes: measurements give points of the curve, not its growth, and the error paths that could loop or re-scan are unboundedly many.", "anchors": ["kfgrammar/kuneiform_lexer.go: serialized ATN", "kfgrammar/kuneiform_parser.go: all rule functions", "kfparser/parser.go: ParseKF 31-67", "antlr4-go LexerATNSimulator.execATN, BaseLexer.NextToken, DefaultErrorStrategy"]}
{"id": "C54", "title": "The order of declarations does not matter, and a declaration stands or falls on its own", "statement": "A text that Parse reads as a schema is a database directive, extensions, and tables, actions and at most one init block one after the other, and the schema lists the tables in their order, the actions in theirs, the init action last. If the declarations are written in any other order (references forwards or backwards, init first or in the middle), Parse accepts the new text exactly if it accepts the old one, with the same tables and actions reordered; if tables keep their order among themselves and actions theirs, the outcome is the same in every respect, errors included. A text with further declarations is accepted if the old text is and the new declarations have fresh names and are in order themselves; a text with declarations taken out is accepted if the old text is and nothing that stays refers to them.", "quantifier": "every text, every permutation of its declarations, every set of declarations added or removed, every layout, every behaviour of the SQL and action parsers", "why_tests_cant": "n! orders of unboundedly many declarations, with references in both directions.", "anchors": ["kfparser/visitor.go: VisitSource_unit", "schema/validator.go: Validate and the visitors of tables, actions and extensions", "kfparser/parser.go: ParseKF"]}
{"id": "C55", "title": "What docs/syntax.md describes is accepted and means what it says, within three limits", "statement": "Every text written as docs/syntax.md describes it (database directive, tables with columns then indexes, actions with parameters and SQL statements, the listed types, attributes and index types, any blanks and line breaks), with names that are not reserved words and statements starting with select, insert, update, delete or with, is read by Parse as exactly the schema described, and is accepted if that schema is valid. CREATE and DROP statements never get into a schema, nor does any other statement starting with a word and a blank. Three things the document says are not so: not every name of letters, digits and underscores can be used (reserved words cannot), indexes cannot be listed before columns, and other SQL statements than CREATE and DROP are refused as well.", "quantifier": "every text of the documented form, with any number of tables, columns, indexes, actions, parameters and statements, any names, numbers, strings and layout", "why_tests_cant": "The documented language is infinite; tests try a few texts of it.", "anchors": ["docs/syntax.md", "kfparser/parser.go: ParseKF", "kfparser/visitor.go", "kfgrammar/kuneiform_parser.go"]}
{"id": "C56", "title": "Runs of the command line program beside each other, stopped at any moment", "statement": "For any number of runs of the command line program on the same files, in any interleaving of their steps and with any of them killed at any moment or meeting any fault, provided no run writes a file a run reads: files that are not outputs never change; every run that ends has the exit code it would have alone; an output file all of whose writers have the same JSON is at any moment as it was or starts with a part of the JSON followed by its old bytes (so a new file holds a beginning of the JSON), and holds the whole JSON once one run with no write fault has ended; after any such history a run without faults leaves exactly the JSON, if the file was missing or no longer than the JSON. Not so: the input is always kept (translating a.json into its own directory overwrites it); and two successful runs at the same time with the same output leave the JSON of one of the inputs (the file can hold a schema neither declares).", "quantifier": "every number of runs, command lines, file contents and operating system answers; every schedule of the steps; every point at which a run is killed", "why_tests_cant": "A test runs one schedule; interleavings and crash points are unbounded in number.", "anchors": ["cmd/root.go: rootCmd.Run, writeToFile", "main.go"]}
{"id": "C57", "title": "Declared names have no meaning of their own", "statement": "Giving other names to tables, columns, indexes, actions, extensions and variables, different names staying different and uses renamed with declarations, keeps a schema valid or invalid, and an invalid one keeps its kind of fault. So of two texts that differ in such names Parse accepts both or neither, and the schemas differ in these names.", "quantifier": "every schema, every injective renaming (aliases stay empty or non-empty, variables stay $ or @ variables, @caller stays), any imported parsers that take the renamed statements as they take the old ones", "why_tests_cant": "A name with a special meaning, or a collision of two name spaces, shows only for particular names; there are infinitely many.", "anchors": ["schema/validator.go", "schema/schema.go", "kfparser/parser.go: ParseKF"]}
{"id": "C58", "title": "What JavaScript sees of parseKuneiform", "statement": "Called from JavaScript with one string, parseKuneiform returns an object whose json, read as text, is a JSON text of the schema the string writes, when that schema is valid; and otherwise an object with empty json and an error that begins with 'parsing failed: '. The json is the text the command line program writes for the UTF-8 of the same string. Any other value as argument (number, object, null, ...) gives an error and no json; any other number of arguments gives the string 'Invalid no of arguments passed'. (Refuted: strings that differ get different results; unpaired surrogates are all read as U+FFFD.)", "quantifier": "every JavaScript string (any sequence of 16-bit units), every other value, every number of arguments", "why_tests_cant": "Strings outside the basic plane and with unpaired surrogates are rare in tests, and agreement with the command line is over all texts.", "anchors": ["wasm/wasm.go: parse, parseWrapper"]}
{"id": "C59", "title": "An output that was cut short is not taken for a complete one", "statement": "No beginning of what ToJSON gives, cut at any byte, is a JSON text. So when runs of the command line program are stopped at any moment, or their writes fail, an output file that was not there before and reads as JSON holds the whole output. (Refuted: over an older output the file, if it is JSON, is the old output or the new one; it can be a mixture of both, with exit code 0.)", "quantifier": "every schema element, every cut (also within a character), every JSON value, every order of steps of any number of runs", "why_tests_cant": "The cut may be at any byte of any document; 'is not JSON' is over all values and all ways to read the text.", "anchors": ["cmd/root.go: writeToFile", "schema/schema.go: ToJSON"]}
{"id": "C60", "title": "A file that was cut off declares nothing damaged", "statement": "If a Kuneiform file is cut off at any byte and what is left is still accepted, its tables, actions and extensions are the first ones of the whole file, unchanged: only whole declarations at the end are missing, and extensions only if all tables and actions are. The same holds for the JSON the command line program writes. Conversely, behind each declaration there is such a cut. (Refuted: every cut is refused.)", "quantifier": "every file, every byte position (also within a token, a comment, a string or a character), every schema", "why_tests_cant": "Damage could come from any token that has another meaning when it is cut; the cuts of all texts are infinitely many.", "anchors": ["kfparser/parser.go: ParseKF", "cmd/root.go", "kfgrammar/kuneiform_lexer.go", "kfgrammar/kuneiform_parser.go"]}
{"id": "C61", "title": "Calls nest no deeper than the text has tokens", "statement": "While a text is parsed, whether it is right or wrong and however errors are recovered from, the calls of the generated rule functions under way at the same time are never more than the number of tokens plus nine. So the stack needed is at most proportional to the text. (Refuted: that some constant depth suffices: n open parentheses make n calls nest.)", "quantifier": "every sequence of tokens, accepted or not", "why_tests_cant": "A stack overflow ends a Go program and cannot be recovered from; that no text, in particular none that goes through error recovery, recurses without consuming tokens is over all texts.", "anchors": ["kfgrammar/kuneiform_parser.go: Source_unit and the other rule functions, fn_arg_expr", "kfparser/parser.go: ParseKF"]}
{"id": "C62", "title": "The first syntax error does not depend on what stands behind it", "statement": "If two texts are scanned alike up to the token after the first wrong one, then they have the same first syntax error: reported at the same line and column, in the same words; and unless something unreadable stands between these two tokens, the whole first message the listener gets is the same, so that Parse's error begins with the same words. (Refuted: that it is enough for the texts to have these characters in common: what is behind may end a comment.)", "quantifier": "every pair of texts, every common beginning of their scans, every continuation", "why_tests_cant": "That no continuation of a text changes its first error is over all continuations of all wrong texts; the parser's lookahead and its error recovery could read on without bound.", "anchors": ["kfgrammar/kuneiform_parser.go: Source_unit and the other rule functions", "kfparser/parser.go: ParseKF", "utils/error_listener.go: SyntaxError, Err"]}
{"id": "C63", "title": "What comes back is at most linear in what was put in", "statement": "The JSON of a returned schema, indented or not, has at most 32 bytes for each byte of the source; each message for a wrong text has at most 3 characters for each character of the text, and 1000 more; and the text of the error of Parse at most 4 for each, and 1100 more. (Refuted: that 16 bytes of JSON for each byte of the source suffice.)", "quantifier": "every source text, right or wrong, both ways of writing the JSON", "why_tests_cant": "That no text blows up when it is parsed, nor makes an error message that is, is over all texts; nesting, escapes and lists of expected tokens could each multiply.", "anchors": ["schema/schema.go: ToJSON", "kfparser/parser.go: Parse", "kfparser/visitor.go", "utils/error_listener.go: SyntaxError, Err"]}
{"id": "C64", "title": "Line ends may be LF or CR LF", "statement": "A source file saved with CR LF line ends says what the file with LF line ends says: the one is syntactically valid iff the other is, the schemas written are the same but for the line ends inside SQL statements, and if the statement parsers take both kinds of line ends alike, the one is accepted iff the other is; if no SQL statement has a line end inside, Parse's outcome is the very same. This holds if no string literal has an escaped line end inside, and no SQL statement is a bare word with a single CR LF behind it. (Refuted: that it holds without these two: '\\\u23ce' is a string with LF and not with CR LF; \"select\u23ce;\" is a statement with CR LF and not with LF.)", "quantifier": "every source text and the text with CR before each LF; every schema, every outcome, every behaviour of the imported statement parsers that treats both alike", "why_tests_cant": "Whether a file survives a change of line ends (git's autocrlf, editors) depends on every place in which a line end can stand: between tokens, in comments, in SQL, in strings, doubled or alone.", "anchors": ["kfgrammar: lexer rules WS, TERMINATOR, LINE_COMMENT, BLOCK_COMMENT, STRING_LITERAL, SQL_KEYWORDS, SQL_STMT", "kfparser/parser.go: Parse", "kfparser/visitor.go: VisitSql_stmt"]}
{"id": "C65", "title": "A declaration that is commented out is not there", "statement": "A declaration of a syntactically valid text put in one block comment (if no '*/' is in it), or behind '//' line by line (if it ends at the end of a line and its lines end in LF or CR LF), is gone: the text consists of the other declarations, unchanged and in order. If the whole was accepted and the other declarations do not refer to this one, the rest is accepted, and its schema is that of the other declarations. (Refuted: that a block comment around a declaration always removes it and nothing else: with a string that has '*/' in it, text in the string becomes a declaration.)", "quantifier": "every valid text, every declaration (table, action, init) in it, both ways of commenting out, every behaviour of the imported parsers", "why_tests_cant": "Whether comments hide exactly what they surround depends on every text a declaration can have, SQL and strings with slashes, stars and quotes included.", "anchors": ["kfgrammar: lexer rules BLOCK_COMMENT, LINE_COMMENT", "kfparser/parser.go: Parse", "kfparser/visitor.go"]}
{"id": "C66", "title": "Annotations can be written and read back", "statement": "What ParseAnnotation returns is exactly what can be written as target(name=value,...): a target without '(' and attributes whose names are words and whose values are numbers or quoted texts without quote or line feed. Such an annotation, written, is read back as the same one, with white space and commas around its attributes too; different annotations are written differently; writing what was read and reading it again changes nothing. (Refuted: for no target and no attributes: \"( )\" is read, \"()\" is refused.)", "quantifier": "every target and list of attributes, every input string, every spreading of white space and commas", "why_tests_cant": "That no value, name or spacing is misread or cut is about all strings and a regular expression that searches anywhere in them.", "anchors": ["utils/annotation.go: ParseAnnotation, annotationRegex"]}
{"id": "C67", "title": "The order of the parts of a declaration does not matter for acceptance", "statement": "Two programs that declare the same things with columns, column attributes, foreign keys, their columns and actions, columns of an index, extensions, parameters, tables and actions in another order are accepted or refused alike; and so are indexes in another order if none lists another index. (Refuted: indexes that list other indexes and statements that use receivers must stay in order: moved, the program is refused.)", "quantifier": "every pair of programs with the same parts in another order, every world of imported parsers", "why_tests_cant": "It is about all permutations of all parts at once, with lookups from keys, indexes and statements into the parts that moved.", "anchors": ["schema/validator.go: Validate and the visitors", "kfparser/visitor.go: VisitSource_unit", "kfparser/parser.go: ParseKF"]}
{"id": "C68", "title": "Abbreviations and the optional \"do\" change nothing", "statement": "In every program each foreign_key may be written fk, each references may be written ref, each back, and \"do\" may be left out or put in after on_update and on_delete: the outcome is the same - schema, acceptance and validation error. For the abbreviations this holds in every text, wrong ones too: it is refused as often, with the same error unless it is a syntax error. (Refuted for \"do\" in wrong texts: without one of two \"do\" a wrong text becomes a program.)", "quantifier": "every text, every choice of spelling at every place, every layout of both texts, every world of imported parsers", "why_tests_cant": "The words can stand in unboundedly many places and each independently in either spelling, in texts that are right, misdeclared or wrong.", "anchors": ["kfgrammar/kuneiform_parser.go: Foreign_key_def, Foreign_key_action", "kfparser/visitor.go: VisitForeign_key_def, VisitForeign_key_action", "kfparser/parser.go: ParseKF"]}
{"id": "C69", "title": "Nothing of a program is ignored and nothing is made up", "statement": "The words of a program that its writer chose - names, parameters, numbers, strings, statements, annotations - are exactly the words stored in the schema, each as often: every such word is found in the schema (or inside a stored statement or annotation), every stored word stands in the text, and there are no more stored words than tokens.", "quantifier": "every text that yields a schema, valid or not", "why_tests_cant": "A visitor that drops or repeats a part in some combination of optional parts is wrong for programs no test contains; the claim counts all words of all programs.", "anchors": ["kfparser/visitor.go: every Visit function", "schema/schema.go: Schema and its parts", "kfparser/parser.go: ParseKF"]}
{"id": "C70", "title": "From the bytes of the input to everything that is returned and printed, with the messages the code really gives", "statement": "For every byte string, listener, mode and behaviour of the imported SQL and action parsers, ParseKF - the lexer's tables, the generated parser with its error strategy and predictions, the tree, the visitor, the validator and the error listener one after the other - ends with exactly one result, one list of errors and one printed trace, and never panics. The error is nil exactly if the text is in the language and writes a valid schema, which is then what is returned. Otherwise the text of the error is 'syntax error: ' with the first message of lexer and parser and the number of all of them, or that of the faulty declaration, or that of the failed check. The line and column in a syntax error are those of the first piece of the text that cannot be read, or of the first token with which no program can go on after what stands before it (or of the end of the text). The command line program (exit code 5, that text on its own line, no file touched) and the WebAssembly entry point ('parsing failed: ' and that text) pass it on. Mode changes only what is printed.", "quantifier": "every byte string, listener and mode; every behaviour of the SQL and action parsers; every command line and file system", "why_tests_cant": "Unbounded inputs through every stage at once; the messages of an invalid text depend on predictions and recoveries of unbounded kinds.", "anchors": ["kfparser/parser.go: Parse, ParseKF (15-81)", "kfgrammar/kuneiform_lexer.go, kfgrammar/kuneiform_parser.go", "kfparser/visitor.go", "schema/validator.go", "utils/error_listener.go", "cmd/root.go", "wasm/wasm.go"]}
