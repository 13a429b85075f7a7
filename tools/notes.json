{
 "C01": [
  "proved",
  "For every text, errors.Is(err, ErrInvalidSyntax) iff the text's tokens are not a derivation of the grammar of Grammar.v."
 ],
 "C02": [
  "proved",
  "Lexer = longest match, first rule, lossless, fails exactly where no rule matches."
 ],
 "C03": [
  "proved",
  "Names are identifiers and not reserved; the claim for index names (may be reserved, e.g. #table) is refuted and stated so in the property."
 ],
 "C04": [
  "proved",
  "Only visible tokens matter; the texts of a program's tokens are exactly their layouts; insertion and removal."
 ],
 "C05": [
  "proved",
  "The schema returned is the one the relation `denotes` assigns to the tokens, in both directions, and it is unique."
 ],
 "C06": [
  "proved",
  "Init is last, private, updating; two are refused; nothing else can be called init."
 ],
 "C07": [
  "proved",
  "Meaning of attribute lists and their faults, for every list."
 ],
 "C08": [
  "proved",
  "Uniqueness of top-level names, and refusal of duplicates."
 ],
 "C09": [
  "proved",
  "Uniqueness of members, attributes, foreign-key events, parameters."
 ],
 "C10": [
  "proved",
  "Compatibility, and the exact error when nothing before is wrong."
 ],
 "C11": [
  "proved",
  "The exact set an index may list is proved; the literal claim (columns only) is refuted by a witness."
 ],
 "C12": [
  "proved",
  "Foreign keys resolve to members of the tables; columns-only and equal-count claims refuted by a witness."
 ],
 "C13": [
  "proved",
  "Calls resolve, and the exact errors when nothing before is wrong."
 ],
 "C14": [
  "proved",
  "Argument variables are parameters or receivers of earlier statements."
 ],
 "C15": [
  "proved",
  "SQL statements vetted, and stored as a verbatim piece of the source."
 ],
 "C16": [
  "proved",
  "validate accepts exactly valid_schema, for every behaviour of the imported parsers."
 ],
 "C17": [
  "proved",
  "The report is exactly the first fault in order; unique; exhaustive."
 ],
 "C18": [
  "proved",
  "Outcomes of ParseKF characterised; panics end in the listener."
 ],
 "C19": [
  "proved",
  "errors.Is classification and termination; assumes the imported parsers' errors do not wrap this module's sentinels or list (foreign_world, separate_world)."
 ],
 "C20": [
  "proved",
  "Listener histories."
 ],
 "C34": [
  "proved",
  "Values are digit strings or quoted literals; with C05 they are the token texts."
 ],
 "C36": [
  "proved",
  "Texts of semantic and syntax errors exactly; the counting claim is refuted by a witness."
 ],
 "C31": [
  "proved",
  "writable iff plain; every plain valid schema is parsed from some text; reprinting with single blanks keeps the result."
 ],
 "C32": [
  "proved",
  "Exact condition for the stored call text to re-tokenise; unconditional claim refuted by a witness."
 ],
 "C33": [
  "proved",
  "SQL token = keyword, white space, everything to the first ';' or '}' or the end; opacity of string literals refuted by a witness."
 ],
 "C21": [
  "proved",
  "ToJSON of every node type with a ToJSON method; Attribute.Value restricted to nil or string (all Parse ever stores). RFC 8259 relation with proof that a text has at most one value."
 ],
 "C22": [
  "proved",
  "For well-formed strings equal up to nil/empty of omitempty fields; for results of Parse equal. Ill-formed strings and nil/empty: refuted by witnesses."
 ],
 "C23": [
  "proved",
  "Every node, every byte content."
 ],
 "C35": [
  "proved",
  "Byte-level reading, result strings valid and lossless, JSON valid."
 ],
 "C24": [
  "proved",
  "For every accepted text each stored annotation is the text of annotation tokens of the source and is read back exactly when string values have no inner quote or line feed (equivalence); the unrestricted claim is refuted with an escaped quote."
 ],
 "C25": [
  "proved",
  "Never panics; error condition as an equivalence; on success the attributes are exactly those found left to right, without overlap, by a specification that does not mention regular expressions. Strings are byte lists."
 ],
 "C26": [
  "proved",
  "Exit code given by an equivalence with a step-by-step relation; distinctness; only the output file changes."
 ],
 "C27": [
  "proved",
  "The claim as stated is refuted in two ways (no truncation; write error lost); the exact content of the file and the exact condition under which it is the JSON are proved, and that the JSON then denotes the schema the input writes."
 ],
 "C28": [
  "proved",
  "Refuted: no command line turns tracing on; the switch changes nothing. That tracing is harmless, silent when off, and prints the visited contexts and the error when on is proved on the statement-by-statement model of ParseKF and the visitor (Run.v, TreeVisitor.v)."
 ],
 "C29": [
  "proved",
  "js.Value arguments are the byte strings String() gives."
 ],
 "C30": [
  "proved",
  "unicode.ToLower is any function meeting the stated facts about it; U+0130 refutes ASCII-only."
 ],
 "C37": [
  "proved",
  "Paths as in filepath on Unix; symbolic links are left to the operating system (resolve)."
 ],
 "C38": [
  "proved",
  "cobra and pflag, which are not in /repo, are modelled from their documented behaviour."
 ],
 "C39": [
  "proved",
  "The integers of the table are read out of the Go source by tools/atn_data.py; the simulator is modelled from ANTLR's published source, without its DFA cache."
 ],
 "C40": [
  "proved",
  "The table is a network of states; acceptance is a walk through it with a stack of return states and precedence tests, and the trees built along the walks are proved to be parse trees. Which of several walks the runtime takes is the subject of C45 and C46."
 ],
 "C41": [
  "proved",
  "On the statement-by-statement visitor over generic parse trees (TreeVisitor.v); a parse tree is any tree that follows the grammar (TreeSpec.v). Which one ANTLR builds is the subject of C45."
 ],
 "C42": [
  "proved",
  "Lexers sharing the process-wide DFA cache, stepping in any interleaving; runtime modelled from the published antlr4-go source; the prediction cache of the parser is the subject of C50."
 ],
 "C43": [
  "proved",
  "The validator as an object whose maps survive errors. The literal claim that a used validator judges as a new one is refuted by witnesses and stated so in the property."
 ],
 "C44": [
  "proved",
  "Accept on every node type in every state of the validator; statements say where a verdict depends on earlier calls."
 ],
 "C45": [
  "proved",
  "Rule functions read out of the Go source by tools/parser_code.py as statements of a small language (GoParser.v); up to the first reported error (what comes after it is C47). Trees for adaptive_predict and for any predictor."
 ],
 "C46": [
  "proved",
  "AdaptivePredict's first (SLL) stage is modelled from the published antlr4-go source, without its DFA cache (C50 adds it); the second stage is proved unreachable here."
 ],
 "C47": [
  "proved",
  "Error strategy of antlr4-go v4.13.0 modelled from its published source (Recovery.v). C47_whatever_recovery_goes_by shows that ending and the verdict do not depend on the token sets recovery goes by."
 ],
 "C48": [
  "proved",
  "Token level for every sequence of tokens; text level for texts without lexing errors (for these tokens_of exists always, C01 ff.; unrecognised characters are reported by the lexer instead)."
 ],
 "C49": [
  "proved",
  "The words after line:column are ANTLR's and arbitrary here. The theorem about Parse is for texts without lexing errors; places of lexing errors are in C49_recorded_places, all messages together in C52. The words are those of C51. A lone carriage return does not count as a line end."
 ],
 "C50": [
  "proved",
  "An access to the cache is one atomic step (the runtime locks stateMu/edgeMu around each). Trees and error reports are stated as two programs over the same rule functions. The prediction-context cache of the runtime only shares equal objects and is not modelled."
 ],
 "C51": [
  "proved",
  "Of the messages of the parser; those of the lexer are in C52. Two stronger claims are refuted by counterexamples: that everything that can come is named (after a column type the constraints are not), and that what is named can come at the very place (after \"#i btree(\", the message asks for the parenthesis after the index kind). Failed predicates are never reported (proved)."
 ],
 "C52": [
  "proved",
  "Refuted by counterexamples: that every message is on one line (those of the lexer show line ends as they are), and that messages come in the order of the text. The exact order is that of the model's run; the theorems bound it within two tokens of the report."
 ],
 "C53": [
  "proved",
  "Units of work: looks at a character (LA(1) of the lexer simulation) and statements of the rule functions; the constant of the parser is that of the proof (26 statements without progress, 20 calls deep, 502 recovery positions per token), programs take about four statements a token. A linear bound on lexing for all texts is refuted."
 ],
 "C54": [
  "proved",
  "Extensions stay in front of the declarations (the grammar demands it) and in order. Texts are related by their declarations, each with the tokens that write it; the layout between tokens is free."
 ],
 "C55": [
  "proved",
  "NUMBER and STRING are not defined by the document; digits and quoted text without quotes, backslashes and line breaks are taken. The document's restrictions on functions, keywords and joins in SQL are up to the imported SQL parser, which is an argument of the model."
 ],
 "C56": [
  "proved",
  "Steps: reading the input, opening the output, each byte written, closing. POSIX lets writes interleave; a system that makes the whole Write atomic has fewer schedules. Removal of files by others is not modelled."
 ],
 "C57": [
  "proved",
  "The statements are opaque to the model, so the renamed statements are those that the imported parsers understand in the same way with the new names. Types, attributes, annotations and extension settings are not renamed."
 ],
 "C58": [
  "proved",
  "The conversions between JavaScript strings and Go strings belong to Go's syscall/js and wasm_exec.js, which are not in /repo: modelled from their documentation. Texts are returned without a leading byte order mark, which TextDecoder would drop."
 ],
 "C59": [
  "proved",
  "With the runs of C56, each of which writes its output byte by byte."
 ],
 "C60": [
  "proved",
  "The whole file need only have a schema (o_result), it need not pass validation."
 ],
 "C61": [
  "proved",
  "Counts the calls of rule functions; each has a bounded number of runtime calls above it."
 ],
 "C62": [
  "proved",
  "Common beginnings are given as items of the scans (tokens, layout, unreadable characters). Two tokens are needed: the wrong one and the next (single token deletion looks at it)."
 ],
 "C63": [
  "proved",
  "32 is enough but not claimed to be least: 16 is too little. Invalid UTF-8 is counted as the bytes it is in."
 ],
 "C64": [
  "proved",
  "Positions in messages are not part of it: lines are counted by LF, columns by characters."
 ],
 "C65": [
  "proved",
  "The text before the declaration must not end in a line comment without its line end (nothing after it would be seen anyway)."
 ],
 "C66": [
  "proved",
  "Strings are bytes; the expression's white space is ASCII."
 ],
 "C67": [
  "proved",
  "The two programs may also differ in configuration values of extensions, action modifiers and annotations, which validation does not read."
 ],
 "C68": [
  "proved",
  "Other words with one meaning and two spellings do not exist in the language."
 ],
 "C69": [
  "proved",
  "Keywords are not counted (types, attributes without value, visibility and so on are C05's and C07's)."
 ],
 "C70": [
  "proved",
  "Joins C39, C41, C45, C47 and C52: the messages are no longer an argument. Only the imported SQL and action parsers are."
 ]
}