{
 "C01": "`Grammar.v` states the rules as EBNF data with an inductive derivation relation; `Parser.v` is proved to accept exactly the derivable token sequences (ParserSound, ParserComplete, ParserGrammar), by induction on trees and tokens, and C40/C45 link the generated tables and code to the same relation.",
 "C02": "Regular expressions with derivatives against shapes on characters (`LexSpec`); the lexer yields the unique longest-match, first-rule split, by induction on the text.",
 "C03": "Names of an accepted schema are texts of name tokens (Segments), whose shapes are given in `NameSpec`.",
 "C04": "The texts with given visible tokens are exactly the layouts of those tokens (`LayoutSpec`, `Bigram`, `Spacing`).",
 "C05": "`Denote.v` relates tokens to schemas without parse trees; the visitor composed with the parser is proved equal to it in both directions.",
 "C06": "From C05 and the fault relation of `FaultSpec`.",
 "C07": "Attribute lists as lists of words; meaning and faults by induction.",
 "C08": "Consequences of `valid_schema` (`ValidSpec`) through C16.",
 "C09": "As C08.",
 "C10": "As C08, with the exact error.",
 "C11": "As C08; witness for the refuted half.",
 "C12": "As C08; witness for the refuted half.",
 "C13": "As C08, with the exact error.",
 "C14": "As C08, with induction over the statements of an action.",
 "C15": "Statement texts from C05; vetting from C16 with the imported parsers as arguments.",
 "C16": "`ValidSpec` says on lists when a schema is valid; `Validator` follows the Go code with maps; equivalence by induction over the schema.",
 "C17": "`first_fault` of `ValidSpec` is the report of `Validator`.",
 "C18": "ParseKF as a function of text, listener and world, panics explicit.",
 "C19": "errors.Is as reachability along Unwrap; classification per outcome.",
 "C20": "Listener histories by induction over calls.",
 "C21": "RFC 8259 as a relation between values and characters; ToJSON's text has the value of the schema, and only that one.",
 "C22": "The JSON value determines the schema (JsonUnique).",
 "C23": "Character set of the text by induction over the encoder.",
 "C24": "Annotation tokens composed with ParseAnnotation.",
 "C25": "Backtracking matcher with Go's preference order against a left-to-right specification.",
 "C26": "A run of the program as a step relation (`CliSpec`), equivalent to `Cli`.",
 "C27": "File contents after OpenFile without O_TRUNC and a write that may fail.",
 "C28": "Flags, then tracing in `Run`/`TreeVisitor`.",
 "C29": "Wrapper function over ParseKF and ToJSON.",
 "C30": "Look-ups against the documented spellings with ToLower abstract.",
 "C31": "A printer for plain schemas; parse of print is the schema.",
 "C32": "Concatenated token texts lexed again.",
 "C33": "Shape of the SQL tokens.",
 "C34": "Shapes of literal tokens.",
 "C35": "UTF-8 decoding of any bytes, encoding of any characters.",
 "C36": "Error texts computed and compared with a specification of counts.",
 "C37": "filepath functions against a specification of paths.",
 "C38": "Meaning of a command line as a relation; unique; the program decides it.",
 "C39": "The serialized lexer ATN is decoded and simulated; a table of pairs (configurations, derivative of the rules) is explored and checked by computation, and the simulation on all texts follows by induction.",
 "C40": "Each rule's part of the parser ATN is compared with an expression by a computed bisimulation; walks are derivations, by induction.",
 "C41": "Every parse tree of a text gives the same result; and the tables give such trees.",
 "C42": "An interleaving semantics of lexers sharing the DFA; invariant: every cached edge and accept is what the uncached simulation computes.",
 "C43": "The validator as state; histories of Accept calls against several schemas taken as one.",
 "C44": "Accept per node type in every state.",
 "C45": "A computed check relates the statements of every rule function to the states of the ATN with FIRST and FOLLOW sets (closed under the transitions); soundness, completeness (given a reliable prediction) and termination (token consumption and a rank on calls) by induction on the execution.",
 "C46": "AdaptivePredict simulated; its answers for every pair of tokens and every precedence are computed and compared with the tokens that can follow each alternative; for the operator loop a re-association lemma, by induction on the stack of callers, shows that taking an operator inside is as good as taking it outside.",
 "C47": "The same statements as for C45, run on after errors (Recovery.v: Match/RecoverInline with single-token deletion and insertion, Sync, errorExit with ReportError, Recover and SetError(nil), the fail-safe consume). Ending: a measure on tokens left, then error states not yet seen, and a computed check of every function for every lookahead token that a call made without consuming leads deeper or consumes (RecoveryTable.v, RecoveryProof.v). Verdict: simulation with the run that stops at the first error (RecoveryProof2.v). Panics: every state recovery asks about has the transitions it takes. Count: reports + tokens left + (not recovering) never grows.",
 "C48": "Two inductions over the run of the rule functions up to the first error (FirstRun.v gives its place), with the walks of the ATN as specification of what can come: everything matched can be completed from the current ATN state under the current callers (FirstProof2.v; computed: from every state the rule can be finished, FirstTable.v), and tokens that can be continued from the current state are never failed at (FirstProof3.v; two-token decisions: every alternative takes the first token, and without a viable one the second is reported). The continuation is made a text in FirstText.v by the layout theorems of C04/C31.",
 "C49": "AtnLexer.v run again with the line and column counters (LexPos.v); by induction on the simulator's loop the counters are a fold over the characters passed, also when the accept state remembered lies behind; the fold is counting line feeds (PlaceSpec.v). Reports stay within the tokens: invariant of the run with recovery (PlaceRun.v). The first place is C48.",
 "C50": "ParseCache.v: DFAs with states, edges and start states per precedence, and threads that ask for predictions, one cache access per step. Invariant: every edge is what computeReachSet gives, every undecided state is one of the sets reachable at this decision; computed: antlr's equality, which ignores reachesIntoOuterContext, separates these sets (ParseCacheProof.v). Asking.v is the rule functions as such threads, proved to be GoParser.v and Recovery.v when alone (AskingProof.v).",
 "C51": "Message.v transcribes the wording of the runtime with the name tables of the generated parser; MessageSpec.v states the forms. MessageRun.v: an invariant of the recovering run (every state at which something is expected has at least one nameable token; precedence tests follow the prediction that asked the same predicate). FirstNames.v: every element of NextTokens at the first error, and of Look in context for single-token insertion, can come there, by the completeness of the walks of C48.",
 "C52": "Fetch.v repeats the recovering parser (C47) with the furthest token fetched, and merges the lexer's events by it. FetchProof.v: simulation with Recovery.v plus an invariant (the current token is always fetched, at most two more are); FetchProof2.v: at the end everything is fetched; FetchProof3.v, FetchText.v: the merge is an interleaving, cut at each report by what was fetched then.",
 "C53": "Work.v counts looks of the lexer simulation and statements of the recovering parser (Recovery.v with a counter). LexWork.v: a promising prefix outlives the token found by one character, strings and comments excepted; induction over the scan. WorkTable.v: by the kernel, no more than 26 statements pass without a token or recovery state being used up; WorkProof.v, WorkBound.v: the measure that ends recovery (C47) therefore bounds the count.",
 "C54": "OrderSpec.v splits a program into declarations by Denote.v's relations. OrderProof.v: denotation of the pieces composes in any order; valid_schema (C16) is invariant under permutation, grows by what is new, and survives the removal of what is not referred to.",
 "C55": "DocSpec.v states the document on words and characters. DocProof.v turns words into tokens that Denote.v gives the same meaning, and shows that such a spelling is a layout of them (C04). The three limits are proved as `_refuted`.",
 "C56": "CliSteps.v splits the run of Cli.v into steps; `C56_alone_it_is_the_run` proves the two agree. CliStepsProof.v has the invariant: how many bytes of the JSON each run has written, and the file as the longest of these over its old content.",
 "C57": "RenameSpec.v defines the renamed schema. RenameProof.v carries valid_schema and invalid_schema (C16, C17) over, list by list.",
 "C58": "JsSpec.v says with an inductive relation how 16-bit units are read as text. Js.v models the call; JsProof.v proves decoding and encoding against the relation; PropJs.v carries C29 over.",
 "C59": "JsonCut.v follows bracket depth through a text: every JSON text comes back to depth 0, a proper beginning of an object does not; bytes and characters scan alike. PropCut.v combines it with C56 and C27.",
 "C60": "CutLex.v compares the tokens of a text and of its beginning (only the last token can change; it is a comment if what is left is a program). CutProof.v: declarations can be told apart from their beginning (the unambiguous trees of C05), cut characters are read as U+FFFD and can only stand in a comment. PropTrunc.v combines them with C27.",
 "C61": "Stack.v is Recovery.v's run with the greatest length of its context chain. StackProof.v checks by computation on the statements of the rule functions that only fn_arg_expr can be entered again from itself and that it consumes a token before, for each next token; the bound is by induction on the run. StackDeep.v follows the run into n parentheses.",
 "C62": "StableRun.v runs Recovery.v on two inputs side by side, along the run without recovery of FirstRun.v: as long as two common tokens are left, both runs take the same steps (predictions depend on two tokens: C46) and the first error is set and reported alike. StableText.v: the words of a report depend on the tokens up to it. With C49 and C52.",
 "C63": "SizeJson.v gives the length of indented JSON in terms of a size of values with a depth; SizeProof.v goes by induction through JsonSpec/ParseSpec's denotation, showing that each construct's JSON is paid for by its tokens. Messages: from C52's wordings and places, with the lengths of decimals, quotations and of the 85 names a list of expected tokens can have.",
 "C64": "BreakSpec.v defines the change of line ends and the schema with edited statements. BreakProof.v goes by induction through layouts (LayoutSpec) in both directions; a CR LF can be split between two tokens only inside layout, as every token kind extended by CR is extended by LF; the tokens changed are SQL statements only, and denotation is carried over construct by construct. Acceptance follows with C57.",
 "C65": "OutSpec.v defines the two ways. The tokens before and behind keep apart (LayoutProof), so the new text is a layout of them (induction over the lines for //); with C54 the declarations are those that stay, and what was accepted stays accepted.",
 "C66": "AnnWrite.v defines the written form; by induction over the attributes the body has exactly these attributes (C25's specification), so C25 gives the result; C25's shapes give the converse.",
 "C67": "ShuffleSpec.v defines the relation part by part; validity, as specified on lists in ValidSpec.v, is carried over each part (names are permuted, lookups stay), the relation is symmetric, and C18 gives the texts. The refutations are concrete texts.",
 "C68": "SpellSpec.v defines the spellings of a token and respells a list token by token; what tokens say (Denote.v) and what the grammar derives are carried over by induction, where a rule reaches none of these words by its reachable rules; C18 gives the outcome.",
 "C69": "KeepSpec.v lists the words of a schema and cuts tokens into chunks; by induction over what tokens say (Denote.v), with permutations where the schema sorts by kind, the chunks' texts are the schema's words.",
 "C70": "Whole.v composes the stages as one function of bytes and fuel; a world with the messages of the code is built (by an axiom-free choice of fuel), and the function is proved equal to parse_bytes in that world, so that every theorem about all worlds holds of the code."
}