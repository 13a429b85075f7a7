## Trusted base

* **Coq 8.16.1's kernel**, including its `vm_compute` machine (used for finite checks on the generated tables and for examples).
* **Axioms**: none.  Every property theorem is followed by `Print Assumptions`, and each prints
  "Closed under the global context".  vcheck lists seven `library_axioms` `Coq.ssr.ssrunder.Under_rel.*`: they are the fields of a
  module type of the standard library (ssreflect's `under` tactic) that comes with loading the standard library; no theorem
  here depends on them.
* **Three generators** copy data out of `/repo`: `tools/atn_data.py` (the serialized integers of both ATNs into `AtnData.v`),
  `tools/parser_code.py` (the statements of the rule functions into `ParserCode.v`) and by hand the grammar of `Grammar.v` and the rules of
  `LexRules.v` (no `.g4` file is in `/repo`; C39, C40 and C45 prove these against the generated integers and code, so a slip there
  would show as a failed proof).
* **The specifications** named above, and the reading of the Go sources the model's comments document.

### Modelled

* `kfparser/parser.go`, `kfparser/visitor.go`, `utils/error_listener.go`, `utils/annotation.go`, `schema/*.go`, `cmd/root.go`,
  `main.go`, `wasm/wasm.go`: every function.
* `kfgrammar/kuneiform_lexer.go`, `kuneiform_parser.go`: the serialized ATNs, the token constants, the rule functions, the
  context types as far as the visitor uses them (typed child access, `GetText`, `GetStart`/`GetStop` text ranges).
* antlr4-go v4.13.0 (not in `/repo`; modelled from its published source): ATN deserialization, the lexer simulator with error
  recovery and its DFA cache, the token stream (channel filter, when tokens are fetched), `Match`, `Sync`, `LL1Analyzer`, tree building, the
  default error strategy (which errors are reported at which token, what is skipped or conjured up after one, and how it is worded),
  `AdaptivePredict` and its DFA cache.  Its second (full context) stage and one shortcut are not modelled; C46 proves that
  neither is reached.
* Go: UTF-8 conversion of strings, `encoding/json` for these structs, the regular expressions of `annotation.go` with leftmost-first
  semantics, `path/filepath` on Unix, `errors.Is`, panics and `recover` in ParseKF.
* cobra/pflag: as far as this command line uses them, from their documented behaviour.

### Not modelled

* The imported SQL and action parsers (`kwil-db`): arguments (`externals`) that return any result; theorems hold for every
  behaviour.  Where needed, hypotheses say that their errors do not wrap this module's sentinels (`foreign_world`).
* What the listener gets is an argument (`world`) of the functions of ParseKF.v, so that the theorems about `Parse` hold for any
  messages; Recovery.v, LexPos.v, Message.v and Fetch.v say which ones it gets (C47, C49, C51, C52), and Whole.v puts them in (C70).
* The cache of prediction contexts (it only makes equal contexts the same object).
* `unicode.ToLower` beyond the stated facts, the file system beyond the outcomes of the calls made, JavaScript values beyond
  `String()`, symbolic links.
* Memory exhaustion, stack use other than the nesting of the rule functions (C61), goroutine data races outside the two DFA caches.

## Testing the model

`GoTests.v` (made by `tools/go_tests.py`) runs the repository's own tests on the model: all 81 cases of
`kfparser/parser_test.go` (valid syntax with the expected schema, nil slices told from empty ones; invalid syntax; invalid
semantics with the expected sentinel) and `utils/annotation_test.go`.  They are examples, not proofs; a model that does
something else than the code is expected to do would not compile.

## Testing the theorems

`seeded/LOG.jsonl` records wrong programs made from the model (`tools/mutate.py` and by hand): the definition edited, the edit,
the claim it breaks and the theorems that then fail.  Survivors led to tighter theorems or are shown to be equivalent programs.
