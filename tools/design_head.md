# A Rocq model of kwilteam/kuneiform

The model is a set of total, computable Gallina functions that follow the code of `/repo` function by function; every
definition cites the file and lines it models and says where it simplifies.  Beside the model there is a small set of
*specification* files, written on lists, characters and relations without using the model's functions; the property
theorems (`Prop*.v`) speak about the model only through these specifications.  Everything the property theorems rest on is
checked by `coqc` from a clean checkout; no bounded search stands for a proof.  Where a check is *computed* (`vm_compute` on
the finite tables of the generated lexer and parser) it is a lemma, and the theorem on all inputs follows from it by induction.

This file is made by `tools/design.py` from `tools/design_head.md`, `tools/how.json`, `tools/notes.json` and `tools/design_tail.md`.

## From bytes to the result: how the layers fit

1. bytes to characters: `Utf8` (specification `Utf8Spec`), C35.
2. characters to tokens: two models that are proved equal.  `LexRules`, `Lexer` state the 84 rules as regular expressions;
   `AtnData`, `Atn`, `AtnLexer` decode the serialized integers of `kuneiform_lexer.go` and interpret them as ANTLR's simulator
   does, with error recovery; `LexCache` adds the DFA cache shared by all goroutines.  Specification: `LexSpec` (shapes of the
   tokens), `ScanSpec` (what the token source yields).  C02, C39, C42.
3. tokens to a parse tree: three models that are proved to agree.  `Parser` is a recursive-descent parser shaped like the rule
   functions; `AtnParser`, `AtnTree` are the walks through the decoded parser ATN; `GoParser`, `ParserCode`, `Predict` are the
   statements of the 51 rule functions themselves, with `Sync`, `Match` and `AdaptivePredict`, up to the first error reported;
   `Recovery` goes on after errors with ANTLR's default error strategy.
   Specification: `Grammar` (the grammar as data with its derivations), `TreeSpec` (parse trees), `PredictSpec`.  C01, C40, C45-C48 (C48: `FirstRun` to `FirstText`).
   `Message` words the reports, `Fetch` orders them among the lexer's (specifications `MessageSpec`, `FetchSpec`), C51, C52, C62;
   `Work` counts steps, C53; `Stack` counts calls, C61.
   `LexPos` adds line and column counters (specification `PlaceSpec`), C49; `ParseCache` and `Asking` the DFAs shared by all parsers, C50.
4. parse tree to schema: `Visitor` (on typed trees) and `TreeVisitor` (kfparser/visitor.go statement by statement on generic
   trees, with panics and trace output), proved equal on every parse tree.  Specification: `Denote` (tokens write a schema),
   `FaultSpec`.  C05, C06, C07, C15, C34, C41.
5. validation: `Validator`, `Node` (the validator as an object that may be reused).  Specification: `ValidSpec`, `NodeSpec`.
   C08-C14, C16, C17, C43, C44.
6. ParseKF, listener, errors: `ParseKF`, `Run` (with mode and trace).  Specification: `ParseSpec`, `RunSpec`.  C18-C20, C28, C36.
7. output: `GoJson` (specification `JsonSpec`, RFC 8259 as a relation), C21-C23; `PrintSpec`, `LayoutSpec` (texts of tokens and
   schemas), C04, C31-C33; `Annotation` (`AnnotSpec`), C24, C25; `Types` (`TypesSpec`), C30.
   Relations between texts: `OrderSpec` (C54), `DocSpec` (what docs/syntax.md describes, C55), `RenameSpec` (C57), `CutSpec`
   (texts cut off, C60), `JsonCut` (outputs cut off, C59).
8. programs: `Js` (what JavaScript sees, C58), `CliSteps` (runs of the program interleaved and stopped, C56), `Flags`, `Path`, `Cli`, `Wasm` (specifications `FlagSpec`, `PathSpec`, `CliSpec`), C26-C29, C37, C38.

