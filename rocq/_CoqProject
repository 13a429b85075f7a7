-Q theories Verif
theories/Str.v
theories/Regex.v
theories/Tokens.v
theories/LexRules.v
theories/Lexer.v
theories/RegexProof.v
theories/LexSpec.v
theories/LexShape.v
theories/LexerProof.v
theories/Grammar.v
theories/Cst.v
theories/Parser.v
theories/ExprProof.v
theories/ParserProof.v
theories/ParserSound.v
theories/ParserComplete.v
theories/ParserGrammar.v
theories/Schema.v
theories/Visitor.v
theories/Validator.v
theories/ValidSpec.v
theories/ValidProof.v
theories/ValidProof2.v
theories/ValidProof3.v
theories/Denote.v
theories/FaultSpec.v
theories/DenoteProof.v
theories/ParseKF.v
theories/ParseSpec.v
theories/ParseProof.v
theories/NameSpec.v
theories/Segments.v
theories/ParseProof2.v
theories/Outcomes.v
theories/Sample.v
theories/Tree.v
theories/TreeSpec.v
theories/TreeVisitor.v
theories/TreeProof.v
theories/TreeExists.v
theories/TreeCheck.v
theories/Run.v
theories/RunSpec.v
theories/RunProof.v
theories/LayoutSpec.v
theories/Spacing.v
theories/Bigram.v
theories/LayoutProof.v
theories/PrintSpec.v
theories/PrintProof.v
theories/Utf8Spec.v
theories/Utf8.v
theories/Utf8Proof.v
theories/JsonSpec.v
theories/GoJson.v
theories/JsonProof.v
theories/JsonUnique.v
theories/Node.v
theories/NodeSpec.v
theories/NodeProof.v
theories/ParseBytes.v
theories/Charset.v
theories/JsonParse.v
theories/Annotation.v
theories/AnnotSpec.v
theories/AnnotProof.v
theories/AnnotParse.v
theories/Types.v
theories/TypesSpec.v
theories/TypesProof.v
theories/Path.v
theories/Flags.v
theories/Cli.v
theories/FlagSpec.v
theories/FlagProof.v
theories/PathSpec.v
theories/PathProof.v
theories/Wasm.v
theories/CliSpec.v
theories/CliProof.v
theories/AtnData.v
theories/Atn.v
theories/AtnLexer.v
theories/ScanSpec.v
theories/AtnLexerTable.v
theories/AtnLexerProof.v
theories/LexCache.v
theories/LexCacheProof.v
theories/AtnParser.v
theories/AtnParserTable.v
theories/AtnParserProof.v
theories/AtnTree.v
theories/AtnTreeProof.v
theories/GoParser.v
theories/ParserCode.v
theories/PredictSpec.v
theories/GoParserTable.v
theories/GoParserProof.v
theories/Predict.v
theories/PredictTable.v
theories/PredictProof.v
theories/Recovery.v
theories/RecoveryTable.v
theories/RecoveryProof.v
theories/RecoveryCheck.v
theories/RecoveryProof2.v
theories/RecoveryProof3.v
theories/FirstTable.v
theories/FirstRun.v
theories/FirstProof.v
theories/FirstProof2.v
theories/FirstProof3.v
theories/FirstNames.v
theories/FirstText.v
theories/PropSyntax.v
theories/PropLayout.v
theories/PropValid.v
theories/PropParse.v
theories/PropJson.v
theories/PropAnnot.v
theories/PropTypes.v
theories/PropCli.v
theories/PropAtn.v
theories/PropTree.v
theories/PropCache.v
theories/PropNode.v
theories/PropCode.v
theories/PropRecovery.v
theories/PropFirst.v
theories/LexPos.v
theories/PlaceSpec.v
theories/LexPosProof.v
theories/PlaceRun.v
theories/PropPlace.v
theories/ParseCache.v
theories/ParseCacheProof.v
theories/Asking.v
theories/AskingProof.v
theories/PropShared.v
theories/MessageSpec.v
theories/Message.v
theories/MessageRun.v
theories/MessageProof.v
theories/PropMessage.v
theories/Fetch.v
theories/FetchProof.v
theories/FetchProof2.v
theories/FetchSpec.v
theories/FetchProof3.v
theories/FetchText.v
theories/PropFetch.v
theories/Work.v
theories/WorkTable.v
theories/WorkProof.v
theories/WorkBound.v
theories/LexWork.v
theories/PropWork.v
theories/OrderSpec.v
theories/OrderProof.v
theories/PropOrder.v
theories/DocSpec.v
theories/DocProof.v
theories/PropDoc.v
theories/CliSteps.v
theories/CliStepsSpec.v
theories/CliStepsProof.v
theories/PropHist.v
theories/RenameSpec.v
theories/RenameProof.v
theories/PropRename.v
theories/JsSpec.v
theories/Js.v
theories/JsProof.v
theories/PropJs.v
theories/JsonCut.v
theories/PropCut.v
theories/CutLex.v
theories/CutProof.v
theories/CutSpec.v
theories/PropTrunc.v
theories/Stack.v
theories/StackProof.v
theories/StackDeep.v
theories/PropStack.v
theories/StableRun.v
theories/StableText.v
theories/PropStable.v
theories/SizeJson.v
theories/SizeProof.v
theories/PropSize.v
theories/GoTests.v
theories/BreakSpec.v
theories/BreakProof.v
theories/PropBreak.v
theories/OutSpec.v
theories/PropOut.v
theories/AnnWrite.v
theories/PropAnnWrite.v
theories/ShuffleSpec.v
theories/ShuffleProof.v
theories/PropShuffle.v
theories/SpellSpec.v
theories/SpellProof.v
theories/PropSpell.v
theories/KeepSpec.v
theories/KeepProof.v
theories/PropKeep.v
theories/Whole.v
theories/PropWhole.v
