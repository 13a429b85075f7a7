(** The whole of kfparser/parser.go 15-81 on the code itself: the lexer's tables, the generated parser with its error strategy, the tree,
    the visitor, the validator and the error listener one after the other, as one function of the bytes of the input.  Nothing is left
    open but what the imported SQL and action parsers answer ([externals]). *)
From Coq Require Import ZArith.
From Verif Require Import Str Tokens Grammar Schema Utf8 JsonSpec GoJson ParseKF AtnData Atn AtnLexer AtnParser GoParser ParserCode PredictSpec Predict LexPos Message Recovery Fetch Tree TreeVisitor Run.

(** parser.go 19-81 with the input stream 24 (bytes to characters) and GetText (characters to bytes).  [fuel] bounds the work of the
    parser's loops, [None] says that it was too little.  First component: what is printed (Mode bit Trace).
    Simplified: after a report the tree is not kept (line 64-67 returns before it is visited), and without one the tree is that of
    the rule functions of GoParser.v, whose Match and Sync do the same when nothing is reported. *)
Definition parse_code (x : externals) (fuel : nat) (input : list N) (l : listener) (mode : N) : option (list str * ParseKF.outcome) :=
  let text := runes input in
  let run ms pt :=
    let (lines, o) := parse_run (World x (fun _ => ms)) text pt l mode in
    Some (map bytes_of lines, ParseKF.Outcome (option_map (map_schema bytes_of) (o_result o)) (o_listener o)) in
  match listener_gets text fuel, lexer_places text with                                                     (* 62 *)
  | Some (m :: ms), _ => run (m, ms) None                                                                   (* 64-67 *)
  | Some [], Some (evs, _) =>
      match source_unit_fun parser_atn rule_functions adaptive_predict fuel (flat_map (fun e => Fetch.token_of (fst e)) evs) with
      | Some (Some t) => run ([], []) (Some t)                                                              (* 69-78 *)
      | _ => None
      end
  | _, _ => None
  end.
