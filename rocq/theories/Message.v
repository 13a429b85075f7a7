(** The texts of the messages of syntax errors: error_strategy.go (ReportNoViableAlternative, ReportInputMisMatch,
    ReportFailedPredicate, ReportUnwantedToken, ReportMissingToken, GetTokenErrorDisplay, escapeWSAndQuote), interval_set.go
    (StringVerbose, toTokenString, elementName) and common_token_stream.go (GetTextFromInterval) of antlr4-go v4.13.0 (not in
    /repo), with the names of kfgrammar/kuneiform_parser.go.  [report] is that of Recovery.v. *)
From Coq Require Import ZArith.
From Verif Require Import Str Atn AtnLexer AtnParser AtnParserTable Tokens GoParser Recovery ParseKF LexPos.
Local Open Scope Z_scope.

(** kuneiform_parser.go 34-45: LiteralNames *)
Definition literal_names : list str := map lit
  [""; "':'"; "';'"; "'('"; "'{'"; "')'"; "'}'"; "','"; "'$'"; "'#'"; "'@'";
   "'.'"; "'='"; "'+'"; "'-'"; "'*'"; "'/'"; "'%'"; "'~'"; "'||'"; "'<<'";
   "'>>'"; "'&'"; "'|'"; "'=='"; "'<'"; "'<='"; "'>'"; "'>='"; "'!='";
   "'<>'"; "'database'"; "'use'"; "'as'"; "'table'"; "'action'"; "'init'";
   "'public'"; "'private'"; "'view'"; "'owner'"; "'int'"; "'text'"; "'blob'";
   "'min'"; "'max'"; "'minlen'"; "'maxlen'"; "'notnull'"; "'primary'";
   "'default'"; "'unique'"; "'index'"; "'foreign_key'"; "'fk'"; "'references'";
   "'ref'"; "'on_update'"; "'on_delete'"; "'do'"; "'no_action'"; "'cascade'";
   "'set_null'"; "'set_default'"; "'restrict'"; ""; ""; ""; ""; ""; "'not'";
   "'and'"; "'or'"]%string.
(** kuneiform_parser.go 46-61: SymbolicNames *)
Definition symbolic_names : list str := map lit
  [""; "COL"; "SCOL"; "L_PAREN"; "L_BRACE"; "R_PAREN"; "R_BRACE"; "COMMA";
   "DOLLAR"; "HASH"; "AT"; "PERIOD"; "ASSIGN"; "PLUS"; "MINUS"; "STAR";
   "DIV"; "MOD"; "TILDE"; "PIPE2"; "LT2"; "GT2"; "AMP"; "PIPE"; "EQ"; "LT";
   "LT_EQ"; "GT"; "GT_EQ"; "SQL_NOT_EQ1"; "SQL_NOT_EQ2"; "DATABASE_"; "USE_";
   "AS_"; "TABLE_"; "ACTION_"; "INIT_"; "PUBLIC_"; "PRIVATE_"; "VIEW_";
   "OWNER_"; "INT_"; "TEXT_"; "BLOB_"; "MIN_"; "MAX_"; "MIN_LEN_"; "MAX_LEN_";
   "NOT_NULL_"; "PRIMARY_"; "DEFAULT_"; "UNIQUE_"; "INDEX_"; "FOREIGN_KEY_";
   "FOREIGN_KEY_ABBR_"; "REFERENCES_"; "REFERENCES_ABBR_"; "ACTION_ON_UPDATE_";
   "ACTION_ON_DELETE_"; "ACTION_DO_"; "ACTION_DO_NO_ACTION_"; "ACTION_DO_CASCADE_";
   "ACTION_DO_SET_NULL_"; "ACTION_DO_SET_DEFAULT_"; "ACTION_DO_RESTRICT_";
   "SELECT_"; "INSERT_"; "UPDATE_"; "DELETE_"; "WITH_"; "NOT_"; "AND_";
   "OR_"; "IDENTIFIER"; "INDEX_NAME"; "PARAM_OR_VAR"; "BLOCK_VAR_OR_ANNOTATION";
   "UNSIGNED_NUMBER_LITERAL"; "STRING_LITERAL"; "SQL_KEYWORDS"; "SQL_STMT";
   "WS"; "TERMINATOR"; "BLOCK_COMMENT"; "LINE_COMMENT"]%string.
(** elementName.  None: an index out of range (a panic). *)
Definition element_name (t : Z) : option str :=
  if t =? -1 then Some (lit "<EOF>") else if t =? -2 then Some (lit "<EPSILON>") else if t <? 0 then None else
  match nth_error literal_names (Z.to_nat t) with
  | Some (c :: w) => Some (c :: w)
  | _ => nth_error symbolic_names (Z.to_nat t)
  end.
(** The elements of an interval set, in its order: ascending.  (Recovery.v has them in the order they were found in.) *)
Definition elements (l : list Z) : list Z := filter (fun t => zmem t l) (map (fun i => Z.of_nat i - 2) (seq 0 87)).
Fixpoint all_some {T} (l : list (option T)) : option (list T) :=
  match l with [] => Some [] | Some x :: r => match all_some r with Some y => Some (x :: y) | None => None end | None :: _ => None end.
(** strings.Join(names, ", ") *)
Definition commas (l : list str) : str := match l with [] => [] | x :: r => x ++ concat (map (fun y => lit ", " ++ y) r) end.
(** toTokenString; names[0] of no names is a panic (if the set never had an element, StringVerbose gives "{}" before). *)
Definition token_string (l : list Z) : option str :=
  match all_some (map element_name (elements l)) with
  | Some (x :: y :: r) => Some (lit "{" ++ commas (x :: y :: r) ++ lit "}")
  | Some [x] => Some x
  | _ => None
  end.
(** strings.Replace(s, c, by, -1), for one character *)
Fixpoint replace (c : N) (by_ : str) (s : str) : str := match s with [] => [] | x :: r => if N.eqb x c then by_ ++ replace c by_ r else x :: replace c by_ r end.
(** escapeWSAndQuote *)
Definition escape_quote (s : str) : str :=
  lit "'" ++ replace 13%N (lit "\r") (replace 10%N (lit "\n") (replace 9%N (lit "\t") s)) ++ lit "'".

(** The token stream: all the tokens of the text (the hidden ones too), the end of file after them. *)
Definition is_token (e : event) : bool := match e with Token _ _ _ => true | Bad _ => false end.
Definition shown (e : event) : bool := match e with Token _ 0 _ => true | _ => false end.
(** From the token with [n] visible tokens left on (0: the end of file) *)
Fixpoint from (n : nat) (l : list event) : list event :=
  match l with
  | [] => []
  | e :: r => if shown e && Nat.eqb (length (filter shown l)) n then l else from n r
  end.
(** CommonToken.GetText: the end of file has the text "<EOF>". *)
Definition text_at (n : nat) (l : list event) : str := match from n l with e :: _ => event_text e | [] => lit "<EOF>" end.
(** GetTextFromTokens(start, stop): the end of file adds nothing. *)
Definition text_between (start stop : nat) (l : list event) : str :=
  let s := from start l in
  let n := (length s - length (from stop l))%nat in
  concat (map event_text (firstn n s ++ match from stop l with e :: _ => [e] | [] => [] end)).
(** GetTokenErrorDisplay *)
Definition display (n : nat) (l : list event) : str := escape_quote (text_at n l).
(** kuneiform_parser.go 62-75: RuleNames[50], the only rule with precedence tests; 8569-8739: the text of a test *)
Definition tested_rule : str := lit "fn_arg_expr".
Definition test_text (j : Z) : str := lit "p.Precpred(p.GetParserRuleContext(), " ++ decimal (Z.to_nat j) ++ lit ")".
(** The message; None: a panic. *)
Definition wording_of (l : list event) (r : report) : option str :=
  match r_kind r, r_detail r with
  | Unwanted, Expecting e => match token_string e with Some s => Some (lit "extraneous input " ++ display (r_left r) l ++ lit " expecting " ++ s) | None => None end
  | Missing, Expecting e => match token_string e with Some s => Some (lit "missing " ++ s ++ lit " at " ++ display (r_left r) l) | None => None end
  | Mismatch, Expecting e => match token_string e with Some s => Some (lit "mismatched input " ++ display (r_left r) l ++ lit " expecting " ++ s) | None => None end
  | NoViableAlt, Since n => Some (lit "no viable alternative at input " ++ escape_quote (match n with O => lit "<EOF>" | _ => text_between n (r_left r) l end))
  | FailedPredicate, Level j => Some (lit "rule " ++ tested_rule ++ lit " failed predicate: {" ++ test_text j ++ lit "}?")
  | _, _ => None
  end.
Definition wording (text : str) (r : report) : option str :=
  match lexer_places text with Some (l, _) => wording_of (filter is_token (map fst l)) r | None => None end.
(** As the last part of what the listener gets (LexPos.v: message) *)
Definition said (text : str) (r : report) : str := match wording text r with Some m => m | None => [] end.
