(** What the messages of syntax errors say (specification of C51). *)
From Verif Require Import Str Tokens LexSpec.
Local Open Scope N_scope.

(** On one line, in quotes: tabs, line feeds and carriage returns are written \t, \n and \r. *)
Definition quoted (s : str) : str :=
  lit "'" ++ concat (map (fun c => if c =? 9 then lit "\t" else if c =? 10 then lit "\n" else if c =? 13 then lit "\r" else [c]) s) ++ lit "'".
(** How the types of tokens are called that have no fixed text. *)
Definition symbol (k : tt) : str :=
  lit match k with
  | SELECT_ => "SELECT_" | INSERT_ => "INSERT_" | UPDATE_ => "UPDATE_" | DELETE_ => "DELETE_" | WITH_ => "WITH_"
  | IDENTIFIER => "IDENTIFIER" | INDEX_NAME => "INDEX_NAME" | PARAM_OR_VAR => "PARAM_OR_VAR" | BLOCK_VAR_OR_ANNOTATION => "BLOCK_VAR_OR_ANNOTATION"
  | UNSIGNED_NUMBER_LITERAL => "UNSIGNED_NUMBER_LITERAL" | STRING_LITERAL => "STRING_LITERAL" | SQL_KEYWORDS => "SQL_KEYWORDS" | SQL_STMT => "SQL_STMT"
  | WS => "WS" | TERMINATOR => "TERMINATOR" | BLOCK_COMMENT => "BLOCK_COMMENT" | LINE_COMMENT => "LINE_COMMENT"
  | _ => ""
  end.
(** A type of token, or the end of file (None): its text in quotes, if it has a fixed one. *)
Definition called (k : option tt) : str :=
  match k with
  | None => lit "<EOF>"
  | Some k => match literal_of k with Some w => lit "'" ++ w ++ lit "'" | None => symbol k end
  end.
Fixpoint separated (l : list str) : str := match l with [] => [] | [x] => x | x :: r => x ++ lit ", " ++ separated r end.
Definition enumerated (l : list (option tt)) : str := match l with [k] => called k | _ => lit "{" ++ separated (map called l) ++ lit "}" end.

(** The forms of message, for the text found and the types of token expected. *)
Definition says_extraneous (found : str) (ks : list (option tt)) : str := lit "extraneous input " ++ quoted found ++ lit " expecting " ++ enumerated ks.
Definition says_mismatched (found : str) (ks : list (option tt)) : str := lit "mismatched input " ++ quoted found ++ lit " expecting " ++ enumerated ks.
Definition says_missing (found : str) (ks : list (option tt)) : str := lit "missing " ++ enumerated ks ++ lit " at " ++ quoted found.
Definition says_no_viable (found : str) : str := lit "no viable alternative at input " ++ quoted found.
(** The text of the first of some tokens; after the last one stands the end of file. *)
Definition token_text (y : list tok) : str := match y with t :: _ => tx t | [] => lit "<EOF>" end.
(** The text of some tokens and of the one after them. *)
Definition text_up_to (b y : list tok) : str := match b ++ y with [] => lit "<EOF>" | _ => concat (map tx (b ++ firstn 1 y)) end.
Definition on_one_line (s : str) : Prop := forall c, In c s -> c <> 9 /\ c <> 10 /\ c <> 13.
Definition starts_shown (y : list tok) : Prop := match y with t :: _ => is_layout (ty t) = false | [] => True end.
