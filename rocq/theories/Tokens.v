(** Token types and tokens: kfgrammar/kuneiform_lexer.go lines 401-486 (constants),
    lines 45-72 (LiteralNames, SymbolicNames). *)
From Verif Require Export Str.
Local Open Scope N_scope.

Inductive tt :=
| COL | SCOL | L_PAREN | L_BRACE | R_PAREN | R_BRACE | COMMA | DOLLAR | HASH | AT | PERIOD | ASSIGN
| PLUS | MINUS | STAR | DIV | MOD | TILDE | PIPE2 | LT2 | GT2 | AMP | PIPE | EQ | LT | LT_EQ | GT | GT_EQ
| SQL_NOT_EQ1 | SQL_NOT_EQ2
| DATABASE_ | USE_ | AS_ | TABLE_ | ACTION_ | INIT_ | PUBLIC_ | PRIVATE_ | VIEW_ | OWNER_
| INT_ | TEXT_ | BLOB_ | MIN_ | MAX_ | MIN_LEN_ | MAX_LEN_ | NOT_NULL_ | PRIMARY_ | DEFAULT_ | UNIQUE_ | INDEX_
| FOREIGN_KEY_ | FOREIGN_KEY_ABBR_ | REFERENCES_ | REFERENCES_ABBR_
| ACTION_ON_UPDATE_ | ACTION_ON_DELETE_ | ACTION_DO_ | ACTION_DO_NO_ACTION_ | ACTION_DO_CASCADE_
| ACTION_DO_SET_NULL_ | ACTION_DO_SET_DEFAULT_ | ACTION_DO_RESTRICT_
| SELECT_ | INSERT_ | UPDATE_ | DELETE_ | WITH_ | NOT_ | AND_ | OR_
| IDENTIFIER | INDEX_NAME | PARAM_OR_VAR | BLOCK_VAR_OR_ANNOTATION
| UNSIGNED_NUMBER_LITERAL | STRING_LITERAL | SQL_KEYWORDS | SQL_STMT
| WS | TERMINATOR | BLOCK_COMMENT | LINE_COMMENT.

(** All token types in the order of their numbers 1..84. *)
Definition all_tt : list tt :=
[ COL; SCOL; L_PAREN; L_BRACE; R_PAREN; R_BRACE; COMMA; DOLLAR; HASH; AT; PERIOD; ASSIGN
; PLUS; MINUS; STAR; DIV; MOD; TILDE; PIPE2; LT2; GT2; AMP; PIPE; EQ; LT; LT_EQ; GT; GT_EQ
; SQL_NOT_EQ1; SQL_NOT_EQ2
; DATABASE_; USE_; AS_; TABLE_; ACTION_; INIT_; PUBLIC_; PRIVATE_; VIEW_; OWNER_
; INT_; TEXT_; BLOB_; MIN_; MAX_; MIN_LEN_; MAX_LEN_; NOT_NULL_; PRIMARY_; DEFAULT_; UNIQUE_; INDEX_
; FOREIGN_KEY_; FOREIGN_KEY_ABBR_; REFERENCES_; REFERENCES_ABBR_
; ACTION_ON_UPDATE_; ACTION_ON_DELETE_; ACTION_DO_; ACTION_DO_NO_ACTION_; ACTION_DO_CASCADE_
; ACTION_DO_SET_NULL_; ACTION_DO_SET_DEFAULT_; ACTION_DO_RESTRICT_
; SELECT_; INSERT_; UPDATE_; DELETE_; WITH_; NOT_; AND_; OR_
; IDENTIFIER; INDEX_NAME; PARAM_OR_VAR; BLOCK_VAR_OR_ANNOTATION
; UNSIGNED_NUMBER_LITERAL; STRING_LITERAL; SQL_KEYWORDS; SQL_STMT
; WS; TERMINATOR; BLOCK_COMMENT; LINE_COMMENT ].

(** Token number: kuneiform_lexer.go lines 401-486. *)
Definition tt_num (t : tt) : nat :=
  (match t with
  | COL => 1 | SCOL => 2 | L_PAREN => 3 | L_BRACE => 4 | R_PAREN => 5 | R_BRACE => 6
  | COMMA => 7 | DOLLAR => 8 | HASH => 9 | AT => 10 | PERIOD => 11 | ASSIGN => 12
  | PLUS => 13 | MINUS => 14 | STAR => 15 | DIV => 16 | MOD => 17 | TILDE => 18
  | PIPE2 => 19 | LT2 => 20 | GT2 => 21 | AMP => 22 | PIPE => 23 | EQ => 24
  | LT => 25 | LT_EQ => 26 | GT => 27 | GT_EQ => 28 | SQL_NOT_EQ1 => 29 | SQL_NOT_EQ2 => 30
  | DATABASE_ => 31 | USE_ => 32 | AS_ => 33 | TABLE_ => 34 | ACTION_ => 35 | INIT_ => 36
  | PUBLIC_ => 37 | PRIVATE_ => 38 | VIEW_ => 39 | OWNER_ => 40 | INT_ => 41 | TEXT_ => 42
  | BLOB_ => 43 | MIN_ => 44 | MAX_ => 45 | MIN_LEN_ => 46 | MAX_LEN_ => 47 | NOT_NULL_ => 48
  | PRIMARY_ => 49 | DEFAULT_ => 50 | UNIQUE_ => 51 | INDEX_ => 52 | FOREIGN_KEY_ => 53 | FOREIGN_KEY_ABBR_ => 54
  | REFERENCES_ => 55 | REFERENCES_ABBR_ => 56 | ACTION_ON_UPDATE_ => 57 | ACTION_ON_DELETE_ => 58 | ACTION_DO_ => 59 | ACTION_DO_NO_ACTION_ => 60
  | ACTION_DO_CASCADE_ => 61 | ACTION_DO_SET_NULL_ => 62 | ACTION_DO_SET_DEFAULT_ => 63 | ACTION_DO_RESTRICT_ => 64 | SELECT_ => 65 | INSERT_ => 66
  | UPDATE_ => 67 | DELETE_ => 68 | WITH_ => 69 | NOT_ => 70 | AND_ => 71 | OR_ => 72
  | IDENTIFIER => 73 | INDEX_NAME => 74 | PARAM_OR_VAR => 75 | BLOCK_VAR_OR_ANNOTATION => 76 | UNSIGNED_NUMBER_LITERAL => 77 | STRING_LITERAL => 78
  | SQL_KEYWORDS => 79 | SQL_STMT => 80 | WS => 81 | TERMINATOR => 82 | BLOCK_COMMENT => 83 | LINE_COMMENT => 84
  end)%nat.

Definition tt_eqb (a b : tt) : bool := Nat.eqb (tt_num a) (tt_num b).

Lemma tt_num_nth t : nth_error all_tt (tt_num t - 1) = Some t.
Proof. destruct t; reflexivity. Qed.

Lemma tt_num_pos t : (1 <= tt_num t)%nat.
Proof. destruct t; cbn; lia. Qed.

Lemma tt_eqb_eq a b : tt_eqb a b = true <-> a = b.
Proof.
  unfold tt_eqb. rewrite Nat.eqb_eq. split; [|intros ->; reflexivity].
  intros H. pose proof (tt_num_nth a) as Ha. rewrite H, tt_num_nth in Ha. congruence.
Qed.

Lemma tt_eqb_refl a : tt_eqb a a = true.
Proof. apply tt_eqb_eq; reflexivity. Qed.

Lemma tt_eqb_neq a b : tt_eqb a b = false <-> a <> b.
Proof. rewrite <- tt_eqb_eq. destruct (tt_eqb a b); split; congruence. Qed.

Lemma tt_eq_dec (a b : tt) : {a = b} + {a <> b}.
Proof. destruct (tt_eqb a b) eqn:E; [left; apply tt_eqb_eq|right; apply tt_eqb_neq]; exact E. Defined.

(** The fixed text of a token type: LiteralNames, kuneiform_lexer.go lines 45-56. *)
Definition literal_of (t : tt) : option str :=
  match t with
  | COL => Some (lit ":") | SCOL => Some (lit ";") | L_PAREN => Some (lit "(") | L_BRACE => Some (lit "{")
  | R_PAREN => Some (lit ")") | R_BRACE => Some (lit "}") | COMMA => Some (lit ",") | DOLLAR => Some (lit "$")
  | HASH => Some (lit "#") | AT => Some (lit "@") | PERIOD => Some (lit ".") | ASSIGN => Some (lit "=")
  | PLUS => Some (lit "+") | MINUS => Some (lit "-") | STAR => Some (lit "*") | DIV => Some (lit "/")
  | MOD => Some (lit "%") | TILDE => Some (lit "~") | PIPE2 => Some (lit "||") | LT2 => Some (lit "<<")
  | GT2 => Some (lit ">>") | AMP => Some (lit "&") | PIPE => Some (lit "|") | EQ => Some (lit "==")
  | LT => Some (lit "<") | LT_EQ => Some (lit "<=") | GT => Some (lit ">") | GT_EQ => Some (lit ">=")
  | SQL_NOT_EQ1 => Some (lit "!=") | SQL_NOT_EQ2 => Some (lit "<>")
  | DATABASE_ => Some (lit "database") | USE_ => Some (lit "use") | AS_ => Some (lit "as")
  | TABLE_ => Some (lit "table") | ACTION_ => Some (lit "action") | INIT_ => Some (lit "init")
  | PUBLIC_ => Some (lit "public") | PRIVATE_ => Some (lit "private") | VIEW_ => Some (lit "view")
  | OWNER_ => Some (lit "owner") | INT_ => Some (lit "int") | TEXT_ => Some (lit "text")
  | BLOB_ => Some (lit "blob") | MIN_ => Some (lit "min") | MAX_ => Some (lit "max")
  | MIN_LEN_ => Some (lit "minlen") | MAX_LEN_ => Some (lit "maxlen") | NOT_NULL_ => Some (lit "notnull")
  | PRIMARY_ => Some (lit "primary") | DEFAULT_ => Some (lit "default") | UNIQUE_ => Some (lit "unique")
  | INDEX_ => Some (lit "index") | FOREIGN_KEY_ => Some (lit "foreign_key") | FOREIGN_KEY_ABBR_ => Some (lit "fk")
  | REFERENCES_ => Some (lit "references") | REFERENCES_ABBR_ => Some (lit "ref")
  | ACTION_ON_UPDATE_ => Some (lit "on_update") | ACTION_ON_DELETE_ => Some (lit "on_delete")
  | ACTION_DO_ => Some (lit "do") | ACTION_DO_NO_ACTION_ => Some (lit "no_action")
  | ACTION_DO_CASCADE_ => Some (lit "cascade") | ACTION_DO_SET_NULL_ => Some (lit "set_null")
  | ACTION_DO_SET_DEFAULT_ => Some (lit "set_default") | ACTION_DO_RESTRICT_ => Some (lit "restrict")
  | NOT_ => Some (lit "not") | AND_ => Some (lit "and") | OR_ => Some (lit "or")
  | _ => None
  end.

(** A token: type and text.  Positions are not modelled. *)
Record tok := Tok { ty : tt; tx : str }.
