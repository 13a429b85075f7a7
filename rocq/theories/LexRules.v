(** The 84 lexical rules, decoded from the serialized lexer ATN,
    kfgrammar/kuneiform_lexer.go lines 91-362 (rule numbering: RuleNames lines 73-89).
    AtnLexerProof.v checks them against the integers themselves. *)
From Verif Require Export Regex Tokens.
Local Open Scope N_scope.

(** Rule 72, kuneiform_lexer.go lines 328-330: [a-zA-Z] [a-zA-Z0-9_]*  (sets 14 and 15, lines 165-166). *)
Definition c_letter : cset := CIn [(65, 90); (97, 122)].
Definition c_word : cset := CIn [(48, 57); (65, 90); (95, 95); (97, 122)].
Definition r_ident : re := Cat (Chr c_letter) (Star (Chr c_word)).

(** Rules 64-68, lines 314-324: case-insensitive SQL keywords (sets 0-13, lines 162-165). *)
Definition ci (u l : N) : re := Chr (CIn [(u, u); (l, l)]).
Definition r_select : re := cat (ci 83 115) (cat (ci 69 101) (cat (ci 76 108) (cat (ci 69 101) (cat (ci 67 99) (ci 84 116))))).
Definition r_insert : re := cat (ci 73 105) (cat (ci 78 110) (cat (ci 83 115) (cat (ci 69 101) (cat (ci 82 114) (ci 84 116))))).
Definition r_update : re := cat (ci 85 117) (cat (ci 80 112) (cat (ci 68 100) (cat (ci 65 97) (cat (ci 84 116) (ci 69 101))))).
Definition r_delete : re := cat (ci 68 100) (cat (ci 69 101) (cat (ci 76 108) (cat (ci 69 101) (cat (ci 84 116) (ci 69 101))))).
Definition r_with : re := cat (ci 87 119) (cat (ci 73 105) (cat (ci 84 116) (ci 72 104))).

(** Fragment DIGIT (rule 85), WSNL (rule 84), lines 354-355, sets 19 and 20, lines 167-168. *)
Definition c_digit : cset := CIn [(48, 57)].
Definition c_wsnl : cset := CIn [(9, 10); (13, 13); (32, 32)].

(** Rules 73-75: '#' IDENT, '$' IDENT, '@' IDENT, lines 330-333. *)
Definition r_index_name : re := Cat (ch 35) r_ident.
Definition r_param : re := Cat (ch 36) r_ident.
Definition r_block_var : re := Cat (ch 64) r_ident.

(** Rule 76: DIGIT+, lines 333-335. *)
Definition r_number : re := plus (Chr c_digit).

(** Rules 77, 86, 87: quoted string, lines 335, 355-360 (set 21, line 169).
    A string character is any character but CR, LF, quote, backslash, or a backslash and any character. *)
Definition c_strch : cset := CNot [(10, 10); (13, 13); (39, 39); (92, 92)].
Definition r_strchar : re := Alt (Chr c_strch) (Cat (ch 92) (Chr (CNot []))).
Definition r_string : re := Cat (ch 39) (Cat (Star r_strchar) (ch 39)).

(** Rule 78 (SQL_KEYWORDS), lines 336-339. *)
Definition r_sqlkw : re := Alt r_select (Alt r_insert (Alt r_update (Alt r_delete r_with))).
(** Rule 79 (SQL_STMT): SQL_KEYWORDS WSNL+ ~[;}]+, lines 339-343 (set 16, line 166). *)
Definition c_sql : cset := CNot [(59, 59); (125, 125)].
Definition r_sqlstmt : re := Cat r_sqlkw (Cat (plus (Chr c_wsnl)) (plus (Chr c_sql))).

(** Rules 80, 81: one blank; one CR or LF, lines 343-346 (sets 17, 18, lines 166-167); channel HIDDEN. *)
Definition r_ws : re := Chr (CIn [(9, 9); (32, 32)]).
Definition r_nl : re := Chr (CIn [(10, 10); (13, 13)]).

(** Rule 82: '/*' .*? '*/', lines 346-350, channel HIDDEN.  The loop is non-greedy (state 578, listed at line 151),
    so the rule matches up to the first closing '*/'; written here without the non-greedy operator. *)
Definition c_nstar : cset := CNot [(42, 42)].
Definition c_nstarslash : cset := CNot [(42, 42); (47, 47)].
Definition r_block : re :=
  Cat (ch 47) (Cat (ch 42)
    (Cat (Star (Alt (Chr c_nstar) (Cat (ch 42) (Cat (Star (ch 42)) (Chr c_nstarslash)))))
         (Cat (ch 42) (Cat (Star (ch 42)) (ch 47))))).
(** Rule 83: '//' ~[\r\n]*, lines 350-354, channel HIDDEN. *)
Definition r_line : re := Cat (ch 47) (Cat (ch 47) (Star (Chr (CNot [(10, 10); (13, 13)])))).

Definition rule_of (t : tt) : re :=
  match literal_of t with
  | Some w => word w
  | None =>
    match t with
    | SELECT_ => r_select | INSERT_ => r_insert | UPDATE_ => r_update | DELETE_ => r_delete | WITH_ => r_with
    | IDENTIFIER => r_ident | INDEX_NAME => r_index_name | PARAM_OR_VAR => r_param
    | BLOCK_VAR_OR_ANNOTATION => r_block_var
    | UNSIGNED_NUMBER_LITERAL => r_number | STRING_LITERAL => r_string
    | SQL_KEYWORDS => r_sqlkw | SQL_STMT => r_sqlstmt
    | WS => r_ws | TERMINATOR => r_nl | BLOCK_COMMENT => r_block | LINE_COMMENT => r_line
    | _ => Emp
    end
  end.

(** Rules in ATN order: on equal length the earlier rule wins. *)
Definition lex_rules : list (tt * re) := map (fun t => (t, rule_of t)) all_tt.

(** Lexer action 0 is channel(HIDDEN), (last four integers, line 361), attached to rules 80-83 by the
    ACTION transitions "6, 80, 0" .. "6, 83, 0" (lines 343-354). *)
Definition hidden (t : tt) : bool :=
  match t with WS | TERMINATOR | BLOCK_COMMENT | LINE_COMMENT => true | _ => false end.
