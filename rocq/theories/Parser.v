(** The parser: the rule functions of kfgrammar/kuneiform_parser.go on the visible tokens.
    A generated function reports a syntax error and recovers; here it returns None (any report makes ParseKF fail,
    kfparser/parser.go lines 64-67).  AdaptivePredict decisions are the one- or two-token look-aheads that tell the
    alternatives apart; ParserProof.v shows that the result accepts exactly the grammar, so no other choice of
    prediction could accept more or less, and AtnParserProof.v that the generated parser table accepts that grammar. *)
From Verif Require Export Cst.

Notation "'LET' p ':=' e 'IN' k" := (match e with Some p => k | None => None end)
  (at level 200, p pattern, e at level 100, k at level 200).

(** antlr Parser.Match. *)
Definition expect (t : tt) (ts : list tok) : option (str * list tok) :=
  match ts with
  | x :: r => if tt_eqb (ty x) t then Some (tx x, r) else None
  | [] => None
  end.

Definition tmem (t : tt) (l : list tt) : bool := existsb (tt_eqb t) l.
(** GetTokenStream().LA(1) in a set; LA(1), LA(2). *)
Definition la (l : list tt) (ts : list tok) : bool := match ts with x :: _ => tmem (ty x) l | [] => false end.
Definition la2 (t : tt) (l : list tt) (ts : list tok) : bool :=
  match ts with x :: y :: _ => tt_eqb (ty x) t && tmem (ty y) l | _ => false end.

(** A loop: while the look-ahead says so, run the rule. *)
Fixpoint p_many {A} (starts : list tok -> bool) (p : list tok -> option (A * list tok)) (fuel : nat) (ts : list tok)
  : option (list A * list tok) :=
  if starts ts then
    match fuel with
    | O => None
    | S f => LET (a, r) := p ts IN LET (l, r') := p_many starts p f r IN Some (a :: l, r')
    end
  else Some ([], ts).

Definition p_comma {A} (p : list tok -> option (A * list tok)) (ts : list tok) : option (A * list tok) :=
  LET (_, r) := expect COMMA ts IN p r.

(** Literal_value 3164, Number_value 3263. *)
Definition p_literal (ts : list tok) : option (literal * list tok) :=
  match ts with
  | x :: r => if tt_eqb (ty x) UNSIGNED_NUMBER_LITERAL then Some (LNum (tx x), r)
              else if tt_eqb (ty x) STRING_LITERAL then Some (LStr (tx x), r) else None
  | [] => None
  end.
Definition p_number : list tok -> option (str * list tok) := expect UNSIGNED_NUMBER_LITERAL.
(** the *_name rules, 5125-5620 *)
Definition p_id : list tok -> option (str * list tok) := expect IDENTIFIER.
(** Column_name_list 5737. *)
Definition p_ids (ts : list tok) : option ((str * list str) * list tok) :=
  LET (a, r) := p_id ts IN LET (l, r) := p_many (la [COMMA]) (p_comma p_id) (length r) r IN Some ((a, l), r).

(** Column_type 2697. *)
Definition p_coltype (ts : list tok) : option (coltype * list tok) :=
  match ts with
  | x :: r => if tt_eqb (ty x) INT_ then Some (TInt, r) else if tt_eqb (ty x) TEXT_ then Some (TText, r)
              else if tt_eqb (ty x) BLOB_ then Some (TBlob, r) else None
  | [] => None
  end.

(** Column_constraint 2875-3089. *)
Definition p_paren {A} (p : list tok -> option (A * list tok)) (ts : list tok) : option (A * list tok) :=
  LET (_, r) := expect L_PAREN ts IN LET (a, r) := p r IN LET (_, r) := expect R_PAREN r IN Some (a, r).
Definition p_map {A B} (f : A -> B) (o : option (A * list tok)) : option (B * list tok) :=
  LET (a, r) := o IN Some (f a, r).
Definition p_constr (ts : list tok) : option (constr * list tok) :=
  match ts with
  | x :: r =>
      if tt_eqb (ty x) PRIMARY_ then Some (KPrimary, r)
      else if tt_eqb (ty x) NOT_NULL_ then Some (KNotNull, r)
      else if tt_eqb (ty x) UNIQUE_ then Some (KUnique, r)
      else if tt_eqb (ty x) DEFAULT_ then p_map KDefault (p_paren p_literal r)
      else if tt_eqb (ty x) MIN_ then p_map KMin (p_paren p_number r)
      else if tt_eqb (ty x) MAX_ then p_map KMax (p_paren p_number r)
      else if tt_eqb (ty x) MIN_LEN_ then p_map KMinLen (p_paren p_number r)
      else if tt_eqb (ty x) MAX_LEN_ then p_map KMaxLen (p_paren p_number r)
      else None
  | [] => None
  end.
Definition constr_first : list tt := [PRIMARY_; NOT_NULL_; UNIQUE_; DEFAULT_; MIN_; MAX_; MIN_LEN_; MAX_LEN_].

(** Column_def 2396. *)
Definition p_column (ts : list tok) : option (ccolumn * list tok) :=
  LET (n, r) := p_id ts IN LET (t, r) := p_coltype r IN
  LET (l, r) := p_many (la constr_first) p_constr (length r) r IN Some (CColumn n t l, r).

(** Index_def 3411. *)
Definition p_ikind (ts : list tok) : option (ikind * list tok) :=
  match ts with
  | x :: r => if tt_eqb (ty x) PRIMARY_ then Some (IPrimary, r) else if tt_eqb (ty x) UNIQUE_ then Some (IUnique, r)
              else if tt_eqb (ty x) INDEX_ then Some (IIndex, r) else None
  | [] => None
  end.
Definition p_index (ts : list tok) : option (cindex * list tok) :=
  LET (n, r) := expect INDEX_NAME ts IN LET (k, r) := p_ikind r IN
  LET ((a, l), r) := p_paren p_ids r IN Some (CIndex n k a l, r).

(** Foreign_key_action 3569. *)
Definition p_fkon (ts : list tok) : option (fkon * list tok) :=
  match ts with
  | x :: r => if tt_eqb (ty x) ACTION_ON_UPDATE_ then Some (OnUpdate, r)
              else if tt_eqb (ty x) ACTION_ON_DELETE_ then Some (OnDelete, r) else None
  | [] => None
  end.
Definition p_fkdo (ts : list tok) : option (fkdo * list tok) :=
  match ts with
  | x :: r => if tt_eqb (ty x) ACTION_DO_NO_ACTION_ then Some (DoNoAction, r)
              else if tt_eqb (ty x) ACTION_DO_CASCADE_ then Some (DoCascade, r)
              else if tt_eqb (ty x) ACTION_DO_SET_NULL_ then Some (DoSetNull, r)
              else if tt_eqb (ty x) ACTION_DO_SET_DEFAULT_ then Some (DoSetDefault, r)
              else if tt_eqb (ty x) ACTION_DO_RESTRICT_ then Some (DoRestrict, r) else None
  | [] => None
  end.
(** An optional token. *)
Definition p_opt (t : tt) (ts : list tok) : bool * list tok :=
  match ts with x :: r => if tt_eqb (ty x) t then (true, r) else (false, ts) | [] => (false, ts) end.
Definition p_fkact (ts : list tok) : option (cfkact * list tok) :=
  LET (o, r) := p_fkon ts IN
  let (w, r) := p_opt ACTION_DO_ r in
  LET (d, r) := p_fkdo r IN Some (CFkact o w d, r).

(** One of two spellings. *)
Definition p_either (t u : tt) (ts : list tok) : option (bool * list tok) :=
  match ts with
  | x :: r => if tt_eqb (ty x) t then Some (false, r) else if tt_eqb (ty x) u then Some (true, r) else None
  | [] => None
  end.
(** Foreign_key_def 3835. *)
Definition p_fk (ts : list tok) : option (cfk * list tok) :=
  LET (b, r) := p_either FOREIGN_KEY_ FOREIGN_KEY_ABBR_ ts IN LET ((c, cs), r) := p_paren p_ids r IN
  LET (rb, r) := p_either REFERENCES_ REFERENCES_ABBR_ r IN LET (t, r) := p_id r IN
  LET ((p, ps), r) := p_paren p_ids r IN
  LET (l, r) := p_many (la [ACTION_ON_UPDATE_; ACTION_ON_DELETE_]) p_fkact (length r) r IN
  Some (CFk b c cs rb t p ps l, r).

Definition p_member (ts : list tok) : option (member * list tok) :=
  if la [INDEX_NAME] ts then p_map MIndex (p_index ts) else p_map MFk (p_fk ts).

(** Table_decl 2130-2254, Column_def_list 2560. *)
Definition p_table (ts : list tok) : option (ctable * list tok) :=
  LET (_, r) := expect TABLE_ ts IN LET (n, r) := p_id r IN LET (_, r) := expect L_BRACE r IN
  LET (c, r) := p_column r IN
  LET (cs, r) := p_many (la2 COMMA [IDENTIFIER]) (p_comma p_column) (length r) r IN
  LET (ms, r) := p_many (la2 COMMA [INDEX_NAME; FOREIGN_KEY_; FOREIGN_KEY_ABBR_]) (p_comma p_member) (length r) r IN
  let (b, r) := p_opt COMMA r in
  LET (_, r) := expect R_BRACE r IN Some (CTable n c cs ms b, r).

(** Ext_config 1435, Ext_config_list 1281, Extension_directive 1083. *)
Definition p_config (ts : list tok) : option (cconfig * list tok) :=
  LET (n, r) := p_id ts IN LET (_, r) := expect COL r IN LET (v, r) := p_literal r IN Some (CConfig n v, r).
Definition p_configs (ts : list tok) : option ((cconfig * list cconfig) * list tok) :=
  LET (_, r) := expect L_BRACE ts IN LET (c, r) := p_config r IN
  LET (l, r) := p_many (la [COMMA]) (p_comma p_config) (length r) r IN
  LET (_, r) := expect R_BRACE r IN Some ((c, l), r).
Definition p_maybe {A} (l : list tt) (p : list tok -> option (A * list tok)) (ts : list tok) : option (option A * list tok) :=
  if la l ts then p_map Some (p ts) else Some (None, ts).
Definition p_ext (ts : list tok) : option (cext * list tok) :=
  LET (_, r) := expect USE_ ts IN LET (n, r) := p_id r IN
  LET (c, r) := p_maybe [L_BRACE] p_configs r IN
  LET (_, r) := expect AS_ r IN LET (a, r) := p_id r IN LET (_, r) := expect SCOL r IN Some (CExt n c a, r).

(** Annotation_attr 1888, Annotation_attr_list 1734, Annotation_decl 1576. *)
Definition p_attr (ts : list tok) : option (cattr * list tok) :=
  LET (n, r) := p_id ts IN LET (_, r) := expect ASSIGN r IN LET (v, r) := p_literal r IN Some (CAttr n v, r).
Definition p_annot (ts : list tok) : option (cannot * list tok) :=
  LET (n, r) := expect BLOCK_VAR_OR_ANNOTATION ts IN LET (_, r) := expect L_PAREN r IN
  LET (a, r) := p_attr r IN LET (l, r) := p_many (la [COMMA]) (p_comma p_attr) (length r) r IN
  LET (_, r) := expect R_PAREN r IN Some (CAnnot n a l, r).

(** Action_attr_list 4425. *)
Definition p_aattr (ts : list tok) : option (aattr * list tok) :=
  match ts with
  | x :: r => if tt_eqb (ty x) PUBLIC_ then Some (APublic, r) else if tt_eqb (ty x) PRIVATE_ then Some (APrivate, r)
              else if tt_eqb (ty x) VIEW_ then Some (AView, r) else if tt_eqb (ty x) OWNER_ then Some (AOwner, r) else None
  | [] => None
  end.

(** fn_arg_expr 8360-8782: precedence climbing.  [bin_prec] is the Precpred level of an operator and the level its
    right operand is parsed at. *)
Definition bin_prec (t : tt) : option (nat * nat) :=
  if tmem t [PIPE2] then Some (10, 11)
  else if tmem t [STAR; DIV; MOD] then Some (9, 10)
  else if tmem t [PLUS; MINUS] then Some (8, 9)
  else if tmem t [LT2; GT2; AMP; PIPE] then Some (7, 8)
  else if tmem t [LT; LT_EQ; GT; GT_EQ] then Some (6, 7)
  else if tmem t [ASSIGN; EQ; SQL_NOT_EQ1; SQL_NOT_EQ2] then Some (5, 6)
  else if tmem t [AND_] then Some (3, 4)
  else if tmem t [OR_] then Some (2, 3)
  else None.

Inductive mode := MExpr (p : nat) | MLoop (p : nat) | MArgs.

(** [ex fuel m ts]: what is left of [ts] after an expression at level p, after the operator loop at level p,
    after a non-empty comma-separated argument list. *)
Fixpoint ex (fuel : nat) (m : mode) (ts : list tok) : option (list tok) :=
  match fuel with
  | O => None
  | S f =>
    match m with
    | MExpr p =>
      match ts with
      | [] => None
      | x :: r =>
        if tmem (ty x) [UNSIGNED_NUMBER_LITERAL; STRING_LITERAL; PARAM_OR_VAR; BLOCK_VAR_OR_ANNOTATION] then ex f (MLoop p) r
        else if tt_eqb (ty x) L_PAREN then
          LET r := ex f (MExpr 0) r IN LET (_, r) := expect R_PAREN r IN ex f (MLoop p) r
        else if tmem (ty x) [PLUS; MINUS; TILDE] then
          LET r := ex f (MExpr 11) r IN ex f (MLoop p) r
        else if tt_eqb (ty x) NOT_ then
          LET r := ex f (MExpr 4) r IN ex f (MLoop p) r
        else if tt_eqb (ty x) IDENTIFIER then
          LET (_, r) := expect L_PAREN r IN
          LET r := (if la [R_PAREN] r then Some r else if la [STAR] r then Some (tl r) else ex f MArgs r) IN
          LET (_, r) := expect R_PAREN r IN ex f (MLoop p) r
        else None
      end
    | MLoop p =>
      match ts with
      | [] => Some []
      | x :: r =>
        match bin_prec (ty x) with
        | Some (q, rp) => if p <=? q then LET r := ex f (MExpr rp) r IN ex f (MLoop p) r else Some ts
        | None => Some ts
        end
      end
    | MArgs =>
      LET r := ex f (MExpr 0) ts IN
      if la [COMMA] r then ex f MArgs (tl r) else Some r
    end
  end.

Definition p_arg (ts : list tok) : option (list tok * list tok) :=
  LET r := ex (2 * length ts + 2) (MExpr 0) ts IN Some (firstn (length ts - length r) ts, r).
Definition expr_first : list tt :=
  [L_PAREN; PLUS; MINUS; TILDE; NOT_; IDENTIFIER; PARAM_OR_VAR; BLOCK_VAR_OR_ANNOTATION; UNSIGNED_NUMBER_LITERAL; STRING_LITERAL].

(** Call_receivers 7111, Fn_name 7717, Extension_call_name 7578, Call_body 7270, Fn_arg_list 7968, Call_stmt 6941. *)
Definition p_param : list tok -> option (str * list tok) := expect PARAM_OR_VAR.
Definition p_recv (ts : list tok) : option ((str * list str) * list tok) :=
  LET (a, r) := p_param ts IN LET (l, r) := p_many (la [COMMA]) (p_comma p_param) (length r) r IN
  LET (_, r) := expect ASSIGN r IN Some ((a, l), r).
Definition p_callee (ts : list tok) : option (callee * list tok) :=
  if la2 IDENTIFIER [PERIOD] ts
  then LET (e, r) := p_id ts IN LET (_, r) := expect PERIOD r IN LET (f, r) := p_id r IN Some (CExtFn e f, r)
  else p_map CAction (p_id ts).
Definition p_call (ts : list tok) : option (ccall * list tok) :=
  LET (rc, r) := p_maybe [PARAM_OR_VAR] p_recv ts IN
  LET (fn, r) := p_callee r IN LET (_, r) := expect L_PAREN r IN
  LET (a, r) := p_maybe expr_first p_arg r IN
  LET (l, r) := p_many (la [COMMA]) (p_comma p_arg) (length r) r IN
  LET (_, r) := expect R_PAREN r IN LET (_, r) := expect SCOL r IN Some (CCall rc fn a l, r).

(** Action_stmt 6685, Sql_stmt 6800, Action_stmt_list 6548. *)
Definition p_stmt (ts : list tok) : option (cstmt * list tok) :=
  if la [SQL_STMT] ts then LET (s, r) := expect SQL_STMT ts IN LET (_, r) := expect SCOL r IN Some (SSql s, r)
  else p_map SCall (p_call ts).
Definition stmt_first : list tt := [SQL_STMT; IDENTIFIER; PARAM_OR_VAR].
Definition p_block (ts : list tok) : option ((cstmt * list cstmt) * list tok) :=
  LET (_, r) := expect L_BRACE ts IN LET (s, r) := p_stmt r IN
  LET (ss, r) := p_many (la stmt_first) p_stmt (length r) r IN
  LET (_, r) := expect R_BRACE r IN Some ((s, ss), r).

(** Action_decl 4689-4783, Param_list 4901. *)
Definition p_action (ts : list tok) : option (caction * list tok) :=
  LET (an, r) := p_many (la [BLOCK_VAR_OR_ANNOTATION]) p_annot (length ts) ts IN
  LET (_, r) := expect ACTION_ r IN LET (n, r) := p_id r IN LET (_, r) := expect L_PAREN r IN
  LET (p, r) := p_maybe [PARAM_OR_VAR] p_param r IN
  LET (ps, r) := p_many (la [COMMA]) (p_comma p_param) (length r) r IN
  LET (_, r) := expect R_PAREN r IN
  LET (at_, r) := p_many (la [PUBLIC_; PRIVATE_; VIEW_; OWNER_]) p_aattr (length r) r IN
  LET ((s, ss), r) := p_block r IN Some (CActionD an n p ps at_ s ss, r).

(** Init_decl 6380. *)
Definition p_init (ts : list tok) : option (decl * list tok) :=
  LET (_, r) := expect INIT_ ts IN LET (_, r) := expect L_PAREN r IN LET (_, r) := expect R_PAREN r IN
  LET ((s, ss), r) := p_block r IN Some (DInit s ss, r).

(** Source_unit 715-818. *)
Definition p_decl (ts : list tok) : option (decl * list tok) :=
  if la [TABLE_] ts then p_map DTable (p_table ts)
  else if la [INIT_] ts then p_init ts
  else p_map DAction (p_action ts).
Definition p_unit (ts : list tok) : option cunit :=
  LET (_, r) := expect DATABASE_ ts IN LET (n, r) := p_id r IN LET (_, r) := expect SCOL r IN
  LET (xs, r) := p_many (la [USE_]) p_ext (length r) r IN
  LET (ds, r) := p_many (la [TABLE_; ACTION_; INIT_; BLOCK_VAR_OR_ANNOTATION]) p_decl (length r) r IN
  match r with [] => Some (CUnit n xs ds) | _ => None end.
