(** The Kuneiform grammar as data, one line per rule (specification of acceptance).
    Rule names and order: kfgrammar/kuneiform_parser.go lines 62-75 (RuleNames); the right-hand sides are the
    EBNF of the serialized parser ATN (lines 77-274), against which AtnParserProof.v checks it. *)
From Verif Require Export Tokens.

Inductive nt :=
| source_unit | database_directive | extension_directive | ext_config_list | ext_config
| annotation_decl | annotation_attr_list | annotation_attr | table_decl | column_def | column_def_list
| column_type | column_constraint | literal_value | number_value | index_def | foreign_key_action
| foreign_key_def | action_visibility | action_mutability | action_auxiliary | action_attr_list | action_decl
| param_list | parameter | database_name | extension_name | ext_config_name | table_name | action_name
| column_name | column_name_list | index_name | annotation_target_name | annotation_attr_name
| annotation_attr_value | ext_config_value | init_decl | action_stmt_list | action_stmt | sql_stmt | call_stmt
| call_receivers | call_body | variable | block_var | extension_call_name | fn_name | sfn_name | fn_arg_list
| fn_arg_expr.

(** EBNF expressions. *)
Inductive ebnf :=
| Nothing
| T (t : tt)
| R (n : nt)
| Seq (a b : ebnf)
| Or (a b : ebnf)
| Many (a : ebnf).

Definition Opt (a : ebnf) : ebnf := Or a Nothing.
Definition Some_ (a : ebnf) : ebnf := Seq a (Many a).

Declare Scope ebnf_scope.
Delimit Scope ebnf_scope with ebnf.
Bind Scope ebnf_scope with ebnf.
Infix "&" := Seq (at level 41, right associativity) : ebnf_scope.
Infix "%or" := Or (at level 42, right associativity) : ebnf_scope.
Notation "a ?" := (Opt a) (at level 40) : ebnf_scope.
Notation "a **" := (Many a) (at level 40) : ebnf_scope.
Local Open Scope ebnf_scope.

Fixpoint one_of (ts : list tt) : ebnf :=
  match ts with
  | [] => Nothing
  | [t] => T t
  | t :: ts' => Or (T t) (one_of ts')
  end.

(** The end-of-file token of source_unit is the end of the token list. *)
Definition rule (n : nt) : ebnf :=
  match n with
  | source_unit => R database_directive & T SCOL & (R extension_directive)** &
                   (R table_decl %or R action_decl %or R init_decl)**
  | database_directive => T DATABASE_ & R database_name
  | extension_directive => T USE_ & R extension_name & (T L_BRACE & R ext_config_list & T R_BRACE)? &
                           T AS_ & R extension_name & T SCOL
  | ext_config_list => R ext_config & (T COMMA & R ext_config)**
  | ext_config => R ext_config_name & T COL & R ext_config_value
  | annotation_decl => R annotation_target_name & T L_PAREN & R annotation_attr_list & T R_PAREN
  | annotation_attr_list => R annotation_attr & (T COMMA & R annotation_attr)**
  | annotation_attr => R annotation_attr_name & T ASSIGN & R annotation_attr_value
  | table_decl => T TABLE_ & R table_name & T L_BRACE & R column_def_list &
                  (T COMMA & (R index_def %or R foreign_key_def))** & (T COMMA)? & T R_BRACE
  | column_def => R column_name & R column_type & (R column_constraint)**
  | column_def_list => R column_def & (T COMMA & R column_def)**
  | column_type => one_of [INT_; TEXT_; BLOB_]
  | column_constraint => T PRIMARY_ %or T NOT_NULL_ %or T UNIQUE_
      %or (T DEFAULT_ & T L_PAREN & R literal_value & T R_PAREN)
      %or (T MIN_ & T L_PAREN & R number_value & T R_PAREN)
      %or (T MAX_ & T L_PAREN & R number_value & T R_PAREN)
      %or (T MIN_LEN_ & T L_PAREN & R number_value & T R_PAREN)
      %or (T MAX_LEN_ & T L_PAREN & R number_value & T R_PAREN)
  | literal_value => one_of [UNSIGNED_NUMBER_LITERAL; STRING_LITERAL]
  | number_value => T UNSIGNED_NUMBER_LITERAL
  | index_def => R index_name & one_of [PRIMARY_; UNIQUE_; INDEX_] & T L_PAREN & R column_name_list & T R_PAREN
  | foreign_key_action => one_of [ACTION_ON_UPDATE_; ACTION_ON_DELETE_] & (T ACTION_DO_)? &
      one_of [ACTION_DO_NO_ACTION_; ACTION_DO_CASCADE_; ACTION_DO_SET_NULL_; ACTION_DO_SET_DEFAULT_; ACTION_DO_RESTRICT_]
  | foreign_key_def => one_of [FOREIGN_KEY_; FOREIGN_KEY_ABBR_] & T L_PAREN & R column_name_list & T R_PAREN &
      one_of [REFERENCES_; REFERENCES_ABBR_] & R table_name & T L_PAREN & R column_name_list & T R_PAREN &
      (R foreign_key_action)**
  | action_visibility => one_of [PUBLIC_; PRIVATE_]
  | action_mutability => T VIEW_
  | action_auxiliary => T OWNER_
  | action_attr_list => (R action_visibility %or R action_mutability %or R action_auxiliary)**
  | action_decl => (R annotation_decl)** & T ACTION_ & R action_name & T L_PAREN & R param_list & T R_PAREN &
                   R action_attr_list & T L_BRACE & R action_stmt_list & T R_BRACE
  | param_list => (R parameter)? & (T COMMA & R parameter)**
  | parameter => T PARAM_OR_VAR
  | database_name | extension_name | ext_config_name | table_name | action_name | column_name
  | annotation_attr_name | sfn_name => T IDENTIFIER
  | column_name_list => R column_name & (T COMMA & R column_name)**
  | index_name => T INDEX_NAME
  | annotation_target_name => T BLOCK_VAR_OR_ANNOTATION
  | annotation_attr_value | ext_config_value => R literal_value
  | init_decl => T INIT_ & T L_PAREN & T R_PAREN & T L_BRACE & R action_stmt_list & T R_BRACE
  | action_stmt_list => Some_ (R action_stmt)
  | action_stmt => R sql_stmt %or R call_stmt
  | sql_stmt => T SQL_STMT & T SCOL
  | call_stmt => (R call_receivers & T ASSIGN)? & R call_body & T SCOL
  | call_receivers => R variable & (T COMMA & R variable)**
  | call_body => R fn_name & T L_PAREN & R fn_arg_list & T R_PAREN
  | variable => T PARAM_OR_VAR
  | block_var => T BLOCK_VAR_OR_ANNOTATION
  | extension_call_name => T IDENTIFIER & T PERIOD & T IDENTIFIER
  | fn_name => R extension_call_name %or R action_name
  | fn_arg_list => (R fn_arg_expr)? & (T COMMA & R fn_arg_expr)**
  | fn_arg_expr =>
      (R literal_value %or R variable %or R block_var
       %or (T L_PAREN & R fn_arg_expr & T R_PAREN)
       %or (one_of [PLUS; MINUS; TILDE] & R fn_arg_expr)
       %or (T NOT_ & R fn_arg_expr)
       %or (R sfn_name & T L_PAREN &
            (Or (R fn_arg_expr & (T COMMA & R fn_arg_expr)**) (T STAR)) ? & T R_PAREN))
      & (one_of [PIPE2; STAR; DIV; MOD; PLUS; MINUS; LT2; GT2; AMP; PIPE; LT; LT_EQ; GT; GT_EQ;
                 ASSIGN; EQ; SQL_NOT_EQ1; SQL_NOT_EQ2; AND_; OR_] & R fn_arg_expr)**
  end.

(** [derives e ts]: the tokens [ts] are an instance of [e]. *)
Inductive derives : ebnf -> list tok -> Prop :=
| d_nothing : derives Nothing []
| d_t t x : ty x = t -> derives (T t) [x]
| d_r n ts : derives (rule n) ts -> derives (R n) ts
| d_seq a b u v : derives a u -> derives b v -> derives (Seq a b) (u ++ v)
| d_or1 a b u : derives a u -> derives (Or a b) u
| d_or2 a b u : derives b u -> derives (Or a b) u
| d_many0 a : derives (Many a) []
| d_many1 a u v : derives a u -> derives (Many a) v -> derives (Many a) (u ++ v).

(** A program is an instance of source_unit. *)
Definition program (ts : list tok) : Prop := derives (R source_unit) ts.
