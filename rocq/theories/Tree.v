(** Parse trees as the generated code builds them (kfgrammar/kuneiform_parser.go): a rule context with its children,
    a terminal node, or the terminal node of the end of file.  Error nodes do not occur without a reported error. *)
From Verif Require Export Grammar.

Inductive tree :=
| Leaf (x : tok)
| Eof
| Node (n : nt) (cs : list tree).

(** GetText: a rule context concatenates the texts of its children; the end of file prints as <EOF>. *)
Fixpoint get_text (t : tree) : str :=
  match t with
  | Leaf x => tx x
  | Eof => lit "<EOF>"
  | Node _ cs => concat (map get_text cs)
  end.
(** The tokens below a node, without the end of file. *)
Fixpoint leaves (t : tree) : list tok :=
  match t with
  | Leaf x => [x]
  | Eof => []
  | Node _ cs => concat (map leaves cs)
  end.
Definition children (t : tree) : list tree := match t with Node _ cs => cs | _ => [] end.

Definition nt_eq_dec (a b : nt) : {a = b} + {a <> b}. Proof. decide equality. Defined.
Definition nt_eqb (a b : nt) : bool := if nt_eq_dec a b then true else false.

(** The accessors of a context, e.g. AllIndex_def (2030-2048), Index_def(i) (2051-2069), Table_name (1982-1996),
    TABLE_ (1978-1980): the children of one rule; the i-th of them, or nil; the first terminal of one type, or nil. *)
Definition is_node (n : nt) (t : tree) : bool := match t with Node m _ => nt_eqb m n | _ => false end.
Definition all_of (n : nt) (t : tree) : list tree := filter (is_node n) (children t).
Definition child_of (n : nt) (i : nat) (t : tree) : option tree := nth_error (all_of n t) i.
Definition is_leaf (k : tt) (t : tree) : bool := match t with Leaf x => tt_eqb (ty x) k | _ => false end.
Definition token_of (k : tt) (t : tree) : option tree := find (is_leaf k) (children t).

(** RuleNames, lines 62-75; the Go type of the context of rule source_unit is *kfgrammar.Source_unitContext. *)
Definition rule_name (n : nt) : str :=
  lit match n with
  | source_unit => "source_unit" | database_directive => "database_directive" | extension_directive => "extension_directive"
  | ext_config_list => "ext_config_list" | ext_config => "ext_config" | annotation_decl => "annotation_decl"
  | annotation_attr_list => "annotation_attr_list" | annotation_attr => "annotation_attr" | table_decl => "table_decl"
  | column_def => "column_def" | column_def_list => "column_def_list" | column_type => "column_type"
  | column_constraint => "column_constraint" | literal_value => "literal_value" | number_value => "number_value"
  | index_def => "index_def" | foreign_key_action => "foreign_key_action" | foreign_key_def => "foreign_key_def"
  | action_visibility => "action_visibility" | action_mutability => "action_mutability" | action_auxiliary => "action_auxiliary"
  | action_attr_list => "action_attr_list" | action_decl => "action_decl" | param_list => "param_list" | parameter => "parameter"
  | database_name => "database_name" | extension_name => "extension_name" | ext_config_name => "ext_config_name"
  | table_name => "table_name" | action_name => "action_name" | column_name => "column_name"
  | column_name_list => "column_name_list" | index_name => "index_name" | annotation_target_name => "annotation_target_name"
  | annotation_attr_name => "annotation_attr_name" | annotation_attr_value => "annotation_attr_value"
  | ext_config_value => "ext_config_value" | init_decl => "init_decl" | action_stmt_list => "action_stmt_list"
  | action_stmt => "action_stmt" | sql_stmt => "sql_stmt" | call_stmt => "call_stmt" | call_receivers => "call_receivers"
  | call_body => "call_body" | variable => "variable" | block_var => "block_var" | extension_call_name => "extension_call_name"
  | fn_name => "fn_name" | sfn_name => "sfn_name" | fn_arg_list => "fn_arg_list" | fn_arg_expr => "fn_arg_expr"
  end%string.
Definition capital (s : str) : str := match s with c :: r => (c - 32)%N :: r | [] => [] end.
Definition go_type (t : tree) : str :=
  match t with
  | Node n _ => lit "*kfgrammar." ++ capital (rule_name n) ++ lit "Context"
  | _ => lit "*antlr.TerminalNodeImpl"
  end.
