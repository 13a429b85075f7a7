(** Parse trees.  One type per rule of kfgrammar/kuneiform_parser.go that carries information; the contexts the
    generated code builds (e.g. Source_unitContext, lines 628-700) are modelled by these records.  Tokens with a
    fixed text are not stored.  Argument expressions are kept as their token list: the visitor only uses their
    text (visitor.go lines 437-440). *)
From Verif Require Export Grammar.

(** literal_value / number_value: generated lines 3164-3330. *)
Inductive literal := LNum (s : str) | LStr (s : str).
Definition lit_text (l : literal) : str := match l with LNum s => s | LStr s => s end.

(** column_type: line 2697. *)
Inductive coltype := TInt | TText | TBlob.
(** column_constraint: lines 2875-3089. *)
Inductive constr :=
| KPrimary | KNotNull | KUnique | KDefault (l : literal)
| KMin (n : str) | KMax (n : str) | KMinLen (n : str) | KMaxLen (n : str).
(** column_def: line 2396. *)
Record ccolumn := CColumn { cc_name : str; cc_type : coltype; cc_constrs : list constr }.
(** index_def: line 3411. *)
Inductive ikind := IPrimary | IUnique | IIndex.
Record cindex := CIndex { ci_name : str; ci_kind : ikind; ci_first : str; ci_rest : list str }.
(** foreign_key_action: line 3569. *)
Inductive fkon := OnUpdate | OnDelete.
Inductive fkdo := DoNoAction | DoCascade | DoSetNull | DoSetDefault | DoRestrict.
Record cfkact := CFkact { fa_on : fkon; fa_word : bool; fa_do : fkdo }.
(** foreign_key_def: line 3835; the two booleans tell the abbreviated spellings apart. *)
Record cfk := CFk { cf_abbr : bool; cf_child : str; cf_childs : list str; cf_rabbr : bool; cf_table : str;
                    cf_parent : str; cf_parents : list str; cf_acts : list cfkact }.
Inductive member := MIndex (i : cindex) | MFk (f : cfk).
(** table_decl: lines 2130-2254. *)
Record ctable := CTable { ct_name : str; ct_first : ccolumn; ct_rest : list ccolumn;
                          ct_members : list member; ct_comma : bool }.
(** ext_config, extension_directive: lines 1435, 1083. *)
Record cconfig := CConfig { cg_name : str; cg_value : literal }.
Record cext := CExt { cx_name : str; cx_config : option (cconfig * list cconfig); cx_alias : str }.
(** annotation_attr, annotation_decl: lines 1888, 1576. *)
Record cattr := CAttr { ca_name : str; ca_value : literal }.
Record cannot := CAnnot { cn_target : str; cn_first : cattr; cn_rest : list cattr }.
(** action_attr_list: line 4425. *)
Inductive aattr := APublic | APrivate | AView | AOwner.
(** call_stmt, fn_name: lines 6941, 7717. *)
Inductive callee := CExtFn (e f : str) | CAction (f : str).
Record ccall := CCall { cl_recv : option (str * list str); cl_fn : callee;
                        cl_arg : option (list tok); cl_args : list (list tok) }.
Inductive cstmt := SSql (s : str) | SCall (c : ccall).
(** action_decl: lines 4689-4783; param_list: line 4901. *)
Record caction := CActionD { cd_annots : list cannot; cd_name : str; cd_param : option str; cd_params : list str;
                             cd_attrs : list aattr; cd_stmt : cstmt; cd_stmts : list cstmt }.
Inductive decl := DTable (t : ctable) | DAction (a : caction) | DInit (s : cstmt) (ss : list cstmt).
(** source_unit: lines 715-818. *)
Record cunit := CUnit { cu_name : str; cu_exts : list cext; cu_decls : list decl }.

(** The tokens of a tree (ctx.GetText() is the concatenation of their texts). *)
Definition kw (t : tt) : tok := Tok t (match literal_of t with Some w => w | None => [] end).
Definition commas {A} (y : A -> list tok) (l : list A) : list tok := concat (map (fun a => kw COMMA :: y a) l).
Definition many {A} (y : A -> list tok) (l : list A) : list tok := concat (map y l).
Definition opt {A} (y : A -> list tok) (o : option A) : list tok := match o with Some a => y a | None => [] end.

Definition y_id (s : str) : list tok := [Tok IDENTIFIER s].
Definition y_param (s : str) : list tok := [Tok PARAM_OR_VAR s].
Definition y_literal (l : literal) : list tok :=
  match l with LNum s => [Tok UNSIGNED_NUMBER_LITERAL s] | LStr s => [Tok STRING_LITERAL s] end.
Definition y_number (s : str) : list tok := [Tok UNSIGNED_NUMBER_LITERAL s].
Definition y_coltype (t : coltype) : list tok := [kw match t with TInt => INT_ | TText => TEXT_ | TBlob => BLOB_ end].
Definition y_constr (c : constr) : list tok :=
  match c with
  | KPrimary => [kw PRIMARY_] | KNotNull => [kw NOT_NULL_] | KUnique => [kw UNIQUE_]
  | KDefault l => [kw DEFAULT_; kw L_PAREN] ++ y_literal l ++ [kw R_PAREN]
  | KMin n => [kw MIN_; kw L_PAREN] ++ y_number n ++ [kw R_PAREN]
  | KMax n => [kw MAX_; kw L_PAREN] ++ y_number n ++ [kw R_PAREN]
  | KMinLen n => [kw MIN_LEN_; kw L_PAREN] ++ y_number n ++ [kw R_PAREN]
  | KMaxLen n => [kw MAX_LEN_; kw L_PAREN] ++ y_number n ++ [kw R_PAREN]
  end.
Definition y_column (c : ccolumn) : list tok := y_id (cc_name c) ++ y_coltype (cc_type c) ++ many y_constr (cc_constrs c).
Definition y_index (i : cindex) : list tok :=
  [Tok INDEX_NAME (ci_name i); kw match ci_kind i with IPrimary => PRIMARY_ | IUnique => UNIQUE_ | IIndex => INDEX_ end; kw L_PAREN]
  ++ y_id (ci_first i) ++ commas y_id (ci_rest i) ++ [kw R_PAREN].
Definition y_fkact (a : cfkact) : list tok :=
  [kw match fa_on a with OnUpdate => ACTION_ON_UPDATE_ | OnDelete => ACTION_ON_DELETE_ end]
  ++ (if fa_word a then [kw ACTION_DO_] else [])
  ++ [kw match fa_do a with DoNoAction => ACTION_DO_NO_ACTION_ | DoCascade => ACTION_DO_CASCADE_
         | DoSetNull => ACTION_DO_SET_NULL_ | DoSetDefault => ACTION_DO_SET_DEFAULT_ | DoRestrict => ACTION_DO_RESTRICT_ end].
Definition y_fk (f : cfk) : list tok :=
  [kw (if cf_abbr f then FOREIGN_KEY_ABBR_ else FOREIGN_KEY_); kw L_PAREN]
  ++ y_id (cf_child f) ++ commas y_id (cf_childs f)
  ++ [kw R_PAREN; kw (if cf_rabbr f then REFERENCES_ABBR_ else REFERENCES_)] ++ y_id (cf_table f) ++ [kw L_PAREN]
  ++ y_id (cf_parent f) ++ commas y_id (cf_parents f) ++ [kw R_PAREN] ++ many y_fkact (cf_acts f).
Definition y_member (m : member) : list tok := match m with MIndex i => y_index i | MFk f => y_fk f end.
Definition y_table (t : ctable) : list tok :=
  [kw TABLE_] ++ y_id (ct_name t) ++ [kw L_BRACE] ++ y_column (ct_first t) ++ commas y_column (ct_rest t)
  ++ commas y_member (ct_members t) ++ (if ct_comma t then [kw COMMA] else []) ++ [kw R_BRACE].
Definition y_config (c : cconfig) : list tok := y_id (cg_name c) ++ [kw COL] ++ y_literal (cg_value c).
Definition y_configs (p : cconfig * list cconfig) : list tok :=
  [kw L_BRACE] ++ y_config (fst p) ++ commas y_config (snd p) ++ [kw R_BRACE].
Definition y_ext (x : cext) : list tok :=
  [kw USE_] ++ y_id (cx_name x) ++ opt y_configs (cx_config x) ++ [kw AS_] ++ y_id (cx_alias x) ++ [kw SCOL].
Definition y_attr (a : cattr) : list tok := y_id (ca_name a) ++ [kw ASSIGN] ++ y_literal (ca_value a).
Definition y_annot (a : cannot) : list tok :=
  [Tok BLOCK_VAR_OR_ANNOTATION (cn_target a); kw L_PAREN] ++ y_attr (cn_first a) ++ commas y_attr (cn_rest a) ++ [kw R_PAREN].
Definition y_aattr (a : aattr) : list tok :=
  [kw match a with APublic => PUBLIC_ | APrivate => PRIVATE_ | AView => VIEW_ | AOwner => OWNER_ end].
Definition y_recv (p : str * list str) : list tok := y_param (fst p) ++ commas y_param (snd p) ++ [kw ASSIGN].
Definition y_callee (c : callee) : list tok :=
  match c with CExtFn e f => y_id e ++ [kw PERIOD] ++ y_id f | CAction f => y_id f end.
Definition y_arg (a : list tok) : list tok := a.
Definition y_call (c : ccall) : list tok :=
  opt y_recv (cl_recv c) ++ y_callee (cl_fn c) ++ [kw L_PAREN] ++ opt y_arg (cl_arg c) ++ commas y_arg (cl_args c)
  ++ [kw R_PAREN; kw SCOL].
Definition y_stmt (s : cstmt) : list tok := match s with SSql t => [Tok SQL_STMT t; kw SCOL] | SCall c => y_call c end.
Definition y_action (a : caction) : list tok :=
  many y_annot (cd_annots a) ++ [kw ACTION_] ++ y_id (cd_name a) ++ [kw L_PAREN] ++ opt y_param (cd_param a)
  ++ commas y_param (cd_params a) ++ [kw R_PAREN] ++ many y_aattr (cd_attrs a)
  ++ [kw L_BRACE] ++ y_stmt (cd_stmt a) ++ many y_stmt (cd_stmts a) ++ [kw R_BRACE].
Definition y_decl (d : decl) : list tok :=
  match d with
  | DTable t => y_table t
  | DAction a => y_action a
  | DInit s ss => [kw INIT_; kw L_PAREN; kw R_PAREN; kw L_BRACE] ++ y_stmt s ++ many y_stmt ss ++ [kw R_BRACE]
  end.
Definition y_unit (u : cunit) : list tok :=
  [kw DATABASE_] ++ y_id (cu_name u) ++ [kw SCOL] ++ many y_ext (cu_exts u) ++ many y_decl (cu_decls u).

(** Arguments are expressions of the grammar. *)
Definition wf_arg (a : list tok) : Prop := derives (R fn_arg_expr) a /\ Forall (fun t => forall w, literal_of (ty t) = Some w -> tx t = w) a.
Definition wf_call (c : ccall) : Prop := (forall a, cl_arg c = Some a -> wf_arg a) /\ Forall wf_arg (cl_args c).
Definition wf_stmt (s : cstmt) : Prop := match s with SSql _ => True | SCall c => wf_call c end.
Definition wf_action (a : caction) : Prop := wf_stmt (cd_stmt a) /\ Forall wf_stmt (cd_stmts a).
Definition wf_decl (d : decl) : Prop :=
  match d with DTable _ => True | DAction a => wf_action a | DInit s ss => wf_stmt s /\ Forall wf_stmt ss end.
Definition wf_unit (u : cunit) : Prop := Forall wf_decl (cu_decls u).
