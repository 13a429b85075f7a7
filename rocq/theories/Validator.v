(** schema/validator.go.  The imported parsers are arguments: what they return for a statement text.  NewCtxValidator (45-52)
    starts with empty maps (Node.v has it as an object).  isSqlStatement (201-209) is never called and not modelled. *)
From Verif Require Export Schema.

(** kwil-db parse/action and parse/sql, as used by lines 246-287.  An argument that is a bind parameter is [ABind];
    any other expression is [AExpr] (checkArgRef ignores it). *)
Inductive arg := ABind (p : str) | AExpr.
Inductive stmt :=
| Dml
| ActionCall (method : str) (args : list arg)
| ExtCall (ext : str) (args : list arg) (receivers : list str)
| OtherStmt.
Record externals := Externals {
  act_parse : str -> res stmt;      (* actparser.Parse *)
  sql_parse : str -> res unit;      (* sqlparser.ParseSql(statement, 1, nil, false) *)
  to_sql : str -> res unit;         (* astTree.ToSQL() of that tree *)
  fmt_arg : str -> str              (* the %s text of a bind-parameter expression *)
}.

(** Go maps: the last binding of a key counts. *)
Definition gomap (V : Type) := list (str * V).
Fixpoint get {V} (k : str) (m : gomap V) : option V :=
  match m with [] => None | (k', v) :: m' => if str_eqb k k' then Some v else get k m' end.
Definition put {V} (k : str) (v : V) (m : gomap V) : gomap V := (k, v) :: m.
Definition has {V} (k : str) (m : gomap V) : bool := match get k m with Some _ => true | None => false end.

Definition declctx := gomap str.
(** ContextValidator, lines 38-52 *)
Record ctx := Ctx { c_tables : gomap declctx; c_actions : gomap declctx; c_exts : gomap declctx; c_current : str }.
Definition new_ctx : ctx := Ctx [] [] [] (lit "current").

(** c.tableCtx[t] : a missing key gives the nil map. *)
Definition tablectx (c : ctx) (t : str) : declctx := match get t (c_tables c) with Some d => d | None => [] end.
Definition actionctx (c : ctx) (a : str) : declctx := match get a (c_actions c) with Some d => d | None => [] end.
Definition set_tables (c : ctx) m := Ctx m (c_actions c) (c_exts c) (c_current c).
Definition set_actions (c : ctx) m := Ctx (c_tables c) m (c_exts c) (c_current c).
Definition set_exts (c : ctx) m := Ctx (c_tables c) (c_actions c) m (c_current c).
Definition set_current (c : ctx) n := Ctx (c_tables c) (c_actions c) (c_exts c) n.

Definition colon : str := lit ": ".

(** VisitColumn 146-164 *)
Definition bad_attr (ctype atype : str) : bool :=
  str_eqb ctype ColInt && (str_eqb atype AttrMinLength || str_eqb atype AttrMaxLength)
  || str_eqb ctype ColText && (str_eqb atype AttrMin || str_eqb atype AttrMax).
Definition visit_attr (ctype : str) (a : attribute) (seen : gomap bool) : res (gomap bool) :=
  if has (at_type a) seen then Err (wrap DuplicateAttribute (at_type a))
  else if bad_attr ctype (at_type a) then Err (wrap AttributeNotAllow (ctype ++ lit "(" ++ at_type a ++ lit ")"))
  else Ok (put (at_type a) true seen).
Definition visit_column (col : column) : res unit :=
  DO _ <- foreach (visit_attr (co_type col)) (elems (co_attrs col)) []; Ok tt.

(** VisitIndex 170-177 *)
Definition visit_index (i : tindex) (c : ctx) : res unit :=
  foreach (fun col _ => if has col (tablectx c (c_current c)) then Ok tt
     else Err (wrap ColumnNotFound (lit "index(" ++ c_current c ++ lit "/" ++ col ++ lit ")")))
    (elems (ix_cols i)) tt.

(** VisitTable 116-144 *)
Definition add_member (c : ctx) (n kind : str) : ctx :=
  set_tables c (put (c_current c) (put n kind (tablectx c (c_current c))) (c_tables c)).
Definition visit_table (t : table) (c : ctx) : res ctx :=
  let c := set_tables c (put (c_current c) [] (c_tables c)) in
  DO c <- foreach (fun col c =>
      if has (co_name col) (tablectx c (c_current c)) then Err (wrap DuplicateColumn (co_name col))
      else let c := add_member c (co_name col) (lit "column") in DO _ <- visit_column col; Ok c)
    (elems (tb_cols t)) c;
  foreach (fun i c =>
      if has (ix_name i) (tablectx c (c_current c)) then Err (wrap DuplicateIndex (ix_name i))
      else let c := add_member c (ix_name i) (lit "index") in DO _ <- visit_index i c; Ok c)
    (elems (tb_idx t)) c.

(** VisitForeignKey 179-199 *)
Definition visit_fk (c : ctx) (fk : fkey) : res unit :=
  if has (fk_table fk) (c_tables c) then
    DO _ <- foreach (fun col _ => if has col (tablectx c (fk_table fk)) then Ok tt
        else Err (wrap ColumnNotFound (lit "ref(" ++ fk_table fk ++ lit "->" ++ col ++ lit ")")))
      (elems (fk_parent fk)) tt;
    DO _ <- foreach (fun a seen => if has (fk_on a) seen then Err (wrap DupFKAction (fk_on a)) else Ok (put (fk_on a) true seen))
      (elems (fk_acts fk)) ([] : gomap bool);
    Ok tt
  else Err (wrap TableNotFound (fk_table fk)).

(** VisitAction 300-319 *)
Definition visit_action (a : action) (c : ctx) : res ctx :=
  let c := set_actions c (put (c_current c) [] (c_actions c)) in
  foreach (fun input c =>
      if has input (actionctx c (c_current c)) then Err (wrap DuplicateParam input)
      else Ok (set_actions c (put (c_current c) (put input input (actionctx c (c_current c))) (c_actions c))))
    (elems (ac_inputs a)) c.

(** checkArgRef 212-235 *)
Definition builtin_block_vars : list str := [lit "@caller"].
Definition check_arg (x : externals) (ctx : declctx) (local : gomap bool) (a : arg) : res unit :=
  match a with
  | ABind p =>
    if has_prefix (lit "$") p && negb (has p ctx) && negb (has p local) then Err (wrap VariableNotFound (fmt_arg x p))
    else if has_prefix (lit "@") p && negb (mem_str p builtin_block_vars) then Err (wrap VariableNotFound (fmt_arg x p))
    else Ok tt
  | AExpr => Ok tt
  end.

(** visitActions 237-298, one statement; the state is localCtx *)
Definition wrap_ext {A} (statement : str) (m : res A) : res A :=
  match m with Err e => Err (EWrap e statement) | r => r end.
Definition visit_stmt (x : externals) (c : ctx) (aname statement : str) (local : gomap bool) : res (gomap bool) :=
  DO s <- wrap_ext statement (act_parse x statement);
  match s with
  | Dml =>
    DO _ <- wrap_ext statement (sql_parse x statement);
    DO _ <- wrap_ext statement (to_sql x statement);
    Ok local
  | ActionCall m args =>
    if has m (c_actions c) then
      DO _ <- foreach (fun a _ => check_arg x (actionctx c aname) local a) args tt; Ok local
    else Err (wrap ActionNotFound m)
  | ExtCall e args recv =>
    if has e (c_exts c) then
      DO _ <- foreach (fun a _ => check_arg x (actionctx c aname) local a) args tt;
      DO (_, local) <- foreach (fun r (st : gomap bool * gomap bool) =>
          let (line, local) := st in
          if has r line then Err (wrap DuplicateVariable r) else Ok (put r true line, put r true local))
        recv (([] : gomap bool), local);
      Ok local
    else Err (wrap ExtensionNotFound e)
  | OtherStmt => Ok local
  end.
Definition visit_stmts (x : externals) (c : ctx) (a : action) : res unit :=
  let local := fold_left (fun m i => put i true m) (elems (ac_inputs a)) ([] : gomap bool) in
  DO _ <- foreach (visit_stmt x c (ac_name a)) (elems (ac_stmts a)) local; Ok tt.

(** VisitSchema 54-109 *)
Definition ext_key (e : extension) : str := match ex_alias e with [] => ex_name e | _ => ex_alias e end.
Definition validate (x : externals) (s : schema) : res unit :=
  DO c <- foreach (fun e c =>
      if has (ext_key e) (c_exts c) then Err (wrap DuplicateExtension (ext_key e))
      else Ok (set_exts c (put (ext_key e) [] (c_exts c))))
    (elems (sc_exts s)) new_ctx;
  DO c <- foreach (fun t c =>
      if has (tb_name t) (c_tables c) then Err (wrap DuplicateTable (tb_name t))
      else visit_table t (set_current c (tb_name t)))
    (elems (sc_tables s)) c;
  DO c <- foreach (fun a c =>
      if has (ac_name a) (c_actions c) then Err (wrap DuplicateAction (ac_name a))
      else visit_action a (set_current c (ac_name a)))
    (elems (sc_actions s)) c;
  DO _ <- foreach (fun t _ => foreach (fun fk _ =>
        DO _ <- foreach (fun col _ => if has col (tablectx c (tb_name t)) then Ok tt
             else Err (wrap ColumnNotFound (lit "fk(" ++ tb_name t ++ lit "/" ++ col ++ lit ")")))
          (elems (fk_child fk)) tt;
        visit_fk c fk) (elems (tb_fks t)) tt)
    (elems (sc_tables s)) tt;
  foreach (fun a _ => visit_stmts x c a) (elems (sc_actions s)) tt.
