(** kfparser/visitor.go, statement by statement: the visitor on the generic parse tree, with the lines it prints in
    trace mode (NewKuneiformVisitor 29-34 keeps the mode).  Calls on a nil context, failed type assertions and slicing an empty
    string panic, as in Go.  VisitChildren and shouldVisitNextChild (51-75) override the runtime's; nothing calls them here. *)
From Verif Require Import Schema Tree.
From Verif Require Visitor.

(** Lines printed, and the outcome. *)
Definition M (A : Type) := (list str * res A)%type.
Definition ret {A} (a : A) : M A := ([], Ok a).
Definition raise {A} (p : panic) : M A := ([], Panic p).
Definition andthen {A B} (m : M A) (k : A -> M B) : M B :=
  let (l, r) := m in
  match r with
  | Ok a => let (l', r') := k a in (l ++ l', r')
  | Err e => (l, Err e)
  | Panic p => (l, Panic p)
  end.
Notation "'LETM' x <- m ; k" := (andthen m (fun x => k)) (at level 200, x pattern, m at level 100, k at level 200).
(** for i, x := range xs { ys[i] = f(x) } *)
Fixpoint each {A B} (f : A -> M B) (l : list A) : M (list B) :=
  match l with
  | [] => ret []
  | a :: r => LETM b <- f a; LETM bs <- each f r; ret (b :: bs)
  end.

Definition nil_call : panic := PErr (ENew (lit "runtime error: invalid memory address or nil pointer dereference")).
Definition bad_slice : panic := PErr (ENew (lit "runtime error: slice bounds out of range [1:0]")).
Definition bad_type : panic := PErr (ENew (lit "interface conversion")).
(** c.Method() on the context an accessor gave *)
Definition on {A} (c : option tree) (k : tree -> M A) : M A := match c with Some t => k t | None => raise nil_call end.
Definition text_of (c : option tree) : M str := on c (fun t => ret (get_text t)).
(** s[1:] *)
Definition from1 (s : str) : M str := match s with [] => raise bad_slice | _ :: r => ret r end.
Definition has (c : option tree) : bool := match c with Some _ => true | None => false end.

Section Visit.
Variable trace : bool.

(** Visit 40-45: print, then Accept calls the method of the context's rule; the caller asserts the type of the result, which
    the method of rule [n] gives. *)
Definition visit_line (t : tree) : str := lit "visit tree: " ++ go_type t ++ lit ", " ++ get_text t.
Definition visit {A} (n : nt) (f : tree -> M A) (c : option tree) : M A :=
  on c (fun t =>
    LETM _ <- ((if trace then [visit_line t] else []), Ok Datatypes.tt);
    if is_node n t then f t else raise bad_type).

(** VisitExt_config_list 140-153 *)
Definition visit_ext_config_list (ctx : tree) : M (list extconfig) :=
  each (fun config =>
    LETM a <- text_of (child_of ext_config_name 0 config);
    LETM v <- text_of (child_of ext_config_value 0 config);
    ret (ExtConfig a v)) (all_of ext_config ctx).
(** VisitExtension_directive 127-138 *)
Definition visit_extension_directive (ctx : tree) : M extension :=
  LETM name <- text_of (child_of extension_name 0 ctx);
  LETM config <- (if has (child_of ext_config_list 0 ctx)
                  then LETM l <- visit ext_config_list visit_ext_config_list (child_of ext_config_list 0 ctx); ret (Some l)
                  else ret None);
  LETM alias <- text_of (child_of extension_name 1 ctx);
  ret (Extension name config alias).

(** VisitColumn_constraint 227-255 *)
Definition visit_column_constraint (ctx : tree) : M attribute :=
  if has (token_of PRIMARY_ ctx) then ret (Attribute AttrPrimaryKey None)
  else if has (token_of NOT_NULL_ ctx) then ret (Attribute AttrNotNull None)
  else if has (token_of UNIQUE_ ctx) then ret (Attribute AttrUnique None)
  else if has (token_of DEFAULT_ ctx) then LETM v <- text_of (child_of literal_value 0 ctx); ret (Attribute AttrDefault (Some v))
  else if has (token_of MIN_ ctx) then LETM v <- text_of (child_of number_value 0 ctx); ret (Attribute AttrMin (Some v))
  else if has (token_of MAX_ ctx) then LETM v <- text_of (child_of number_value 0 ctx); ret (Attribute AttrMax (Some v))
  else if has (token_of MIN_LEN_ ctx) then LETM v <- text_of (child_of number_value 0 ctx); ret (Attribute AttrMinLength (Some v))
  else if has (token_of MAX_LEN_ ctx) then LETM v <- text_of (child_of number_value 0 ctx); ret (Attribute AttrMaxLength (Some v))
  else ret (Attribute [] None).
(** VisitColumn_def 199-224 *)
Definition visit_column_def (ctx : tree) : M column :=
  LETM name <- text_of (child_of column_name 0 ctx);
  LETM type <- on (child_of column_type 0 ctx) (fun ct =>
    if has (token_of INT_ ct) then ret ColInt
    else if has (token_of TEXT_ ct) then ret ColText
    else if has (token_of BLOB_ ct) then ret ColBlob
    else raise (PErr (wrap NotSupportColumnType (get_text ct))));
  LETM attrs <- each (fun c => visit column_constraint visit_column_constraint (Some c)) (all_of column_constraint ctx);
  ret (Column name type (nz attrs)).
(** VisitColumn_def_list 186-196 *)
Definition visit_column_def_list (ctx : tree) : M (list column) :=
  each (fun c => visit column_def visit_column_def (Some c)) (all_of column_def ctx).
(** VisitColumn_name_list 277-286 *)
Definition visit_column_name_list (ctx : tree) : M (list str) :=
  each (fun c => text_of (Some c)) (all_of column_name ctx).
(** VisitIndex_def 258-274 *)
Definition visit_index_def (ctx : tree) : M tindex :=
  LETM s <- text_of (child_of index_name 0 ctx);
  LETM name <- from1 s;
  LETM cols <- visit column_name_list visit_column_name_list (child_of column_name_list 0 ctx);
  ret (Index name (Some cols)
    (if has (token_of UNIQUE_ ctx) then IdxUniqueBtree else if has (token_of INDEX_ ctx) then IdxBtree
     else if has (token_of PRIMARY_ ctx) then IdxPrimary else [])).
(** VisitForeign_key_action 306-330 *)
Definition visit_foreign_key_action (ctx : tree) : M fkaction :=
  ret (FKAction
    (if has (token_of ACTION_ON_UPDATE_ ctx) then ON_UPDATE else if has (token_of ACTION_ON_DELETE_ ctx) then ON_DELETE else [])
    (if has (token_of ACTION_DO_NO_ACTION_ ctx) then DO_NO_ACTION else if has (token_of ACTION_DO_SET_NULL_ ctx) then DO_SET_NULL
     else if has (token_of ACTION_DO_SET_DEFAULT_ ctx) then DO_SET_DEFAULT else if has (token_of ACTION_DO_CASCADE_ ctx) then DO_CASCADE
     else if has (token_of ACTION_DO_RESTRICT_ ctx) then DO_RESTRICT else [])).
(** VisitForeign_key_def 288-304 *)
Definition visit_foreign_key_def (ctx : tree) : M fkey :=
  LETM child <- visit column_name_list visit_column_name_list (child_of column_name_list 0 ctx);
  LETM table <- text_of (child_of table_name 0 ctx);
  LETM parent <- visit column_name_list visit_column_name_list (child_of column_name_list 1 ctx);
  LETM acts <- each (fun c => visit foreign_key_action visit_foreign_key_action (Some c)) (all_of foreign_key_action ctx);
  ret (FKey (Some child) (Some parent) table (nz acts)).
(** VisitTable_decl 156-183 *)
Definition visit_table_decl (ctx : tree) : M table :=
  LETM name <- text_of (child_of table_name 0 ctx);
  LETM cols <- visit column_def_list visit_column_def_list (child_of column_def_list 0 ctx);
  LETM idx <- each (fun c => visit index_def visit_index_def (Some c)) (all_of index_def ctx);
  LETM fks <- each (fun c => visit foreign_key_def visit_foreign_key_def (Some c)) (all_of foreign_key_def ctx);
  ret (Table name (Some cols) (nz idx) (nz fks)).

(** VisitAction_attr_list 338-386 *)
Fixpoint seen_auxs (seen : list str) (l : list tree) : M (list str) :=
  match l with
  | [] => ret []
  | a :: r =>
      if mem_str (get_text a) seen then raise (PErr (wrap AuxiliaryAlreadySet (get_text a)))
      else LETM rest <- seen_auxs (get_text a :: seen) r;
           ret ((if str_eqb (get_text a) AuxOwner then AuxOwner else []) :: rest)
  end.
Definition visit_action_attr_list (ctx : tree) : M (bool * str * slice str) :=
  LETM pub <- match all_of action_visibility ctx with
              | [] => ret false
              | [v] => ret (str_eqb (get_text v) VisibilityPublic)
              | v :: _ => raise (PErr (wrap VisibilityAlreadySet (get_text v)))
              end;
  LETM mut <- match all_of action_mutability ctx with
              | [] => ret MutabilityUpdate
              | [m] => ret (if str_eqb (get_text m) MutabilityView then MutabilityView else MutabilityUpdate)
              | m :: _ => raise (PErr (wrap MutabilityAlreadySet (get_text m)))
              end;
  LETM auxs <- match all_of action_auxiliary ctx with
               | [] => ret None
               | l => LETM r <- seen_auxs [] l; ret (Some r)
               end;
  ret (pub, mut, auxs).
(** VisitAnnotation_decl 458-462, VisitParam_list 417-426, VisitAction_stmt 442-445, VisitAction_stmt_list 429-439 *)
Definition visit_annotation_decl (ctx : tree) : M str := from1 (get_text ctx).
Definition visit_param_list (ctx : tree) : M (list str) := each (fun c => text_of (Some c)) (all_of parameter ctx).
Definition visit_action_stmt (ctx : tree) : M str := ret (Visitor.trim_space (get_text ctx)).
Definition visit_action_stmt_list (ctx : tree) : M (list str) :=
  each (fun c => visit action_stmt visit_action_stmt (Some c)) (all_of action_stmt ctx).
(** VisitAction_decl 389-414 *)
Definition visit_action_decl (ctx : tree) : M action :=
  LETM name <- text_of (child_of action_name 0 ctx);
  LETM annots <- each (fun c => visit annotation_decl visit_annotation_decl (Some c)) (all_of annotation_decl ctx);
  LETM inputs <- on (child_of param_list 0 ctx) (fun pl =>
    if Nat.eqb (length (all_of parameter pl)) 0 then ret None
    else LETM l <- visit param_list visit_param_list (child_of param_list 0 ctx); ret (Some l));
  LETM (pub, mut, auxs) <- visit action_attr_list visit_action_attr_list (child_of action_attr_list 0 ctx);
  LETM stmts <- visit action_stmt_list visit_action_stmt_list (child_of action_stmt_list 0 ctx);
  ret (Action name (nz annots) inputs pub mut auxs (Some stmts)).
(** VisitInit_decl 448-454 *)
Definition visit_init_decl (ctx : tree) : M action :=
  LETM stmts <- visit action_stmt_list visit_action_stmt_list (child_of action_stmt_list 0 ctx);
  ret (Action init_name None None false MutabilityUpdate None (Some stmts)).

(** VisitSource_unit 78-124 *)
Definition visit_source_unit (ctx : tree) : M schema :=
  LETM name <- on (child_of database_directive 0 ctx) (fun d => text_of (child_of database_name 0 d));
  LETM exts <- each (fun c => visit extension_directive visit_extension_directive (Some c)) (all_of extension_directive ctx);
  LETM tabs <- each (fun c => visit table_decl visit_table_decl (Some c)) (all_of table_decl ctx);
  let inits := length (all_of init_decl ctx) in
  if Nat.ltb 1 inits then raise (PErr (ESent MultiInit))
  else
    LETM acts <- each (fun c => visit action_decl visit_action_decl (Some c)) (all_of action_decl ctx);
    LETM ini <- (if Nat.eqb inits 1 then LETM i <- visit init_decl visit_init_decl (child_of init_decl 0 ctx); ret [i] else ret []);
    ret (Schema [] name (nz tabs) (nz (acts ++ ini)) (nz exts)).
End Visit.
