(** kfparser/visitor.go: from the parse tree to the schema.  Raising is [Panic]. *)
From Verif Require Export Schema Cst.

(** ctx.GetText(): the texts of the visible tokens below the node. *)
Definition text (ts : list tok) : str := concat (map tx ts).

(** unicode.IsSpace; strings.TrimSpace. *)
Definition is_space (c : N) : bool :=
  existsb (N.eqb c) [9; 10; 11; 12; 13; 32; 133; 160; 5760; 8232; 8233; 8239; 8287; 12288]%N
  || ((8192 <=? c) && (c <=? 8202))%N.
Fixpoint drop_space (s : str) : str :=
  match s with c :: s' => if is_space c then drop_space s' else s | [] => [] end.
Definition trim_space (s : str) : str := rev (drop_space (rev (drop_space s))).

(** s[1:] for a string whose first character is one byte long. *)
Definition drop1 (s : str) : str := tl s.

(** VisitExt_config_list 140-153, VisitExtension_directive 127-138 *)
Definition v_config (c : cconfig) : extconfig := ExtConfig (cg_name c) (lit_text (cg_value c)).
Definition v_ext (x : cext) : extension :=
  Extension (cx_name x) (match cx_config x with Some (c, l) => Some (map v_config (c :: l)) | None => None end) (cx_alias x).

(** VisitColumn_constraint 227-255 *)
Definition v_constr (c : constr) : attribute :=
  match c with
  | KPrimary => Attribute AttrPrimaryKey None
  | KNotNull => Attribute AttrNotNull None
  | KUnique => Attribute AttrUnique None
  | KDefault l => Attribute AttrDefault (Some (lit_text l))
  | KMin n => Attribute AttrMin (Some n)
  | KMax n => Attribute AttrMax (Some n)
  | KMinLen n => Attribute AttrMinLength (Some n)
  | KMaxLen n => Attribute AttrMaxLength (Some n)
  end.
(** VisitColumn_def 199-224; the default branch of the switch cannot be reached: the tree has one of the three *)
Definition v_coltype (t : coltype) : str := match t with TInt => ColInt | TText => ColText | TBlob => ColBlob end.
Definition v_column (c : ccolumn) : column := Column (cc_name c) (v_coltype (cc_type c)) (nz (map v_constr (cc_constrs c))).
(** VisitIndex_def 258-274, VisitColumn_name_list 277-286 *)
Definition v_ikind (k : ikind) : str := match k with IUnique => IdxUniqueBtree | IIndex => IdxBtree | IPrimary => IdxPrimary end.
Definition v_index (i : cindex) : tindex := Index (drop1 (ci_name i)) (Some (ci_first i :: ci_rest i)) (v_ikind (ci_kind i)).
(** VisitForeign_key_action 306-330 *)
Definition v_fkact (a : cfkact) : fkaction :=
  FKAction (match fa_on a with OnUpdate => ON_UPDATE | OnDelete => ON_DELETE end)
    (match fa_do a with DoNoAction => DO_NO_ACTION | DoSetNull => DO_SET_NULL | DoSetDefault => DO_SET_DEFAULT
     | DoCascade => DO_CASCADE | DoRestrict => DO_RESTRICT end).
(** VisitForeign_key_def 288-304 *)
Definition v_fk (f : cfk) : fkey :=
  FKey (Some (cf_child f :: cf_childs f)) (Some (cf_parent f :: cf_parents f)) (cf_table f) (nz (map v_fkact (cf_acts f))).

(** AllIndex_def, AllForeign_key_def: children of one kind, in order. *)
Fixpoint indexes (ms : list member) : list cindex :=
  match ms with [] => [] | MIndex i :: r => i :: indexes r | MFk _ :: r => indexes r end.
Fixpoint fks (ms : list member) : list cfk :=
  match ms with [] => [] | MFk f :: r => f :: fks r | MIndex _ :: r => fks r end.

(** VisitTable_decl 156-183, VisitColumn_def_list 186-196 *)
Definition v_table (t : ctable) : table :=
  Table (ct_name t) (Some (map v_column (ct_first t :: ct_rest t))) (nz (map v_index (indexes (ct_members t))))
        (nz (map v_fk (fks (ct_members t)))).

(** VisitAction_attr_list 338-386.  AllAction_visibility etc. select the children of one kind; the texts compared are
    the keyword texts. *)
Definition visibilities (l : list aattr) : list str :=
  concat (map (fun a => match a with APublic => [lit "public"] | APrivate => [lit "private"] | _ => [] end) l).
Definition mutabilities (l : list aattr) : list str :=
  concat (map (fun a => match a with AView => [lit "view"] | _ => [] end) l).
Definition auxiliaries (l : list aattr) : list str :=
  concat (map (fun a => match a with AOwner => [lit "owner"] | _ => [] end) l).
Fixpoint v_auxs (seen l : list str) : res (list str) :=
  match l with
  | [] => Ok []
  | a :: l' =>
      if mem_str a seen then Panic (PErr (wrap AuxiliaryAlreadySet a))
      else DO r <- v_auxs (a :: seen) l'; Ok ((if str_eqb a AuxOwner then AuxOwner else []) :: r)
  end.
Definition v_aattrs (l : list aattr) : res (bool * str * slice str) :=
  DO pub <- match visibilities l with
            | [] => Ok false
            | [v] => Ok (str_eqb v VisibilityPublic)
            | v :: _ => Panic (PErr (wrap VisibilityAlreadySet v))
            end;
  DO mut <- match mutabilities l with
            | [] => Ok MutabilityUpdate
            | [m] => Ok (if str_eqb m MutabilityView then MutabilityView else MutabilityUpdate)
            | m :: _ => Panic (PErr (wrap MutabilityAlreadySet m))
            end;
  DO auxs <- match auxiliaries l with [] => Ok None | auxs => DO r <- v_auxs [] auxs; Ok (Some r) end;
  Ok (pub, mut, auxs).

(** VisitAction_stmt 442-445 *)
Definition v_stmt (s : cstmt) : str := trim_space (text (y_stmt s)).
(** VisitAnnotation_decl 458-462 *)
Definition v_annot (a : cannot) : str := drop1 (text (y_annot a)).
(** VisitParam_list 417-426 *)
Definition params (a : caction) : list str := match cd_param a with Some p => [p] | None => [] end ++ cd_params a.
(** VisitAction_decl 389-414, VisitAction_stmt_list 429-439 *)
Definition v_action (a : caction) : res action :=
  DO (pub, mut, auxs) <- v_aattrs (cd_attrs a);
  Ok (Action (cd_name a) (nz (map v_annot (cd_annots a))) (nz (params a)) pub mut auxs
             (Some (map v_stmt (cd_stmt a :: cd_stmts a)))).
(** VisitInit_decl 448-454 *)
Definition v_init (s : cstmt) (ss : list cstmt) : action :=
  Action init_name None None false MutabilityUpdate None (Some (map v_stmt (s :: ss))).

(** AllTable_decl, AllAction_decl, AllInit_decl *)
Fixpoint tables (ds : list decl) : list ctable :=
  match ds with [] => [] | DTable t :: r => t :: tables r | _ :: r => tables r end.
Fixpoint actions (ds : list decl) : list caction :=
  match ds with [] => [] | DAction a :: r => a :: actions r | _ :: r => actions r end.
Fixpoint inits (ds : list decl) : list (cstmt * list cstmt) :=
  match ds with [] => [] | DInit s ss :: r => (s, ss) :: inits r | _ :: r => inits r end.

(** VisitSource_unit 78-124 *)
Definition v_unit (u : cunit) : res schema :=
  match inits (cu_decls u) with
  | _ :: _ :: _ => Panic (PErr (ESent MultiInit))
  | is =>
    DO acts <- mapM v_action (actions (cu_decls u));
    Ok (Schema [] (cu_name u) (nz (map v_table (tables (cu_decls u))))
               (nz (acts ++ map (fun p => v_init (fst p) (snd p)) is)) (nz (map v_ext (cu_exts u))))
  end.
