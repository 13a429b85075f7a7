(** What a sequence of tokens says: the schema written by a program, as a relation between tokens and schemas.
    This is the specification of the visitor: it mentions neither parse trees nor the visitor's functions. *)
From Verif Require Import Schema Grammar.

(** A token of a fixed text. *)
Definition fixed (t : tt) : tok := Tok t (match literal_of t with Some w => w | None => [] end).
(** The characters of a token sequence, without layout. *)
Definition chars (ts : list tok) : str := concat (map tx ts).

(** [D x ts]: the tokens [ts] write [x].  Sequences and comma-separated lists. *)
Inductive series {A} (D : A -> list tok -> Prop) : list A -> list tok -> Prop :=
| se_nil : series D [] []
| se_cons a ts l us : D a ts -> series D l us -> series D (a :: l) (ts ++ us).
Inductive listed {A} (D : A -> list tok -> Prop) : list A -> list tok -> Prop :=
| li_one a ts : D a ts -> listed D [a] ts
| li_more a ts l us : D a ts -> listed D l us -> listed D (a :: l) (ts ++ fixed COMMA :: us).
(** A list stored as a Go slice that is nil when there is nothing to store. *)
Definition slice_of {A} (l : list A) (s : slice A) : Prop := (l = [] /\ s = None) \/ (l <> [] /\ s = Some l).

Definition w_name (n : str) (ts : list tok) : Prop := ts = [Tok IDENTIFIER n].
Definition w_param (n : str) (ts : list tok) : Prop := ts = [Tok PARAM_OR_VAR n].
Definition w_value (v : str) (ts : list tok) : Prop := ts = [Tok UNSIGNED_NUMBER_LITERAL v] \/ ts = [Tok STRING_LITERAL v].
Definition in_parens (t : tt) (ts : list tok) : list tok := [fixed t; fixed L_PAREN] ++ ts ++ [fixed R_PAREN].

(** Columns. *)
Inductive w_attribute : attribute -> list tok -> Prop :=
| wa_primary : w_attribute (Attribute (lit "primary_key") None) [fixed PRIMARY_]
| wa_notnull : w_attribute (Attribute (lit "not_null") None) [fixed NOT_NULL_]
| wa_unique : w_attribute (Attribute (lit "unique") None) [fixed UNIQUE_]
| wa_default v ts : w_value v ts -> w_attribute (Attribute (lit "default") (Some v)) (in_parens DEFAULT_ ts)
| wa_min n : w_attribute (Attribute (lit "min") (Some n)) (in_parens MIN_ [Tok UNSIGNED_NUMBER_LITERAL n])
| wa_max n : w_attribute (Attribute (lit "max") (Some n)) (in_parens MAX_ [Tok UNSIGNED_NUMBER_LITERAL n])
| wa_minlen n : w_attribute (Attribute (lit "min_length") (Some n)) (in_parens MIN_LEN_ [Tok UNSIGNED_NUMBER_LITERAL n])
| wa_maxlen n : w_attribute (Attribute (lit "max_length") (Some n)) (in_parens MAX_LEN_ [Tok UNSIGNED_NUMBER_LITERAL n]).
Inductive w_type : str -> list tok -> Prop :=
| wt_int : w_type (lit "int") [fixed INT_]
| wt_text : w_type (lit "text") [fixed TEXT_]
| wt_blob : w_type (lit "blob") [fixed BLOB_].
Inductive w_column : column -> list tok -> Prop :=
| w_column_ n ty t l s u : w_type ty t -> series w_attribute l u -> slice_of l s ->
    w_column (Column n ty s) ([Tok IDENTIFIER n] ++ t ++ u).

(** Indexes and foreign keys. *)
Inductive w_ikind : str -> list tok -> Prop :=
| wi_btree : w_ikind (lit "btree") [fixed INDEX_]
| wi_unique : w_ikind (lit "unique_btree") [fixed UNIQUE_]
| wi_primary : w_ikind (lit "primary") [fixed PRIMARY_].
Inductive w_index : tindex -> list tok -> Prop :=
| w_index_ n k t l u : w_ikind k t -> listed w_name l u ->
    w_index (Index n (Some l) k) ([Tok INDEX_NAME (lit "#" ++ n)] ++ t ++ [fixed L_PAREN] ++ u ++ [fixed R_PAREN]).
Inductive w_event : str -> list tok -> Prop :=
| we_update : w_event (lit "UPDATE") [fixed ACTION_ON_UPDATE_]
| we_delete : w_event (lit "DELETE") [fixed ACTION_ON_DELETE_].
Inductive w_effect : str -> list tok -> Prop :=
| wf_none : w_effect (lit "NO ACTION") [fixed ACTION_DO_NO_ACTION_]
| wf_cascade : w_effect (lit "CASCADE") [fixed ACTION_DO_CASCADE_]
| wf_null : w_effect (lit "SET NULL") [fixed ACTION_DO_SET_NULL_]
| wf_default : w_effect (lit "SET DEFAULT") [fixed ACTION_DO_SET_DEFAULT_]
| wf_restrict : w_effect (lit "RESTRICT") [fixed ACTION_DO_RESTRICT_].
Inductive w_fkaction : fkaction -> list tok -> Prop :=
| w_fkaction_ on_ do_ t o u : w_event on_ t -> o = [] \/ o = [fixed ACTION_DO_] -> w_effect do_ u ->
    w_fkaction (FKAction on_ do_) (t ++ o ++ u).
Inductive w_fkey : fkey -> list tok -> Prop :=
| w_fkey_ k r ch tc t pa tp acts sacts ta :
    k = FOREIGN_KEY_ \/ k = FOREIGN_KEY_ABBR_ -> r = REFERENCES_ \/ r = REFERENCES_ABBR_ ->
    listed w_name ch tc -> listed w_name pa tp -> series w_fkaction acts ta -> slice_of acts sacts ->
    w_fkey (FKey (Some ch) (Some pa) t sacts)
      (in_parens k tc ++ [fixed r; Tok IDENTIFIER t; fixed L_PAREN] ++ tp ++ [fixed R_PAREN] ++ ta).

(** Tables: columns, then indexes and foreign keys in any order, each after a comma. *)
Inductive w_members : list tindex -> list fkey -> list tok -> Prop :=
| wm_nil : w_members [] [] []
| wm_index i t is fs u : w_index i t -> w_members is fs u -> w_members (i :: is) fs (fixed COMMA :: t ++ u)
| wm_fkey f t is fs u : w_fkey f t -> w_members is fs u -> w_members is (f :: fs) (fixed COMMA :: t ++ u).
Inductive w_table : table -> list tok -> Prop :=
| w_table_ n cs tc is sis fs sfs tm o :
    listed w_column cs tc -> w_members is fs tm -> slice_of is sis -> slice_of fs sfs -> o = [] \/ o = [fixed COMMA] ->
    w_table (Table n (Some cs) sis sfs) ([fixed TABLE_; Tok IDENTIFIER n; fixed L_BRACE] ++ tc ++ tm ++ o ++ [fixed R_BRACE]).

(** Extensions. *)
Inductive w_config : extconfig -> list tok -> Prop :=
| w_config_ n v t : w_value v t -> w_config (ExtConfig n v) ([Tok IDENTIFIER n; fixed COL] ++ t).
Inductive w_extension : extension -> list tok -> Prop :=
| wx_plain n a : w_extension (Extension n None a) [fixed USE_; Tok IDENTIFIER n; fixed AS_; Tok IDENTIFIER a; fixed SCOL]
| wx_config n l t a : listed w_config l t -> w_extension (Extension n (Some l) a)
    ([fixed USE_; Tok IDENTIFIER n; fixed L_BRACE] ++ t ++ [fixed R_BRACE; fixed AS_; Tok IDENTIFIER a; fixed SCOL]).

(** Statements are kept as text: SQL as one token, calls and annotations without their layout. *)
Inductive w_stmt : str -> list tok -> Prop :=
| ws_sql s : w_stmt (s ++ lit ";") [Tok SQL_STMT s; fixed SCOL]
| ws_call ts : derives (R call_stmt) ts -> w_stmt (chars ts) ts.
Definition w_annotation (s : str) (ts : list tok) : Prop := derives (R annotation_decl) ts /\ chars ts = lit "@" ++ s.
Definition w_body (l : list str) (ts : list tok) : Prop := l <> [] /\ series w_stmt l ts.

(** Parameters; a comma before the first one is tolerated. *)
Inductive w_params : list str -> list tok -> Prop :=
| wp_none : w_params [] []
| wp_some l ts : listed w_param l ts -> w_params l ts
| wp_comma l ts : listed w_param l ts -> w_params l (fixed COMMA :: ts).

(** Action attributes: words in any order, at most one visibility, one "view", one "owner". *)
Definition once (t : tt) (l : list tt) : Prop := (count_occ tt_eq_dec l t <= 1)%nat.
Definition attr_words (l : list tt) : Prop :=
  Forall (fun t => In t [PUBLIC_; PRIVATE_; VIEW_; OWNER_]) l /\
  (count_occ tt_eq_dec l PUBLIC_ + count_occ tt_eq_dec l PRIVATE_ <= 1)%nat /\ once VIEW_ l /\ once OWNER_ l.
Inductive w_action : action -> list tok -> Prop :=
| w_action_ n anns sanns tn ins sins ti l pub mut aux body tb :
    series w_annotation anns tn -> slice_of anns sanns ->
    w_params ins ti -> slice_of ins sins ->
    attr_words l -> (pub = true <-> In PUBLIC_ l) ->
    (In VIEW_ l -> mut = lit "view") -> (~ In VIEW_ l -> mut = lit "update") ->
    (In OWNER_ l -> aux = Some [lit "owner"]) -> (~ In OWNER_ l -> aux = None) ->
    w_body body tb ->
    w_action (Action n sanns sins pub mut aux (Some body))
      (tn ++ [fixed ACTION_; Tok IDENTIFIER n; fixed L_PAREN] ++ ti ++ [fixed R_PAREN] ++ map fixed l ++
       [fixed L_BRACE] ++ tb ++ [fixed R_BRACE]).
Inductive w_init : action -> list tok -> Prop :=
| w_init_ body tb : w_body body tb ->
    w_init (Action (lit "init") None None false (lit "update") None (Some body))
      ([fixed INIT_; fixed L_PAREN; fixed R_PAREN; fixed L_BRACE] ++ tb ++ [fixed R_BRACE]).

(** Declarations in any order; at most one init. *)
Inductive w_decls : list table -> list action -> list action -> list tok -> Prop :=
| wd_nil : w_decls [] [] [] []
| wd_table t ts ta ac ini us : w_table t ts -> w_decls ta ac ini us -> w_decls (t :: ta) ac ini (ts ++ us)
| wd_action a ts ta ac ini us : w_action a ts -> w_decls ta ac ini us -> w_decls ta (a :: ac) ini (ts ++ us)
| wd_init i ts ta ac us : w_init i ts -> w_decls ta ac [] us -> w_decls ta ac [i] (ts ++ us).

(** A program and its schema: the init action is last. *)
Inductive denotes : list tok -> schema -> Prop :=
| denotes_ n xs sxs tx ta sta ac ini sac td :
    series w_extension xs tx -> slice_of xs sxs ->
    w_decls ta ac ini td -> slice_of ta sta -> slice_of (ac ++ ini) sac ->
    denotes ([fixed DATABASE_; Tok IDENTIFIER n; fixed SCOL] ++ tx ++ td) (Schema [] n sta sac sxs).
