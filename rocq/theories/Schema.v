(** The schema data types: schema/schema.go lines 5-108, schema/types.go.
    A Go slice is [option (list A)]: None is the nil slice.  The string-based named types (ColumnType, AttributeType,
    IndexType, ...) are strings.  Attribute.Value has type any; Parse only ever stores nil or a string, which is what
    is modelled (None / Some). *)
From Verif Require Export Str.

Definition slice (A : Type) := option (list A).
(** What ranging over a slice visits. *)
Definition elems {A} (s : slice A) : list A := match s with Some l => l | None => [] end.
(** [if n != 0 { x = make([]T, n); ... }] : nil when there is nothing. *)
Definition nz {A} (l : list A) : slice A := match l with [] => None | _ => Some l end.

(** schema.go 37-40 *)
Record attribute := Attribute { at_type : str; at_value : option str }.
(** schema.go 31-35 *)
Record column := Column { co_name : str; co_type : str; co_attrs : slice attribute }.
(** schema.go 42-46 *)
Record tindex := Index { ix_name : str; ix_cols : slice str; ix_type : str }.
(** schema.go 71-77 *)
Record fkaction := FKAction { fk_on : str; fk_do : str }.
(** schema.go 48-67 *)
Record fkey := FKey { fk_child : slice str; fk_parent : slice str; fk_table : str; fk_acts : slice fkaction }.
(** schema.go 24-29 *)
Record table := Table { tb_name : str; tb_cols : slice column; tb_idx : slice tindex; tb_fks : slice fkey }.
(** schema.go 13-16, 18-22 *)
Record extconfig := ExtConfig { ec_arg : str; ec_val : str }.
Record extension := Extension { ex_name : str; ex_config : slice extconfig; ex_alias : str }.
(** schema.go 80-108 *)
Record action := Action { ac_name : str; ac_annots : slice str; ac_inputs : slice str; ac_public : bool;
                          ac_mut : str; ac_aux : slice str; ac_stmts : slice str }.
(** schema.go 5-11 *)
Record schema := Schema { sc_owner : str; sc_name : str; sc_tables : slice table; sc_actions : slice action;
                          sc_exts : slice extension }.

(** types.go 8 *)
Definition init_name : str := lit "init".
(** types.go 13-18 *)
Definition ColNull := lit "null". Definition ColText := lit "text".
Definition ColInt := lit "int". Definition ColBlob := lit "blob".
(** types.go 43-52 *)
Definition AttrPrimaryKey := lit "primary_key". Definition AttrUnique := lit "unique".
Definition AttrNotNull := lit "not_null". Definition AttrDefault := lit "default".
Definition AttrMin := lit "min". Definition AttrMax := lit "max".
Definition AttrMinLength := lit "min_length". Definition AttrMaxLength := lit "max_length".
(** types.go 82-86 *)
Definition IdxBtree := lit "btree". Definition IdxUniqueBtree := lit "unique_btree". Definition IdxPrimary := lit "primary".
(** types.go 112-137 *)
Definition ON_UPDATE := lit "UPDATE". Definition ON_DELETE := lit "DELETE".
Definition DO_NO_ACTION := lit "NO ACTION". Definition DO_RESTRICT := lit "RESTRICT".
Definition DO_SET_NULL := lit "SET NULL". Definition DO_SET_DEFAULT := lit "SET DEFAULT". Definition DO_CASCADE := lit "CASCADE".
(** types.go 146-149, 158-161, 170-173 *)
Definition VisibilityPublic := lit "public". Definition VisibilityPrivate := lit "private".
Definition MutabilityUpdate := lit "update". Definition MutabilityView := lit "view".
Definition AuxOwner := lit "owner".

(** Errors.  schema/errors.go 5-34 and utils/error_listener.go 10. *)
Inductive sentinel :=
| NotSupportColumnType | MultiInit | VisibilityAlreadySet | MutabilityAlreadySet | AuxiliaryAlreadySet
| AttributeNotAllow | DuplicateTable | DuplicateExtension | DuplicateColumn | DuplicateAttribute | DuplicateIndex
| DuplicateAction | DuplicateParam | DupFKAction | DuplicateVariable | TableNotFound | ColumnNotFound
| ActionNotFound | VariableNotFound | ExtensionNotFound | BlockVarNotFound | InvalidSyntax.

Definition sentinel_text (s : sentinel) : str :=
  lit match s with
  | NotSupportColumnType => "not support column type" | MultiInit => "more than one init"
  | VisibilityAlreadySet => "action visibility already specified"
  | MutabilityAlreadySet => "action mutability already specified"
  | AuxiliaryAlreadySet => "action auxiliary already specified"
  | AttributeNotAllow => "attribute not allowed"
  | DuplicateTable => "duplicate table" | DuplicateExtension => "duplicate extension"
  | DuplicateColumn => "duplicate column" | DuplicateAttribute => "duplicate attribute"
  | DuplicateIndex => "duplicate index" | DuplicateAction => "duplicate action" | DuplicateParam => "duplicate param"
  | DupFKAction => "duplicate foreign key action" | DuplicateVariable => "duplicate variable"
  | TableNotFound => "table not found" | ColumnNotFound => "column not found" | ActionNotFound => "action not found"
  | VariableNotFound => "variable not found" | ExtensionNotFound => "extension not found"
  | BlockVarNotFound => "block variable not found" | InvalidSyntax => "syntax error"
  end%string.

Definition sentinel_eq_dec (a b : sentinel) : {a = b} + {a <> b}.
Proof. decide equality. Defined.
Definition sentinel_eqb (a b : sentinel) : bool := if sentinel_eq_dec a b then true else false.

(** Error values.  [EWrap e d] is fmt.Errorf("%w: %s", e, d).  [ENew t] is an error value of its own with text [t]:
    errors.New, or an error made by an imported package (assumed not to wrap a sentinel of this module, which those
    packages do not import).  [ESelf] is the listener's own error list, stored in itself (parser.go 66, 50-52). *)
Inductive gerr :=
| ESent (s : sentinel)
| EWrap (e : gerr) (d : str)
| ENew (t : str)
| ESelf.

Definition wrap (s : sentinel) (d : str) : gerr := EWrap (ESent s) d.

(** Panic values: a string, an error, or something else (with its %v text). *)
Inductive panic := PStr (s : str) | PErr (e : gerr) | POther (s : str).

(** The outcome of Go code that may fail or panic. *)
Inductive res (A : Type) :=
| Ok (a : A)
| Err (e : gerr)
| Panic (p : panic).
Arguments Ok {A} a. Arguments Err {A} e. Arguments Panic {A} p.

Definition bind {A B} (m : res A) (k : A -> res B) : res B :=
  match m with Ok a => k a | Err e => Err e | Panic p => Panic p end.
Notation "'DO' x <- m ; k" := (bind m (fun x => k)) (at level 200, x pattern, m at level 100, k at level 200).

(** A loop whose body may stop it. *)
Fixpoint foreach {A S} (f : A -> S -> res S) (l : list A) (s : S) : res S :=
  match l with
  | [] => Ok s
  | a :: l' => DO s' <- f a s; foreach f l' s'
  end.
Fixpoint mapM {A B} (f : A -> res B) (l : list A) : res (list B) :=
  match l with
  | [] => Ok []
  | a :: l' => DO b <- f a; DO bs <- mapM f l'; Ok (b :: bs)
  end.
