(** When a schema is valid, and what fault an invalid one has: the specification of validation, on lists, without maps,
    loops or state. *)
From Verif Require Import Schema Validator.

(** Columns and indexes of a table share one name space. *)
Definition col_names (t : table) : list str := map co_name (elems (tb_cols t)).
Definition idx_names (l : list tindex) : list str := map ix_name l.
Definition members (t : table) : list str := col_names t ++ idx_names (elems (tb_idx t)).

Definition attr_allowed (ctype atype : str) : Prop :=
  (ctype = lit "int" -> atype <> lit "min_length" /\ atype <> lit "max_length") /\
  (ctype = lit "text" -> atype <> lit "min" /\ atype <> lit "max").

Definition valid_column (c : column) : Prop :=
  NoDup (map at_type (elems (co_attrs c))) /\ forall a, In a (elems (co_attrs c)) -> attr_allowed (co_type c) (at_type a).

Definition valid_table (t : table) : Prop :=
  NoDup (members t) /\ Forall valid_column (elems (tb_cols t)) /\
  (forall pre i post, elems (tb_idx t) = pre ++ i :: post ->
     incl (elems (ix_cols i)) (col_names t ++ idx_names pre ++ [ix_name i])).

Definition valid_fk (s : schema) (t : table) (f : fkey) : Prop :=
  incl (elems (fk_child f)) (members t) /\
  (exists p, In p (elems (sc_tables s)) /\ tb_name p = fk_table f /\ incl (elems (fk_parent f)) (members p)) /\
  NoDup (map fk_on (elems (fk_acts f))).

(** An argument that is a variable refers to something. *)
Definition arg_ok (vars : list str) (a : arg) : Prop :=
  match a with
  | ABind p => (forall w, p = lit "$" ++ w -> In p vars) /\ (forall w, p = lit "@" ++ w -> p = lit "@caller")
  | AExpr => True
  end.

Definition receivers (x : externals) (st : str) : list str :=
  match act_parse x st with Ok (ExtCall _ _ r) => r | _ => [] end.

Definition action_names (s : schema) : list str := map ac_name (elems (sc_actions s)).
(** An extension is known by its alias, or by its name if it has none. *)
Definition ext_names (s : schema) : list str :=
  map (fun e => if str_eqb (ex_alias e) [] then ex_name e else ex_alias e) (elems (sc_exts s)).

Definition stmt_ok (x : externals) (s : schema) (vars : list str) (st : str) : Prop :=
  match act_parse x st with
  | Ok Dml => sql_parse x st = Ok tt /\ to_sql x st = Ok tt
  | Ok (ActionCall m args) => In m (action_names s) /\ Forall (arg_ok vars) args
  | Ok (ExtCall e args recv) => In e (ext_names s) /\ Forall (arg_ok vars) args /\ NoDup recv
  | Ok OtherStmt => True
  | Err _ | Panic _ => False
  end.

(** The variables a statement may use: the parameters, and the receivers of the statements before it. *)
Definition valid_body (x : externals) (s : schema) (a : action) : Prop :=
  forall pre st post, elems (ac_stmts a) = pre ++ st :: post ->
    stmt_ok x s (elems (ac_inputs a) ++ concat (map (receivers x) pre)) st.

Record valid_schema (x : externals) (s : schema) : Prop := {
  vs_exts : NoDup (ext_names s);
  vs_tables : NoDup (map tb_name (elems (sc_tables s)));
  vs_table : forall t, In t (elems (sc_tables s)) -> valid_table t;
  vs_actions : NoDup (action_names s);
  vs_params : forall a, In a (elems (sc_actions s)) -> NoDup (elems (ac_inputs a));
  vs_fks : forall t f, In t (elems (sc_tables s)) -> In f (elems (tb_fks t)) -> valid_fk s t f;
  vs_bodies : forall a, In a (elems (sc_actions s)) -> valid_body x s a
}.

(** * Faults

    [first_bad ok bad l z]: some element of [l] is bad with report [z] and all elements before it are ok.  [ok] and
    [bad] also see the elements that come before. *)
Definition report : Type := gerr + panic.
Definition each {A} (ok : list A -> A -> Prop) (l : list A) : Prop :=
  forall pre a post, l = pre ++ a :: post -> ok pre a.
Definition first_bad {A} (ok : list A -> A -> Prop) (bad : list A -> A -> report -> Prop) (l : list A) (z : report) : Prop :=
  exists pre a post, l = pre ++ a :: post /\ each ok pre /\ bad pre a z.

(** The error [s: d]. *)
Definition says (s : sentinel) (d : str) (z : report) : Prop := z = inl (EWrap (ESent s) d).

(** A name that occurred before. *)
Definition dup {A} (name : A -> str) (s : sentinel) (pre : list A) (a : A) (z : report) : Prop :=
  In (name a) (map name pre) /\ says s (name a) z.
Definition fresh {A} (name : A -> str) (pre : list A) (a : A) : Prop := ~ In (name a) (map name pre).

Definition ext_name (e : extension) : str := if str_eqb (ex_alias e) [] then ex_name e else ex_alias e.

Definition column_bad (c : column) (z : report) : Prop :=
  first_bad (fun pre a => fresh at_type pre a /\ attr_allowed (co_type c) (at_type a))
    (fun pre a z => dup at_type DuplicateAttribute pre a z \/
       fresh at_type pre a /\ ~ attr_allowed (co_type c) (at_type a) /\
       says AttributeNotAllow (co_type c ++ lit "(" ++ at_type a ++ lit ")") z)
    (elems (co_attrs c)) z.

(** A listed name that is not among the known ones. *)
Definition missing (known : list str) (msg : str -> str) (l : list str) (z : report) : Prop :=
  first_bad (fun _ n => In n known) (fun _ n z => ~ In n known /\ says ColumnNotFound (msg n) z) l z.

Definition table_bad (t : table) (z : report) : Prop :=
  first_bad (fun pre c => fresh co_name pre c /\ valid_column c)
    (fun pre c z => dup co_name DuplicateColumn pre c z \/ fresh co_name pre c /\ column_bad c z) (elems (tb_cols t)) z
  \/
  (NoDup (col_names t) /\ Forall valid_column (elems (tb_cols t)) /\
   first_bad (fun pre i => ~ In (ix_name i) (col_names t ++ idx_names pre) /\
                           incl (elems (ix_cols i)) (col_names t ++ idx_names pre ++ [ix_name i]))
     (fun pre i z => In (ix_name i) (col_names t ++ idx_names pre) /\ says DuplicateIndex (ix_name i) z \/
        ~ In (ix_name i) (col_names t ++ idx_names pre) /\
        missing (col_names t ++ idx_names pre ++ [ix_name i])
                (fun col => lit "index(" ++ tb_name t ++ lit "/" ++ col ++ lit ")") (elems (ix_cols i)) z)
     (elems (tb_idx t)) z).

Definition fk_bad (s : schema) (t : table) (f : fkey) (z : report) : Prop :=
  missing (members t) (fun col => lit "fk(" ++ tb_name t ++ lit "/" ++ col ++ lit ")") (elems (fk_child f)) z
  \/
  (incl (elems (fk_child f)) (members t) /\
   ((~ In (fk_table f) (map tb_name (elems (sc_tables s))) /\ says TableNotFound (fk_table f) z)
    \/
    (exists p, In p (elems (sc_tables s)) /\ tb_name p = fk_table f /\
       (missing (members p) (fun col => lit "ref(" ++ fk_table f ++ lit "->" ++ col ++ lit ")") (elems (fk_parent f)) z
        \/
        incl (elems (fk_parent f)) (members p) /\
        first_bad (fresh fk_on) (dup fk_on DupFKAction) (elems (fk_acts f)) z)))).

Definition arg_bad (x : externals) (vars : list str) (a : arg) (z : report) : Prop :=
  exists p, a = ABind p /\ ~ arg_ok vars a /\ says VariableNotFound (fmt_arg x p) z.

(** A report of an imported parser is passed on: errors with the statement appended, panics as they are. *)
Definition passes_on {A} (r : res A) (st : str) (z : report) : Prop :=
  match r with Ok _ => False | Err e => z = inl (EWrap e st) | Panic p => z = inr p end.

Definition stmt_bad (x : externals) (s : schema) (vars : list str) (st : str) (z : report) : Prop :=
  match act_parse x st with
  | Ok Dml => passes_on (sql_parse x st) st z \/ sql_parse x st = Ok tt /\ passes_on (to_sql x st) st z
  | Ok (ActionCall m args) =>
      ~ In m (action_names s) /\ says ActionNotFound m z \/
      In m (action_names s) /\ first_bad (fun _ => arg_ok vars) (fun _ => arg_bad x vars) args z
  | Ok (ExtCall e args recv) =>
      ~ In e (ext_names s) /\ says ExtensionNotFound e z \/
      In e (ext_names s) /\
        (first_bad (fun _ => arg_ok vars) (fun _ => arg_bad x vars) args z \/
         Forall (arg_ok vars) args /\ first_bad (fresh (fun r => r)) (dup (fun r => r) DuplicateVariable) recv z)
  | Ok OtherStmt => False
  | r => passes_on r st z
  end.

Definition body_bad (x : externals) (s : schema) (a : action) (z : report) : Prop :=
  first_bad (fun pre st => stmt_ok x s (elems (ac_inputs a) ++ concat (map (receivers x) pre)) st)
    (fun pre st z => stmt_bad x s (elems (ac_inputs a) ++ concat (map (receivers x) pre)) st z) (elems (ac_stmts a)) z.

(** The phases in order; a phase is looked at when the ones before it are clean. *)
Definition exts_bad (s : schema) (z : report) : Prop :=
  first_bad (fresh ext_name) (dup ext_name DuplicateExtension) (elems (sc_exts s)) z.
Definition tables_bad (s : schema) (z : report) : Prop :=
  first_bad (fun pre t => fresh tb_name pre t /\ valid_table t)
    (fun pre t z => dup tb_name DuplicateTable pre t z \/ fresh tb_name pre t /\ table_bad t z) (elems (sc_tables s)) z.
Definition actions_bad (s : schema) (z : report) : Prop :=
  first_bad (fun pre a => fresh ac_name pre a /\ NoDup (elems (ac_inputs a)))
    (fun pre a z => dup ac_name DuplicateAction pre a z \/
       fresh ac_name pre a /\ first_bad (fresh (fun i => i)) (dup (fun i => i) DuplicateParam) (elems (ac_inputs a)) z)
    (elems (sc_actions s)) z.
Definition fks_bad (s : schema) (z : report) : Prop :=
  first_bad (fun _ t => Forall (valid_fk s t) (elems (tb_fks t)))
    (fun _ t z => first_bad (fun _ f => valid_fk s t f) (fun _ f z => fk_bad s t f z) (elems (tb_fks t)) z)
    (elems (sc_tables s)) z.
Definition bodies_bad (x : externals) (s : schema) (z : report) : Prop :=
  first_bad (fun _ a => valid_body x s a) (fun _ a z => body_bad x s a z) (elems (sc_actions s)) z.

Definition exts_clean (s : schema) : Prop := NoDup (ext_names s).
Definition tables_clean (s : schema) : Prop :=
  NoDup (map tb_name (elems (sc_tables s))) /\ forall t, In t (elems (sc_tables s)) -> valid_table t.
Definition actions_clean (s : schema) : Prop :=
  NoDup (action_names s) /\ forall a, In a (elems (sc_actions s)) -> NoDup (elems (ac_inputs a)).
Definition fks_clean (s : schema) : Prop :=
  forall t f, In t (elems (sc_tables s)) -> In f (elems (tb_fks t)) -> valid_fk s t f.

Definition invalid_schema (x : externals) (s : schema) (z : report) : Prop :=
  exts_bad s z
  \/ exts_clean s /\ tables_bad s z
  \/ exts_clean s /\ tables_clean s /\ actions_bad s z
  \/ exts_clean s /\ tables_clean s /\ actions_clean s /\ fks_bad s z
  \/ exts_clean s /\ tables_clean s /\ actions_clean s /\ fks_clean s /\ bodies_bad x s z.
