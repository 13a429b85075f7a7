(** Giving the declared things other names. *)
From Verif Require Import Schema Validator ValidSpec.

(** New names for tables, for columns and indexes, for actions, extensions (aliases) and variables, and new texts for the statements,
    which use these names.  Column types, attributes and everything else stay. *)
Record renaming := Renaming { rn_table : str -> str; rn_member : str -> str; rn_action : str -> str; rn_ext : str -> str; rn_var : str -> str; rn_stmt : str -> str }.
Definition each_of {A} (f : A -> A) (s : slice A) : slice A := option_map (map f) s.
Definition rename_column (r : renaming) (c : column) : column := Column (rn_member r (co_name c)) (co_type c) (co_attrs c).
Definition rename_index (r : renaming) (i : tindex) : tindex := Index (rn_member r (ix_name i)) (each_of (rn_member r) (ix_cols i)) (ix_type i).
Definition rename_fk (r : renaming) (f : fkey) : fkey := FKey (each_of (rn_member r) (fk_child f)) (each_of (rn_member r) (fk_parent f)) (rn_table r (fk_table f)) (fk_acts f).
Definition rename_table (r : renaming) (t : table) : table :=
  Table (rn_table r (tb_name t)) (each_of (rename_column r) (tb_cols t)) (each_of (rename_index r) (tb_idx t)) (each_of (rename_fk r) (tb_fks t)).
Definition rename_action (r : renaming) (a : action) : action :=
  Action (rn_action r (ac_name a)) (ac_annots a) (each_of (rn_var r) (ac_inputs a)) (ac_public a) (ac_mut a) (ac_aux a) (each_of (rn_stmt r) (ac_stmts a)).
Definition rename_extension (r : renaming) (e : extension) : extension := Extension (rn_ext r (ex_name e)) (ex_config e) (rn_ext r (ex_alias e)).
Definition renamed (r : renaming) (s : schema) : schema :=
  Schema (sc_owner s) (sc_name s) (each_of (rename_table r) (sc_tables s)) (each_of (rename_action r) (sc_actions s)) (each_of (rename_extension r) (sc_exts s)).

Definition injective (f : str -> str) : Prop := forall a b, f a = f b -> a = b.
Definition starts_with (c : str) (p : str) : Prop := exists q, p = c ++ q.
(** Different names stay different; no name becomes or stops being empty; variables stay variables, and @caller stays what it is. *)
Record faithful (r : renaming) : Prop := {
  fa_table : injective (rn_table r); fa_member : injective (rn_member r); fa_action : injective (rn_action r); fa_ext : injective (rn_ext r); fa_var : injective (rn_var r);
  fa_alias : forall n, rn_ext r n = [] <-> n = [];
  fa_dollar : forall p, starts_with (lit "$") (rn_var r p) <-> starts_with (lit "$") p;
  fa_at : forall p, starts_with (lit "@") (rn_var r p) <-> starts_with (lit "@") p;
  fa_caller : forall p, rn_var r p = lit "@caller" <-> p = lit "@caller"
}.
(** The new statements mean to the imported parsers (of the second program) what the old ones do (to those of the first), with the new names. *)
Definition rename_arg (r : renaming) (a : arg) : arg := match a with ABind p => ABind (rn_var r p) | AExpr => AExpr end.
Definition rename_meaning (r : renaming) (m : stmt) : stmt :=
  match m with
  | ActionCall a args => ActionCall (rn_action r a) (map (rename_arg r) args)
  | ExtCall e args recv => ExtCall (rn_ext r e) (map (rename_arg r) args) (map (rn_var r) recv)
  | Dml => Dml | OtherStmt => OtherStmt
  end.
Definition rename_res (r : renaming) (m : res stmt) : res stmt := match m with Ok a => Ok (rename_meaning r a) | Err e => Err e | Panic p => Panic p end.
Definition same_meaning (r : renaming) (x x' : externals) : Prop :=
  forall st, act_parse x' (rn_stmt r st) = rename_res r (act_parse x st) /\ sql_parse x' (rn_stmt r st) = sql_parse x st /\ to_sql x' (rn_stmt r st) = to_sql x st.
(** Two reports of the same kind of fault: the same error before the colon, or the same panic. *)
Definition same_kind (z z' : report) : Prop :=
  match z, z' with inl (EWrap e _), inl (EWrap e' _) => e = e' | inr p, inr p' => p = p' | _, _ => False end.
