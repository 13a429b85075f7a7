(** Names and values a schema contains, and what they may look like. *)
From Verif Require Import Tokens LexSpec Schema.

(** The reserved words of the language. *)
Definition reserved : list str :=
  [lit "database"; lit "use"; lit "as"; lit "table"; lit "action"; lit "init"; lit "public"; lit "private"; lit "view"; lit "owner";
   lit "int"; lit "text"; lit "blob"; lit "min"; lit "max"; lit "minlen"; lit "maxlen"; lit "notnull"; lit "primary"; lit "default";
   lit "unique"; lit "index"; lit "foreign_key"; lit "fk"; lit "references"; lit "ref"; lit "on_update"; lit "on_delete"; lit "do";
   lit "no_action"; lit "cascade"; lit "set_null"; lit "set_default"; lit "restrict"; lit "not"; lit "and"; lit "or"].

(** An identifier that is not reserved and not an SQL keyword in any case. *)
Definition good_name (n : str) : Prop := ident n /\ ~ In n reserved /\ ~ sqlkw n.

Definition digits_only (v : str) : Prop := v <> [] /\ Forall (fun c => is_digit c = true) v.
Definition quoted (v : str) : Prop := exists b, v = lit "'" ++ b ++ lit "'" /\ strbody b.
Definition literal_text_ok (v : str) : Prop := digits_only v \/ quoted v.

Definition good_attribute (a : attribute) : Prop :=
  In (at_type a) [lit "primary_key"; lit "not_null"; lit "unique"] /\ at_value a = None
  \/ (exists v, at_type a = lit "default" /\ at_value a = Some v /\ literal_text_ok v)
  \/ (exists v, In (at_type a) [lit "min"; lit "max"; lit "min_length"; lit "max_length"] /\ at_value a = Some v /\ digits_only v).

Definition good_column (c : column) : Prop :=
  good_name (co_name c) /\ In (co_type c) [lit "int"; lit "text"; lit "blob"] /\ Forall good_attribute (elems (co_attrs c)).
(** An index name is an identifier; it may be a reserved word. *)
Definition good_index (i : tindex) : Prop :=
  ident (ix_name i) /\ Forall good_name (elems (ix_cols i)) /\ elems (ix_cols i) <> [] /\
  In (ix_type i) [lit "btree"; lit "unique_btree"; lit "primary"].
Definition good_fkaction (a : fkaction) : Prop :=
  In (fk_on a) [lit "UPDATE"; lit "DELETE"] /\
  In (fk_do a) [lit "NO ACTION"; lit "CASCADE"; lit "SET NULL"; lit "SET DEFAULT"; lit "RESTRICT"].
Definition good_fkey (f : fkey) : Prop :=
  good_name (fk_table f) /\ Forall good_name (elems (fk_child f)) /\ elems (fk_child f) <> [] /\
  Forall good_name (elems (fk_parent f)) /\ elems (fk_parent f) <> [] /\ Forall good_fkaction (elems (fk_acts f)).
Definition good_table (t : table) : Prop :=
  good_name (tb_name t) /\ Forall good_column (elems (tb_cols t)) /\ elems (tb_cols t) <> [] /\
  Forall good_index (elems (tb_idx t)) /\ Forall good_fkey (elems (tb_fks t)).
Definition good_extension (e : extension) : Prop :=
  good_name (ex_name e) /\ good_name (ex_alias e) /\
  Forall (fun c => good_name (ec_arg c) /\ literal_text_ok (ec_val c)) (elems (ex_config e)).
(** '$' and an identifier. *)
Definition good_param (p : str) : Prop := exists w, p = lit "$" ++ w /\ ident w.
Definition good_action (a : action) : Prop :=
  good_name (ac_name a) /\ Forall good_param (elems (ac_inputs a)) /\ elems (ac_stmts a) <> [] /\
  In (ac_mut a) [lit "update"; lit "view"] /\ (ac_aux a = None \/ ac_aux a = Some [lit "owner"]).
(** The init block: no inputs, no annotations, private, updating. *)
Definition init_block (a : action) : Prop :=
  exists body, body <> [] /\ a = Action (lit "init") None None false (lit "update") None (Some body).
