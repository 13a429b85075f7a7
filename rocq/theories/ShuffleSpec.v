(** The same declarations with their parts in another order. *)
From Coq Require Import Permutation.
From Verif Require Import Schema ValidSpec.

(** The members of [l], each replaced by one it is related to, in any order. *)
Definition mixed {A} (R : A -> A -> Prop) (l l' : list A) : Prop := exists m, Permutation l m /\ Forall2 R m l'.

(** A column with its attributes in another order *)
Definition mixed_column (c c' : column) : Prop :=
  co_name c' = co_name c /\ co_type c' = co_type c /\ Permutation (elems (co_attrs c)) (elems (co_attrs c')).
(** An index with its columns in another order *)
Definition mixed_index (i i' : tindex) : Prop :=
  ix_name i' = ix_name i /\ ix_type i' = ix_type i /\ Permutation (elems (ix_cols i)) (elems (ix_cols i')).
(** A foreign key with its actions in another order, and its columns and the columns they refer to *)
Definition mixed_fkey (f f' : fkey) : Prop :=
  fk_table f' = fk_table f /\ Permutation (elems (fk_child f)) (elems (fk_child f')) /\
  Permutation (elems (fk_parent f)) (elems (fk_parent f')) /\ Permutation (elems (fk_acts f)) (elems (fk_acts f')).
(** A table with its columns, indexes and foreign keys in another order.  Where an index lists another index, the indexes stay in order. *)
Definition mixed_table (t t' : table) : Prop :=
  tb_name t' = tb_name t /\ mixed mixed_column (elems (tb_cols t)) (elems (tb_cols t')) /\ mixed mixed_fkey (elems (tb_fks t)) (elems (tb_fks t')) /\
  (Forall2 mixed_index (elems (tb_idx t)) (elems (tb_idx t')) \/
   mixed mixed_index (elems (tb_idx t)) (elems (tb_idx t')) /\ forall i, In i (elems (tb_idx t)) -> incl (elems (ix_cols i)) (col_names t ++ [ix_name i])).
(** An action with its parameters in another order, any annotations, any modifiers; its statements stay in order. *)
Definition mixed_action (a a' : action) : Prop :=
  ac_name a' = ac_name a /\ Permutation (elems (ac_inputs a)) (elems (ac_inputs a')) /\ elems (ac_stmts a') = elems (ac_stmts a).
(** An extension with any configuration *)
Definition mixed_extension (e e' : extension) : Prop := ex_name e' = ex_name e /\ ex_alias e' = ex_alias e.
(** A schema with all of these in another order, and any database name *)
Definition mixed_schema (s s' : schema) : Prop :=
  mixed mixed_table (elems (sc_tables s)) (elems (sc_tables s')) /\ mixed mixed_action (elems (sc_actions s)) (elems (sc_actions s')) /\
  mixed mixed_extension (elems (sc_exts s)) (elems (sc_exts s')).
(** Only the statements of actions, or the indexes of tables, in another order *)
Definition statements_mixed (s s' : schema) : Prop :=
  elems (sc_tables s') = elems (sc_tables s) /\ elems (sc_exts s') = elems (sc_exts s) /\
  Forall2 (fun a a' => ac_name a' = ac_name a /\ elems (ac_inputs a') = elems (ac_inputs a) /\ Permutation (elems (ac_stmts a)) (elems (ac_stmts a'))) (elems (sc_actions s)) (elems (sc_actions s')).
Definition indexes_mixed (s s' : schema) : Prop :=
  elems (sc_actions s') = elems (sc_actions s) /\ elems (sc_exts s') = elems (sc_exts s) /\
  Forall2 (fun t t' => tb_name t' = tb_name t /\ elems (tb_cols t') = elems (tb_cols t) /\ elems (tb_fks t') = elems (tb_fks t) /\ Permutation (elems (tb_idx t)) (elems (tb_idx t'))) (elems (sc_tables s)) (elems (sc_tables s')).
