(** Schemas that can be written as text (specification of C31), and call statements whose stored text keeps its tokens (C32). *)
From Verif Require Import Tokens LexSpec Schema Grammar Denote NameSpec.

(** Nothing to store is a nil slice, never an empty one. *)
Definition nil_if_empty {A} (s : slice A) : Prop := s <> Some [].

(** An SQL statement with its semicolon, or the characters of a call. *)
Definition statement (st : str) : Prop :=
  (exists q, st = q ++ lit ";" /\ token_shape SQL_STMT q) \/ (exists ts, derives (R call_stmt) ts /\ lexed ts /\ st = chars ts).
(** An annotation, without its '@'. *)
Definition annotation (an : str) : Prop := exists ts, derives (R annotation_decl) ts /\ lexed ts /\ chars ts = lit "@" ++ an.

Definition plain_column (c : column) : Prop := good_column c /\ nil_if_empty (co_attrs c).
Definition plain_fkey (f : fkey) : Prop := good_fkey f /\ nil_if_empty (fk_acts f).
Definition plain_table (t : table) : Prop :=
  good_table t /\ nil_if_empty (tb_idx t) /\ nil_if_empty (tb_fks t) /\
  Forall plain_column (elems (tb_cols t)) /\ Forall plain_fkey (elems (tb_fks t)).
Definition plain_extension (e : extension) : Prop := good_extension e /\ nil_if_empty (ex_config e).
Definition plain_action (a : action) : Prop :=
  good_action a /\ nil_if_empty (ac_annots a) /\ nil_if_empty (ac_inputs a) /\
  Forall annotation (elems (ac_annots a)) /\ Forall statement (elems (ac_stmts a)).
Definition plain_init (a : action) : Prop := init_block a /\ Forall statement (elems (ac_stmts a)).

(** No owner, proper names and values, nil for nothing, statements and annotations that are such; at most one init block, last. *)
Definition plain_schema (s : schema) : Prop :=
  sc_owner s = [] /\ good_name (sc_name s) /\
  nil_if_empty (sc_exts s) /\ Forall plain_extension (elems (sc_exts s)) /\
  nil_if_empty (sc_tables s) /\ Forall plain_table (elems (sc_tables s)) /\
  nil_if_empty (sc_actions s) /\
  (exists ac ini, elems (sc_actions s) = ac ++ ini /\ (length ini <= 1)%nat /\ Forall plain_action ac /\ Forall plain_init ini).

(** Two neighbours that become one word when the space between them is dropped: a word operator before a name, a number or
    another "not"; a variable before "and" or "or". *)
Definition merges (t t' : tok) : Prop :=
  In (ty t) [NOT_; AND_; OR_] /\ In (ty t') [IDENTIFIER; UNSIGNED_NUMBER_LITERAL; NOT_]
  \/ In (ty t) [PARAM_OR_VAR; BLOCK_VAR_OR_ANNOTATION] /\ In (ty t') [AND_; OR_].
Definition neighbours (ts : list tok) (t t' : tok) : Prop := exists a b, ts = a ++ t :: t' :: b.
