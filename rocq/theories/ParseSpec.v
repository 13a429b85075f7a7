(** What ParseKF does, said without the implementation: syntax by the grammar, meaning by [denotes], validity by
    [valid_schema]. *)
From Verif Require Import LexSpec Grammar Cst Schema Denote FaultSpec Validator ValidSpec ParseKF.

(** The text splits into tokens that form a program. *)
Definition syntactically_valid (text : str) : Prop := exists ts, tokens_of text ts /\ program (drop_layout ts).
(** The text writes the schema [s]. *)
Definition writes (text : str) (s : schema) : Prop := exists ts, tokens_of text ts /\ denotes (drop_layout ts) s.
(** The text writes a schema and the schema is valid. *)
Definition accepted (w : world) (text : str) (s : schema) : Prop := writes text s /\ valid_schema (w_ext w) s.

(** The text is syntactically valid but has a faulty declaration: too many init blocks, or a repeated action attribute. *)
Definition misdeclared (text : str) (e : gerr) : Prop :=
  exists ts, tokens_of text ts /\ program (drop_layout ts) /\ program_fault (drop_layout ts) e.
(** The error a validation report becomes (a panic value is turned into an error). *)
Definition report_error (z : report) : gerr :=
  match z with inl e => e | inr (PStr s) => ENew s | inr (PErr e) => e | inr (POther s) => ENew (lit "unknown panic : " ++ s) end.

(** The errors of an outcome. *)
Definition first_error (o : outcome) : option gerr := hd_error (o_listener o).
(** An error not made by this module: errors.Is finds none of the module's sentinels in it. *)
Definition foreign_error (e : gerr) : Prop := forall s, chain_is e s = false.
Definition foreign_res {A} (r : res A) : Prop :=
  match r with Ok _ => True | Err e => foreign_error e | Panic (PErr e) => foreign_error e | Panic _ => True end.
Definition foreign_world (w : world) : Prop :=
  forall st, foreign_res (act_parse (w_ext w) st) /\ foreign_res (sql_parse (w_ext w) st) /\ foreign_res (to_sql (w_ext w) st).
