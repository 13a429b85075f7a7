(** What a program says in its own words (specification of C69). *)
From Coq Require Import Permutation.
From Verif Require Import Tokens Schema Grammar Denote.

(** Words the writer chooses: names, parameters, numbers, strings, and init, which is an action's name. *)
Definition free_word (t : tt) : bool := match literal_of t with None => true | Some _ => tt_eqb t INIT_ end.
(** A program in chunks: a statement, an annotation, or a single token. *)
Definition chunk (c : list tok) : Prop := (exists x, c = [x]) \/ (exists st, w_stmt st c) \/ (exists an, w_annotation an c).
(** The text of a chunk, if it is one the writer chooses *)
Definition chunk_text (c : list tok) : list str :=
  match c with [x] => if free_word (ty x) then [tx x] else [] | _ => [chars c] end.

(** Everything that a schema stores in the writer's words *)
Definition attribute_words (a : attribute) : list str := match at_value a with Some v => [v] | None => [] end.
Definition column_words (c : column) : list str := co_name c :: flat_map attribute_words (elems (co_attrs c)).
Definition index_words (i : tindex) : list str := (lit "#" ++ ix_name i) :: elems (ix_cols i).
Definition fkey_words (f : fkey) : list str := elems (fk_child f) ++ fk_table f :: elems (fk_parent f).
Definition table_words (t : table) : list str :=
  tb_name t :: flat_map column_words (elems (tb_cols t)) ++ flat_map index_words (elems (tb_idx t)) ++ flat_map fkey_words (elems (tb_fks t)).
Definition config_words (c : extconfig) : list str := [ec_arg c; ec_val c].
Definition extension_words (e : extension) : list str := ex_name e :: flat_map config_words (elems (ex_config e)) ++ [ex_alias e].
Definition action_words (a : action) : list str := map (fun an => lit "@" ++ an) (elems (ac_annots a)) ++ ac_name a :: elems (ac_inputs a) ++ elems (ac_stmts a).
Definition schema_words (s : schema) : list str :=
  sc_name s :: flat_map extension_words (elems (sc_exts s)) ++ flat_map table_words (elems (sc_tables s)) ++ flat_map action_words (elems (sc_actions s)).
(** The tokens consist of chunks whose texts are the words [l], each as often. *)
Definition says_words (ts : list tok) (l : list str) : Prop :=
  exists cs, ts = concat cs /\ Forall chunk cs /\ Permutation (flat_map chunk_text cs) l.
