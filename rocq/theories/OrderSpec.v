(** Programs as sequences of declarations: what is said about their order. *)
From Coq Require Import Permutation.
From Verif Require Import LexSpec Grammar Schema Denote.

(** A declaration: a table, an action, or the init block (an action without name and parameters of its own). *)
Inductive decl := DTable (t : table) | DAction (a : action) | DInit (a : action).
Definition w_decl (d : decl) (ts : list tok) : Prop :=
  match d with DTable t => w_table t ts | DAction a => w_action a ts | DInit a => w_init a ts end.
(** The text is a database directive, extensions, and the declarations [ds] one after the other (each with its tokens), with any layout. *)
Definition arranged (n : str) (xs : list extension) (ds : list (decl * list tok)) (text : str) : Prop :=
  exists ts tx, tokens_of text ts /\ series w_extension xs tx /\ Forall (fun d => w_decl (fst d) (snd d)) ds /\
    drop_layout ts = [fixed DATABASE_; Tok IDENTIFIER n; fixed SCOL] ++ tx ++ concat (map snd ds).

(** What is declared, kind by kind *)
Definition tables_in (l : list decl) : list table := flat_map (fun d => match d with DTable t => [t] | _ => [] end) l.
Definition actions_in (l : list decl) : list action := flat_map (fun d => match d with DAction a => [a] | _ => [] end) l.
Definition inits_in (l : list decl) : list action := flat_map (fun d => match d with DInit a => [a] | _ => [] end) l.
Definition go_list {A} (l : list A) : slice A := match l with [] => None | _ => Some l end.
Definition schema_of (n : str) (xs : list extension) (l : list decl) : schema :=
  Schema [] n (go_list (tables_in l)) (go_list (actions_in l ++ inits_in l)) (go_list xs).
(** The same tables and actions, in another order *)
Definition reordered (s s' : schema) : Prop :=
  sc_owner s' = sc_owner s /\ sc_name s' = sc_name s /\ sc_exts s' = sc_exts s /\
  Permutation (elems (sc_tables s)) (elems (sc_tables s')) /\ Permutation (elems (sc_actions s)) (elems (sc_actions s')).
