(** Line ends written as LF or as CR LF (specification of C64). *)
From Verif Require Import Tokens Schema.
Local Open Scope N_scope.

(** The text with a CR put in front of every LF. *)
Fixpoint crlf (t : str) : str :=
  match t with [] => [] | c :: r => if c =? 10 then 13 :: 10 :: crlf r else c :: crlf r end.
(** The text without the CRs directly in front of an LF. *)
Fixpoint lf (t : str) : str :=
  match t with
  | [] => []
  | c :: r => if (c =? 13) && match r with d :: _ => d =? 10 | [] => false end then lf r else c :: lf r
  end.
(** The schema with another text for each statement of each action. *)
Definition edit_action (g : str -> str) (a : action) : action :=
  Action (ac_name a) (ac_annots a) (ac_inputs a) (ac_public a) (ac_mut a) (ac_aux a) (option_map (map g) (ac_stmts a)).
Definition edit_statements (g : str -> str) (s : schema) : schema :=
  Schema (sc_owner s) (sc_name s) (sc_tables s) (option_map (map (edit_action g)) (sc_actions s)) (sc_exts s).
