(** The parser's result, as far as the rest of ParseKF depends on it: some parse tree of the text if the text is
    syntactically valid, and reported errors otherwise.  Which tree is left open. *)
From Verif Require Import LexSpec Grammar Tree TreeSpec ParseSpec.

Definition tree_of_text (text : str) (t : tree) : Prop := exists ts, tokens_of text ts /\ parse_tree_of (drop_layout ts) t.
Definition parser_gave (text : str) (pt : option tree) : Prop :=
  match pt with Some t => tree_of_text text t | None => ~ syntactically_valid text end.

(** A node of a tree. *)
Inductive below : tree -> tree -> Prop :=
| b_self t : below t t
| b_child n cs c t : In c cs -> below c t -> below (Node n cs) t.
