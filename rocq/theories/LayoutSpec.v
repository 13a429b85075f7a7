(** Ways to lay out a sequence of visible tokens as text (specification of C04, C31, C32). *)
From Verif Require Import Tokens LexSpec.
Local Open Scope N_scope.

(** A token of kind [k] directly followed by [c] may be read as part of a longer token. *)
Definition extends (k : tt) (c : N) : bool :=
  match k with
  | DIV => (c =? 47) || (c =? 42)
  | PIPE => c =? 124
  | LT => (c =? 60) || (c =? 61) || (c =? 62)
  | GT => (c =? 61) || (c =? 62)
  | ASSIGN => c =? 61
  | DOLLAR | HASH | AT => is_letter c
  | IDENTIFIER | INDEX_NAME | PARAM_OR_VAR | BLOCK_VAR_OR_ANNOTATION => is_wordch c
  | UNSIGNED_NUMBER_LITERAL => is_digit c
  | SELECT_ | INSERT_ | UPDATE_ | DELETE_ | WITH_ | SQL_KEYWORDS => is_wordch c || is_wsnl c
  | SQL_STMT => negb ((c =? 59) || (c =? 125))
  | LINE_COMMENT => negb (is_nl c)
  | _ => match literal_of k with Some (a :: _) => is_letter a && is_wordch c | _ => false end
  end.

(** [laid_out vs s]: the text [s] consists of the tokens [vs] in order, with blanks, line breaks and comments anywhere between
    them; a token must not be directly followed by a character that may extend it, a line comment ends at a line break. *)
Inductive laid_out : list tok -> str -> Prop :=
| lo_end : laid_out [] []
| lo_tok t vs s : laid_out vs s -> (forall c r, s = c :: r -> extends (ty t) c = false) -> laid_out (t :: vs) (tx t ++ s)
| lo_blank c vs s : is_wsnl c = true -> laid_out vs s -> laid_out vs (c :: s)
| lo_block b vs s : ~ occurs (lit "*/") (b ++ lit "*") -> laid_out vs s -> laid_out vs (lit "/*" ++ b ++ lit "*/" ++ s)
| lo_line b vs s : Forall (fun x => is_nl x = false) b -> (forall c r, s = c :: r -> is_nl c = true) -> laid_out vs s ->
    laid_out vs (lit "//" ++ b ++ s).

(** White space and closed comments. *)
Inductive gap : str -> Prop :=
| gap_nil : gap []
| gap_blank c g : is_wsnl c = true -> gap g -> gap (c :: g)
| gap_block b g : ~ occurs (lit "*/") (b ++ lit "*") -> gap g -> gap (lit "/*" ++ b ++ lit "*/" ++ g)
| gap_line b n g : Forall (fun x => is_nl x = false) b -> is_nl n = true -> gap g -> gap (lit "//" ++ b ++ n :: g).
