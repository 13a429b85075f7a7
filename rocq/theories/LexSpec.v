(** What a token may look like, written directly on characters (no regular expressions):
    the specification side of the lexer properties. *)
From Verif Require Import Tokens.
Local Open Scope N_scope.

Definition is_letter (c : N) : bool := ((65 <=? c) && (c <=? 90)) || ((97 <=? c) && (c <=? 122)).
Definition is_digit (c : N) : bool := (48 <=? c) && (c <=? 57).
Definition is_wordch (c : N) : bool := is_letter c || is_digit c || (c =? 95).
Definition is_blank (c : N) : bool := (c =? 9) || (c =? 32).
Definition is_nl (c : N) : bool := (c =? 10) || (c =? 13).
Definition is_wsnl (c : N) : bool := is_blank c || is_nl c.

(** A letter followed by letters, digits and underscores. *)
Definition ident (s : str) : Prop :=
  exists c w, s = c :: w /\ is_letter c = true /\ Forall (fun x => is_wordch x = true) w.

(** ASCII lower case. *)
Definition lower1 (c : N) : N := if (65 <=? c) && (c <=? 90) then c + 32 else c.
Definition lower (s : str) : str := map lower1 s.

Definition sql_words : list str := [lit "select"; lit "insert"; lit "update"; lit "delete"; lit "with"].
(** One of the five SQL words in any mixture of cases. *)
Definition sqlkw (s : str) : Prop := In (lower s) sql_words.

(** Characters between the quotes: anything but CR, LF, quote, backslash; or backslash and any one character. *)
Inductive strbody : str -> Prop :=
| sb_nil : strbody []
| sb_chr c s : c <> 10 -> c <> 13 -> c <> 39 -> c <> 92 -> strbody s -> strbody (c :: s)
| sb_esc c s : strbody s -> strbody (92 :: c :: s).

(** [p] occurs in [s]. *)
Definition occurs (p s : str) : Prop := exists a b, s = a ++ p ++ b.

(** The texts each token type stands for. *)
Definition token_shape (t : tt) (s : str) : Prop :=
  match literal_of t with
  | Some w => s = w
  | None =>
    match t with
    | SELECT_ => lower s = lit "select"
    | INSERT_ => lower s = lit "insert"
    | UPDATE_ => lower s = lit "update"
    | DELETE_ => lower s = lit "delete"
    | WITH_ => lower s = lit "with"
    | IDENTIFIER => ident s
    | INDEX_NAME => exists w, s = lit "#" ++ w /\ ident w
    | PARAM_OR_VAR => exists w, s = lit "$" ++ w /\ ident w
    | BLOCK_VAR_OR_ANNOTATION => exists w, s = lit "@" ++ w /\ ident w
    | UNSIGNED_NUMBER_LITERAL => s <> [] /\ Forall (fun x => is_digit x = true) s
    | STRING_LITERAL => exists b, s = lit "'" ++ b ++ lit "'" /\ strbody b
    | SQL_KEYWORDS => sqlkw s
    | SQL_STMT => exists k c d r, s = k ++ c :: d :: r /\ sqlkw k /\ is_wsnl c = true
                    /\ Forall (fun x => x <> 59 /\ x <> 125) (d :: r)
    | WS => s = [9] \/ s = [32]
    | TERMINATOR => s = [10] \/ s = [13]
    | BLOCK_COMMENT => exists b, s = lit "/*" ++ b ++ lit "*/"
                         /\ (forall x y, b ++ lit "*/" = x ++ lit "*/" ++ y -> y = [])
    | LINE_COMMENT => exists b, s = lit "//" ++ b /\ Forall (fun x => x <> 10 /\ x <> 13) b
    | _ => False
    end
  end.

(** [t] is the next token of text [s]: the longest prefix any rule describes, the earliest rule on ties. *)
Definition first_token (s : str) (t : tok) (rest : str) : Prop :=
  s = tx t ++ rest /\ tx t <> [] /\ token_shape (ty t) (tx t)
  /\ (forall k u r, s = u ++ r -> token_shape k u -> (length u <= length (tx t))%nat)
  /\ (forall k, token_shape k (tx t) -> (tt_num (ty t) <= tt_num k)%nat).

(** A text and its tokens, white space and comments included. *)
Inductive tokens_of : str -> list tok -> Prop :=
| to_nil : tokens_of [] []
| to_cons s t rest ts : first_token s t rest -> tokens_of rest ts -> tokens_of s (t :: ts).

(** White space and comments are not passed to the parser. *)
Definition is_layout (t : tt) : bool :=
  match t with WS | TERMINATOR | BLOCK_COMMENT | LINE_COMMENT => true | _ => false end.
Definition drop_layout (ts : list tok) : list tok := filter (fun t => negb (is_layout (ty t))) ts.

(** Proper tokens: the text of each has the shape of its kind and of no earlier kind. *)
Definition prio (t : tok) : Prop := forall k, token_shape k (tx t) -> (tt_num (ty t) <= tt_num k)%nat.
Definition lexed (ts : list tok) : Prop := Forall (fun t => token_shape (ty t) (tx t) /\ prio t) ts.
