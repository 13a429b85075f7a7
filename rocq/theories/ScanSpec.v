(** What the token source has to yield, on characters: the specification of the generated lexer with its error recovery.
    Token kinds and their texts are those of LexSpec.v. *)
From Verif Require Import Tokens LexSpec.
Local Open Scope N_scope.

(** A token (number of its kind, hidden from the parser or not, text) or an error (the text skipped). *)
Inductive item := Seen (kind : nat) (hid : bool) (text : str) | Skipped (text : str).

(** [v] can be continued to a token. *)
Definition promising (v : str) : Prop := exists k w, token_shape k (v ++ w).
(** The text skipped at the start of [s]: as long as it promises a token, and the character that ends the promise if any. *)
Definition skipped (s u rest : str) : Prop :=
  s = u ++ rest /\ u <> [] /\
  ((exists v c, u = v ++ [c] /\ promising v /\ ~ promising u) \/ (promising u /\ rest = [])).

Inductive scanned : str -> list item -> Prop :=
| sc_end : scanned [] []
| sc_token s t rest l : first_token s t rest -> scanned rest l ->
    scanned s (Seen (tt_num (ty t)) (is_layout (ty t)) (tx t) :: l)
| sc_error s u rest l : (forall k v r, s = v ++ r -> ~ token_shape k v) -> skipped s u rest -> scanned rest l ->
    scanned s (Skipped u :: l).

(** Unicode code points: the characters of a Go string converted to runes. *)
Definition code_points (s : str) : Prop := Forall (fun c => c <= 1114111) s.
