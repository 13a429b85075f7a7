(** What ParseAnnotation finds, said without regular expressions. *)
From Verif Require Import Tokens LexSpec Schema Denote.
Local Open Scope N_scope.

(** White space of the expression: blank, tab, line feed, form feed, carriage return. *)
Definition spaces (s : str) : Prop := Forall (fun c => In c [32; 9; 10; 12; 13]) s.
Definition word (s : str) : Prop := s <> [] /\ Forall (fun c => is_wordch c = true) s.
Definition number (s : str) : Prop := s <> [] /\ Forall (fun c => is_digit c = true) s.
(** A quoted text without quote and line feed inside. *)
Definition simple_text (s : str) : Prop := exists b, s = lit "'" ++ b ++ lit "'" /\ Forall (fun c => c <> 39 /\ c <> 10) b.

(** [s] starts with "name = value", followed by [r].  A number extends over all its digits. *)
Definition attribute_at (s name value r : str) : Prop :=
  exists sp1 sp2, s = name ++ sp1 ++ lit "=" ++ sp2 ++ value ++ r /\ word name /\ spaces sp1 /\ spaces sp2 /\
    (number value /\ (forall c r', r = c :: r' -> is_digit c = false) \/ simple_text value).
Definition starts_attribute (s : str) : Prop := exists n v r, attribute_at s n v r.

(** The attributes found in a text: the first one that starts anywhere, then those after it. *)
Inductive attributes_in : str -> list (str * str) -> Prop :=
| ai_none s : (forall a b, s = a ++ b -> ~ starts_attribute b) -> attributes_in s []
| ai_one s skip here n v r l : s = skip ++ here -> attribute_at here n v r ->
    (forall a b, skip = a ++ b -> b <> [] -> ~ starts_attribute (b ++ here)) ->
    attributes_in r l -> attributes_in s ((n, v) :: l).

(** Something before the first "(", and ")" at the end. *)
Definition call_form (s target body : str) : Prop := s = target ++ lit "(" ++ body ++ lit ")" /\ ~ In 40 target /\ (3 <= length s)%nat.

(** The target and attributes written by the tokens of an annotation: @target(name=value, ...). *)
Inductive w_attr : str * str -> list tok -> Prop :=
| w_attr_ n v ts : w_value v ts -> w_attr (n, v) (Tok IDENTIFIER n :: fixed ASSIGN :: ts).
Inductive w_call : str -> list (str * str) -> list tok -> Prop :=
| w_call_ t l ts : listed w_attr l ts -> w_call t l (Tok BLOCK_VAR_OR_ANNOTATION (lit "@" ++ t) :: fixed L_PAREN :: ts ++ [fixed R_PAREN]).
(** A value ParseAnnotation can find: digits, or a quoted text without inner quote and line feed. *)
Definition simple_value (v : str) : Prop := number v \/ simple_text v.
