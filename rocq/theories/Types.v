(** schema/types.go: the look-ups GetColumnType, GetAttributeType, GetIndexType.  Strings are byte strings here. *)
From Verif Require Import Str Utf8.
Local Open Scope N_scope.

(** strings.ToLower (Go): bytes A-Z of an ASCII string directly; otherwise rune by rune with unicode.ToLower ([f]), ill-formed
    bytes becoming U+FFFD. *)
Definition lower_byte (c : N) : N := if (65 <=? c) && (c <=? 90) then c + 32 else c.
Definition to_lower (f : N -> N) (s : list N) : list N :=
  if forallb (fun c => c <? 128) s then map lower_byte s else bytes_of (map f (runes s)).

(** types.go 13-18, 33-38 *)
Definition column_types : list (list N * list N) :=
  [(lit "null", lit "null"); (lit "text", lit "text"); (lit "int", lit "int"); (lit "blob", lit "blob")].
(** types.go 43-52, 68-77 *)
Definition attribute_types : list (list N * list N) :=
  [(lit "primary", lit "primary_key"); (lit "unique", lit "unique"); (lit "notnull", lit "not_null"); (lit "default", lit "default");
   (lit "min", lit "min"); (lit "max", lit "max"); (lit "minlen", lit "min_length"); (lit "maxlen", lit "max_length")].
(** types.go 82-86, 93-97 *)
Definition index_types : list (list N * list N) :=
  [(lit "index", lit "btree"); (lit "unique", lit "unique_btree"); (lit "primary", lit "primary")].

(** A Go map look-up. *)
Fixpoint lookup (m : list (list N * list N)) (k : list N) : option (list N) :=
  match m with [] => None | (a, v) :: m' => if str_eqb a k then Some v else lookup m' k end.

(** The type, or the text of the error. *)
Definition found := sum (list N) (list N).
Definition get (m : list (list N * list N)) (msg : list N) (f : N -> N) (s : list N) : found :=
  match lookup m (to_lower f s) with Some t => inl t | None => inr (msg ++ s) end.
(** types.go 24-31 *)
Definition get_column_type := get column_types (lit "invalid column type: ").
(** types.go 58-65 *)
Definition get_attribute_type := get attribute_types (lit "invalid attribute type: ").
(** types.go 99-106 *)
Definition get_index_type := get index_types (lit "invalid index type: ").
