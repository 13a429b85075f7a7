(** The documented keywords and their spellings. *)
From Verif Require Import Str.
Local Open Scope N_scope.

(** unicode.ToLower, as far as needed: ASCII as usual; the only other characters with an ASCII lower case are U+0130 (i) and
    U+212A (k). *)
Definition unicode_lower (f : N -> N) : Prop :=
  (forall c, c < 128 -> f c = if (65 <=? c) && (c <=? 90) then c + 32 else c) /\
  f 304 = 105 /\ f 8490 = 107 /\ (forall c, 128 <= c -> c <> 304 -> c <> 8490 -> 128 <= f c).

(** [c] is the letter [w] in lower or upper case. *)
Definition ascii_case (c w : N) : Prop := c = w \/ 97 <= w <= 122 /\ c + 32 = w.
Definition ascii_spelling (s w : list N) : Prop := Forall2 ascii_case s w.
(** The spellings accepted: U+0130, the bytes C4 B0, also stands for i.  (No documented word has a k.) *)
Inductive spelling : list N -> list N -> Prop :=
| sp_nil : spelling [] []
| sp_case c w s v : ascii_case c w -> spelling s v -> spelling (c :: s) (w :: v)
| sp_dotted s v : spelling s v -> spelling (196 :: 176 :: s) (105 :: v).

Inductive column_word : string -> string -> Prop :=
| cw_null : column_word "null" "null" | cw_text : column_word "text" "text"
| cw_int : column_word "int" "int" | cw_blob : column_word "blob" "blob".
Inductive attribute_word : string -> string -> Prop :=
| aw_primary : attribute_word "primary" "primary_key" | aw_unique : attribute_word "unique" "unique"
| aw_notnull : attribute_word "notnull" "not_null" | aw_default : attribute_word "default" "default"
| aw_min : attribute_word "min" "min" | aw_max : attribute_word "max" "max"
| aw_minlen : attribute_word "minlen" "min_length" | aw_maxlen : attribute_word "maxlen" "max_length".
Inductive index_word : string -> string -> Prop :=
| iw_index : index_word "index" "btree" | iw_unique : index_word "unique" "unique_btree" | iw_primary : index_word "primary" "primary".
