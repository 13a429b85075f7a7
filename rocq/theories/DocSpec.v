(** The language as docs/syntax.md describes it (lines 1-72), written on words and characters: what a reader of that file
    may write, and the schema it means.  Nothing here mentions tokens, parse trees or the grammar. *)
From Verif Require Import Str Schema LexSpec.
Local Open Scope N_scope.

(** Lines 17-22: letters, digits and underscores, starting with a letter. *)
Definition doc_name (n : str) : Prop := ident n.
(** Lines 49-53 do not say what NUMBER and STRING are; here digits, and anything without quotes, backslashes and line breaks in quotes. *)
Definition doc_number (v : str) : Prop := v <> [] /\ Forall (fun c => is_digit c = true) v.
Definition doc_string (v : str) : Prop := exists b, v = lit "'" ++ b ++ lit "'" /\ Forall (fun c => c <> 10 /\ c <> 13 /\ c <> 39 /\ c <> 92) b.

(** Texts are words with blanks and line breaks between them; two words must not run together. *)
Definition runs_on (w s : str) : Prop := exists u a c r, w = u ++ [a] /\ s = c :: r /\ is_wordch a = true /\ is_wordch c = true.
Inductive spelled : list str -> str -> Prop :=
| sp_end : spelled [] []
| sp_blank c ws s : is_wsnl c = true -> spelled ws s -> spelled ws (c :: s)
| sp_word w ws s : spelled ws s -> ~ runs_on w s -> spelled (w :: ws) (w ++ s).

(** "... list": things one after the other, or with commas between them. *)
Inductive in_a_row {A} (D : A -> list str -> Prop) : list A -> list str -> Prop :=
| row_nil : in_a_row D [] []
| row_cons a ws l us : D a ws -> in_a_row D l us -> in_a_row D (a :: l) (ws ++ us).
Inductive with_commas {A} (D : A -> list str -> Prop) : list A -> list str -> Prop :=
| comma_one a ws : D a ws -> with_commas D [a] ws
| comma_more a ws l us : D a ws -> with_commas D l us -> with_commas D (a :: l) (ws ++ [lit ","] ++ us).
(** Absent lists are nil. *)
Definition stored {A} (l : list A) : slice A := match l with [] => None | _ => Some l end.

(** Lines 42-53: column types and attributes. *)
Definition doc_type (ty : str) (ws : list str) : Prop := In ty [lit "int"; lit "text"] /\ ws = [ty].
Inductive doc_attribute : attribute -> list str -> Prop :=
| da_primary : doc_attribute (Attribute (lit "primary_key") None) [lit "primary"]
| da_notnull : doc_attribute (Attribute (lit "not_null") None) [lit "notnull"]
| da_max n : doc_number n -> doc_attribute (Attribute (lit "max") (Some n)) [lit "max"; lit "("; n; lit ")"]
| da_min n : doc_number n -> doc_attribute (Attribute (lit "min") (Some n)) [lit "min"; lit "("; n; lit ")"]
| da_maxlen n : doc_number n -> doc_attribute (Attribute (lit "max_length") (Some n)) [lit "maxlen"; lit "("; n; lit ")"]
| da_minlen n : doc_number n -> doc_attribute (Attribute (lit "min_length") (Some n)) [lit "minlen"; lit "("; n; lit ")"]
| da_default v : doc_number v \/ doc_string v -> doc_attribute (Attribute (lit "default") (Some v)) [lit "default"; lit "("; v; lit ")"].

Section Names.
(** Which names may be written. *)
Variable name : str -> Prop.

(** Lines 34-38: a column, or an index. *)
Inductive doc_column : column -> list str -> Prop :=
| doc_column_ n ty t l u : name n -> doc_type ty t -> in_a_row doc_attribute l u -> doc_column (Column n ty (stored l)) ([n] ++ t ++ u).
Definition doc_column_name (n : str) (ws : list str) : Prop := name n /\ ws = [n].
(** Lines 57-59 *)
Definition doc_index_type (k : str) (w : str) : Prop :=
  In (k, w) [(lit "unique_btree", lit "unique"); (lit "btree", lit "index"); (lit "primary", lit "primary")].
Inductive doc_index : tindex -> list str -> Prop :=
| doc_index_ n k w l u : doc_name n -> doc_index_type k w -> with_commas doc_column_name l u ->
    doc_index (Index n (Some l) k) ([lit "#" ++ n; w; lit "("] ++ u ++ [lit ")"]).
(** Line 6: a table; here with its columns before its indexes. *)
Inductive doc_table : table -> list str -> Prop :=
| doc_table_ n cs tc is ti : name n -> with_commas doc_column cs tc -> in_a_row (fun i ws => exists us, doc_index i us /\ ws = lit "," :: us) is ti ->
    doc_table (Table n (Some cs) (stored is) None) ([lit "table"; n; lit "{"] ++ tc ++ ti ++ [lit "}"]).

(** Line 6 as it stands: a list of lines, each a column or an index. *)
Inductive doc_lines : list column -> list tindex -> list str -> Prop :=
| dl_column c ws : doc_column c ws -> doc_lines [c] [] ws
| dl_index i ws : doc_index i ws -> doc_lines [] [i] ws
| dl_columns c ws cs is us : doc_column c ws -> doc_lines cs is us -> doc_lines (c :: cs) is (ws ++ [lit ","] ++ us)
| dl_indexes i ws cs is us : doc_index i ws -> doc_lines cs is us -> doc_lines cs (i :: is) (ws ++ [lit ","] ++ us).
Inductive doc_table_of_lines : table -> list str -> Prop :=
| doc_table_of_lines_ n cs is ls : name n -> doc_lines cs is ls -> cs <> [] ->
    doc_table_of_lines (Table n (Some cs) (stored is) None) ([lit "table"; n; lit "{"] ++ ls ++ [lit "}"]).

(** Lines 9, 28-30 and 63-65: an action, with SQL statements.  A statement is text up to its semicolon. *)
Variable sql : str -> Prop.
Definition doc_statement (st : str) (ws : list str) : Prop := (exists q, st = q ++ lit ";" /\ sql q) /\ ws = [st].
Definition doc_parameter (p : str) (ws : list str) : Prop := (exists n, p = lit "$" ++ n /\ doc_name n) /\ ws = [p].
Definition doc_parameters (l : list str) (ws : list str) : Prop := l = [] /\ ws = [] \/ with_commas doc_parameter l ws.
Inductive doc_action : action -> list str -> Prop :=
| doc_action_ n ps tp body tb : name n -> doc_parameters ps tp -> in_a_row doc_statement body tb -> body <> [] ->
    doc_action (Action n None (stored ps) false (lit "update") None (Some body))
      ([lit "action"; n; lit "("] ++ tp ++ [lit ")"; lit "{"] ++ tb ++ [lit "}"]).

(** Lines 4-10, for one way to write tables *)
Variable a_table : table -> list str -> Prop.
Inductive doc_program : schema -> list str -> Prop :=
| doc_program_ n ta tt ac ta' : name n -> in_a_row a_table ta tt -> in_a_row doc_action ac ta' ->
    doc_program (Schema [] n (stored ta) (stored ac) None) ([lit "database"; n; lit ";"] ++ tt ++ ta').
End Names.

(** A statement starting with one of five words and a blank, without semicolons and closing braces. *)
Definition plain_sql (q : str) : Prop :=
  exists k c r, q = k ++ c :: r /\ sqlkw k /\ is_wsnl c = true /\ r <> [] /\ Forall (fun x => x <> 59 /\ x <> 125) r.
(** Lines 65 and 77-80: any SQL but CREATE and DROP statements; here, any other first word. *)
Definition raw_sql (q : str) : Prop :=
  exists k c r, q = k ++ c :: r /\ ident k /\ ~ In (lower k) [lit "create"; lit "drop"] /\ is_wsnl c = true /\ r <> [] /\
    Forall (fun x => x <> 59 /\ x <> 125) r.
(** A text of the documented form with meaning [s]. *)
Definition documented (name sql : str -> Prop) (a_table : table -> list str -> Prop) (text : str) (s : schema) : Prop :=
  exists ws, doc_program name sql a_table s ws /\ spelled ws text.
