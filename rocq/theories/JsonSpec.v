(** JSON texts and their values: RFC 8259, as a relation between a value and the characters of a text; and the JSON
    documents the schema types stand for. *)
From Verif Require Import Str Schema Utf8Spec.
Local Open Scope N_scope.

(** A JSON value: a number is kept as its text, an object as its members in order, a string as its characters. *)
Inductive json :=
| JNull
| JBool (b : bool)
| JNum (t : str)
| JStr (s : str)
| JArr (l : list json)
| JObj (m : list (str * json)).

(** RFC 8259 section 2: white space *)
Definition ws (t : str) : Prop := Forall (fun c => In c [32; 9; 10; 13]) t.
(** Section 7: strings *)
Definition hexval (c v : N) : Prop :=
  (48 <= c <= 57 /\ v = c - 48) \/ (65 <= c <= 70 /\ v = c - 55) \/ (97 <= c <= 102 /\ v = c - 87).
Inductive unit16 : N -> str -> Prop :=
| unit16_ a b c d va vb vc vd : hexval a va -> hexval b vb -> hexval c vc -> hexval d vd ->
    unit16 (va * 4096 + vb * 256 + vc * 16 + vd) [92; 117; a; b; c; d].
(** [jchar c t]: the text [t], inside a string, stands for the character [c]. *)
Inductive jchar : N -> str -> Prop :=
| jc_raw c : scalar c -> 32 <= c -> c <> 34 -> c <> 92 -> jchar c [c]
| jc_quote : jchar 34 [92; 34]
| jc_backslash : jchar 92 [92; 92]
| jc_slash : jchar 47 [92; 47]
| jc_b : jchar 8 [92; 98]
| jc_f : jchar 12 [92; 102]
| jc_n : jchar 10 [92; 110]
| jc_r : jchar 13 [92; 114]
| jc_t : jchar 9 [92; 116]
| jc_u c t : unit16 c t -> scalar c -> jchar c t
| jc_pair h l t u : unit16 h t -> unit16 l u -> 55296 <= h < 56320 -> 56320 <= l < 57344 ->
    jchar (65536 + (h - 55296) * 1024 + (l - 56320)) (t ++ u).
Inductive jchars : str -> str -> Prop :=
| jcs_nil : jchars [] []
| jcs_cons c t s u : jchar c t -> jchars s u -> jchars (c :: s) (t ++ u).
Definition jstring (s t : str) : Prop := exists u, t = [34] ++ u ++ [34] /\ jchars s u.
(** Section 6: numbers *)
Definition digits1 (t : str) : Prop := t <> [] /\ Forall (fun c => 48 <= c <= 57) t.
Definition jnumber (t : str) : Prop :=
  exists sign int frac exp, t = sign ++ int ++ frac ++ exp /\
    (sign = [] \/ sign = [45]) /\ (int = [48] \/ (digits1 int /\ hd 0 int <> 48)) /\
    (frac = [] \/ exists d, frac = [46] ++ d /\ digits1 d) /\
    (exp = [] \/ exists e s d, exp = [e] ++ s ++ d /\ In e [69; 101] /\ (s = [] \/ s = [43] \/ s = [45]) /\ digits1 d).

(** Sections 3, 4, 5: values, objects, arrays *)
Inductive jvalue : json -> str -> Prop :=
| jv_null : jvalue JNull (lit "null")
| jv_true : jvalue (JBool true) (lit "true")
| jv_false : jvalue (JBool false) (lit "false")
| jv_num t : jnumber t -> jvalue (JNum t) t
| jv_str s t : jstring s t -> jvalue (JStr s) t
| jv_arr0 w : ws w -> jvalue (JArr []) (lit "[" ++ w ++ lit "]")
| jv_arr l t : jelements l t -> jvalue (JArr l) (lit "[" ++ t ++ lit "]")
| jv_obj0 w : ws w -> jvalue (JObj []) (lit "{" ++ w ++ lit "}")
| jv_obj l t : jmembers l t -> jvalue (JObj l) (lit "{" ++ t ++ lit "}")
with jelements : list json -> str -> Prop :=
| je_one v t a b : ws a -> jvalue v t -> ws b -> jelements [v] (a ++ t ++ b)
| je_more v t a b l u : ws a -> jvalue v t -> ws b -> jelements l u -> jelements (v :: l) (a ++ t ++ b ++ lit "," ++ u)
with jmembers : list (str * json) -> str -> Prop :=
| jm_one k p v t a b c d : ws a -> jstring k p -> ws b -> ws c -> jvalue v t -> ws d ->
    jmembers [(k, v)] (a ++ p ++ b ++ lit ":" ++ c ++ t ++ d)
| jm_more k p v t a b c d l u : ws a -> jstring k p -> ws b -> ws c -> jvalue v t -> ws d -> jmembers l u ->
    jmembers ((k, v) :: l) (a ++ p ++ b ++ lit ":" ++ c ++ t ++ d ++ lit "," ++ u).
Definition json_text (v : json) (text : str) : Prop := exists a t b, text = a ++ t ++ b /\ ws a /\ jvalue v t /\ ws b.

(** No object has two members of one name (section 4: names should be unique). *)
Inductive unique_names : json -> Prop :=
| un_null : unique_names JNull | un_bool b : unique_names (JBool b) | un_num t : unique_names (JNum t) | un_str s : unique_names (JStr s)
| un_arr l : Forall unique_names l -> unique_names (JArr l)
| un_obj m : NoDup (map fst m) -> Forall unique_names (map snd m) -> unique_names (JObj m).

(** ** The documents of the schema types *)
(** A list member that is left out when there is nothing to say, and one that is null for nil. *)
Definition optional {A} (name : string) (d : A -> json) (l : slice A) : list (str * json) :=
  match l with None | Some [] => [] | Some l => [(lit name, JArr (map d l))] end.
Definition always {A} (name : string) (d : A -> json) (l : slice A) : list (str * json) :=
  [(lit name, match l with None => JNull | Some l => JArr (map d l) end)].
Definition text_member (name : string) (s : str) : list (str * json) := [(lit name, JStr s)].

Definition doc_attribute (a : attribute) : json :=
  JObj (text_member "type" (at_type a) ++ match at_value a with None => [] | Some v => text_member "value" v end).
Definition doc_column (c : column) : json :=
  JObj (text_member "name" (co_name c) ++ text_member "type" (co_type c) ++ optional "attributes" doc_attribute (co_attrs c)).
Definition doc_index (i : tindex) : json :=
  JObj (text_member "name" (ix_name i) ++ always "columns" JStr (ix_cols i) ++
        match ix_type i with [] => [] | t => text_member "type" t end).
Definition doc_fkaction (a : fkaction) : json := JObj (text_member "on" (fk_on a) ++ text_member "do" (fk_do a)).
Definition doc_fkey (f : fkey) : json :=
  JObj (always "child_keys" JStr (fk_child f) ++ always "parent_keys" JStr (fk_parent f) ++
        text_member "parent_table" (fk_table f) ++ always "actions" doc_fkaction (fk_acts f)).
Definition doc_table (t : table) : json :=
  JObj (text_member "name" (tb_name t) ++ optional "columns" doc_column (tb_cols t) ++
        optional "indexes" doc_index (tb_idx t) ++ optional "foreign_keys" doc_fkey (tb_fks t)).
Definition doc_config (c : extconfig) : json := JObj (text_member "argument" (ec_arg c) ++ text_member "value" (ec_val c)).
Definition doc_extension (e : extension) : json :=
  JObj (text_member "name" (ex_name e) ++ always "config" doc_config (ex_config e) ++ text_member "alias" (ex_alias e)).
Definition doc_action (a : action) : json :=
  JObj (text_member "name" (ac_name a) ++ optional "annotations" JStr (ac_annots a) ++ always "inputs" JStr (ac_inputs a) ++
        [(lit "public", JBool (ac_public a))] ++ text_member "mutability" (ac_mut a) ++
        always "auxiliaries" JStr (ac_aux a) ++ optional "statements" JStr (ac_stmts a)).
Definition doc_schema (s : schema) : json :=
  JObj (text_member "owner" (sc_owner s) ++ text_member "name" (sc_name s) ++ optional "tables" doc_table (sc_tables s) ++
        optional "actions" doc_action (sc_actions s) ++ optional "extensions" doc_extension (sc_exts s)).

(** The types with a ToJSON method (schema.go 151-181). *)
Inductive node :=
| NSchema (s : schema) | NExtension (e : extension) | NTable (t : table) | NColumn (c : column)
| NAttribute (a : attribute) | NIndex (i : tindex) | NForeignKey (f : fkey) | NAction (a : action).
Definition document (n : node) : json :=
  match n with
  | NSchema s => doc_schema s | NExtension e => doc_extension e | NTable t => doc_table t | NColumn c => doc_column c
  | NAttribute a => doc_attribute a | NIndex i => doc_index i | NForeignKey f => doc_fkey f | NAction a => doc_action a
  end.

(** ** The strings of a schema *)
(** The same data with every string rewritten. *)
Definition smap {A B} (f : A -> B) (s : slice A) : slice B := option_map (map f) s.
Section Rewrite.
  Variable f : str -> str.
  Definition map_attribute a := Attribute (f (at_type a)) (option_map f (at_value a)).
  Definition map_column c := Column (f (co_name c)) (f (co_type c)) (smap map_attribute (co_attrs c)).
  Definition map_index i := Index (f (ix_name i)) (smap f (ix_cols i)) (f (ix_type i)).
  Definition map_fkaction a := FKAction (f (fk_on a)) (f (fk_do a)).
  Definition map_fkey k := FKey (smap f (fk_child k)) (smap f (fk_parent k)) (f (fk_table k)) (smap map_fkaction (fk_acts k)).
  Definition map_table t := Table (f (tb_name t)) (smap map_column (tb_cols t)) (smap map_index (tb_idx t)) (smap map_fkey (tb_fks t)).
  Definition map_config c := ExtConfig (f (ec_arg c)) (f (ec_val c)).
  Definition map_extension e := Extension (f (ex_name e)) (smap map_config (ex_config e)) (f (ex_alias e)).
  Definition map_action a := Action (f (ac_name a)) (smap f (ac_annots a)) (smap f (ac_inputs a)) (ac_public a)
    (f (ac_mut a)) (smap f (ac_aux a)) (smap f (ac_stmts a)).
  Definition map_schema s := Schema (f (sc_owner s)) (f (sc_name s)) (smap map_table (sc_tables s))
    (smap map_action (sc_actions s)) (smap map_extension (sc_exts s)).
  Definition map_node n :=
    match n with
    | NSchema s => NSchema (map_schema s) | NExtension e => NExtension (map_extension e) | NTable t => NTable (map_table t)
    | NColumn c => NColumn (map_column c) | NAttribute a => NAttribute (map_attribute a) | NIndex i => NIndex (map_index i)
    | NForeignKey k => NForeignKey (map_fkey k) | NAction a => NAction (map_action a)
    end.
End Rewrite.

(** All the strings of a schema satisfy [P]. *)
Definition sall {A} (P : A -> Prop) (s : slice A) : Prop := match s with None => True | Some l => Forall P l end.
Section All.
  Variable P : str -> Prop.
  Definition all_attribute a := P (at_type a) /\ (forall v, at_value a = Some v -> P v).
  Definition all_column c := P (co_name c) /\ P (co_type c) /\ sall all_attribute (co_attrs c).
  Definition all_index i := P (ix_name i) /\ sall P (ix_cols i) /\ P (ix_type i).
  Definition all_fkaction a := P (fk_on a) /\ P (fk_do a).
  Definition all_fkey k := sall P (fk_child k) /\ sall P (fk_parent k) /\ P (fk_table k) /\ sall all_fkaction (fk_acts k).
  Definition all_table t := P (tb_name t) /\ sall all_column (tb_cols t) /\ sall all_index (tb_idx t) /\ sall all_fkey (tb_fks t).
  Definition all_config c := P (ec_arg c) /\ P (ec_val c).
  Definition all_extension e := P (ex_name e) /\ sall all_config (ex_config e) /\ P (ex_alias e).
  Definition all_action a := P (ac_name a) /\ sall P (ac_annots a) /\ sall P (ac_inputs a) /\ P (ac_mut a) /\
    sall P (ac_aux a) /\ sall P (ac_stmts a).
  Definition all_schema s := P (sc_owner s) /\ P (sc_name s) /\ sall all_table (sc_tables s) /\
    sall all_action (sc_actions s) /\ sall all_extension (sc_exts s).
  Definition all_node n :=
    match n with
    | NSchema s => all_schema s | NExtension e => all_extension e | NTable t => all_table t
    | NColumn c => all_column c | NAttribute a => all_attribute a | NIndex i => all_index i
    | NForeignKey k => all_fkey k | NAction a => all_action a
    end.
End All.

(** Equal up to nil against empty where the tags say omitempty. *)
Definition loosely {A} (R : A -> A -> Prop) (s s' : slice A) : Prop := Forall2 R (elems s) (elems s').
Definition column_like c c' := co_name c = co_name c' /\ co_type c = co_type c' /\ loosely eq (co_attrs c) (co_attrs c').
Definition table_like t t' := tb_name t = tb_name t' /\ loosely column_like (tb_cols t) (tb_cols t') /\
  loosely eq (tb_idx t) (tb_idx t') /\ loosely eq (tb_fks t) (tb_fks t').
Definition action_like a a' := ac_name a = ac_name a' /\ loosely eq (ac_annots a) (ac_annots a') /\ ac_inputs a = ac_inputs a' /\
  ac_public a = ac_public a' /\ ac_mut a = ac_mut a' /\ ac_aux a = ac_aux a' /\ loosely eq (ac_stmts a) (ac_stmts a').
Definition schema_like s s' := sc_owner s = sc_owner s' /\ sc_name s = sc_name s' /\ loosely table_like (sc_tables s) (sc_tables s') /\
  loosely action_like (sc_actions s) (sc_actions s') /\ loosely eq (sc_exts s) (sc_exts s').
Definition node_like n n' : Prop :=
  match n, n' with
  | NSchema s, NSchema s' => schema_like s s'
  | NTable t, NTable t' => table_like t t'
  | NColumn c, NColumn c' => column_like c c'
  | NAction a, NAction a' => action_like a a'
  | NExtension _, NExtension _ | NAttribute _, NAttribute _ | NIndex _, NIndex _ | NForeignKey _, NForeignKey _ => n = n'
  | _, _ => False
  end.

(** Characters that need no care when the text is put into a web page or a terminal: the line feeds of the layout and
    printable characters, without <, >, & and the line separators. *)
Definition safe_char (c : N) : Prop := (c = 10 \/ 32 <= c) /\ ~ In c [60; 62; 38; 8232; 8233].
