(** schema.ToJSON (schema/schema.go 151-189): json.MarshalIndent(v, "", "  ") of the struct with its tags.
    encoding/json is the standard library's (go.mod: go 1.21); what is modelled of it: encodeState on structs, slices,
    strings, bools and interfaces holding strings, omitempty (isEmptyValue), the string escaping with HTML escaping on
    (appendString), and Indent.  All strings are byte strings here. *)
From Verif Require Import Str Schema Utf8 JsonSpec.
Local Open Scope N_scope.

(** Go values as reflect sees them.  A struct field: name in the tag, omitempty, value. *)
Inductive gval :=
| GStr (s : list N)
| GBool (b : bool)
| GNilSlice
| GSlice (l : list gval)
| GNilIface
| GIface (v : gval)
| GStruct (fs : list (str * bool * gval)).

(** schema.go 5-108: the struct tags *)
Definition field (name : string) (v : gval) : str * bool * gval := (lit name, false, v).
Definition field_oe (name : string) (v : gval) : str * bool * gval := (lit name, true, v).
Definition gslice {A} (f : A -> gval) (s : slice A) : gval := match s with None => GNilSlice | Some l => GSlice (map f l) end.
Definition g_attribute a := GStruct [field "type" (GStr (at_type a));
  field_oe "value" (match at_value a with None => GNilIface | Some v => GIface (GStr v) end)].
Definition g_column c := GStruct [field "name" (GStr (co_name c)); field "type" (GStr (co_type c));
  field_oe "attributes" (gslice g_attribute (co_attrs c))].
Definition g_index i := GStruct [field "name" (GStr (ix_name i)); field "columns" (gslice GStr (ix_cols i));
  field_oe "type" (GStr (ix_type i))].
Definition g_fkaction a := GStruct [field "on" (GStr (fk_on a)); field "do" (GStr (fk_do a))].
Definition g_fkey k := GStruct [field "child_keys" (gslice GStr (fk_child k)); field "parent_keys" (gslice GStr (fk_parent k));
  field "parent_table" (GStr (fk_table k)); field "actions" (gslice g_fkaction (fk_acts k))].
Definition g_table t := GStruct [field "name" (GStr (tb_name t)); field_oe "columns" (gslice g_column (tb_cols t));
  field_oe "indexes" (gslice g_index (tb_idx t)); field_oe "foreign_keys" (gslice g_fkey (tb_fks t))].
Definition g_config c := GStruct [field "argument" (GStr (ec_arg c)); field "value" (GStr (ec_val c))].
Definition g_extension e := GStruct [field "name" (GStr (ex_name e)); field "config" (gslice g_config (ex_config e));
  field "alias" (GStr (ex_alias e))].
Definition g_action a := GStruct [field "name" (GStr (ac_name a)); field_oe "annotations" (gslice GStr (ac_annots a));
  field "inputs" (gslice GStr (ac_inputs a)); field "public" (GBool (ac_public a)); field "mutability" (GStr (ac_mut a));
  field "auxiliaries" (gslice GStr (ac_aux a)); field_oe "statements" (gslice GStr (ac_stmts a))].
Definition g_schema s := GStruct [field "owner" (GStr (sc_owner s)); field "name" (GStr (sc_name s));
  field_oe "tables" (gslice g_table (sc_tables s)); field_oe "actions" (gslice g_action (sc_actions s));
  field_oe "extensions" (gslice g_extension (sc_exts s))].
Definition g_node n :=
  match n with
  | NSchema s => g_schema s | NExtension e => g_extension e | NTable t => g_table t | NColumn c => g_column c
  | NAttribute a => g_attribute a | NIndex i => g_index i | NForeignKey k => g_fkey k | NAction a => g_action a
  end.

(** isEmptyValue *)
Definition is_empty (v : gval) : bool :=
  match v with
  | GStr [] | GSlice [] | GNilSlice | GNilIface | GBool false => true
  | _ => false
  end.

Section Encode.
  (** Go 1.22 writes backspace and form feed as \b and \f, earlier releases as \u0008 and \u000c. *)
  Variable bf : bool.

  (** The table "0123456789abcdef" *)
  Definition hex (d : N) : N := if d <? 10 then 48 + d else 87 + d.
  (** appendString, b < utf8.RuneSelf *)
  Definition esc_ascii (b : N) : list N :=
    if (b =? 34) || (b =? 92) then [92; b]
    else if b =? 8 then (if bf then [92; 98] else lit "\u00" ++ [hex (b / 16); hex (b mod 16)])
    else if b =? 12 then (if bf then [92; 102] else lit "\u00" ++ [hex (b / 16); hex (b mod 16)])
    else if b =? 10 then [92; 110]
    else if b =? 13 then [92; 114]
    else if b =? 9 then [92; 116]
    else if (b <? 32) || (b =? 60) || (b =? 62) || (b =? 38) then lit "\u00" ++ [hex (b / 16); hex (b mod 16)]
    else [b].
  (** appendString: the loop; bytes of a well-formed character are copied *)
  Fixpoint quoted (fuel : nat) (bs : list N) : list N :=
    match fuel, bs with
    | S f, b :: r =>
      if b <? 128 then esc_ascii b ++ quoted f r
      else match decode1 bs with
           | None => lit "\ufffd" ++ quoted f r
           | Some (c, r') =>
             (if (c =? 8232) || (c =? 8233) then lit "\u202" ++ [hex (c mod 16)]
              else firstn (length bs - length r') bs) ++ quoted f r'
           end
    | _, _ => []
    end.
  Definition quote (bs : list N) : list N := [34] ++ quoted (length bs) bs ++ [34].

  (** structEncoder.encode, arrayEncoder.encode, and the rest; no whitespace *)
  Fixpoint marshal (v : gval) : list N :=
    match v with
    | GStr s => quote s
    | GBool b => if b then lit "true" else lit "false"
    | GNilSlice | GNilIface => lit "null"
    | GIface v => marshal v
    | GSlice l =>
      lit "[" ++ (fix go (first : bool) (l : list gval) : list N :=
         match l with [] => [] | v :: r => (if first then [] else lit ",") ++ marshal v ++ go false r end) true l ++ lit "]"
    | GStruct fs =>
      (fix go (next : list N) (fs : list (str * bool * gval)) : list N :=
         match fs with
         | [] => if str_eqb next (lit "{") then lit "{}" else lit "}"
         | (n, oe, v) :: r =>
           if oe && is_empty v then go next r
           else next ++ quote n ++ lit ":" ++ marshal v ++ go (lit ",") r
         end) (lit "{") fs
    end.
End Encode.

(** encoding/json Indent (appendIndent) with prefix "" and indent "  ".  The scanner is reduced to what Indent asks of it
    on marshal's output: is the byte inside a string or literal (scanContinue), or punctuation? *)
Inductive scan := SOut | SStr | SEsc.
Definition newline (depth : nat) : list N := [10] ++ concat (repeat (lit "  ") depth).
Fixpoint indent (s : scan) (need : bool) (depth : nat) (src : list N) : list N :=
  match src with
  | [] => []
  | c :: r =>
    match s with
    | SStr => c :: indent (if c =? 34 then SOut else if c =? 92 then SEsc else SStr) need depth r
    | SEsc => c :: indent SStr need depth r
    | SOut =>
      let ends := (c =? 125) || (c =? 93) in
      let pre := if need && negb ends then newline (S depth) else [] in
      let depth := if need && negb ends then S depth else depth in
      let need := need && ends in
      pre ++
      (if (c =? 123) || (c =? 91) then c :: indent SOut true depth r
       else if c =? 44 then [c] ++ newline depth ++ indent SOut need depth r
       else if c =? 58 then [c; 32] ++ indent SOut need depth r
       else if ends then
         if need then c :: indent SOut false depth r
         else newline (depth - 1) ++ [c] ++ indent SOut false (depth - 1) r
       else c :: indent (if c =? 34 then SStr else SOut) need depth r)
    end
  end.

(** astMarshal, schema.go 183-189; Marshal of these types cannot fail *)
Definition to_json (bf : bool) (n : node) : list N := indent SOut false 0 (marshal bf (g_node n)).
