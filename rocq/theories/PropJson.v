(** Properties of ToJSON and of byte input: C21, C22, C23, C35. *)
From Verif Require Import Str Schema Utf8Spec Utf8 Utf8Proof JsonSpec GoJson JsonProof JsonUnique ParseBytes ParseKF ParseSpec Outcomes JsonParse Sample.
Local Open Scope N_scope.

(** C21.  [n] holds character strings; the Go value holds their bytes. *)
Theorem C21_json_reads_back : forall bf n, all_node (Forall scalar) n ->
  json_text (document n) (runes (to_json bf (map_node bytes_of n))).
Proof.
  intros bf n H. destruct (to_json_reads bf (map_node bytes_of n)) as (_ & J & _). rewrite comp_node in J.
  rewrite (id_node _ (Forall scalar)) in J; [exact J|intros a Ha; apply runes_bytes_of; exact Ha|exact H].
Qed.
Print Assumptions C21_json_reads_back.
(** No other reading is possible: RFC 8259 gives a text one value, and no object of it repeats a name. *)
Theorem C21_json_has_one_reading : forall bf n v, all_node (Forall scalar) n ->
  json_text v (runes (to_json bf (map_node bytes_of n))) -> v = document n /\ unique_names v.
Proof.
  intros bf n v H J. assert (E : v = document n) by (eapply json_text_fun; [exact J|apply C21_json_reads_back; exact H]).
  split; [exact E|rewrite E; apply unique_document].
Qed.
Print Assumptions C21_json_has_one_reading.
(** Any bytes: ill-formed ones are read as U+FFFD. *)
Theorem C21_json_of_any_bytes : forall bf n, json_text (document (map_node runes n)) (runes (to_json bf n)).
Proof. intros bf n. apply to_json_reads. Qed.
Print Assumptions C21_json_of_any_bytes.
(** Quotes, backslash, control characters, markup, line separator, non-ASCII, an ill-formed byte. *)
Definition odd_column : column :=
  Column (lit "a""\<" ++ [10; 1]) (lit "é&") (Some [Attribute (lit "default") (Some (bytes_of [8232; 233; 128512] ++ [255])); Attribute [] None]).
Example C21_case : to_json false (NColumn odd_column) =
  lit "{" ++ [10] ++ lit "  ""name"": ""a\""\\\u003c\n\u0001""," ++ [10] ++ lit "  ""type"": ""é\u0026""," ++ [10] ++
  lit "  ""attributes"": [" ++ [10] ++ lit "    {" ++ [10] ++ lit "      ""type"": ""default""," ++ [10] ++
  lit "      ""value"": ""\u2028" ++ bytes_of [233; 128512] ++ lit "\ufffd""" ++ [10] ++ lit "    }," ++ [10] ++
  lit "    {" ++ [10] ++ lit "      ""type"": """"" ++ [10] ++ lit "    }" ++ [10] ++ lit "  ]" ++ [10] ++ lit "}".
Proof. vm_compute. reflexivity. Qed.
Example C21_schema_case : all_node (Forall scalar) (NSchema sample_schema).
Proof.
  apply (writes_scalar sample_text); [apply sample_accepted|]. apply Forall_forall. intros c Hc. left.
  assert (H : forallb (fun c => c <? 55296) sample_text = true) by (vm_compute; reflexivity). rewrite forallb_forall in H. apply N.ltb_lt, H, Hc.
Qed.

(** C22 *)
Theorem C22_json_determines_schema : forall bf n n', same_type n n' -> all_node valid_utf8 n -> all_node valid_utf8 n' ->
  to_json bf n = to_json bf n' -> node_like n n'.
Proof. exact json_same_valid. Qed.
Print Assumptions C22_json_determines_schema.
(** Whatever the strings: the schemas as characters agree. *)
Theorem C22_json_determines_characters : forall bf n n', same_type n n' -> to_json bf n = to_json bf n' ->
  node_like (map_node runes n) (map_node runes n').
Proof. exact json_same_schema. Qed.
Print Assumptions C22_json_determines_characters.
(** For results of Parse not even nil and empty differ. *)
Theorem C22_json_determines_result : forall bf w w' bs bs' l l' m m' s s',
  o_result (parse_bytes w bs l m) = Some s -> o_result (parse_bytes w' bs' l' m') = Some s' ->
  to_json bf (NSchema s) = to_json bf (NSchema s') -> s = s'.
Proof. exact json_same_result. Qed.
Print Assumptions C22_json_determines_result.
(** Ill-formed strings are not told apart, and omitempty hides nil against empty. *)
Theorem C22_ill_formed_refuted : ~ forall bf n n', same_type n n' -> to_json bf n = to_json bf n' -> node_like n n'.
Proof.
  intros H. specialize (H false (NAttribute (Attribute [255] None)) (NAttribute (Attribute [254] None)) I).
  assert (E : NAttribute (Attribute [255] None) = NAttribute (Attribute [254] None)) by (apply H; vm_compute; reflexivity). discriminate.
Qed.
Theorem C22_nil_hidden_refuted : ~ forall bf n n', same_type n n' -> all_node valid_utf8 n -> all_node valid_utf8 n' ->
  to_json bf n = to_json bf n' -> n = n'.
Proof.
  assert (V : valid_utf8 []) by (exists []; split; [constructor|reflexivity]).
  intros H. specialize (H false (NTable (Table [] None None None)) (NTable (Table [] (Some []) None None)) I).
  assert (E : NTable (Table [] None None None) = NTable (Table [] (Some []) None None)).
  { apply H; [split; [exact V|cbn; auto]|split; [exact V|cbn; auto]|vm_compute; reflexivity]. }
  discriminate.
Qed.
Example C22_case : same_type (NSchema sample_schema) (NSchema (Schema [] (lit "other") None None None)) /\
  to_json false (NSchema sample_schema) <> to_json false (NSchema (Schema [] (lit "other") None None None)).
Proof. split; [exact I|]. vm_compute. discriminate. Qed.

(** C23 *)
Theorem C23_json_is_safe : forall bf n, valid_utf8 (to_json bf n) /\ Forall safe_char (runes (to_json bf n)).
Proof. intros bf n. destruct (to_json_reads bf n) as (H1 & _ & H3). split; assumption. Qed.
Print Assumptions C23_json_is_safe.
Example C23_case : ~ Forall safe_char (runes (co_type odd_column)) /\ In 8232 (runes (bytes_of [8232])) /\ In 60 (co_name odd_column).
Proof.
  split; [|split; vm_compute; auto 10]. assert (E : exists a b, runes (co_type odd_column) = a :: 38 :: b) by (eexists _, _; vm_compute; reflexivity).
  destruct E as (a & b & ->). intros H. inversion H as [|? ? _ H2]; subst. inversion H2 as [|? ? [_ H3] _]; subst. apply H3. cbn. auto.
Qed.

(** C35 *)
Theorem C35_input_is_read_as_utf8 : forall w bs l m, exists text, reads bs text /\ Forall scalar text /\
  o_listener (parse_bytes w bs l m) = o_listener (parse_kf w text l m) /\
  o_result (parse_bytes w bs l m) = option_map (map_schema bytes_of) (o_result (parse_kf w text l m)).
Proof. intros w bs l m. exists (runes bs). split; [apply runes_reads|]. split; [apply runes_scalar|]. split; reflexivity. Qed.
Print Assumptions C35_input_is_read_as_utf8.
Theorem C35_reading_is_unique : forall bs text text', reads bs text -> reads bs text' -> text = text'.
Proof. exact reads_fun. Qed.
Print Assumptions C35_reading_is_unique.
Theorem C35_valid_input_unchanged : forall bs text, reads bs text -> (valid_utf8 bs <-> concat (map utf8 text) = bs).
Proof.
  intros bs text H. pose proof (reads_scalar _ _ H) as HS. apply runes_iff in H. subst text. rewrite <- bytes_of_utf8 by exact HS.
  split; intros H; apply bytes_of_runes; exact H.
Qed.
Print Assumptions C35_valid_input_unchanged.
Theorem C35_result_is_valid : forall w bs l m s, o_result (parse_bytes w bs l m) = Some s ->
  all_schema valid_utf8 s /\ exists text, reads bs text /\ writes text (map_schema runes s) /\ s = map_schema bytes_of (map_schema runes s).
Proof.
  intros w bs l m s H. apply parse_bytes_result in H as (s' & H & E & E'). split; [rewrite E; apply any_schema, bytes_of_valid|].
  exists (runes bs). split; [apply runes_reads|]. rewrite <- E'. split; [|exact E]. destruct l as [|e l].
  - destruct (parse_kf w (runes bs) [] m) as [r l'] eqn:E2. cbn in H. subst r. eapply result_writes; exact E2.
  - exfalso. unfold parse_kf in H. destruct (parse_tree (runes bs)); discriminate.
Qed.
Print Assumptions C35_result_is_valid.
Theorem C35_json_of_result_is_valid : forall bf w bs l m s, o_result (parse_bytes w bs l m) = Some s -> valid_utf8 (to_json bf (NSchema s)).
Proof. intros. apply to_json_reads. Qed.
Print Assumptions C35_json_of_result_is_valid.
(** An ill-formed byte inside a statement. *)
Definition odd_bytes : list N := lit "database d;action a()public{select '" ++ [255; 195; 169] ++ lit "';}".
Example C35_case : exists s, o_result (parse_bytes sample_world odd_bytes [] Default) = Some s /\
  elems (sc_actions s) = [Action (lit "a") None None true (lit "update") None (Some [lit "select '" ++ bytes_of [65533; 233] ++ lit "';"])] /\ ~ valid_utf8 odd_bytes.
Proof.
  eexists. split; [vm_compute; reflexivity|]. split; [vm_compute; reflexivity|]. intros H. apply bytes_of_runes in H. revert H. vm_compute. discriminate.
Qed.
