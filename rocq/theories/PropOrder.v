(** The order of declarations: C54. *)
From Coq Require Import Permutation Lia String.
From Verif Require Import LexSpec Lexer LexerProof Grammar Schema Denote Validator ValidSpec ValidProof3 Sample ParseKF ParseSpec ParseProof OrderSpec OrderProof PropSyntax PropParse.

(** C54 *)
Theorem C54_a_text_is_its_declarations : forall text s, writes text s <->
  exists n xs ds, arranged n xs ds text /\ (length (inits_in (map fst ds)) <= 1)%nat /\ s = schema_of n xs (map fst ds).
Proof.
  intros text s. split; [apply writes_split|]. intros (n & xs & ds & Ha & L & ->). apply split_writes; assumption.
Qed.
Print Assumptions C54_a_text_is_its_declarations.
(** The declarations in another order: accepted as well, with the same tables and actions. *)
Theorem C54_any_order : forall w n xs ds ds' text text' m s, arranged n xs ds text -> arranged n xs ds' text' -> Permutation ds ds' ->
  parse_kf w text [] m = Outcome (Some s) [] -> exists s', parse_kf w text' [] m = Outcome (Some s') [] /\ s' = schema_of n xs (map fst ds') /\ reordered s s'.
Proof.
  intros w n xs ds ds' text text' m s Ha Ha' P H. apply C18_no_error_iff_accepted in H as (Hw & Hv). pose proof (written_inits _ _ _ _ _ Ha Hw) as L. pose proof (written_schema _ _ _ _ _ Ha Hw) as ->.
  assert (P' : Permutation (map fst ds) (map fst ds')) by (apply Permutation_map; exact P). pose proof (schema_reordered n xs _ _ P') as R.
  exists (schema_of n xs (map fst ds')). split; [|split; [reflexivity|exact R]]. apply C18_no_error_iff_accepted. split; [|exact (valid_reordered _ _ _ R Hv)].
  apply split_writes; [exact Ha'|]. assert (E : length (inits_in (map fst ds)) = length (inits_in (map fst ds'))) by (apply Permutation_length, flat_perm; exact P'). lia.
Qed.
Print Assumptions C54_any_order.
Theorem C54_refused_alike : forall w n xs ds ds' text text' m m', arranged n xs ds text -> arranged n xs ds' text' -> Permutation ds ds' ->
  (o_listener (parse_kf w text [] m) = [] <-> o_listener (parse_kf w text' [] m') = []).
Proof.
  assert (G : forall w n xs ds ds' text text' m m', arranged n xs ds text -> arranged n xs ds' text' -> Permutation ds ds' -> o_listener (parse_kf w text [] m) = [] -> o_listener (parse_kf w text' [] m') = []).
  { intros w n xs ds ds' text text' m m' Ha Ha' P H. apply C18_nil_error_means_schema in H as (_ & s & H). destruct (C54_any_order _ _ _ _ _ _ _ _ _ Ha Ha' P H) as (s' & H' & _).
    apply C18_no_error_iff_accepted in H'. apply (C18_no_error_iff_accepted w text' m') in H'. rewrite H'. reflexivity. }
  intros. split; [eapply G; eassumption|]. eapply G; try eassumption. apply Permutation_sym. assumption.
Qed.
Print Assumptions C54_refused_alike.
(** As long as tables stay in order among themselves, and actions among themselves, the outcome is the same: schema, errors and all. *)
Theorem C54_only_the_order_within_a_kind_counts : forall w n xs ds ds' text text' m, arranged n xs ds text -> arranged n xs ds' text' ->
  tables_in (map fst ds) = tables_in (map fst ds') -> actions_in (map fst ds) = actions_in (map fst ds') -> inits_in (map fst ds) = inits_in (map fst ds') ->
  (length (inits_in (map fst ds)) <= 1)%nat -> parse_kf w text [] m = parse_kf w text' [] m.
Proof.
  intros w n xs ds ds' text text' m Ha Ha' E1 E2 E3 L. assert (H : writes text (schema_of n xs (map fst ds))) by (apply split_writes; assumption). assert (H' : writes text' (schema_of n xs (map fst ds'))) by (apply split_writes; [exact Ha'|rewrite <- E3; exact L]).
  assert (Es : schema_of n xs (map fst ds') = schema_of n xs (map fst ds)) by (unfold schema_of; rewrite E1, E2, E3; reflexivity). rewrite Es in H'. generalize dependent (schema_of n xs (map fst ds)). intros s H H' Es.
  assert (G : forall t, writes t s -> (exists z, invalid_schema (w_ext w) s z /\ parse_kf w t [] m = Outcome (Some s) [report_error z]) \/ (valid_schema (w_ext w) s /\ parse_kf w t [] m = Outcome (Some s) [])).
  { intros t Ht. destruct (C18_every_outcome w t m) as [(N & _)|[(e & _ & E)|[(s1 & z & Hw & Hi & E)|(s1 & (Hw & Hv) & E)]]].
    - destruct (N (writes_valid _ _ Ht)).
    - exfalso. apply (C05_what_the_text_writes_is_returned w t m) in Ht. rewrite E in Ht. discriminate Ht.
    - rewrite (writes_fun _ _ _ Hw Ht) in *. left. eauto.
    - rewrite (writes_fun _ _ _ Hw Ht) in *. right. auto. }
  destruct (G _ H) as [(z & Hz & ->)|(Hv & ->)], (G _ H') as [(z' & Hz' & ->)|(Hv' & ->)]; try reflexivity.
  - rewrite (invalid_fun _ _ _ _ Hz Hz'). reflexivity.
  - destruct (valid_not_invalid _ _ _ Hv' Hz).
  - destruct (valid_not_invalid _ _ _ Hv Hz').
Qed.
Print Assumptions C54_only_the_order_within_a_kind_counts.

(** The text with more declarations [k]: accepted if the text without them is and the new ones are in order.  The old ones need no second look. *)
Theorem C54_more_declarations : forall w n xs ds ds' k text text' m s, arranged n xs ds text -> arranged n xs ds' text' -> Permutation (map fst ds') (k ++ map fst ds) ->
  parse_kf w text [] m = Outcome (Some s) [] -> let s' := schema_of n xs (map fst ds') in
  (length (inits_in (map fst ds')) <= 1)%nat ->
  NoDup (map tb_name (tables_in k ++ tables_in (map fst ds))) -> NoDup (map ac_name ((actions_in k ++ inits_in k) ++ elems (sc_actions s))) ->
  (forall t, In t (tables_in k) -> valid_table t /\ forall f, In f (elems (tb_fks t)) -> valid_fk s' t f) ->
  (forall a, In a (actions_in k ++ inits_in k) -> NoDup (elems (ac_inputs a)) /\ valid_body (w_ext w) s' a) ->
  parse_kf w text' [] m = Outcome (Some s') [].
Proof.
  intros w n xs ds ds' k text text' m s Ha Ha' P H s' L Nt Na Ht Hb. apply C18_no_error_iff_accepted in H as (Hw & Hv). pose proof (written_schema _ _ _ _ _ Ha Hw) as ->.
  apply C18_no_error_iff_accepted. split; [apply split_writes; assumption|]. destruct (schema_more n xs _ _ _ P) as (P1 & P2).
  apply (valid_more (w_ext w) (schema_of n xs (map fst ds)) s' (tables_in k) (actions_in k ++ inits_in k)); try assumption; [reflexivity|]. unfold schema_of. cbn [sc_tables]. rewrite elems_go. exact Nt.
Qed.
Print Assumptions C54_more_declarations.
(** The text without the declarations [k]: accepted if the text with them is and none that stays refers to them. *)
Theorem C54_fewer_declarations : forall w n xs ds ds' k text text' m s', arranged n xs ds text -> arranged n xs ds' text' -> Permutation (map fst ds') (k ++ map fst ds) ->
  parse_kf w text' [] m = Outcome (Some s') [] -> let s := schema_of n xs (map fst ds) in
  (forall t f, In t (elems (sc_tables s)) -> In f (elems (tb_fks t)) -> ~ In (fk_table f) (map tb_name (tables_in k))) ->
  (forall a st c args, In a (elems (sc_actions s)) -> In st (elems (ac_stmts a)) -> act_parse (w_ext w) st = Ok (ActionCall c args) -> ~ In c (map ac_name (actions_in k ++ inits_in k))) ->
  parse_kf w text [] m = Outcome (Some s) [].
Proof.
  intros w n xs ds ds' k text text' m s' Ha Ha' P H s Ht Hb. apply C18_no_error_iff_accepted in H as (Hw & Hv). pose proof (written_inits _ _ _ _ _ Ha' Hw) as L. pose proof (written_schema _ _ _ _ _ Ha' Hw) as ->.
  apply C18_no_error_iff_accepted. split.
  - apply split_writes; [exact Ha|]. assert (E : length (inits_in (map fst ds')) = length (inits_in (k ++ map fst ds))) by (apply Permutation_length, flat_perm; exact P). unfold inits_in in *. rewrite flat_map_app, app_length in E. lia.
  - destruct (schema_more n xs _ _ _ P) as (P1 & P2). eapply (valid_fewer (w_ext w) s _ (tables_in k) (actions_in k ++ inits_in k)); try eassumption. reflexivity.
Qed.
Print Assumptions C54_fewer_declarations.

(** Cases: a foreign key to a table declared later, and the same two tables the other way round. *)
Definition order_a : str := lit "database d; table u { b int, fk (b) ref t (a) } table t { a int } ".
Definition order_b : str := lit "database d; // first
table t { a int } table u { b int, fk (b) ref t (a) }".
Definition table_t : table := Table (lit "t") (Some [Column (lit "a") (lit "int") None]) None None.
Definition table_u : table := Table (lit "u") (Some [Column (lit "b") (lit "int") None]) None (Some [FKey (Some [lit "b"]) (Some [lit "a"]) (lit "t") None]).
Definition name (s : string) : tok := Tok IDENTIFIER (lit s).
Definition toks_t : list tok := [fixed TABLE_; name "t"; fixed L_BRACE; name "a"; fixed INT_; fixed R_BRACE].
Definition toks_u : list tok := [fixed TABLE_; name "u"; fixed L_BRACE; name "b"; fixed INT_; fixed COMMA; fixed FOREIGN_KEY_ABBR_; fixed L_PAREN; name "b"; fixed R_PAREN;
  fixed REFERENCES_ABBR_; name "t"; fixed L_PAREN; name "a"; fixed R_PAREN; fixed R_BRACE].
Lemma table_t_written : w_table table_t toks_t.
Proof.
  apply (w_table_ (lit "t") [Column (lit "a") (lit "int") None] [name "a"; fixed INT_] [] None [] None [] []); try (left; split; reflexivity); [|constructor].
  constructor. apply (w_column_ (lit "a") (lit "int") [fixed INT_] [] None []); [constructor|constructor|left; split; reflexivity].
Qed.
Lemma table_u_written : w_table table_u toks_u.
Proof.
  apply (w_table_ (lit "u") [Column (lit "b") (lit "int") None] [name "b"; fixed INT_] [] None [FKey (Some [lit "b"]) (Some [lit "a"]) (lit "t") None] _
    [fixed COMMA; fixed FOREIGN_KEY_ABBR_; fixed L_PAREN; name "b"; fixed R_PAREN; fixed REFERENCES_ABBR_; name "t"; fixed L_PAREN; name "a"; fixed R_PAREN] []).
  - constructor. apply (w_column_ (lit "b") (lit "int") [fixed INT_] [] None []); [constructor|constructor|left; split; reflexivity].
  - apply (wm_fkey _ [fixed FOREIGN_KEY_ABBR_; fixed L_PAREN; name "b"; fixed R_PAREN; fixed REFERENCES_ABBR_; name "t"; fixed L_PAREN; name "a"; fixed R_PAREN] [] [] []); [|constructor].
    apply (w_fkey_ FOREIGN_KEY_ABBR_ REFERENCES_ABBR_ [lit "b"] [name "b"] (lit "t") [lit "a"] [name "a"] [] None []); auto; try (constructor; reflexivity); try constructor. split; reflexivity.
  - left; split; reflexivity.
  - right. split; [discriminate|reflexivity].
  - left; reflexivity.
Qed.
Example C54_case : arranged (lit "d") [] [(DTable table_u, toks_u); (DTable table_t, toks_t)] order_a /\ arranged (lit "d") [] [(DTable table_t, toks_t); (DTable table_u, toks_u)] order_b /\
  parse_kf sample_world order_a [] Default = Outcome (Some (Schema [] (lit "d") (Some [table_u; table_t]) None None)) [].
Proof.
  split; [|split; [|vm_compute; reflexivity]]; eexists _, []; (split; [apply lex_spec; vm_compute; reflexivity|]); (split; [constructor|]);
    (split; [repeat constructor; cbn [fst snd w_decl]; auto using table_t_written, table_u_written|vm_compute; reflexivity]).
Qed.
