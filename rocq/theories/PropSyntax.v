(** Properties of lexing, parsing and the schema that is read: C01-C07, C15 (text), C33, C34. *)
From Verif Require Import LexSpec LexerProof Lexer Grammar Schema Denote FaultSpec Visitor Validator ValidSpec ParseKF ParseSpec
  ParseProof DenoteProof NameSpec Segments ParseProof2 Outcomes Sample.

(** C01 *)
Theorem C01_syntax_error_iff_not_in_grammar : forall w text m, foreign_world w ->
  (err_is (o_listener (parse_kf w text [] m)) InvalidSyntax = true <-> ~ syntactically_valid text).
Proof. exact err_is_invalid_syntax. Qed.
Print Assumptions C01_syntax_error_iff_not_in_grammar.
Theorem C01_in_grammar_gives_schema_or_fault : forall text, syntactically_valid text ->
  (exists s, writes text s) \/ (exists e, misdeclared text e).
Proof. exact misdeclared_or_writes. Qed.
Print Assumptions C01_in_grammar_gives_schema_or_fault.
Example C01_case : syntactically_valid sample_text /\ ~ syntactically_valid no_semicolon.
Proof.
  split; [eapply writes_valid; apply sample_accepted|].
  apply (parse_syntax sample_world no_semicolon Default). vm_compute. reflexivity.
Qed.

(** C02 *)
Theorem C02_tokens_longest_match_first_rule : forall text ts, lex text = Some ts <-> tokens_of text ts.
Proof. exact lex_spec. Qed.
Print Assumptions C02_tokens_longest_match_first_rule.
Theorem C02_tokens_lossless : forall text ts, tokens_of text ts -> text = concat (map tx ts).
Proof. exact tokens_of_concat. Qed.
Print Assumptions C02_tokens_lossless.
Theorem C02_fails_exactly_where_no_rule_matches : forall text, lex text = None <->
  exists ts rest, text = concat (map tx ts) ++ rest /\ rest <> [] /\
    (forall k u r, rest = u ++ r -> ~ token_shape k u) /\
    (forall ts1 t ts2, ts = ts1 ++ t :: ts2 ->
       first_token (concat (map tx (t :: ts2)) ++ rest) t (concat (map tx ts2) ++ rest)).
Proof. exact lex_none. Qed.
Print Assumptions C02_fails_exactly_where_no_rule_matches.
Theorem C02_tokens_unique : forall text ts ts', tokens_of text ts -> tokens_of text ts' -> ts = ts'.
Proof. exact tokens_of_fun. Qed.
Print Assumptions C02_tokens_unique.
Example C02_case : exists ts, tokens_of sample_text ts /\ Nat.leb 100 (length ts) = true.
Proof. destruct (lex sample_text) as [ts|] eqn:E; [|vm_compute in E; discriminate]. exists ts. split; [apply lex_spec; exact E|vm_compute in E; injection E as <-; reflexivity]. Qed.
Example C02_failing_case : lex (lit "database a? ") = None. Proof. vm_compute. reflexivity. Qed.

(** C03 *)
Theorem C03_names_are_identifiers_and_not_reserved : forall w text m s, parse_kf w text [] m = Outcome (Some s) [] ->
  good_name (sc_name s) /\ Forall good_extension (elems (sc_exts s)) /\ Forall good_table (elems (sc_tables s)) /\
  (exists ac ini, elems (sc_actions s) = ac ++ ini /\ (length ini <= 1)%nat /\ Forall good_action ac /\ Forall init_block ini).
Proof. exact accepted_names. Qed.
Print Assumptions C03_names_are_identifiers_and_not_reserved.
Example C03_case : exists s, parse_kf sample_world sample_text [] Default = Outcome (Some s) [] /\ length (elems (sc_tables s)) = 2%nat.
Proof. exists sample_schema. split; [apply sample_parses|reflexivity]. Qed.
(** Index names may be reserved words. *)
Theorem C03_index_names_not_reserved_refuted : exists s t i, parse_kf sample_world (lit "database d; table t { a int, #table index(a) }") [] Default = Outcome (Some s) [] /\
  In t (elems (sc_tables s)) /\ In i (elems (tb_idx t)) /\ In (ix_name i) reserved.
Proof.
  eexists _, _, _. split; [vm_compute; reflexivity|]. split; [left; reflexivity|]. split; [left; reflexivity|]. cbn. tauto.
Qed.
Print Assumptions C03_index_names_not_reserved_refuted.

(** C04, first part: only the visible tokens matter.  Which edits keep the visible tokens: PropLayout.v. *)
Theorem C04_same_visible_tokens_same_result : forall w t1 t2 m ts1 ts2,
  tokens_of t1 ts1 -> tokens_of t2 ts2 -> drop_layout ts1 = drop_layout ts2 ->
  o_result (parse_kf w t1 [] m) = o_result (parse_kf w t2 [] m) /\
  (syntactically_valid t1 <-> syntactically_valid t2) /\
  (syntactically_valid t1 -> parse_kf w t1 [] m = parse_kf w t2 [] m).
Proof. exact same_visible. Qed.
Print Assumptions C04_same_visible_tokens_same_result.
Example C04_case : exists ts1 ts2, tokens_of (lit "database  d ; // x") ts1 /\ tokens_of (lit "database/**/d;") ts2 /\ drop_layout ts1 = drop_layout ts2 /\ ts1 <> ts2.
Proof.
  eexists _, _. split; [apply lex_spec; vm_compute; reflexivity|]. split; [apply lex_spec; vm_compute; reflexivity|]. split; [reflexivity|discriminate].
Qed.

(** C05 *)
Theorem C05_schema_is_what_the_text_writes : forall w text m s l, parse_kf w text [] m = Outcome (Some s) l -> writes text s.
Proof. exact result_writes. Qed.
Print Assumptions C05_schema_is_what_the_text_writes.
Theorem C05_what_the_text_writes_is_returned : forall w text m s, writes text s -> o_result (parse_kf w text [] m) = Some s.
Proof. exact writes_result. Qed.
Print Assumptions C05_what_the_text_writes_is_returned.
Theorem C05_text_writes_one_schema : forall text s s', writes text s -> writes text s' -> s = s'.
Proof. exact writes_fun. Qed.
Print Assumptions C05_text_writes_one_schema.
Example C05_case : writes sample_text sample_schema. Proof. apply sample_accepted. Qed.

(** C06 *)
Theorem C06_init_last_private_unique : forall text ts s, tokens_of text ts -> denotes (drop_layout ts) s ->
  (ninit (drop_layout ts) <= 1)%nat /\
  exists ac, Forall good_action ac /\
    ((ninit (drop_layout ts) = 0%nat /\ elems (sc_actions s) = ac) \/
     (ninit (drop_layout ts) = 1%nat /\ exists i, init_block i /\ elems (sc_actions s) = ac ++ [i])).
Proof. exact ninit_writes. Qed.
Print Assumptions C06_init_last_private_unique.
Theorem C06_no_other_action_named_init : forall a, good_action a -> ac_name a <> lit "init".
Proof. exact only_init. Qed.
Print Assumptions C06_no_other_action_named_init.
Theorem C06_two_inits_refused : forall w text m ts, tokens_of text ts -> program (drop_layout ts) -> (ninit (drop_layout ts) > 1)%nat ->
  parse_kf w text [] m = Outcome None [ESent MultiInit].
Proof. intros w text m ts Ht Hp Hn. apply misdeclared_outcome. exists ts. split; [exact Ht|]. split; [exact Hp|]. left. auto. Qed.
Print Assumptions C06_two_inits_refused.
Example C06_case : exists ts, tokens_of two_inits ts /\ program (drop_layout ts) /\ (ninit (drop_layout ts) > 1)%nat.
Proof.
  assert (H : syntactically_valid two_inits).
  { apply parse_tree_valid. destruct (parse_tree two_inits) as [u|] eqn:E; [exists u; reflexivity|vm_compute in E; discriminate]. }
  destruct H as (ts & Ht & Hp). exists ts. split; [exact Ht|]. split; [exact Hp|].
  apply lex_spec in Ht. vm_compute in Ht. injection Ht as <-. vm_compute. repeat constructor.
Qed.
Example C06_case_one : exists ac i, elems (sc_actions sample_schema) = ac ++ [i] /\ init_block i /\ length ac = 2%nat.
Proof. eexists (firstn 2 (elems (sc_actions sample_schema))), _. split; [reflexivity|]. split; [eexists; split; [|reflexivity]; discriminate|reflexivity]. Qed.

(** C07: reading an attribute list; faults of attribute lists; the action that carries them. *)
Theorem C07_attributes_mean : forall l p m x, v_aattrs l = Ok (p, m, x) <-> attr_words (words l) /\ attrs_mean (words l) p m x.
Proof. exact v_aattrs_ok. Qed.
Print Assumptions C07_attributes_mean.
Theorem C07_attributes_fault : forall l z, v_aattrs l = Panic z <-> exists e, z = PErr e /\ attrs_fault (words l) e.
Proof. exact v_aattrs_panic. Qed.
Print Assumptions C07_attributes_fault.
Theorem C07_faulty_attributes_refused : forall w text m ts pre l post e, tokens_of text ts -> program (drop_layout ts) ->
  (ninit (drop_layout ts) <= 1)%nat -> attr_lists (drop_layout ts) = pre ++ l :: post -> Forall attr_words pre -> attrs_fault l e ->
  parse_kf w text [] m = Outcome None [e].
Proof.
  intros w text m ts pre l post e Ht Hp Hn E Hpre Hf. apply misdeclared_outcome. exists ts. split; [exact Ht|]. split; [exact Hp|].
  right. split; [exact Hn|]. exists pre, l, post. auto.
Qed.
Print Assumptions C07_faulty_attributes_refused.
Theorem C07_every_action_as_written : forall w text m s r, parse_kf w text [] m = Outcome (Some s) r ->
  exists ts, tokens_of text ts /\ forall a, In a (elems (sc_actions s)) ->
    exists seg, part seg (drop_layout ts) /\ (w_action a seg \/ w_init a seg).
Proof.
  intros w text m s r H. apply result_writes in H as (ts & Ht & HD). exists ts. split; [exact Ht|]. intros a Ha.
  destruct (denotes_parts _ _ HD) as (_ & _ & _ & ac & ini & E & _ & H1 & H2). rewrite E in Ha. apply in_app_or in Ha as [Ha|Ha].
  - destruct (H1 a Ha) as (seg & Hp & HW). exists seg. auto.
  - destruct (H2 a Ha) as (seg & Hp & HW). exists seg. auto.
Qed.
Print Assumptions C07_every_action_as_written.
Example C07_case : exists ts, tokens_of two_views ts /\ program (drop_layout ts) /\ (ninit (drop_layout ts) <= 1)%nat /\
  attr_lists (drop_layout ts) = [[PUBLIC_; VIEW_; VIEW_]] /\ attrs_fault [PUBLIC_; VIEW_; VIEW_] (wrap MutabilityAlreadySet (lit "view")).
Proof.
  assert (H : syntactically_valid two_views).
  { apply parse_tree_valid. destruct (parse_tree two_views) as [u|] eqn:E; [exists u; reflexivity|vm_compute in E; discriminate]. }
  destruct H as (ts & Ht & Hp). exists ts. split; [exact Ht|]. split; [exact Hp|].
  apply lex_spec in Ht. vm_compute in Ht. injection Ht as <-. split; [vm_compute; repeat constructor|]. split; [reflexivity|].
  right; left. split; [cbn; repeat constructor|]. split; [cbn; repeat constructor|reflexivity].
Qed.

(** C15: the text of the statements. *)
Theorem C15_statements_verbatim_or_call : forall w text m s l a st, parse_kf w text [] m = Outcome (Some s) l ->
  In a (elems (sc_actions s)) -> In st (elems (ac_stmts a)) ->
  exists ts, tokens_of text ts /\
  ((exists q, part [Tok SQL_STMT q; fixed SCOL] (drop_layout ts) /\ st = q ++ lit ";" /\ Forall (fun c => c <> 59%N /\ c <> 125%N) q /\
     exists x y, text = x ++ st ++ y)
   \/ (exists seg, part seg (drop_layout ts) /\ derives (R call_stmt) seg /\ st = chars seg)).
Proof. exact statements_text. Qed.
Print Assumptions C15_statements_verbatim_or_call.
Theorem C15_statements_vetted : forall w text m s a st, parse_kf w text [] m = Outcome (Some s) [] ->
  In a (elems (sc_actions s)) -> In st (elems (ac_stmts a)) -> act_parse (w_ext w) st = Ok Dml ->
  sql_parse (w_ext w) st = Ok Datatypes.tt /\ to_sql (w_ext w) st = Ok Datatypes.tt.
Proof. exact statements_vetted. Qed.
Print Assumptions C15_statements_vetted.
Example C15_case : exists a st, In a (elems (sc_actions sample_schema)) /\ In st (elems (ac_stmts a)) /\ act_parse (w_ext sample_world) st = Ok Dml.
Proof. eexists _, _. split; [left; reflexivity|]. split; [left; reflexivity|vm_compute; reflexivity]. Qed.

(** C34: values of attributes and extension configurations are part of [good_table], [good_extension]. *)
Theorem C34_values_verbatim : forall w text m s, parse_kf w text [] m = Outcome (Some s) [] ->
  (forall t c a, In t (elems (sc_tables s)) -> In c (elems (tb_cols t)) -> In a (elems (co_attrs c)) -> good_attribute a) /\
  (forall e c, In e (elems (sc_exts s)) -> In c (elems (ex_config e)) -> literal_text_ok (ec_val c)).
Proof.
  intros w text m s H. apply accepted_names in H as (_ & He & Ht & _). rewrite Forall_forall in He, Ht. split.
  - intros t c a Hin Hc Ha. destruct (Ht t Hin) as (_ & Hcs & _). rewrite Forall_forall in Hcs. destruct (Hcs c Hc) as (_ & _ & Has).
    rewrite Forall_forall in Has. exact (Has a Ha).
  - intros e c Hin Hc. destruct (He e Hin) as (_ & _ & Hcs). rewrite Forall_forall in Hcs. apply Hcs; exact Hc.
Qed.
Print Assumptions C34_values_verbatim.
Example C34_case : exists t c a, In t (elems (sc_tables sample_schema)) /\ In c (elems (tb_cols t)) /\ In a (elems (co_attrs c)) /\ at_value a = Some (lit "'x'").
Proof. eexists _, _, _. split; [left; reflexivity|]. split; [right; left; reflexivity|]. split; [right; left; reflexivity|reflexivity]. Qed.
