(** The code of the generated parser and the prediction it relies on: C45, C46. *)
From Coq Require Import ZArith NArith Lia.
From Verif Require Import LexSpec LexerProof Lexer Grammar Schema ParseKF ParseSpec ParseProof Utf8 Sample Tree TreeSpec TreeCheck TreeVisitor TreeProof Run RunSpec RunProof
  Atn AtnLexer AtnLexerProof ScanSpec AtnParser AtnParserTable AtnParserProof AtnTree AtnTreeProof GoParser ParserCode PredictSpec GoParserTable GoParserProof Predict PredictTable PredictProof PropAtn PropTree.
Local Open Scope Z_scope.

(** [returns P ts r]: the call p.Source_unit() on the tokens [ts] ends, with a tree or (None) with a syntax error reported. *)
Definition returns_with (P : predictor) (ts : list tok) (r : option tree) : Prop :=
  exists fuel, source_unit_fun parser_atn rule_functions P fuel ts = Some r.

(** C45 *)
Theorem C45_the_call_ends : forall ts, exists r, returns_with adaptive_predict ts r.
Proof.
  intros ts. destruct (source_unit_ends adaptive_predict ts adaptive_predict_alternatives) as (f & H).
  destruct (source_unit_fun parser_atn rule_functions adaptive_predict f ts) as [r|] eqn:E; [exists r, f; exact E|congruence].
Qed.
Print Assumptions C45_the_call_ends.
Theorem C45_one_result : forall ts r r', returns_with adaptive_predict ts r -> returns_with adaptive_predict ts r' -> r = r'.
Proof. intros ts r r' (f & H) (f' & H'). eapply source_unit_once; eassumption. Qed.
Print Assumptions C45_one_result.
Theorem C45_trees_follow_the_grammar : forall ts t, returns_with adaptive_predict ts (Some t) -> parse_tree_of ts t.
Proof. intros ts t (f & H). apply parser_builds_tree. eapply source_unit_sound; [exact adaptive_predict_alternatives|exact H]. Qed.
Print Assumptions C45_trees_follow_the_grammar.
Theorem C45_error_iff_not_a_program : forall ts, returns_with adaptive_predict ts None <-> ~ program ts.
Proof.
  intros ts. split.
  - intros (f & H) Hp. apply parser_accepts_iff in Hp. exact (source_unit_complete adaptive_predict f ts adaptive_predict_reliable Hp H).
  - intros Hn. destruct (C45_the_call_ends ts) as ([t|] & H); [|exact H]. exfalso. apply Hn. apply C40_a_tree_is_built_for_every_program. exists t.
    destruct H as (f & H). eapply source_unit_sound; [exact adaptive_predict_alternatives|exact H].
Qed.
Print Assumptions C45_error_iff_not_a_program.
(** Whatever the prediction answers (as long as it answers with an alternative of the decision): the code ends, and what it
    builds is a parse tree. *)
Theorem C45_never_wrong : forall P ts, answers_alternatives parser_atn P ->
  (exists r, returns_with P ts r) /\ forall t, returns_with P ts (Some t) -> parse_tree_of ts t.
Proof.
  intros P ts HP. split.
  - destruct (source_unit_ends P ts HP) as (f & H). destruct (source_unit_fun parser_atn rule_functions P f ts) as [r|] eqn:E; [exists r, f; exact E|congruence].
  - intros t (f & H). apply parser_builds_tree. eapply source_unit_sound; [exact HP|exact H].
Qed.
Print Assumptions C45_never_wrong.

(** From the text: the lexer's tables, then the parser's code on the tokens of the default channel. *)
Definition code_gave (text : str) (pt : option tree) : Prop :=
  (exists ts, lexer_events text = Some (map (fun t => Token (Z.of_nat (tt_num (ty t))) (if is_layout (ty t) then 1 else 0) (tx t)) ts) /\
     returns_with adaptive_predict (drop_layout ts) pt) \/
  (exists evs u, lexer_events text = Some evs /\ In (Bad u) evs /\ pt = None).
Theorem C45_code_to_result : forall w text pt l mode m, code_points text -> code_gave text pt ->
  snd (parse_run w text pt l mode) = parse_kf w text l m.
Proof.
  intros w text pt l mode m Hcp H. apply parse_run_outcome. destruct H as [(ts & E & H)|(evs & u & E & Hu & ->)].
  - apply C39_tables_give_the_tokens in E; [|exact Hcp]. destruct pt as [t|]; cbn [parser_gave].
    + exists ts. split; [exact E|]. apply C45_trees_follow_the_grammar. exact H.
    + apply C45_error_iff_not_a_program in H. intros (ts' & E' & Hp). apply lex_spec in E, E'. rewrite E in E'. injection E' as ->. exact (H Hp).
  - intros (ts' & E' & _). apply C39_tables_give_the_tokens in E'; [|exact Hcp]. rewrite E in E'. injection E' as ->. apply in_map_iff in Hu as (t & Ht & _). discriminate Ht.
Qed.
Print Assumptions C45_code_to_result.
Theorem C45_code_gives_one_thing : forall text, code_points text -> exists pt, code_gave text pt /\ forall pt', code_gave text pt' -> pt' = pt.
Proof.
  intros text Hcp. destruct (C39_tables_scan_as_specified text Hcp) as (evs & E & _).
  assert (D : (exists u, In (Bad u) evs) \/ forall u, ~ In (Bad u) evs).
  { clear E. induction evs as [|[k ch x|x] l IH]; [right; intros u []| |left; exists x; left; reflexivity].
    destruct IH as [(u & Hu)|IH]; [left; exists u; right; exact Hu|right]. intros u [Hu|Hu]; [discriminate|exact (IH u Hu)]. }
  destruct D as [(u & Hu)|D].
  - exists None. split; [right; eauto|]. intros pt' [(ts & E' & _)|(? & ? & _ & _ & ->)]; [|reflexivity]. rewrite E in E'. injection E' as ->. apply in_map_iff in Hu as (t & Ht & _). discriminate Ht.
  - destruct (no_bad_tokens text evs Hcp E D) as (ts & Hts). apply C39_tables_give_the_tokens in Hts as E'; [|exact Hcp]. destruct (C45_the_call_ends (drop_layout ts)) as (r & Hr). exists r. split; [left; eauto|].
    intros pt' [(ts2 & E2 & H2)|(evs2 & u & E2 & Hu & _)].
    + apply C39_tables_give_the_tokens in E2; [|exact Hcp]. apply lex_spec in E2, Hts. rewrite Hts in E2. injection E2 as <-. eapply C45_one_result; eassumption.
    + rewrite E in E2. injection E2 as <-. destruct (D u Hu).
Qed.
Print Assumptions C45_code_gives_one_thing.

(** C46 *)
(** Two tokens decide: the answer is the same on inputs that agree on the next two tokens (or on the end of file). *)
Definition agree (ts ts' : list tok) : Prop := firstn 2 (kinds ts ++ [-1]) = firstn 2 (kinds ts' ++ [-1]).
Theorem C46_two_tokens_decide : forall d k k' p ts ts', In d asked -> 0 <= p <= 11 -> agree ts ts' ->
  adaptive_predict d k p (kinds ts ++ [-1]) = adaptive_predict d k' p (kinds ts' ++ [-1]).
Proof. intros. apply two_decide; assumption. Qed.
Print Assumptions C46_two_tokens_decide.
Theorem C46_right_answer : forall d k p ts, In d asked -> 0 <= p <= 11 -> completes parser_atn k p (decision_state d) (kinds ts ++ [-1]) ->
  exists a to, adaptive_predict d k p (kinds ts ++ [-1]) = Some a /\ 1 <= a /\ nth_error (alternatives parser_atn d) (Z.to_nat (a - 1)) = Some (TEps to) /\
    completes parser_atn k p to (kinds ts ++ [-1]).
Proof. exact adaptive_predict_reliable. Qed.
Print Assumptions C46_right_answer.
Theorem C46_first_stage_suffices : forall d p ts, In d asked -> 0 <= p <= 11 ->
  sim parser_atn prec_states (decision_rule (decision_state d)) p (decision_state d) (kinds ts ++ [-1]) <> Unmodelled.
Proof. exact never_unmodelled. Qed.
Print Assumptions C46_first_stage_suffices.
(** The operators of fn_arg_expr, tightest first, with the levels ANTLR gives them (level 4 is NOT, a prefix). *)
Definition level (t : tt) : option Z :=
  match t with
  | PIPE2 => Some 10
  | STAR | DIV | MOD => Some 9
  | PLUS | MINUS => Some 8
  | LT2 | GT2 | AMP | PIPE => Some 7
  | LT | LT_EQ | GT | GT_EQ => Some 6
  | ASSIGN | EQ | SQL_NOT_EQ1 | SQL_NOT_EQ2 => Some 5
  | AND_ => Some 3
  | OR_ => Some 2
  | _ => None
  end.
(** After an operand, the loop of fn_arg_expr goes on with an operator exactly if it binds at least as tightly as asked for. *)
Theorem C46_operators_group_by_level : forall t ts k p L, level (ty t) = Some L -> 0 <= p <= 11 ->
  adaptive_predict 31 k p (kinds (t :: ts) ++ [-1]) = Some (if p <=? L then 1 else 2).
Proof.
  intros t ts k p L HL Hp. cbn [kinds map app]. apply loop_by_op_level; [apply in_tokens; pose proof (kind_range (ty t)); lia| |exact Hp].
  rewrite <- HL. clear. assert (G : forall x, op_level (Z.of_nat (tt_num x)) = level x) by (intros x; destruct x; vm_compute; reflexivity). apply G.
Qed.
Print Assumptions C46_operators_group_by_level.

(** Cases. *)
Definition tokens_in (s : str) : list tok := match tokenize s with Some ts => ts | None => [] end.
Example C45_case : returns_with adaptive_predict (tokens_in sum_text) (Some to_the_left).
Proof. exists 200%nat. vm_compute. reflexivity. Qed.
Example C45_case_error : returns_with adaptive_predict (tokens_in no_semicolon) None.
Proof. exists 200%nat. vm_compute. reflexivity. Qed.
(** In the argument of g, before the plus, in: init() { g($a + $b); } *)
Definition in_call : stack := [(388, 0); (371, 0); (358, 0); (347, 0); (341, 0); (338, 0); (112, 0)].
Example C46_case : completes parser_atn in_call 0 (decision_state 31) (kinds (tokens_in (lit "+ $b); }")) ++ [-1]) /\
  adaptive_predict 31 in_call 0 (kinds (tokens_in (lit "+ $b); }")) ++ [-1]) = Some 1 /\
  adaptive_predict 31 in_call 9 (kinds (tokens_in (lit "+ $b); }")) ++ [-1]) = Some 2.
Proof. split; [apply (can_sound 60)|split]; vm_compute; reflexivity. Qed.
