(** Parse trees and tracing: C41, and the tracing part of C28. *)
From Coq Require Import NArith.
From Verif Require Import LexSpec LexerProof Lexer Grammar Cst Schema Visitor Validator ParseKF ParseSpec ParseProof ParseBytes Utf8 Sample
  Tree TreeSpec TreeVisitor TreeProof TreeExists TreeCheck Run RunSpec RunProof
  Atn AtnLexer ScanSpec AtnParser AtnParserProof AtnTree AtnTreeProof PropAtn.
From Coq Require Import ZArith.
Local Notation Node := Tree.Node.

(** C41 *)
Theorem C41_any_parse_tree_gives_the_result : forall w text pt l mode m, parser_gave text pt ->
  snd (parse_run w text pt l mode) = parse_kf w text l m.
Proof. intros. apply parse_run_outcome. assumption. Qed.
Print Assumptions C41_any_parse_tree_gives_the_result.
Theorem C41_a_parse_tree_exists : forall text, (exists t, tree_of_text text t) <-> syntactically_valid text.
Proof. exact parser_gave_some. Qed.
Print Assumptions C41_a_parse_tree_exists.
(** The visitor neither calls a method on nil nor asserts a wrong type: on a parse tree it panics only with the errors it
    is written to panic with. *)
Theorem C41_visitor_is_safe : forall text t trace p, tree_of_text text t ->
  snd (visit trace source_unit (visit_source_unit trace) (Some t)) = Panic p ->
  p <> nil_call /\ p <> bad_slice /\ p <> bad_type /\
  exists s, In s [MultiInit; VisibilityAlreadySet; MutabilityAlreadySet; AuxiliaryAlreadySet] /\ err_is [panic_error p] s = true.
Proof. exact visitor_safe. Qed.
Print Assumptions C41_visitor_is_safe.

(** One text, two parse trees: the grammar leaves open how a + b + c groups. *)
Definition leaf (k : tt) (s : String.string) : tree := Leaf (Tok k (lit s)).
Definition var (s : String.string) : tree := Node fn_arg_expr [Node variable [leaf PARAM_OR_VAR s]].
Definition grouped (e : tree) : tree :=
  Node source_unit
    [Node database_directive [leaf DATABASE_ "database"; Node database_name [leaf IDENTIFIER "d"]]; leaf SCOL ";";
     Node action_decl
       [leaf ACTION_ "action"; Node action_name [leaf IDENTIFIER "f"]; leaf L_PAREN "("; Node param_list []; leaf R_PAREN ")";
        Node action_attr_list [Node action_visibility [leaf PUBLIC_ "public"]]; leaf L_BRACE "{";
        Node action_stmt_list
          [Node action_stmt
             [Node call_stmt
                [Node call_body [Node fn_name [Node action_name [leaf IDENTIFIER "g"]]; leaf L_PAREN "("; Node fn_arg_list [e]; leaf R_PAREN ")"];
                 leaf SCOL ";"]]];
        leaf R_BRACE "}"]; Eof].
Definition to_the_left : tree := grouped (Node fn_arg_expr [Node fn_arg_expr [var "$a"; leaf PLUS "+"; var "$b"]; leaf PLUS "+"; var "$c"]).
Definition to_the_right : tree := grouped (Node fn_arg_expr [var "$a"; leaf PLUS "+"; Node fn_arg_expr [var "$b"; leaf PLUS "+"; var "$c"]]).
Definition sum_text : str := lit "database d; action f() public { g($a + $b + $c); }".
Example C41_case : to_the_left <> to_the_right /\ tree_of_text sum_text to_the_left /\ tree_of_text sum_text to_the_right.
Proof.
  assert (HE : leaves to_the_left = leaves to_the_right) by reflexivity.
  assert (HT : tokenize sum_text = Some (leaves to_the_left)) by (vm_compute; reflexivity).
  apply tokenize_spec in HT as (ts & Ht & E). split; [discriminate|]. split; exists ts; (split; [exact Ht|]); rewrite <- E.
  - apply (is_tree_sound 60). vm_compute. reflexivity.
  - rewrite HE. apply (is_tree_sound 60). vm_compute. reflexivity.
Qed.

(** The generated tables (C39, C40) give such trees. *)
Theorem C40_tables_build_parse_trees : forall ts t, parser_builds ts t -> parse_tree_of ts t.
Proof. exact parser_builds_tree. Qed.
Print Assumptions C40_tables_build_parse_trees.
Theorem C40_a_tree_is_built_for_every_program : forall ts, (exists t, parser_builds ts t) <-> program ts.
Proof. intros ts. rewrite parser_builds_iff. apply parser_accepts_iff. Qed.
Print Assumptions C40_a_tree_is_built_for_every_program.
(** The lexer's tables yield the tokens [ts] and the parser's tables build [t] from those of the default channel; or they do
    not accept the text. *)
Definition tables_gave (text : str) (pt : option tree) : Prop :=
  match pt with
  | Some t => exists ts, lexer_events text = Some (map (fun t => Token (Z.of_nat (tt_num (ty t))) (if is_layout (ty t) then 1 else 0)%Z (tx t)) ts) /\
      parser_builds (drop_layout ts) t
  | None => ~ tables_accept text
  end.
Theorem C41_tables_to_result : forall w text pt l mode m, code_points text -> tables_gave text pt ->
  snd (parse_run w text pt l mode) = parse_kf w text l m.
Proof.
  intros w text pt l mode m Hcp H. apply parse_run_outcome. destruct pt as [t|]; cbn [tables_gave parser_gave] in *.
  - destruct H as (ts & E & Hb). exists ts. split; [apply C39_tables_give_the_tokens; assumption|]. apply parser_builds_tree. exact Hb.
  - rewrite <- (C40_tables_accept_the_language text Hcp). exact H.
Qed.
Print Assumptions C41_tables_to_result.
Theorem C41_tables_give_something : forall text, code_points text -> exists pt, tables_gave text pt.
Proof.
  intros text Hcp. destruct (parse_tree text) as [u|] eqn:E.
  - assert (Hv : syntactically_valid text) by (apply parse_tree_valid; eauto). destruct Hv as (ts & Ht & Hp).
    apply C40_a_tree_is_built_for_every_program in Hp as (t & Hb). exists (Some t), ts. split; [|exact Hb]. apply C39_tables_give_the_tokens; assumption.
  - exists None. cbn. rewrite (C40_tables_accept_the_language text Hcp). apply parse_tree_none. exact E.
Qed.
Print Assumptions C41_tables_give_something.

(** C28, tracing *)
(** Whatever the modes (and whatever trees the parser built), result and errors are the same. *)
Theorem C28_tracing_is_harmless : forall w text pt pt' l mode mode', parser_gave text pt -> parser_gave text pt' ->
  snd (parse_run w text pt l mode) = snd (parse_run w text pt' l mode').
Proof. intros w text pt pt' l mode mode' H H'. rewrite (parse_run_outcome w text pt l mode Default H), (parse_run_outcome w text pt' l mode' Default H'). reflexivity. Qed.
Print Assumptions C28_tracing_is_harmless.
Theorem C28_silent_without_trace : forall w text pt l mode, N.testbit mode 1 = false -> fst (parse_run w text pt l mode) = [].
Proof. intros. apply silent. assumption. Qed.
Print Assumptions C28_silent_without_trace.
(** With trace: the visited contexts, the root first, then the error. *)
Theorem C28_trace_prints : forall w text pt l mode, N.testbit mode 1 = true ->
  let (lines, o) := parse_run w text pt l mode in
  exists visits, lines = visits ++ [lit "E  " ++ match o_listener o with [] => lit "<nil>" | errs => list_text errs end] /\
    match l, pt with
    | [], Some t => exists more, visits = (lit "visit tree: " ++ go_type t ++ lit ", " ++ get_text t) :: more /\
        forall x, In x more -> exists s, below t s /\ x = lit "visit tree: " ++ go_type s ++ lit ", " ++ get_text s
    | _, _ => visits = []
    end.
Proof.
  intros w text pt l mode H. pose proof (traced w text pt l mode H) as (vs & E & Hv). destruct (parse_run w text pt l mode) as [lines o].
  exists vs. split; [|exact Hv]. cbn [fst snd] in E. rewrite E. unfold final_line. destruct (o_listener o); reflexivity.
Qed.
Print Assumptions C28_trace_prints.
Example C28_trace_case : fst (parse_run sample_world (lit "database d;") (Some (Node source_unit
    [Node database_directive [leaf DATABASE_ "database"; Node database_name [leaf IDENTIFIER "d"]]; leaf SCOL ";"; Eof])) [] 2) =
  [lit "visit tree: *kfgrammar.Source_unitContext, databased;<EOF>"; lit "E  <nil>"].
Proof. vm_compute. reflexivity. Qed.
