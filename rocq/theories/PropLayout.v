(** Layout and text properties: C04 (edits), C31, C32, C33. *)
From Verif Require Import Tokens LexSpec LexerProof Lexer Schema Grammar Denote NameSpec Segments LayoutSpec Spacing LayoutProof PrintSpec PrintProof
  Validator ValidSpec ParseKF ParseSpec ParseProof ParseProof2 Outcomes Sample.
Local Open Scope N_scope.

(** C04 *)
(** The texts with the visible tokens of a valid text are exactly the layouts of those tokens. *)
Theorem C04_layouts_of_a_program : forall text ts text', tokens_of text ts -> program (drop_layout ts) ->
  ((exists ts', tokens_of text' ts' /\ drop_layout ts' = drop_layout ts) <-> laid_out (drop_layout ts) text').
Proof. intros text ts text' Ht HP. apply program_layouts; [exact HP|]. eapply lexed_visible; exact Ht. Qed.
Print Assumptions C04_layouts_of_a_program.

Lemma gap_first g c r : gap g -> g = c :: r -> is_wsnl c = true \/ c = 47.
Proof. intros [|c' g' Hc _|b g' _ _|b n g' _ _ _] E; [discriminate|injection E as <- _; auto|cbn in E; injection E as <- _; auto..]. Qed.
(** White space or comments put between two tokens of a valid text change nothing, except directly after an SQL statement;
    after a '/' they must not start with a comment, after a line comment they must start with a line break. *)
Theorem C04_insert : forall w m x y g, tokens_of (concat (map tx (x ++ y))) (x ++ y) -> program (drop_layout (x ++ y)) -> gap g ->
  (forall x' t, x = x' ++ [t] ->
     ty t <> SQL_STMT /\ (ty t = DIV -> exists c r, g = c :: r /\ is_wsnl c = true) /\ (ty t = LINE_COMMENT -> exists c r, g = c :: r /\ is_nl c = true)) ->
  (exists ts, tokens_of (concat (map tx x) ++ g ++ concat (map tx y)) ts /\ drop_layout ts = drop_layout (x ++ y)) /\
  parse_kf w (concat (map tx x) ++ g ++ concat (map tx y)) [] m = parse_kf w (concat (map tx (x ++ y))) [] m.
Proof.
  intros w m x y g Ht HP Hg Hc. destruct (insert_gap x y g Ht HP Hg) as (ts & H1 & H2).
  - intros x' t E c r Eg. destruct (Hc x' t E) as (Hs & Hd & Hl).
    assert (Hin : In t (x ++ y)) by (rewrite E; apply in_or_app; left; apply in_or_app; right; left; reflexivity).
    pose proof (proj1 (program_clear _ (tokens_lexed _ _ Ht) HP)) as HQ. rewrite Forall_forall in HQ. specialize (HQ _ Hin).
    destruct (gap_first g c r Hg Eg) as [Hw| ->].
    + assert (E4 : c = 9 \/ c = 32 \/ c = 10 \/ c = 13) by (unfold is_wsnl, is_blank, is_nl in Hw; bd; lia).
      destruct (ty t); try discriminate HQ; try congruence; try (destruct E4 as [->|[->|[->| ->]]]; reflexivity).
      destruct (Hl eq_refl) as (c1 & r1 & Eg1 & Hn). rewrite Eg in Eg1. injection Eg1 as <- _. cbn. rewrite Hn. reflexivity.
    + destruct (ty t); try discriminate HQ; try congruence; try reflexivity.
      * destruct (Hd eq_refl) as (c1 & r1 & Eg1 & Hn). rewrite Eg in Eg1. injection Eg1 as <- _. discriminate.
      * destruct (Hl eq_refl) as (c1 & r1 & Eg1 & Hn). rewrite Eg in Eg1. injection Eg1 as <- _. discriminate.
  - split; [exists ts; auto|]. symmetry. eapply same_visible; [exact Ht|exact H1|symmetry; exact H2|]. exists (x ++ y). auto.
Qed.
Print Assumptions C04_insert.
(** White space and comments may be removed wherever the neighbours do not merge. *)
Theorem C04_remove : forall w m x l y, tokens_of (concat (map tx (x ++ l ++ y))) (x ++ l ++ y) -> program (drop_layout (x ++ l ++ y)) ->
  Forall (fun t => is_layout (ty t) = true) l ->
  (forall x' t c r, x = x' ++ [t] -> concat (map tx y) = c :: r -> extends (ty t) c = false) ->
  (exists ts, tokens_of (concat (map tx x) ++ concat (map tx y)) ts /\ drop_layout ts = drop_layout (x ++ l ++ y)) /\
  parse_kf w (concat (map tx x) ++ concat (map tx y)) [] m = parse_kf w (concat (map tx (x ++ l ++ y))) [] m.
Proof.
  intros w m x l y Ht HP Hl Hc. destruct (remove_layout x l y Ht HP Hl) as (ts & H1 & H2).
  - intros x' t E c r. apply Hc with (x' := x'); exact E.
  - split; [exists ts; auto|]. symmetry. eapply same_visible; [exact Ht|exact H1|symmetry; exact H2|]. exists (x ++ l ++ y). auto.
Qed.
Print Assumptions C04_remove.
(** "database  d;": a comment goes in after "d"; one of the blanks may go. *)
Example C04_edit_case : exists x y g, tokens_of (lit "database  d;") (x ++ y) /\ program (drop_layout (x ++ y)) /\ gap g /\
  concat (map tx x) ++ g ++ concat (map tx y) = lit "database  d/*x*/;".
Proof.
  exists [fixed DATABASE_; Tok WS (lit " "); Tok WS (lit " "); Tok IDENTIFIER (lit "d")], [fixed SCOL], (lit "/*x*/").
  split; [apply lex_spec; vm_compute; reflexivity|]. split; [|split; [|reflexivity]].
  - apply (ParserGrammar.p_unit_accepts [fixed DATABASE_; Tok IDENTIFIER (lit "d"); fixed SCOL]); [|eexists; vm_compute; reflexivity].
    apply DenoteProof.shaped_ok. repeat constructor. exists 100, []. repeat split; constructor.
  - apply (gap_block (lit "x") []); [|constructor]. intros (a & b & E). destruct a as [|a1 [|a2 [|]]]; cbn in E; try discriminate E; injection E as _ E; discriminate.
Qed.

(** C31 *)
(** The schemas that some text writes are exactly the plain ones. *)
Theorem C31_writable_iff_plain : forall s, (exists text, writes text s) <-> plain_schema s.
Proof. exact writes_plain. Qed.
Print Assumptions C31_writable_iff_plain.
Theorem C31_every_plain_valid_schema_is_parsed_from_some_text : forall w m s, plain_schema s -> valid_schema (w_ext w) s ->
  exists text, parse_kf w text [] m = Outcome (Some s) [].
Proof. intros w m s HP HV. destruct (plain_writes s HP) as (text & Ht). exists text. apply parse_accepts. split; assumption. Qed.
Print Assumptions C31_every_plain_valid_schema_is_parsed_from_some_text.
(** Printing the tokens of an accepted text with single blanks gives a text with the same result. *)
Theorem C31_reprint : forall w text m s l ts, parse_kf w text [] m = Outcome (Some s) l -> tokens_of text ts ->
  parse_kf w (spread_text (drop_layout ts)) [] m = Outcome (Some s) l.
Proof.
  intros w text m s l ts H Ht. pose proof (result_writes _ _ _ _ _ H) as HW. destruct HW as (ts' & Ht' & HD).
  assert (ts' = ts) by (eapply tokens_of_fun; eassumption). subst ts'. pose proof (lexed_visible _ _ Ht) as HL. pose proof (denotes_program _ _ HD HL) as HP.
  destruct (proj2 (program_layouts _ _ HP HL) (spread_layout _ HP HL)) as (us & Hu & E).
  rewrite <- H. symmetry. eapply same_visible; [exact Ht|exact Hu|symmetry; exact E|]. exists ts. auto.
Qed.
Print Assumptions C31_reprint.
Example C31_case : plain_schema sample_schema /\ valid_schema (w_ext sample_world) sample_schema.
Proof. destruct sample_accepted as [H1 H2]. split; [apply writes_plain; exists sample_text; exact H1|exact H2]. Qed.

(** C32 *)
(** A stored call statement reads back as the tokens written iff no two neighbouring words ran together. *)
Theorem C32_call_text : forall w text m s l a st, parse_kf w text [] m = Outcome (Some s) l ->
  In a (elems (sc_actions s)) -> In st (elems (ac_stmts a)) ->
  exists ts seg, tokens_of text ts /\ part seg (drop_layout ts) /\
    ((exists q, seg = [Tok SQL_STMT q; fixed SCOL] /\ st = q ++ lit ";")
     \/ (derives (R call_stmt) seg /\ st = chars seg /\ (tokens_of st seg <-> forall t t', neighbours seg t t' -> ~ merges t t'))).
Proof.
  intros w text m s l a st H Ha Hst. apply result_writes in H as (ts & Ht & HD). destruct (statements_parts _ _ _ _ HD Ha Hst) as (seg & Hp & Hw).
  exists ts, seg. split; [exact Ht|]. split; [exact Hp|]. inversion Hw as [q|sg Hd]; subst; [left; exists q; auto|right].
  split; [exact Hd|]. split; [reflexivity|]. apply call_text; [exact Hd|]. eapply lexed_part; [exact Hp|]. eapply lexed_visible; exact Ht.
Qed.
Print Assumptions C32_call_text.
(** So the claim without the side condition fails: the stored text of these calls is something else. *)
Definition call_world : world :=
  World (Externals (fun _ => Ok (ActionCall (lit "b") [])) (fun _ => Ok Datatypes.tt) (fun _ => Ok Datatypes.tt) (fun p => p)) (fun _ => (lit "", [])).
Definition joined : str := lit "database d; action b() public { b(not f($a), $a and $b); }".
Theorem C32_call_text_kept_refuted : exists s a, parse_kf call_world joined [] Default = Outcome (Some s) [] /\ In a (elems (sc_actions s)) /\
  elems (ac_stmts a) = [lit "b(notf($a),$aand$b);"] /\
  (exists ts, tokens_of joined ts /\ part [fixed NOT_; Tok IDENTIFIER (lit "f")] (drop_layout ts) /\
     part [Tok PARAM_OR_VAR (lit "$a"); fixed AND_; Tok PARAM_OR_VAR (lit "$b")] (drop_layout ts)) /\
  (exists ts, tokens_of (lit "b(notf($a),$aand$b);") ts /\ part [Tok IDENTIFIER (lit "notf")] ts /\
     part [Tok PARAM_OR_VAR (lit "$aand"); Tok PARAM_OR_VAR (lit "$b")] ts).
Proof.
  eexists _, _. split; [vm_compute; reflexivity|]. split; [left; reflexivity|]. split; [reflexivity|]. split.
  - eexists. split; [apply lex_spec; vm_compute; reflexivity|]. split.
    + vm_compute. exists [fixed DATABASE_; Tok IDENTIFIER (lit "d"); fixed SCOL; fixed ACTION_; Tok IDENTIFIER (lit "b"); fixed L_PAREN; fixed R_PAREN; fixed PUBLIC_; fixed L_BRACE;
        Tok IDENTIFIER (lit "b"); fixed L_PAREN]. eexists. vm_compute. reflexivity.
    + vm_compute. exists [fixed DATABASE_; Tok IDENTIFIER (lit "d"); fixed SCOL; fixed ACTION_; Tok IDENTIFIER (lit "b"); fixed L_PAREN; fixed R_PAREN; fixed PUBLIC_; fixed L_BRACE;
        Tok IDENTIFIER (lit "b"); fixed L_PAREN; fixed NOT_; Tok IDENTIFIER (lit "f"); fixed L_PAREN; Tok PARAM_OR_VAR (lit "$a"); fixed R_PAREN; fixed COMMA]. eexists. vm_compute. reflexivity.
  - eexists. split; [apply lex_spec; vm_compute; reflexivity|]. split.
    + vm_compute. exists [Tok IDENTIFIER (lit "b"); fixed L_PAREN]. eexists. vm_compute. reflexivity.
    + vm_compute. exists [Tok IDENTIFIER (lit "b"); fixed L_PAREN; Tok IDENTIFIER (lit "notf"); fixed L_PAREN; Tok PARAM_OR_VAR (lit "$a"); fixed R_PAREN; fixed COMMA]. eexists. vm_compute. reflexivity.
Qed.
Print Assumptions C32_call_text_kept_refuted.

(** C33 *)
(** From an SQL word and a white space character to the first ';' or '}' (or the end): one token, whatever lies between. *)
Theorem C33_sql_extends_to_first_terminator : forall k c body rest, sqlkw k -> is_wsnl c = true -> body <> [] ->
  Forall (fun x => x <> 59 /\ x <> 125) body -> (rest = [] \/ exists r, rest = 59 :: r \/ rest = 125 :: r) ->
  first_token (k ++ c :: body ++ rest) (Tok SQL_STMT (k ++ c :: body)) rest.
Proof. exact sql_to_terminator. Qed.
Print Assumptions C33_sql_extends_to_first_terminator.
Theorem C33_sql_token_ends_at_terminator : forall s t rest, first_token s t rest -> ty t = SQL_STMT ->
  Forall (fun x => x <> 59 /\ x <> 125) (tx t) /\ match rest with [] => True | c :: _ => c = 59 \/ c = 125 end.
Proof.
  intros s t rest H E. split; [|eapply sql_next; eassumption]. destruct H as (_ & _ & Hs & _). rewrite E in Hs. destruct Hs as (k & c & d & r & -> & Hk & Hc & HF).
  apply Forall_app. split.
  - apply Forall_forall. intros x Hx. apply sql_word_ident in Hk as (a & w & -> & Ha & Hw). destruct Hx as [<-|Hx].
    + unfold is_letter in Ha. bd. lia.
    + rewrite Forall_forall in Hw. specialize (Hw _ Hx). unfold is_wordch, is_letter, is_digit in Hw. bd. lia.
  - constructor; [unfold is_wsnl, is_blank, is_nl in Hc; bd; lia|exact HF].
Qed.
Print Assumptions C33_sql_token_ends_at_terminator.
(** A ';' inside an SQL string literal ends the statement. *)
Theorem C33_string_literals_opaque_refuted : first_token (lit "insert into t values ('a;b');") (Tok SQL_STMT (lit "insert into t values ('a")) (lit ";b');") /\
  ~ syntactically_valid (lit "database d; action a() public { insert into t values ('a;b'); }").
Proof.
  split.
  - apply (sql_to_terminator (lit "insert") 32 (lit "into t values ('a") (lit ";b');")); [vm_compute; tauto|reflexivity|discriminate| |right; eexists; left; reflexivity].
    vm_compute. repeat constructor; discriminate.
  - apply (parse_syntax sample_world _ Default). vm_compute. reflexivity.
Qed.
Print Assumptions C33_string_literals_opaque_refuted.
Example C33_case : sqlkw (lit "SeLeCt") /\ first_token (lit "SeLeCt" ++ 10 :: lit "'{' from t" ++ lit "; x") (Tok SQL_STMT (lit "SeLeCt" ++ 10 :: lit "'{' from t")) (lit "; x").
Proof.
  assert (H : sqlkw (lit "SeLeCt")) by (vm_compute; tauto). split; [exact H|].
  apply C33_sql_extends_to_first_terminator; [exact H|reflexivity|discriminate| |right; eexists; left; reflexivity]. vm_compute. repeat constructor; discriminate.
Qed.
