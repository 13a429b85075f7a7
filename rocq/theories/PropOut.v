(** Commenting out: C65. *)
From Coq Require Import Permutation.
From Verif Require Import Tokens LexSpec LexShape LexerProof Lexer Segments LayoutSpec Spacing Grammar LayoutProof Schema Denote Validator ValidSpec ParseKF ParseSpec ParseProof ParseProof2
  Outcomes OrderSpec OrderProof PropOrder Sample OutSpec.
Local Open Scope N_scope.

(** * Layout *)
Lemma extends_slash k : ~ In k [DIV; SQL_STMT; LINE_COMMENT] -> extends k 47 = false.
Proof. intros H. destruct k; try reflexivity; exfalso; apply H; cbn; tauto. Qed.
Lemma later_layout n : forall d acc vs s, (length d <= n)%nat -> whole_lines d -> Forall (fun x => is_nl x = false) acc -> (forall c r, s = c :: r -> is_nl c = true) -> laid_out vs s ->
  laid_out vs (lit "//" ++ acc ++ later_lines d ++ s).
Proof.
  induction n as [|n IH]; intros d acc vs s L HW HA Hn Hs.
  - destruct d; [|cbn in L; lia]. apply lo_line; assumption.
  - destruct d as [|c d]; [apply lo_line; assumption|]. cbn [length] in L.
    assert (HW' : forall p q, c :: d = p ++ q -> whole_lines q). { intros p q E x y ->. apply (HW (p ++ x)). rewrite E, <- app_assoc. reflexivity. }
    assert (B : forall r m, is_nl m = true -> laid_out vs r -> laid_out vs (lit "//" ++ acc ++ m :: r)).
    { intros r m Hm Hr. apply lo_line; [exact HA| |apply lo_blank; [unfold is_wsnl; rewrite Hm; apply orb_true_r|exact Hr]]. intros c0 r0 E. injection E as <- _. exact Hm. }
    cbn [later_lines]. destruct (N.eqb_spec c 10) as [->|H10].
    + cbn [app]. apply B; [reflexivity|]. apply (IH d [] vs s); [lia|apply (HW' [10]); reflexivity|constructor|exact Hn|exact Hs].
    + destruct (N.eqb_spec c 13) as [->|H13].
      * destruct (HW [] d eq_refl) as [->|(z & ->)]; cbn [later_lines app].
        -- apply B; [reflexivity|exact Hs].
        -- change (10 =? 10) with true. cbv iota. cbn [app]. apply B; [reflexivity|]. apply lo_blank; [reflexivity|]. cbn [length] in L.
           apply (IH z [] vs s); [lia|apply (HW' [13; 10]); reflexivity|constructor|exact Hn|exact Hs].
      * specialize (IH d (acc ++ [c]) vs s ltac:(lia)). rewrite <- app_assoc in IH. cbn [app] in IH |- *. apply IH; [apply (HW' [c]); reflexivity| |exact Hn|exact Hs].
        apply Forall_app. split; [exact HA|]. constructor; [|constructor]. unfold is_nl. apply orb_false_iff. split; apply N.eqb_neq; assumption.
Qed.

(** Between the tokens [X] and [Y], [D] is replaced by a text that starts with a slash and lays out nothing. *)
Lemma replaced X D Y g : tokens_of (chars (X ++ D ++ Y)) (X ++ D ++ Y) -> program (drop_layout (X ++ D ++ Y)) ->
  (forall x t, X = x ++ [t] -> ~ In (ty t) [DIV; SQL_STMT; LINE_COMMENT]) ->
  (forall vs, laid_out vs (chars Y) -> laid_out vs (47 :: g ++ chars Y)) ->
  exists ts, tokens_of (chars X ++ 47 :: g ++ chars Y) ts /\ drop_layout ts = drop_layout X ++ drop_layout Y.
Proof.
  intros Ht HP HX Hg. pose proof (tokens_lexed _ _ Ht) as HL. pose proof (tokens_apart _ _ Ht (program_clear _ HL HP)) as HA. pose proof (program_visible _ HP) as HV. pose proof (lexed_visible _ _ Ht) as HVL.
  destruct (apart_app _ _ HA) as [HAx HA2]. destruct (apart_app _ _ HA2) as [_ HAy]. unfold lexed in HL. rewrite !Forall_app in HL. destruct HL as (HLx & _ & HLy).
  assert (Ed : forall u v, drop_layout (u ++ v) = drop_layout u ++ drop_layout v) by (intros; apply filter_app). rewrite !Ed in HV, HVL. unfold lexed in HVL. rewrite !Forall_app in HV, HVL.
  apply layout_tokens; [|apply Forall_app; tauto|apply Forall_app; tauto]. apply layout_prefix; [exact HLx|exact HAx| |].
  - apply Hg. apply apart_layout; assumption.
  - intros x t -> c r E. injection E as <- _. apply extends_slash. eapply HX. reflexivity.
Qed.

(** * The theorems about tokens *)
Theorem C65_in_a_block : forall X D Y, tokens_of (chars (X ++ D ++ Y)) (X ++ D ++ Y) -> program (drop_layout (X ++ D ++ Y)) ->
  (forall x t, X = x ++ [t] -> ~ In (ty t) [DIV; SQL_STMT; LINE_COMMENT]) -> ~ occurs (lit "*/") (chars D ++ lit "*") ->
  exists ts, tokens_of (chars X ++ blocked (chars D) ++ chars Y) ts /\ drop_layout ts = drop_layout X ++ drop_layout Y.
Proof.
  intros X D Y Ht HP HX HD. unfold blocked. rewrite <- !app_assoc. apply (replaced X D Y (42 :: chars D ++ lit "*/")) in Ht; try assumption.
  - cbn [app] in Ht. rewrite <- app_assoc in Ht. exact Ht.
  - intros vs Hs. cbn [app]. rewrite <- app_assoc. apply (lo_block (chars D) vs (chars Y)); assumption.
Qed.
Print Assumptions C65_in_a_block.
Theorem C65_line_by_line : forall X D Y, tokens_of (chars (X ++ D ++ Y)) (X ++ D ++ Y) -> program (drop_layout (X ++ D ++ Y)) ->
  (forall x t, X = x ++ [t] -> ~ In (ty t) [DIV; SQL_STMT; LINE_COMMENT]) -> whole_lines (chars D) -> (forall c r, chars Y = c :: r -> is_nl c = true) ->
  exists ts, tokens_of (chars X ++ slashed (chars D) ++ chars Y) ts /\ drop_layout ts = drop_layout X ++ drop_layout Y.
Proof.
  intros X D Y Ht HP HX HD HY. unfold slashed. rewrite <- !app_assoc. apply (replaced X D Y (47 :: later_lines (chars D))) in Ht; try assumption.
  intros vs Hs. apply (later_layout (length (chars D)) (chars D) [] vs (chars Y)); auto.
Qed.
Print Assumptions C65_line_by_line.

(** * Declarations *)
(** The tokens [X ++ D ++ Y] with declaration [d] in [D], others before and behind it. *)
Definition around (n : str) (xs : list extension) (ds1 : list (decl * list tok)) (d : decl * list tok) (ds2 : list (decl * list tok)) (X D Y : list tok) : Prop :=
  tokens_of (chars (X ++ D ++ Y)) (X ++ D ++ Y) /\ Forall (fun d => w_decl (fst d) (snd d)) (ds1 ++ d :: ds2) /\
  (exists tx, series w_extension xs tx /\ drop_layout X = [fixed DATABASE_; Tok IDENTIFIER n; fixed SCOL] ++ tx ++ concat (map snd ds1)) /\
  drop_layout D = snd d /\ drop_layout Y = concat (map snd ds2).
Lemma around_arranged n xs ds1 d ds2 X D Y : around n xs ds1 d ds2 X D Y -> arranged n xs (ds1 ++ d :: ds2) (chars (X ++ D ++ Y)).
Proof.
  intros (Ht & HW & (tx & Hx & EX) & ED & EY). exists (X ++ D ++ Y), tx. split; [exact Ht|]. split; [exact Hx|]. split; [exact HW|].
  unfold drop_layout in *. rewrite !filter_app, EX, ED, EY, map_app, concat_app. cbn [map concat]. rewrite <- !app_assoc. reflexivity.
Qed.
Definition closed (ts : list tok) : Prop := forall a t, ts = a ++ [t] -> In (ty t) [SCOL; R_BRACE].
Lemma closed_app a b : closed a -> closed b -> closed (a ++ b).
Proof.
  intros Ha Hb x t E. destruct b as [|y b] using rev_ind; [rewrite app_nil_r in E; apply (Ha _ _ E)|]. rewrite app_assoc in E. apply app_inj_tail in E as [_ <-]. apply (Hb b y eq_refl).
Qed.
Lemma closed_end a t : In (ty t) [SCOL; R_BRACE] -> closed (a ++ [t]).
Proof. intros H x u E. apply app_inj_tail in E as [_ <-]. exact H. Qed.
Lemma closed_nil : closed []. Proof. intros a t E. destruct a; discriminate. Qed.
Lemma closed_series {A} (D : A -> list tok -> Prop) l ts : (forall a ts, D a ts -> closed ts) -> series D l ts -> closed ts.
Proof. intros HD. induction 1 as [|a u l us H HS IH]; [apply closed_nil|apply closed_app; eauto]. Qed.
Lemma closed_extension a ts : w_extension a ts -> closed ts.
Proof.
  intros [n b|n l t b H].
  - apply (closed_end [fixed USE_; Tok IDENTIFIER n; fixed AS_; Tok IDENTIFIER b]). cbn; auto.
  - replace ([fixed USE_; Tok IDENTIFIER n; fixed L_BRACE] ++ t ++ [fixed R_BRACE; fixed AS_; Tok IDENTIFIER b; fixed SCOL])
      with (([fixed USE_; Tok IDENTIFIER n; fixed L_BRACE] ++ t ++ [fixed R_BRACE; fixed AS_; Tok IDENTIFIER b]) ++ [fixed SCOL]) by (rewrite <- !app_assoc; reflexivity).
    apply closed_end. cbn; auto.
Qed.
Lemma closed_decl d ts : w_decl d ts -> closed ts.
Proof.
  destruct d as [t|a|a]; cbn; intros H.
  - destruct H. rewrite !app_assoc. apply closed_end. cbn; auto.
  - destruct H. rewrite !app_assoc. apply closed_end. cbn; auto.
  - destruct H. rewrite !app_assoc. apply closed_end. cbn; auto.
Qed.
Lemma around_last n xs ds1 d ds2 X D Y : around n xs ds1 d ds2 X D Y -> (forall x t, X = x ++ [t] -> ty t <> LINE_COMMENT) ->
  forall x t, X = x ++ [t] -> ~ In (ty t) [DIV; SQL_STMT; LINE_COMMENT].
Proof.
  intros (_ & HW & (tx & Hx & EX) & _) HX x t E I. specialize (HX _ _ E). destruct (is_layout (ty t)) eqn:El; [destruct I as [I|[I|[I|[]]]]; rewrite <- I in El, HX; try discriminate; apply HX; reflexivity|].
  assert (HC : closed (drop_layout X)).
  { rewrite EX. apply closed_app; [apply (closed_end [fixed DATABASE_; Tok IDENTIFIER n]); cbn; auto|]. apply closed_app; [eapply closed_series; [exact closed_extension|exact Hx]|].
    apply Forall_app in HW as [HW _]. clear -HW. induction HW as [|[d u] ds Hd HW IH]; [apply closed_nil|]. cbn. apply closed_app; [eapply closed_decl; exact Hd|exact IH]. }
  specialize (HC (drop_layout x) t). rewrite E in HC. unfold drop_layout in HC. rewrite filter_app in HC. cbn [filter] in HC. rewrite El in HC. specialize (HC eq_refl).
  destruct I as [I|[I|[I|[]]]]; rewrite <- I in HC; cbn in HC; intuition discriminate.
Qed.
Lemma without n xs ds1 d ds2 X D Y text ts : around n xs ds1 d ds2 X D Y -> tokens_of text ts -> drop_layout ts = drop_layout X ++ drop_layout Y -> arranged n xs (ds1 ++ ds2) text.
Proof.
  intros (_ & HW & (tx & Hx & EX) & _ & EY) Ht E. exists ts, tx. split; [exact Ht|]. split; [exact Hx|]. split.
  - apply Forall_app in HW as [H1 H2]. inversion H2; subst. apply Forall_app; auto.
  - rewrite E, EX, EY, map_app, concat_app, <- !app_assoc. reflexivity.
Qed.

(** ** A declaration commented out is not there *)
Theorem C65_declaration_in_a_block : forall n xs ds1 d ds2 X D Y, around n xs ds1 d ds2 X D Y -> syntactically_valid (chars (X ++ D ++ Y)) ->
  (forall x t, X = x ++ [t] -> ty t <> LINE_COMMENT) -> ~ occurs (lit "*/") (chars D ++ lit "*") ->
  arranged n xs (ds1 ++ ds2) (chars X ++ blocked (chars D) ++ chars Y).
Proof.
  intros n xs ds1 d ds2 X D Y HA (ts0 & Ht0 & HP) HX HD. pose proof HA as (Ht & _). rewrite (tokens_of_fun _ _ _ Ht0 Ht) in HP.
  destruct (C65_in_a_block X D Y Ht HP (around_last _ _ _ _ _ _ _ _ HA HX) HD) as (ts & H1 & H2). eapply without; eassumption.
Qed.
Print Assumptions C65_declaration_in_a_block.
Theorem C65_declaration_line_by_line : forall n xs ds1 d ds2 X D Y, around n xs ds1 d ds2 X D Y -> syntactically_valid (chars (X ++ D ++ Y)) ->
  (forall x t, X = x ++ [t] -> ty t <> LINE_COMMENT) -> whole_lines (chars D) -> (forall c r, chars Y = c :: r -> is_nl c = true) ->
  arranged n xs (ds1 ++ ds2) (chars X ++ slashed (chars D) ++ chars Y).
Proof.
  intros n xs ds1 d ds2 X D Y HA (ts0 & Ht0 & HP) HX HD HY. pose proof HA as (Ht & _). rewrite (tokens_of_fun _ _ _ Ht0 Ht) in HP.
  destruct (C65_line_by_line X D Y Ht HP (around_last _ _ _ _ _ _ _ _ HA HX) HD HY) as (ts & H1 & H2). eapply without; eassumption.
Qed.
Print Assumptions C65_declaration_line_by_line.
(** What was accepted stays accepted, with the rest of the schema, if the rest does not refer to the declaration. *)
Definition unused (w : world) (s : schema) (d : decl) : Prop :=
  match d with
  | DTable t => forall u f, In u (elems (sc_tables s)) -> In f (elems (tb_fks u)) -> fk_table f <> tb_name t
  | DAction a | DInit a => forall b st c args, In b (elems (sc_actions s)) -> In st (elems (ac_stmts b)) -> act_parse (w_ext w) st = Ok (ActionCall c args) -> c <> ac_name a
  end.
Theorem C65_the_rest_is_accepted : forall w m n xs ds1 d ds2 X D Y s text, around n xs ds1 d ds2 X D Y -> parse_kf w (chars (X ++ D ++ Y)) [] m = Outcome (Some s) [] ->
  (forall x t, X = x ++ [t] -> ty t <> LINE_COMMENT) ->
  (~ occurs (lit "*/") (chars D ++ lit "*") /\ text = blocked (chars D)) \/ (whole_lines (chars D) /\ (forall c r, chars Y = c :: r -> is_nl c = true) /\ text = slashed (chars D)) ->
  let s' := schema_of n xs (map fst (ds1 ++ ds2)) in unused w s' (fst d) ->
  parse_kf w (chars X ++ text ++ chars Y) [] m = Outcome (Some s') [].
Proof.
  intros w m n xs ds1 d ds2 X D Y s text HA H HX HT s' HU. pose proof H as [Hw _]%parse_accepts. pose proof (writes_valid _ _ Hw) as Hv.
  assert (HA' : arranged n xs (ds1 ++ ds2) (chars X ++ text ++ chars Y)).
  { destruct HT as [[HD ->]|(HD & HY & ->)]; [eapply C65_declaration_in_a_block|eapply C65_declaration_line_by_line]; eassumption. }
  eapply (C54_fewer_declarations w n xs (ds1 ++ ds2) (ds1 ++ d :: ds2) [fst d]); [exact HA'|exact (around_arranged _ _ _ _ _ _ _ _ HA)| |exact H|..].
  - rewrite !map_app. cbn [map app]. apply Permutation_sym, Permutation_middle.
  - fold s'. intros t f Ht Hf. destruct (fst d) as [u|a|a]; cbn; try tauto. intros [E|[]]. exact (HU _ _ Ht Hf (eq_sym E)).
  - fold s'. intros a st c args Ha Hst Hc. destruct (fst d) as [u|b|b]; cbn; try tauto; intros [E|[]]; exact (HU _ _ _ _ Ha Hst Hc (eq_sym E)).
Qed.
Print Assumptions C65_the_rest_is_accepted.

(** ** Cases *)
(** Two tables, the second in between comments; nothing refers to it. *)
Definition out_text : str := lit "database d;
// the first
table t { a int }
table u { b int, fk (b) ref t (a) } // '*'
action a() public { select 1; }
".
Definition the_tokens (t : str) : list tok := match lex t with Some ts => ts | None => [] end.
Definition out_X : list tok := the_tokens (lit "database d;
// the first
table t { a int }
").
Definition out_D : list tok := the_tokens (lit "table u { b int, fk (b) ref t (a) } // '*'").
Definition out_Y : list tok := the_tokens (lit "
action a() public { select 1; }
").
Definition one_action : action := Action (lit "a") None None true (lit "update") None (Some [lit "select 1;"]).
Definition toks_a : list tok := [fixed ACTION_; name "a"; fixed L_PAREN; fixed R_PAREN; fixed PUBLIC_; fixed L_BRACE; Tok SQL_STMT (lit "select 1"); fixed SCOL; fixed R_BRACE].
Lemma one_action_written : w_action one_action toks_a.
Proof.
  apply (w_action_ (lit "a") [] None [] [] None [] [PUBLIC_] true (lit "update") None [lit "select 1;"] [Tok SQL_STMT (lit "select 1"); fixed SCOL]).
  - constructor.
  - left; auto.
  - constructor.
  - left; auto.
  - split; [constructor; [cbn; auto|constructor]|]. split; [vm_compute; lia|]. split; unfold once; vm_compute; lia.
  - split; [intros _; left; reflexivity|reflexivity].
  - intros [E|[]]; discriminate.
  - reflexivity.
  - intros [E|[]]; discriminate.
  - reflexivity.
  - split; [discriminate|]. apply (se_cons w_stmt _ [Tok SQL_STMT (lit "select 1"); fixed SCOL] [] []); [apply (ws_sql (lit "select 1"))|constructor].
Qed.
Lemma out_around : around (lit "d") [] [(DTable table_t, toks_t)] (DTable table_u, toks_u) [(DAction one_action, toks_a)] out_X out_D out_Y.
Proof.
  split; [apply lex_spec; vm_compute; reflexivity|]. split; [repeat constructor; cbn [fst snd w_decl]; auto using table_t_written, table_u_written, one_action_written|].
  split; [exists []; split; [constructor|vm_compute; reflexivity]|]. split; vm_compute; reflexivity.
Qed.
Fixpoint has_end (b : str) : bool := match b with [] => false | c :: r => (c =? 42) && match r with d :: _ => d =? 47 | [] => false end || has_end r end.
Lemma no_end_occurs b : has_end b = false -> ~ occurs (lit "*/") b.
Proof.
  intros H (x & y & ->). induction x as [|c x IH]; [discriminate|]. cbn [app has_end] in H. apply orb_false_iff in H as [_ H]. apply IH. exact H.
Qed.
Example C65_case : chars (out_X ++ out_D ++ out_Y) = out_text /\ around (lit "d") [] [(DTable table_t, toks_t)] (DTable table_u, toks_u) [(DAction one_action, toks_a)] out_X out_D out_Y /\
  (forall x t, out_X = x ++ [t] -> ty t <> LINE_COMMENT) /\ ~ occurs (lit "*/") (chars out_D ++ lit "*") /\ whole_lines (chars out_D) /\ (forall c r, chars out_Y = c :: r -> is_nl c = true) /\
  unused sample_world (schema_of (lit "d") [] [DTable table_t; DAction one_action]) (DTable table_u) /\
  parse_kf sample_world out_text [] Default = Outcome (Some (Schema [] (lit "d") (Some [table_t; table_u]) (Some [one_action]) None)) [].
Proof.
  split; [vm_compute; reflexivity|]. split; [exact out_around|]. split; [|split; [apply no_end_occurs; vm_compute; reflexivity|split; [|split; [|split; [|vm_compute; reflexivity]]]]].
  - intros x t E. assert (El : last out_X (Tok WS []) = t) by (rewrite E; apply last_last). intros K. rewrite <- El in K. vm_compute in K. discriminate.
  - intros x y E. exfalso. assert (I : In 13 (chars out_D)) by (rewrite E; apply in_or_app; right; left; reflexivity). assert (Q : forallb (fun c => negb (c =? 13)) (chars out_D) = true) by (vm_compute; reflexivity). rewrite forallb_forall in Q. apply Q in I. discriminate.
  - intros c r E. assert (Q : match chars out_Y with c :: _ => is_nl c | [] => true end = true) by (vm_compute; reflexivity). rewrite E in Q. exact Q.
  - intros u f [<-|[]] [].
Qed.

(** ** Refuted: that a comment around a declaration always removes it and nothing else *)
(** The declaration has a string with the end of a comment in it: what stands behind that comes to life. *)
Definition sly : str := lit "table t { a text default('*/ table u { b int } //') }".
Theorem C65_refuted_a_comment_removes : exists d ts, around (lit "d") [] [] (d, ts) [] (the_tokens (lit "database d; ")) (the_tokens sly) [] /\
  (exists t, parse_kf sample_world (lit "database d; " ++ sly) [] Default = Outcome (Some (Schema [] (lit "d") (Some [t]) None None)) [] /\ tb_name t = lit "t") /\
  (exists u, parse_kf sample_world (lit "database d; " ++ blocked sly) [] Default = Outcome (Some (Schema [] (lit "d") (Some [u]) None None)) [] /\ tb_name u = lit "u").
Proof.
  exists (DTable (Table (lit "t") (Some [Column (lit "a") (lit "text") (Some [Attribute (lit "default") (Some (lit "'*/ table u { b int } //'"))])]) None None)), (drop_layout (the_tokens sly)).
  split; [|split; eexists; (split; [vm_compute; reflexivity|reflexivity])].
  split; [apply lex_spec; vm_compute; reflexivity|]. split; [|split; [exists []; split; [constructor|vm_compute; reflexivity]|split; vm_compute; reflexivity]].
  constructor; [|constructor]. cbn [fst snd w_decl].
  replace (drop_layout (the_tokens sly)) with ([fixed TABLE_; Tok IDENTIFIER (lit "t"); fixed L_BRACE] ++ (([Tok IDENTIFIER (lit "a")] ++ [fixed TEXT_] ++ (in_parens DEFAULT_ [Tok STRING_LITERAL (lit "'*/ table u { b int } //'")] ++ []))) ++ [] ++ [] ++ [fixed R_BRACE]) by (vm_compute; reflexivity).
  econstructor; [|constructor|left; split; reflexivity|left; split; reflexivity|left; reflexivity].
  constructor. apply (w_column_ (lit "a") (lit "text") [fixed TEXT_] [Attribute (lit "default") (Some (lit "'*/ table u { b int } //'"))] _ (in_parens DEFAULT_ [Tok STRING_LITERAL (lit "'*/ table u { b int } //'")] ++ [])); [constructor| |right; split; [discriminate|reflexivity]].
  constructor; [|constructor]. apply (wa_default _ [Tok STRING_LITERAL (lit "'*/ table u { b int } //'")]). right. reflexivity.
Qed.
Print Assumptions C65_refuted_a_comment_removes.
