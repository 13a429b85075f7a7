(** Line ends written as LF or as CR LF: C64. *)
From Verif Require Import Tokens LexSpec LexShape LexerProof Lexer Segments LayoutSpec Spacing Grammar LayoutProof Schema Denote PrintSpec PrintProof Validator ValidSpec RenameSpec ParseKF ParseSpec ParseProof ParseProof2
  Outcomes Sample BreakSpec BreakProof PropRename.
Local Open Scope N_scope.

(** No string of the text goes over a line end (with a backslash in front of it). *)
Definition strings_on_a_line (t : str) : Prop := forall ts x, tokens_of t ts -> In x ts -> ty x = STRING_LITERAL -> ~ In 10 (tx x).
(** No SQL statement of the text is a word with nothing but one CR LF behind it. *)
Definition no_bare_word (t : str) : Prop := forall ts x, tokens_of t ts -> In x ts -> ty x = SQL_STMT -> forall k, sqlkw k -> tx x <> k ++ [13; 10].

Lemma chg_visible g vs : Forall (fun t => is_layout (ty t) = false) vs -> Forall (fun t => is_layout (ty t) = false) (map (chg g) vs).
Proof. rewrite !Forall_forall. intros H t Ht. apply in_map_iff in Ht as (u & <- & Hu). rewrite chg_ty. auto. Qed.
Lemma visible_in x ts : In x (drop_layout ts) -> In x ts. Proof. intros H. apply filter_In in H. tauto. Qed.
Lemma to_crlf t ts : tokens_of t ts -> program (drop_layout ts) -> strings_on_a_line t ->
  Forall calm (drop_layout ts) /\ exists ts', tokens_of (crlf t) ts' /\ drop_layout ts' = map (chg crlf) (drop_layout ts).
Proof.
  intros Ht HP HS. pose proof (lexed_visible _ _ Ht) as HL. pose proof (program_visible _ HP) as HV.
  assert (HC : Forall calm (drop_layout ts)).
  { apply Forall_forall. intros x Hx. unfold lexed in HL. rewrite Forall_forall in HL, HV. destruct (HL _ Hx) as [Hs _]. destruct (shape_breaks _ _ Hs (HV _ Hx)) as [H|[H|[H _]]]; [left; exact H| |right; exact H].
    right. eapply HS; [exact Ht|apply visible_in; exact Hx|exact H]. }
  split; [exact HC|]. apply layout_tokens; [|apply lexed_crlf; exact HL|apply chg_visible; exact HV]. apply layout_crlf; [|exact HC]. apply (program_layouts _ _ HP HL). exists ts. auto.
Qed.
Lemma to_lf t us : tokens_of (crlf t) us -> program (drop_layout us) -> no_bare_word (crlf t) ->
  Forall calm (drop_layout us) /\ (exists ts, tokens_of t ts /\ drop_layout ts = map (chg lf) (drop_layout us)) /\ map (chg crlf) (map (chg lf) (drop_layout us)) = drop_layout us.
Proof.
  intros Ht HP HB. pose proof (lexed_visible _ _ Ht) as HL. pose proof (program_visible _ HP) as HV.
  assert (HO : laid_out (drop_layout us) (crlf t)) by (apply (program_layouts _ _ HP HL); exists us; auto).
  destruct (layout_lf _ _ HO HL HV) as [[H1 _] HX]. specialize (H1 _ eq_refl). specialize (HX (ex_intro _ t (or_introl eq_refl))).
  split; [|split].
  - apply Forall_forall. intros x Hx. unfold lexed in HL. rewrite Forall_forall in HL, HV. destruct (HL _ Hx) as [Hs _]. destruct (shape_breaks _ _ Hs (HV _ Hx)) as [H|[H|[H _]]]; [left; exact H| |right; exact H].
    right. destruct (HX _ Hx) as (y & Ey). rewrite H in Hs. eapply string_crlf; eassumption.
  - apply layout_tokens; [exact H1| |apply chg_visible; exact HV]. apply full_chg; [|exact HL|intros x Hx _; apply HX; exact Hx]. apply Forall_forall. intros x Hx E. eapply HB; [exact Ht|apply visible_in; exact Hx|exact E].
  - rewrite map_map. rewrite <- map_id. apply map_ext_in. intros x Hx. destruct (tt_sql_dec (ty x)) as [E|E].
    + rewrite (chg_sql lf _ E), (chg_sql crlf (Tok SQL_STMT (lf (tx x))) eq_refl). destruct (HX _ Hx) as (y & Ey). cbn [tx]. rewrite Ey, lf_crlf, <- Ey, <- E. destruct x; reflexivity.
    + rewrite (chg_other lf _ E), (chg_other crlf _ E). reflexivity.
Qed.
Lemma end_crlf u : crlf (u ++ lit ";") = crlf u ++ lit ";". Proof. rewrite crlf_app. reflexivity. Qed.
Lemma end_lf u : lf (u ++ lit ";") = lf u ++ lit ";".
Proof.
  induction u as [|c u IH]; [reflexivity|]. cbn [app lf]. destruct u as [|d u].
  - change ([] ++ lit ";") with [59]. change (59 =? 10) with false. rewrite !andb_false_r. reflexivity.
  - cbn [app] in IH |- *. rewrite IH. destruct ((c =? 13) && (d =? 10)); reflexivity.
Qed.

(** ** What the text writes *)
Theorem C64_crlf_says_the_same : forall t s, strings_on_a_line t -> writes t s -> writes (crlf t) (edit_statements crlf s).
Proof.
  intros t s HS (ts & Ht & HD). pose proof (denotes_program _ _ HD (lexed_visible _ _ Ht)) as HP. destruct (to_crlf t ts Ht HP HS) as (HC & ts' & Ht' & E).
  exists ts'. split; [exact Ht'|]. rewrite E. apply denotes_chg; [exact crlf_id|exact end_crlf|exact HD|exact HC].
Qed.
Print Assumptions C64_crlf_says_the_same.
Theorem C64_lf_says_the_same : forall t s, no_bare_word (crlf t) -> writes (crlf t) s -> writes t (edit_statements lf s) /\ edit_statements crlf (edit_statements lf s) = s.
Proof.
  intros t s HB (us & Ht & HD). pose proof (denotes_program _ _ HD (lexed_visible _ _ Ht)) as HP. destruct (to_lf t us Ht HP HB) as (HC & (ts & Ht' & E) & EE).
  pose proof (denotes_chg lf lf_id end_lf _ _ HD HC) as HD'. split; [exists ts; split; [exact Ht'|rewrite E; exact HD']|].
  assert (HC' : Forall calm (map (chg lf) (drop_layout us))).
  { rewrite Forall_forall in *. intros x Hx. apply in_map_iff in Hx as (y & <- & Hy). destruct (tt_sql_dec (ty y)) as [K|K]; [left; rewrite chg_ty; exact K|]. rewrite (chg_other _ _ K). auto. }
  pose proof (denotes_chg crlf crlf_id end_crlf _ _ HD' HC') as HD2. fold (chg crlf) in HD2. rewrite EE in HD2.
  eapply writes_fun; [|exists us; split; [exact Ht|exact HD]]. exists us. split; [exact Ht|exact HD2].
Qed.
Print Assumptions C64_lf_says_the_same.
(** Syntactic validity. *)
Theorem C64_same_syntax : forall t, (strings_on_a_line t -> syntactically_valid t -> syntactically_valid (crlf t)) /\
  (no_bare_word (crlf t) -> syntactically_valid (crlf t) -> syntactically_valid t).
Proof.
  intros t. split.
  - intros HS (ts & Ht & HP). destruct (to_crlf t ts Ht HP HS) as (_ & ts' & Ht' & E). exists ts'. split; [exact Ht'|]. rewrite E. apply derives_chg. exact HP.
  - intros HB (us & Ht & HP). destruct (to_lf t us Ht HP HB) as (_ & (ts & Ht' & E) & _). exists ts. split; [exact Ht'|]. rewrite E. apply derives_chg. exact HP.
Qed.
Print Assumptions C64_same_syntax.
(** No line end inside an SQL statement either: the result is the same one, whatever it is. *)
Theorem C64_same_outcome : forall w t m, strings_on_a_line t -> syntactically_valid t ->
  (forall ts x, tokens_of t ts -> In x ts -> ty x = SQL_STMT -> ~ In 10 (tx x)) -> parse_kf w (crlf t) [] m = parse_kf w t [] m.
Proof.
  intros w t m HS (ts & Ht & HP) HQ. destruct (to_crlf t ts Ht HP HS) as (HC & ts' & Ht' & E). eapply same_visible; [exact Ht'|exact Ht| |]; [|exists ts'; split; [exact Ht'|rewrite E; apply derives_chg; exact HP]].
  rewrite E. rewrite <- map_id. apply map_ext_in. intros x Hx. destruct (tt_sql_dec (ty x)) as [K|K]; [|apply chg_other; exact K]. rewrite (chg_sql _ _ K).
    rewrite crlf_id by (eapply HQ; [exact Ht|apply visible_in; exact Hx|exact K]). rewrite <- K. destruct x; reflexivity.
Qed.
Print Assumptions C64_same_outcome.

(** ** What is accepted *)
Definition same_names (g : str -> str) : renaming := Renaming (fun n => n) (fun n => n) (fun n => n) (fun n => n) (fun n => n) g.
Lemma each_id {A} (f : A -> A) s : (forall a, f a = a) -> each_of f s = s.
Proof. intros H. destruct s as [l|]; [|reflexivity]. cbn. rewrite (map_ext f (fun a => a) H), map_id. reflexivity. Qed.
Lemma same_names_edit g s : renamed (same_names g) s = edit_statements g s.
Proof.
  destruct s as [o n t a x]. unfold renamed, edit_statements. cbn [sc_owner sc_name sc_tables sc_actions sc_exts]. rewrite (each_id (rename_table (same_names g)) t), (each_id (rename_extension (same_names g)) x).
  - f_equal. destruct a as [a|]; [|reflexivity]. unfold each_of. cbn [option_map]. f_equal. apply map_ext. intros [n0 an i p m ax st]. unfold rename_action, edit_action. cbn [ac_name ac_annots ac_inputs ac_public ac_mut ac_aux ac_stmts same_names rn_action rn_var rn_stmt].
    unfold each_of at 1. destruct i as [i|]; [|reflexivity]. cbn [option_map]. rewrite map_id. reflexivity.
  - intros [e c al]. reflexivity.
  - intros [tn cs ixs fs]. unfold rename_table. cbn [tb_name tb_cols tb_idx tb_fks same_names rn_table].
    rewrite (each_id (rename_column (same_names g)) cs), (each_id (rename_index (same_names g)) ixs), (each_id (rename_fk (same_names g)) fs); [reflexivity|..].
    + intros [ch pa tb ac]. unfold rename_fk. cbn [fk_child fk_parent fk_table fk_acts]. rewrite (each_id _ ch), (each_id _ pa) by reflexivity. reflexivity.
    + intros [i c k]. unfold rename_index. cbn [ix_name ix_cols ix_type]. rewrite (each_id _ c) by reflexivity. reflexivity.
    + intros [c k l]. reflexivity.
Qed.
Lemma same_names_faithful g : faithful (same_names g).
Proof. constructor; cbn; try (intros a b E; exact E); tauto. Qed.
Lemma rename_same g m : rename_res (same_names g) m = m.
Proof.
  assert (Ha : forall l : list arg, map (rename_arg (same_names g)) l = l) by (intros l; rewrite <- (map_id l) at 2; apply map_ext; intros []; reflexivity).
  destruct m as [[]| |]; cbn; try reflexivity; rewrite ?Ha, ?map_id; reflexivity.
Qed.
(** Parsers of statements that take both kinds of line ends alike. *)
Definition takes_both (x : externals) : Prop := forall st, act_parse x (crlf st) = act_parse x st /\ sql_parse x (crlf st) = sql_parse x st /\ to_sql x (crlf st) = to_sql x st.
Theorem C64_accepted_alike : forall w m t s, takes_both (w_ext w) -> strings_on_a_line t ->
  parse_kf w t [] m = Outcome (Some s) [] -> parse_kf w (crlf t) [] m = Outcome (Some (edit_statements crlf s)) [].
Proof.
  intros w m t s HX HS H. pose proof H as [HW _]%parse_accepts. pose proof (C64_crlf_says_the_same _ _ HS HW) as HW'. rewrite <- same_names_edit in HW' |- *.
  refine (proj1 (C57_renamed_texts (same_names crlf) w w m t (crlf t) s (same_names_faithful _) _ HW HW') H). intros st. cbn [same_names rn_stmt]. rewrite rename_same. apply HX.
Qed.
Print Assumptions C64_accepted_alike.
Theorem C64_accepted_back : forall w m t s, takes_both (w_ext w) -> no_bare_word (crlf t) ->
  parse_kf w (crlf t) [] m = Outcome (Some s) [] -> exists s0, parse_kf w t [] m = Outcome (Some s0) [] /\ s = edit_statements crlf s0.
Proof.
  intros w m t s HX HB H. pose proof H as [HW _]%parse_accepts. destruct (C64_lf_says_the_same _ _ HB HW) as [HW' E]. exists (edit_statements lf s). split; [|congruence].
  rewrite <- E in HW, H. rewrite <- same_names_edit in HW, H. refine (proj2 (C57_renamed_texts (same_names crlf) w w m t (crlf t) (edit_statements lf s) (same_names_faithful _) _ HW' HW) H). intros st. cbn [same_names rn_stmt]. rewrite rename_same. apply HX.
Qed.
Print Assumptions C64_accepted_back.

(** ** Cases *)
Definition both_world : world :=
  World (Externals (fun st => sample_act (filter (fun c => negb (c =? 13)) st)) (fun _ => Ok Datatypes.tt) (fun _ => Ok Datatypes.tt) (fun p => p)) (w_msgs sample_world).
Lemma both_takes : takes_both (w_ext both_world).
Proof.
  intros st. cbn [both_world w_ext act_parse sql_parse to_sql]. split; [f_equal|auto]. induction st as [|c st IH]; [reflexivity|]. cbn [crlf]. destruct (N.eqb_spec c 10) as [->|N]; cbn [filter]; [change (13 =? 13) with true; change (10 =? 13) with false; cbn [negb]|]; rewrite IH; reflexivity.
Qed.
Definition two_lines : str := lit "database d;
action a() public { select *
  from t; }
".
Lemma no_strings t : match lex t with Some ts => forallb (fun x => negb (tt_eqb (ty x) STRING_LITERAL)) ts | None => false end = true -> strings_on_a_line t.
Proof. intros H ts x Ht Hx Hk. apply lex_spec in Ht. rewrite Ht in H. rewrite forallb_forall in H. specialize (H _ Hx). rewrite Hk in H. discriminate. Qed.
Lemma no_bare t : match lex t with Some ts => forallb (fun x => negb (tt_eqb (ty x) SQL_STMT) || Nat.leb 10 (length (tx x))) ts | None => false end = true -> no_bare_word t.
Proof.
  intros H ts x Ht Hx Hk k Hq E. apply lex_spec in Ht. rewrite Ht in H. rewrite forallb_forall in H. specialize (H _ Hx). rewrite Hk, E in H. cbn [tt_eqb] in H.
  assert (L : (length k <= 6)%nat). { unfold sqlkw, sql_words in Hq. replace (length k) with (length (lower k)) by (unfold lower; apply map_length). destruct Hq as [Hq|[Hq|[Hq|[Hq|[Hq|[]]]]]]; rewrite <- Hq; cbn; lia. }
  rewrite app_length in H. cbn [length] in H. rewrite tt_eqb_refl in H. cbn [negb orb] in H. apply Nat.leb_le in H. lia.
Qed.
Example C64_case : takes_both (w_ext both_world) /\ strings_on_a_line two_lines /\ no_bare_word (crlf two_lines) /\
  (exists s, parse_kf both_world two_lines [] Default = Outcome (Some s) [] /\ edit_statements crlf s <> s) /\
  strings_on_a_line sample_text /\ parse_kf sample_world (crlf sample_text) [] Default = Outcome (Some sample_schema) [].
Proof.
  split; [exact both_takes|]. split; [apply no_strings; vm_compute; reflexivity|]. split; [apply no_bare; vm_compute; reflexivity|]. split; [eexists; split; [vm_compute; reflexivity|vm_compute; discriminate]|]. split; [|vm_compute; reflexivity].
  intros ts x Ht Hx Hk. apply lex_spec in Ht. assert (Q : match lex sample_text with Some ts => forallb (fun x => negb (tt_eqb (ty x) STRING_LITERAL) || forallb (fun c => negb (c =? 10)) (tx x)) ts | None => false end = true) by (vm_compute; reflexivity).
  rewrite Ht in Q. rewrite forallb_forall in Q. specialize (Q _ Hx). rewrite Hk in Q. cbn [tt_eqb] in Q. rewrite tt_eqb_refl in Q. cbn [negb orb] in Q. rewrite forallb_forall in Q. intros I. apply Q in I. discriminate.
Qed.

(** ** Refuted: that line ends never matter *)
(** A string may go over an LF behind a backslash, but not over a CR LF. *)
Definition long_string : str := lit "database d;
table t { a text default('x\
y') }
".
Theorem C64_refuted_string_over_a_line_end : syntactically_valid long_string /\ ~ syntactically_valid (crlf long_string).
Proof.
  split.
  - eapply writes_valid. apply (proj1 (parse_accepts sample_world long_string Default (Schema [] (lit "d") (Some [Table (lit "t") (Some [Column (lit "a") (lit "text") (Some [Attribute (lit "default") (Some (lit "'x\
y'"))])]) None None]) None None))). vm_compute. reflexivity.
  - apply (parse_syntax sample_world (crlf long_string) Default). vm_compute. reflexivity.
Qed.
Print Assumptions C64_refuted_string_over_a_line_end.
(** A word of SQL with a CR LF behind it is a statement, with an LF behind it it is not. *)
Definition bare_word : str := lit "database d;
action a() public { select
; }
".
Theorem C64_refuted_word_alone : ~ syntactically_valid bare_word /\ syntactically_valid (crlf bare_word).
Proof.
  split.
  - apply (parse_syntax sample_world bare_word Default). vm_compute. reflexivity.
  - eapply writes_valid. apply (proj1 (parse_accepts sample_world (crlf bare_word) Default (Schema [] (lit "d") None (Some [Action (lit "a") None None true (lit "update") None (Some [crlf (lit "select
;")])]) None))). vm_compute. reflexivity.
Qed.
Print Assumptions C64_refuted_word_alone.
