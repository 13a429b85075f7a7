(** What docs/syntax.md promises: C55. *)
From Coq Require Import String.
From Verif Require Import Tokens LexSpec Schema Denote Grammar NameSpec Segments Validator ValidSpec ParseKF ParseSpec ParseProof Outcomes DocSpec DocProof Sample PropSyntax PropParse.
Local Open Scope N_scope.

(** C55: documented texts whose names are not reserved words and whose statements start with an SQL word mean what is documented. *)
Theorem C55_documented_texts_mean_what_is_documented : forall w m text s,
  documented good_name plain_sql (doc_table good_name) text s -> o_result (parse_kf w text [] m) = Some s.
Proof. intros w m text s H. apply C05_what_the_text_writes_is_returned. eapply documented_writes; [| |exact H]; [auto|exact plain_sql_shape]. Qed.
Print Assumptions C55_documented_texts_mean_what_is_documented.
Theorem C55_documented_texts_are_accepted : forall w m text s,
  documented good_name plain_sql (doc_table good_name) text s -> valid_schema (w_ext w) s -> parse_kf w text [] m = Outcome (Some s) [].
Proof. intros w m text s H Hv. apply C18_no_error_iff_accepted. split; [|exact Hv]. eapply documented_writes; [| |exact H]; [auto|exact plain_sql_shape]. Qed.
Print Assumptions C55_documented_texts_are_accepted.
(** CREATE and DROP statements are never let through, nor is any statement starting with a word and a blank but the five kinds. *)
Theorem C55_statements_start_with_one_of_five_words : forall w m text s l a st k c r, parse_kf w text [] m = Outcome (Some s) l ->
  In a (elems (sc_actions s)) -> In st (elems (ac_stmts a)) -> st = k ++ c :: r -> Forall (fun x => is_wordch x = true) k -> is_wsnl c = true ->
  In (lower k) [lit "select"; lit "insert"; lit "update"; lit "delete"; lit "with"].
Proof.
  intros w m text s l a st k c r H Ha Hst E Hk Hc. destruct (statements_text _ _ _ _ _ _ _ H Ha Hst) as (ts & Ht & [(q & Hp & Eq & _)|(seg & Hp & Hd & Eq)]);
    pose proof (lexed_part _ _ Hp (lexed_visible _ _ Ht)) as HL; rewrite Eq in E.
  - eapply (sql_start q); [exact (proj1 (lexed_head _ _ HL))|exact E|exact Hk|exact Hc].
  - destruct (call_start _ _ _ _ Hd HL E Hk Hc).
Qed.
Print Assumptions C55_statements_start_with_one_of_five_words.

Ltac row := first [apply row_nil | eapply row_cons; [|row]].
Ltac known := first [reflexivity | discriminate].
Lemma good n : match n with c :: r => is_letter c && forallb is_wordch r | [] => false end && negb (mem_str n reserved) && negb (mem_str (lower n) sql_words) = true -> good_name n.
Proof.
  intros H. apply andb_prop in H as [H H3]. apply andb_prop in H as [H1 H2]. split; [apply Spacing.ident_ok; exact H1|]. apply Bool.negb_true_iff in H2, H3.
  split; [intros X; apply mem_str_In in X; congruence|]. unfold sqlkw. intros X. apply mem_str_In in X. congruence.
Qed.
Lemma sql_ok k c r : mem_str (lower k) sql_words && is_wsnl c && negb (str_eqb r []) && forallb (fun x => negb ((x =? 59) || (x =? 125))) r = true -> plain_sql (k ++ c :: r).
Proof.
  intros H. apply andb_prop in H as [H H4]. apply andb_prop in H as [H H3]. apply andb_prop in H as [H1 H2]. exists k, c, r. split; [reflexivity|]. split; [apply mem_str_In; exact H1|]. split; [exact H2|].
  split; [intros ->; discriminate|]. apply Forall_forall. intros x Hx. rewrite forallb_forall in H4. apply H4 in Hx. apply Bool.negb_true_iff, Bool.orb_false_iff in Hx as [X1 X2]. apply N.eqb_neq in X1, X2. auto.
Qed.
(** A text of the documented form. *)
Definition doc_text : str := lit "database mydb;

table users {
  id int primary notnull,
  name text maxlen(30) minlen(2) default('none'),
  age int min(0) max(120) default(18),
  #by_name unique(name, age)
}

action create_user ($id, $name) { insert into users values ($id, $name, 1); }
action all_users () { SELECT * FROM users; }
".
Definition doc_schema : schema :=
  Schema [] (lit "mydb")
    (Some [Table (lit "users")
       (Some [Column (lit "id") (lit "int") (Some [Attribute (lit "primary_key") None; Attribute (lit "not_null") None]);
              Column (lit "name") (lit "text") (Some [Attribute (lit "max_length") (Some (lit "30")); Attribute (lit "min_length") (Some (lit "2")); Attribute (lit "default") (Some (lit "'none'"))]);
              Column (lit "age") (lit "int") (Some [Attribute (lit "min") (Some (lit "0")); Attribute (lit "max") (Some (lit "120")); Attribute (lit "default") (Some (lit "18"))])])
       (Some [Index (lit "by_name") (Some [lit "name"; lit "age"]) (lit "unique_btree")]) None])
    (Some [Action (lit "create_user") None (Some [lit "$id"; lit "$name"]) false (lit "update") None (Some [lit "insert into users values ($id, $name, 1);"]);
           Action (lit "all_users") None None false (lit "update") None (Some [lit "SELECT * FROM users;"])])
    None.
Lemma number_ok v : match v with [] => false | _ => forallb is_digit v end = true -> doc_number v.
Proof. destruct v as [|c v]; [discriminate|]. intros H. split; [discriminate|]. apply Forall_forall. apply forallb_forall. exact H. Qed.
Lemma string_ok b : forallb (fun c => negb ((c =? 10) || (c =? 13) || (c =? 39) || (c =? 92))) b = true -> doc_string (lit "'" ++ b ++ lit "'").
Proof.
  intros H. exists b. split; [reflexivity|]. apply Forall_forall. intros c Hc. rewrite forallb_forall in H. apply H in Hc. rewrite !Bool.negb_orb, !Bool.andb_true_iff, !Bool.negb_true_iff, !N.eqb_neq in Hc. tauto.
Qed.
Ltac attr := first [apply da_primary | apply da_notnull | apply da_max; apply number_ok; reflexivity | apply da_min; apply number_ok; reflexivity
  | apply da_maxlen; apply number_ok; reflexivity | apply da_minlen; apply number_ok; reflexivity
  | apply da_default; left; apply number_ok; reflexivity | apply da_default; right; match goal with |- doc_string ?v => let b := eval vm_compute in (removelast (tl v)) in apply (string_ok b) end; reflexivity].
Ltac attrs := first [apply row_nil | eapply row_cons; [attr|attrs]].
Ltac column good := match goal with |- doc_column _ (Column ?n ?ty ?s) _ => change s with (stored (elems s)); eapply doc_column_; [apply good; vm_compute; reflexivity|split; [cbn; tauto|reflexivity]|cbn [elems]; attrs] end.
Ltac columns good := first [eapply comma_more; [column good|columns good] | eapply comma_one; column good].
Ltac names good := first [eapply comma_more; [split; [apply good; vm_compute; reflexivity|reflexivity]|names good] | eapply comma_one; split; [apply good; vm_compute; reflexivity|reflexivity]].
Ltac index good := eapply doc_index_; [apply Spacing.ident_ok; vm_compute; reflexivity|cbn; unfold doc_index_type; cbn; tauto|names good].
Ltac param := match goal with |- doc_parameter ?p _ => split; [let n := eval vm_compute in (tl p) in exists n; split; [reflexivity|apply Spacing.ident_ok; vm_compute; reflexivity]|reflexivity] end.
Ltac params := first [eapply comma_more; [param|params] | eapply comma_one; param].
Ltac statement k c := match goal with |- doc_statement _ ?st _ => split; [|reflexivity]; let q := eval vm_compute in (removelast st) in
  exists q; split; [reflexivity|]; let r := eval vm_compute in (skipn (List.length k + 1) q) in apply (sql_ok k c r); vm_compute; reflexivity end.
Example C55_case : documented good_name plain_sql (doc_table good_name) doc_text doc_schema /\ valid_schema (w_ext sample_world) doc_schema.
Proof.
  split.
  - eexists. split.
    + unfold doc_schema. change (Some [?t]) with (stored [t]). eapply (doc_program_ _ _ _ _ [_] _ [_; _]); [apply good; vm_compute; reflexivity| |].
      * eapply row_cons; [|apply row_nil]. eapply (doc_table_ _ _ _ _ [_]); [apply good; vm_compute; reflexivity|columns good|]. eapply row_cons; [|apply row_nil]. eexists. split; [index good|reflexivity].
      * eapply row_cons; [|eapply row_cons; [|apply row_nil]].
        -- eapply (doc_action_ _ _ _ [_; _]); [apply good; vm_compute; reflexivity|right; params| |discriminate]. eapply row_cons; [statement (lit "insert") 32|apply row_nil].
        -- eapply (doc_action_ _ _ _ []); [apply good; vm_compute; reflexivity|left; auto| |discriminate]. eapply row_cons; [statement (lit "SELECT") 32|apply row_nil].
    + apply (reads_sound 2000). vm_compute. reflexivity.
  - apply (C18_no_error_iff_accepted sample_world doc_text Default). vm_compute. reflexivity.
Qed.
(** Three things the file says do not hold as they stand.  A name of letters, digits and underscores may be a reserved word. *)
Lemma refused text : parse_tree text = None -> forall w m, o_result (parse_kf w text [] m) = None.
Proof. intros H w m. unfold parse_kf. rewrite H. reflexivity. Qed.
Lemma fine n : match n with c :: r => is_letter c && forallb is_wordch r | [] => false end = true -> doc_name n.
Proof. apply Spacing.ident_ok. Qed.
Theorem C55_every_documented_name_refuted : exists text s, documented doc_name plain_sql (doc_table doc_name) text s /\ forall w m, o_result (parse_kf w text [] m) = None.
Proof.
  exists (lit "database d; table view { id int }"), (Schema [] (lit "d") (Some [Table (lit "view") (Some [Column (lit "id") (lit "int") None]) None None]) None None).
  split; [|apply refused; vm_compute; reflexivity]. eexists. split.
  - eapply (doc_program_ _ _ _ _ [_] _ []); [apply fine; vm_compute; reflexivity| |apply row_nil]. eapply row_cons; [|apply row_nil].
    eapply (doc_table_ _ _ _ _ []); [apply fine; vm_compute; reflexivity|columns fine|apply row_nil].
  - apply (reads_sound 100). vm_compute. reflexivity.
Qed.
Print Assumptions C55_every_documented_name_refuted.
(** An index cannot come before a column. *)
Theorem C55_lines_in_any_order_refuted : exists text s, documented good_name plain_sql (doc_table_of_lines good_name) text s /\ forall w m, o_result (parse_kf w text [] m) = None.
Proof.
  exists (lit "database d; table t { #i index(a), a int }"), (Schema [] (lit "d") (Some [Table (lit "t") (Some [Column (lit "a") (lit "int") None]) (Some [Index (lit "i") (Some [lit "a"]) (lit "btree")]) None]) None None).
  split; [|apply refused; vm_compute; reflexivity]. eexists. split.
  - eapply (doc_program_ _ _ _ _ [_] _ []); [apply good; vm_compute; reflexivity| |apply row_nil]. eapply row_cons; [|apply row_nil].
    eapply (doc_table_of_lines_ _ _ [_] [_]); [apply good; vm_compute; reflexivity| |discriminate]. eapply dl_indexes; [index good|]. eapply dl_column. column good.
  - apply (reads_sound 100). vm_compute. reflexivity.
Qed.
Print Assumptions C55_lines_in_any_order_refuted.
(** Other statements than CREATE and DROP are refused as well. *)
Theorem C55_every_other_sql_statement_refuted : exists text s, documented good_name raw_sql (doc_table good_name) text s /\ forall w m, o_result (parse_kf w text [] m) = None.
Proof.
  exists (lit "database d; action f () { alter table t rename to u; }"), (Schema [] (lit "d") None (Some [Action (lit "f") None None false (lit "update") None (Some [lit "alter table t rename to u;"])]) None).
  split; [|apply refused; vm_compute; reflexivity]. eexists. split.
  - eapply (doc_program_ _ _ _ _ [] _ [_]); [apply good; vm_compute; reflexivity|apply row_nil|]. eapply row_cons; [|apply row_nil].
    eapply (doc_action_ _ _ _ []); [apply good; vm_compute; reflexivity|left; auto| |discriminate]. eapply row_cons; [|apply row_nil].
    split; [|reflexivity]. exists (lit "alter table t rename to u"). split; [reflexivity|]. exists (lit "alter"), 32, (lit "table t rename to u"). split; [reflexivity|].
    split; [apply Spacing.ident_ok; vm_compute; reflexivity|]. split; [intros [X|[X|[]]]; discriminate X|]. split; [reflexivity|]. split; [discriminate|].
    repeat (constructor; [split; discriminate|]). constructor.
  - apply (reads_sound 100). vm_compute. reflexivity.
Qed.
Print Assumptions C55_every_other_sql_statement_refuted.
