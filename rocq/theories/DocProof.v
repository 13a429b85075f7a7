(** Texts of the documented form are programs with the documented meaning. *)
From Coq Require Import Lia.
From Verif Require Import Tokens LexSpec Schema Denote Grammar NameSpec LayoutSpec Spacing LayoutProof PrintSpec PrintProof ParseSpec DocSpec.
Local Open Scope N_scope.

(** *** From words to tokens: every word is a token, but a statement is two *)
Definition plain_kind (k : tt) : Prop := In k [IDENTIFIER; PARAM_OR_VAR; INDEX_NAME; UNSIGNED_NUMBER_LITERAL; STRING_LITERAL;
  DATABASE_; TABLE_; ACTION_; INT_; TEXT_; PRIMARY_; NOT_NULL_; MAX_; MIN_; MAX_LEN_; MIN_LEN_; DEFAULT_; UNIQUE_; INDEX_;
  SCOL; COMMA; L_PAREN; R_PAREN; L_BRACE; R_BRACE].
Inductive joined : list tok -> list str -> Prop :=
| jo_nil : joined [] []
| jo_tok t ts ws : plain_kind (ty t) -> joined ts ws -> joined (t :: ts) (tx t :: ws)
| jo_sql q ts ws : joined ts ws -> joined (Tok SQL_STMT q :: fixed SCOL :: ts) ((q ++ lit ";") :: ws).
Lemma joined_app a u : joined a u -> forall b v, joined b v -> joined (a ++ b) (u ++ v).
Proof. induction 1; intros b v Hb; cbn; [exact Hb|constructor; auto|constructor; auto]. Qed.

Lemma last_word (w : str) : w <> [] -> Forall (fun c => is_wordch c = true) w -> exists u a, w = u ++ [a] /\ is_wordch a = true.
Proof.
  intros Hn HF. destruct (exists_last Hn) as (u & a & ->). exists u, a. split; [reflexivity|]. apply Forall_app in HF as [_ HF]. inversion HF; assumption.
Qed.
Lemma ident_last w p : ident w -> exists u a, p ++ w = u ++ [a] /\ is_wordch a = true.
Proof.
  intros (c & r & -> & Hc & Hr). destruct (last_word (c :: r)) as (u & a & E & Ha); [discriminate|constructor; [|exact Hr]; unfold is_wordch; rewrite Hc; reflexivity|].
  exists (p ++ u), a. rewrite E, app_assoc. auto.
Qed.
Lemma runs_extends t c r : plain_kind (ty t) -> token_shape (ty t) (tx t) -> extends (ty t) c = true -> runs_on (tx t) (c :: r).
Proof.
  intros Hk Hs He.
  assert (Hd : is_digit c = true -> is_wordch c = true) by (unfold is_wordch; intros ->; destruct (is_letter c); reflexivity).
  assert (G : is_wordch c = true /\ exists u a, tx t = u ++ [a] /\ is_wordch a = true).
  { destruct t as [k x]. cbn [ty tx] in *. unfold plain_kind in Hk. cbn [In] in Hk.
    repeat (destruct Hk as [<-|Hk]; [try discriminate He|]); try destruct Hk;
      try (cbn in Hs; subst x; split; [exact He|]; match goal with |- exists u a, ?w = _ /\ _ => let y := eval vm_compute in (removelast w) in let z := eval vm_compute in (List.last w 0) in exists y, z end; split; reflexivity).
    - split; [exact He|]. apply (ident_last x []). exact Hs.
    - split; [exact He|]. destruct Hs as (w & -> & Hw). apply ident_last. exact Hw.
    - split; [exact He|]. destruct Hs as (w & -> & Hw). apply ident_last. exact Hw.
    - cbn [extends] in He. split; [auto|]. destruct Hs as [Hn HF]. apply last_word; [exact Hn|]. eapply Forall_impl; [|exact HF]. cbn. intros a Ha. unfold is_wordch. rewrite Ha. destruct (is_letter a); reflexivity. }
  destruct G as (Hc & u & a & E & Ha). exists u, a, c, r. auto.
Qed.
Lemma spelled_layout ts ws : joined ts ws -> lexed ts -> forall s, spelled ws s -> laid_out ts s.
Proof.
  induction 1 as [|t ts ws Hk Hj IH|q ts ws Hj IH]; intros HL s Hs.
  - remember (@nil str) as ws0 eqn:Heqws0 in Hs. clear HL. induction Hs as [|c ws s Hc Hs IHs|]; [constructor|apply lo_blank; auto|discriminate].
  - inversion HL as [|? ? [Hsh Hp] HL']; subst. remember (tx t :: ws) as ws0. induction Hs as [|c ws1 s Hc Hs IHs|w ws1 s Hs IHs Hr]; [discriminate|apply lo_blank; auto|].
    injection Heqws0 as -> ->. apply lo_tok; [apply IH; assumption|]. intros c r ->. destruct (extends (ty t) c) eqn:E; [|reflexivity]. destruct Hr. apply runs_extends; assumption.
  - inversion HL as [|? ? _ HL']; subst. inversion HL' as [|? ? _ HL'']; subst. remember ((q ++ lit ";") :: ws) as ws0.
    induction Hs as [|c ws1 s Hc Hs IHs|w ws1 s Hs IHs Hr]; [discriminate|apply lo_blank; auto|].
    injection Heqws0 as -> ->. rewrite <- app_assoc. apply (lo_tok (Tok SQL_STMT q)); [apply (lo_tok (fixed SCOL)); [apply IH; assumption|reflexivity]|].
    intros c r E. injection E as <- _. reflexivity.
Qed.

(** *** Each construct *)
Lemma number_kind v : doc_number v -> good_tok (Tok UNSIGNED_NUMBER_LITERAL v).
Proof. apply number_tok_good. Qed.
Lemma string_kind v : doc_string v -> good_tok (Tok STRING_LITERAL v).
Proof.
  intros (b & -> & Hb). apply string_tok_good. exists b. split; [reflexivity|]. induction Hb as [|c b (H1 & H2 & H3 & H4) Hb IH]; [constructor|apply sb_chr; assumption].
Qed.
Definition ok_word (t : tok) : Prop := plain_kind (ty t) /\ good_tok t.
Definition ok3 (ts : list tok) (ws : list str) : Prop := joined ts ws /\ lexed ts.
Lemma ok3_nil : ok3 [] []. Proof. split; constructor. Qed.
Lemma ok3_cons t ts ws : ok_word t -> ok3 ts ws -> ok3 (t :: ts) (tx t :: ws).
Proof. intros [H1 H2] [H3 H4]. split; constructor; assumption. Qed.
Lemma ok3_fixed k w ts ws : plain_kind k -> literal_of k = Some w -> ok3 ts ws -> ok3 (fixed k :: ts) (w :: ws).
Proof.
  intros H1 H2 H3. pose proof (ok3_cons (fixed k) ts ws (conj H1 (fixed_good k w H2)) H3) as H. unfold fixed in *. rewrite H2 in *. exact H.
Qed.
Lemma ok3_app a u b v : ok3 a u -> ok3 b v -> ok3 (a ++ b) (u ++ v).
Proof. intros [H1 H2] [H3 H4]. split; [apply joined_app; assumption|apply lexed_app; assumption]. Qed.
Ltac kind := unfold plain_kind; cbn [In ty]; intuition congruence.
Ltac fx := (apply ok3_fixed; [kind|reflexivity|]).
Lemma ok3_name n ts ws : good_name n -> ok3 ts ws -> ok3 (Tok IDENTIFIER n :: ts) (n :: ws).
Proof. intros Hn. apply (ok3_cons (Tok IDENTIFIER n)). split; [kind|apply name_good; exact Hn]. Qed.
Lemma ok3_number n ts ws : doc_number n -> ok3 ts ws -> ok3 (Tok UNSIGNED_NUMBER_LITERAL n :: ts) (n :: ws).
Proof. intros Hn. apply (ok3_cons (Tok UNSIGNED_NUMBER_LITERAL n)). split; [kind|apply number_kind; exact Hn]. Qed.

Lemma row_series {A} (D : A -> list str -> Prop) (W : A -> list tok -> Prop) : (forall a ws, D a ws -> exists ts, W a ts /\ ok3 ts ws) ->
  forall l ws, in_a_row D l ws -> exists ts, series W l ts /\ ok3 ts ws.
Proof.
  intros H. induction 1 as [|a ws l us Ha _ (t2 & IH1 & IH2)]; [exists []; split; [constructor|apply ok3_nil]|].
  destruct (H _ _ Ha) as (t1 & H1 & H2). exists (t1 ++ t2). split; [constructor; assumption|apply ok3_app; assumption].
Qed.
Lemma commas_listed {A} (D : A -> list str -> Prop) (W : A -> list tok -> Prop) : (forall a ws, D a ws -> exists ts, W a ts /\ ok3 ts ws) ->
  forall l ws, with_commas D l ws -> exists ts, listed W l ts /\ ok3 ts ws.
Proof.
  intros H. induction 1 as [a ws Ha|a ws l us Ha _ (t2 & IH1 & IH2)]; destruct (H _ _ Ha) as (t1 & H1 & H2).
  - exists t1. split; [constructor; assumption|assumption].
  - exists (t1 ++ fixed COMMA :: t2). split; [constructor; assumption|]. apply ok3_app; [assumption|]. fx. assumption.
Qed.
Lemma stored_slice {A} (l : list A) : slice_of l (stored l).
Proof. destruct l; [left|right]; split; (reflexivity || discriminate). Qed.

Lemma attribute_tokens a ws : doc_attribute a ws -> exists ts, w_attribute a ts /\ ok3 ts ws.
Proof.
  destruct 1 as [| |n Hn|n Hn|n Hn|n Hn|v Hv]; eexists; (split; [try constructor|]).
  1,2: fx; apply ok3_nil.
  1-4: do 2 fx; apply ok3_number; [exact Hn|]; fx; apply ok3_nil.
  - instantiate (1 := match v with c :: _ => if is_digit c then [Tok UNSIGNED_NUMBER_LITERAL v] else [Tok STRING_LITERAL v] | [] => [Tok STRING_LITERAL v] end).
    destruct v as [|c v]; [right; reflexivity|]. destruct (is_digit c); [left|right]; reflexivity.
  - do 2 fx. destruct Hv as [Hv|Hv].
    + destruct v as [|c v]; [destruct Hv as [Hv _]; congruence|]. assert (Hc : is_digit c = true) by (destruct Hv as [_ Hv]; inversion Hv; assumption). rewrite Hc. apply ok3_number; [exact Hv|]. fx. apply ok3_nil.
    + destruct Hv as (b & E & Hb). subst v. cbn [is_digit app]. apply (ok3_cons (Tok STRING_LITERAL (lit "'" ++ b ++ lit "'"))).
      * split; [kind|]. apply string_kind. exists b. auto.
      * fx. apply ok3_nil.
Qed.

Section P.
Variable name : str -> Prop. Hypothesis Hname : forall n, name n -> good_name n.
Variable sql : str -> Prop. Hypothesis Hsql : forall q, sql q -> token_shape SQL_STMT q.
Lemma column_tokens c ws : doc_column name c ws -> exists ts, w_column c ts /\ ok3 ts ws.
Proof.
  destruct 1 as [n ty t l u Hn [Ht ->] Hl]. destruct (row_series _ _ attribute_tokens _ _ Hl) as (tl & H1 & H2).
  destruct Ht as [<-|[<-|[]]]; eexists; (split; [econstructor; [constructor|exact H1|apply stored_slice]|]); (apply ok3_name; [apply Hname; exact Hn|]); fx; exact H2.
Qed.
Lemma names_tokens l ws : with_commas (doc_column_name name) l ws -> exists ts, listed w_name l ts /\ ok3 ts ws.
Proof.
  apply commas_listed. intros a us [Ha ->]. eexists. split; [reflexivity|]. apply ok3_name; [apply Hname; exact Ha|apply ok3_nil].
Qed.
Lemma index_tokens i ws : doc_index name i ws -> exists ts, w_index i ts /\ ok3 ts ws.
Proof.
  destruct 1 as [n k w l u Hn Hk Hl]. destruct (names_tokens _ _ Hl) as (tl & H1 & H2).
  assert (G : exists t, w_ikind k [fixed t] /\ plain_kind t /\ literal_of t = Some w).
  { destruct Hk as [E|[E|[E|[]]]]; injection E as <- <-; [exists UNIQUE_|exists INDEX_|exists PRIMARY_]; (split; [constructor|split; [kind|reflexivity]]). }
  destruct G as (t & G1 & G2 & G3). eexists. split; [constructor; [exact G1|exact H1]|].
  apply (ok3_cons (Tok INDEX_NAME (lit "#" ++ n))); [split; [kind|apply index_name_good; exact Hn]|].
  apply ok3_fixed; [exact G2|exact G3|]. fx. apply ok3_app; [exact H2|]. fx. apply ok3_nil.
Qed.
Lemma members_tokens is ws : in_a_row (fun i ws => exists us, doc_index name i us /\ ws = lit "," :: us) is ws -> exists ts, w_members is [] ts /\ ok3 ts ws.
Proof.
  induction 1 as [|i ws is us (vs & Hi & ->) _ (t2 & IH1 & IH2)]; [exists []; split; [constructor|apply ok3_nil]|].
  destruct (index_tokens _ _ Hi) as (t1 & H1 & H2). exists (fixed COMMA :: t1 ++ t2). split; [constructor; assumption|]. cbn [app]. fx. apply ok3_app; assumption.
Qed.
Lemma table_tokens t ws : doc_table name t ws -> exists ts, w_table t ts /\ ok3 ts ws.
Proof.
  destruct 1 as [n cs tc is ti Hn Hc Hi]. destruct (commas_listed _ _ column_tokens _ _ Hc) as (t1 & H1 & H2). destruct (members_tokens _ _ Hi) as (t2 & H3 & H4).
  eexists. split; [econstructor; [exact H1|exact H3|apply stored_slice|left; split; reflexivity|left; reflexivity]|].
  fx. apply ok3_name; [apply Hname; exact Hn|]. fx. apply ok3_app; [exact H2|]. apply ok3_app; [exact H4|]. fx. apply ok3_nil.
Qed.
Lemma statement_tokens st ws : doc_statement sql st ws -> exists ts, w_stmt st ts /\ ok3 ts ws.
Proof.
  intros [(q & -> & Hq) ->]. eexists. split; [constructor|]. split; [constructor; constructor|]. constructor; [apply sql_tok_good; apply Hsql; exact Hq|]. constructor; [eapply fixed_good; reflexivity|constructor].
Qed.
Lemma parameters_tokens l ws : doc_parameters l ws -> exists ts, w_params l ts /\ ok3 ts ws.
Proof.
  intros [[-> ->]|H]; [exists []; split; [constructor|apply ok3_nil]|].
  destruct (commas_listed doc_parameter w_param) with (2 := H) as (t & H1 & H2).
  - intros a us [(n & -> & Hn) ->]. eexists. split; [reflexivity|]. apply (ok3_cons (Tok PARAM_OR_VAR (lit "$" ++ n))); [|apply ok3_nil]. split; [kind|]. apply param_good. exists n. auto.
  - exists t. split; [apply wp_some; exact H1|exact H2].
Qed.
Lemma action_tokens a ws : doc_action name sql a ws -> exists ts, w_action a ts /\ ok3 ts ws.
Proof.
  destruct 1 as [n ps tp body tb Hn Hp Hb Hne]. destruct (parameters_tokens _ _ Hp) as (t1 & H1 & H2). destruct (row_series _ _ statement_tokens _ _ Hb) as (t2 & H3 & H4).
  exists ([] ++ [fixed ACTION_; Tok IDENTIFIER n; fixed L_PAREN] ++ t1 ++ [fixed R_PAREN] ++ map fixed [] ++ [fixed L_BRACE] ++ t2 ++ [fixed R_BRACE]). split.
  - apply (w_action_ n [] None [] ps (stored ps) t1 [] false (lit "update") None body t2).
    + constructor.
    + left; auto.
    + exact H1.
    + apply stored_slice.
    + split; [constructor|]. cbn. unfold once. cbn. lia.
    + split; [discriminate|intros []].
    + intros [].
    + reflexivity.
    + intros [].
    + reflexivity.
    + split; assumption.
  - cbn [app map]. fx. apply ok3_name; [apply Hname; exact Hn|]. fx. apply ok3_app; [exact H2|]. fx. fx. apply ok3_app; [exact H4|]. fx. apply ok3_nil.
Qed.
Lemma decls_of ta t1 ac t2 : series w_table ta t1 -> series w_action ac t2 -> w_decls ta ac [] (t1 ++ t2).
Proof.
  intros H1 H2. induction H1 as [|t ts ta us Ht _ IH]; cbn [app].
  - induction H2 as [|a ts ac us Ha _ IH]; constructor; assumption.
  - rewrite <- app_assoc. constructor; assumption.
Qed.
Theorem documented_writes text s : documented name sql (doc_table name) text s -> writes text s.
Proof.
  intros (ws & HD & HS). destruct HD as [n ta tt ac ta' Hn Ht Ha]. destruct (row_series _ _ table_tokens _ _ Ht) as (t1 & H1 & H2). destruct (row_series _ _ action_tokens _ _ Ha) as (t2 & H3 & H4).
  set (ts := [fixed DATABASE_; Tok IDENTIFIER n; fixed SCOL] ++ [] ++ t1 ++ t2).
  assert (HO : ok3 ts ([lit "database"; n; lit ";"] ++ tt ++ ta')).
  { unfold ts. cbn [app]. fx. apply ok3_name; [apply Hname; exact Hn|]. fx. apply ok3_app; assumption. }
  assert (HW : denotes ts (Schema [] n (stored ta) (stored ac) None)).
  { unfold ts. econstructor; [constructor|left; auto|apply decls_of; eassumption|apply stored_slice|]. rewrite app_nil_r. apply stored_slice. }
  destruct HO as [HJ HL]. pose proof (denotes_program _ _ HW HL) as HP.
  destruct (proj2 (program_layouts ts text HP HL) (spelled_layout _ _ HJ HL _ HS)) as (us & Hu & E). exists us. rewrite E. auto.
Qed.
End P.
Lemma plain_sql_shape q : plain_sql q -> token_shape SQL_STMT q.
Proof. intros (k & c & r & -> & Hk & Hc & Hr & HF). destruct r as [|d r]; [congruence|]. exists k, c, d, r. auto. Qed.

(** *** What a statement starts with *)
From Verif Require Import Bigram Segments.
Lemma word_prefix k : forall c r k' c' r', k ++ c :: r = k' ++ c' :: r' -> Forall (fun x => is_wordch x = true) k -> Forall (fun x => is_wordch x = true) k' ->
  is_wordch c = false -> is_wordch c' = false -> k = k' /\ c = c'.
Proof.
  induction k as [|a k IH]; intros c r [|b k'] c' r' E Hk Hk' Hc Hc'; cbn in E; injection E as E1 E2.
  - auto.
  - subst b. inversion Hk'; congruence.
  - subst a. inversion Hk; congruence.
  - subst b. inversion Hk; inversion Hk'; subst. destruct (IH _ _ _ _ _ E2) as [-> ->]; auto.
Qed.
Lemma ident_wordch w : ident w -> Forall (fun x => is_wordch x = true) w.
Proof. intros (c & r & -> & Hc & Hr). constructor; [|exact Hr]. unfold is_wordch. rewrite Hc. reflexivity. Qed.
Lemma blank_not_word c : is_wsnl c = true -> is_wordch c = false.
Proof.
  unfold is_wsnl, is_blank, is_nl. intros H. assert (G : c = 9 \/ c = 32 \/ c = 10 \/ c = 13) by (rewrite !Bool.orb_true_iff, !N.eqb_eq in H; tauto).
  destruct G as [-> | [-> | [-> | ->]]]; reflexivity.
Qed.
Lemma sql_start q k c r : token_shape SQL_STMT q -> q ++ lit ";" = k ++ c :: r -> Forall (fun x => is_wordch x = true) k -> is_wsnl c = true -> sqlkw k.
Proof.
  intros (k' & c' & d & r' & -> & Hk' & Hc' & _) E Hk Hc. rewrite <- app_assoc in E. cbn [app] in E.
  destruct (word_prefix _ _ _ _ _ _ E) as [E1 _]; [apply ident_wordch, sql_word_ident; exact Hk'|exact Hk|apply blank_not_word; exact Hc'|apply blank_not_word; exact Hc|]. subst k'. exact Hk'.
Qed.
Lemma call_start ts k c r : derives (R call_stmt) ts -> lexed ts -> chars ts = k ++ c :: r -> Forall (fun x => is_wordch x = true) k -> is_wsnl c = true -> False.
Proof.
  intros Hd HL E Hk Hc. pose proof (kinds_fit _ _ Hd) as F. destruct ts as [|t ts]; [destruct k; discriminate E|].
  pose proof (f_fst _ _ F _ _ eq_refl) as Ft. assert (Et : i_fst (kinds call_stmt) = [PARAM_OR_VAR; IDENTIFIER]) by (vm_compute; reflexivity). rewrite Et in Ft.
  destruct (lexed_head _ _ HL) as [Hs _]. destruct Ft as [Ft|[Ft|[]]]; rewrite <- Ft in Hs.
  - destruct Hs as (w & Ew & _). unfold chars in E. cbn [map concat] in E. rewrite Ew in E. cbn in E. destruct k as [|a k]; injection E as E1 _; subst; [discriminate Hc|]. inversion Hk; discriminate.
  - destruct ts as [|t' ts].
    + assert (Hl : In (ty t) (i_lst (kinds call_stmt))) by (apply (f_lst _ _ F t []); reflexivity). rewrite <- Ft in Hl. apply tmem_in in Hl. vm_compute in Hl. discriminate.
    + assert (Hp : In (ty t, ty t') (i_prs (kinds call_stmt))) by (apply (f_prs _ _ F); exists [], ts; reflexivity). rewrite <- Ft in Hp.
      assert (Q : forallb (fun p => implb (tt_eqb (fst p) IDENTIFIER) (tt_eqb (snd p) L_PAREN || tt_eqb (snd p) PERIOD)) (i_prs (kinds call_stmt)) = true) by (vm_compute; reflexivity).
      rewrite forallb_forall in Q. specialize (Q _ Hp). cbn [fst snd implb] in Q. rewrite tt_eqb_refl in Q. cbn [implb] in Q.
      inversion HL as [|? ? _ HL']; subst. destruct (lexed_head _ _ HL') as [Hs' _].
      assert (G : exists d, tx t' = [d] /\ is_wordch d = false /\ is_wsnl d = false).
      { apply Bool.orb_true_iff in Q as [Q|Q]; apply tt_eqb_eq in Q; rewrite Q in Hs'; cbn in Hs'; rewrite Hs'; eexists; (split; [reflexivity|split; reflexivity]). }
      destruct G as (d & Ed & Hd1 & Hd2). unfold chars in E. cbn [map concat] in E. rewrite Ed in E. cbn [app] in E.
      destruct (word_prefix _ _ _ _ _ _ E) as [_ E2]; [apply ident_wordch; exact Hs|exact Hk|exact Hd1|apply blank_not_word; exact Hc|congruence].
Qed.

(** *** Checking that a text is spelled as some words *)
Definition runs (w s : str) : bool := is_wordch (List.last w 0) && match s with c :: _ => is_wordch c | [] => false end.
Fixpoint reads (fuel : nat) (ws : list str) (s : str) : bool :=
  match fuel with
  | O => false
  | S f =>
    match s with
    | [] => match ws with [] => true | _ => false end
    | c :: r => if is_wsnl c then reads f ws r
        else match ws with [] => false | w :: ws' => match strip w s with Some s' => negb (runs w s') && reads f ws' s' | None => false end end
    end
  end.
Lemma strip_some w : forall s r, strip w s = Some r -> s = w ++ r.
Proof.
  induction w as [|a w IH]; intros s r H; [injection H as ->; reflexivity|]. destruct s as [|b s]; [discriminate|]. cbn in H. destruct (N.eqb a b) eqn:E; [|discriminate]. apply N.eqb_eq in E. subst b. rewrite (IH _ _ H). reflexivity.
Qed.
Lemma runs_no w s : runs w s = false -> ~ runs_on w s.
Proof. intros H (u & a & c & r & -> & -> & Ha & Hc). unfold runs in H. rewrite last_last, Ha, Hc in H. discriminate. Qed.
Lemma reads_sound fuel : forall ws s, reads fuel ws s = true -> spelled ws s.
Proof.
  induction fuel as [|f IH]; intros ws s H; [discriminate|]. cbn [reads] in H. destruct s as [|c r]; [destruct ws; [constructor|discriminate]|].
  destruct (is_wsnl c) eqn:Ec; [apply sp_blank; auto|]. destruct ws as [|w ws]; [discriminate|]. destruct (strip w (c :: r)) as [s'|] eqn:Es; [|discriminate].
  apply andb_prop in H as [H1 H2]. apply strip_some in Es. rewrite Es. apply sp_word; [auto|]. apply runs_no. destruct (runs w s'); [discriminate|reflexivity].
Qed.
