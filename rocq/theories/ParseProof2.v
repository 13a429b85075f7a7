(** More about ParseKF: init blocks, SQL text, error kinds, error texts. *)
From Verif Require Import LexSpec LexShape LexerProof Grammar Cst ParserProof ParserGrammar Schema Denote DenoteProof Visitor
  Validator ValidSpec ValidProof ValidProof3 ParseKF ParseSpec FaultSpec ParseProof NameSpec Segments.

(** * Counting init blocks by their keyword *)
(** The keywords that open an init block or an action. *)
Definition decl_word (t : tt) : bool := tt_eqb t INIT_ || tt_eqb t ACTION_.
Definition nkw (ts : list tok) : nat := length (filter (fun t => decl_word (ty t)) ts).
Lemma nkw_app a b : nkw (a ++ b) = (nkw a + nkw b)%nat.
Proof. unfold nkw. rewrite filter_app, app_length. reflexivity. Qed.
Lemma nkw_cons t b : nkw (t :: b) = ((if decl_word (ty t) then 1 else 0) + nkw b)%nat.
Proof. unfold nkw. cbn [filter]. destruct (decl_word (ty t)); reflexivity. Qed.
Lemma nkw_many {A} (y : A -> list tok) l : (forall a, In a l -> nkw (y a) = 0%nat) -> nkw (many y l) = 0%nat.
Proof.
  induction l as [|a l IH]; intros H; [reflexivity|]. rewrite many_app, nkw_app, H, IH; auto; [intros; apply H; right; assumption|left; reflexivity].
Qed.
Lemma nkw_commas {A} (y : A -> list tok) l : (forall a, In a l -> nkw (y a) = 0%nat) -> nkw (commas y l) = 0%nat.
Proof.
  induction l as [|a l IH]; intros H; [reflexivity|]. change (commas y (a :: l)) with (kw COMMA :: (y a ++ commas y l)).
  rewrite nkw_cons, nkw_app, H, IH; auto; [intros; apply H; right; assumption|left; reflexivity].
Qed.

(** Argument expressions contain no init keyword. *)
Fixpoint no_init (e : ebnf) : bool :=
  match e with
  | Nothing => true
  | T t => negb (decl_word t)
  | R n => match n with fn_arg_expr | literal_value | variable | block_var | sfn_name => true | _ => false end
  | Seq a b | Or a b => no_init a && no_init b
  | Many a => no_init a
  end.
Lemma no_init_derives e ts : derives e ts -> no_init e = true -> nkw ts = 0%nat.
Proof.
  induction 1 as [|t x Hx|n ts H IH|a b u v H1 IH1 H2 IH2|a b u H1 IH1|a b u H1 IH1|a|a u v H1 IH1 H2 IH2]; intros E; cbn [no_init] in E.
  - reflexivity.
  - rewrite nkw_cons. rewrite Hx. apply negb_true_iff in E. rewrite E. reflexivity.
  - apply IH. destruct n; try discriminate E; reflexivity.
  - apply andb_true_iff in E as [E1 E2]. rewrite nkw_app, IH1, IH2; auto.
  - apply andb_true_iff in E as [E1 E2]. auto.
  - apply andb_true_iff in E as [E1 E2]. auto.
  - reflexivity.
  - rewrite nkw_app, IH1, IH2; auto.
Qed.
Lemma nkw_arg a : wf_arg a -> nkw a = 0%nat.
Proof. intros [H _]. apply (no_init_derives _ _ H). reflexivity. Qed.
Lemma nkw_call c : wf_call c -> nkw (y_call c) = 0%nat.
Proof.
  destruct c as [rc fn a args]. intros [H1 H2]. cbn in H1, H2. unfold y_call. cbn [cl_recv cl_fn cl_arg cl_args]. rewrite !nkw_app.
  assert (E1 : nkw (opt y_recv rc) = 0%nat).
  { destruct rc as [[p ps]|]; [|reflexivity]. cbn [opt]. unfold y_recv. rewrite !nkw_app, nkw_commas; [reflexivity|]. intros; reflexivity. }
  assert (E2 : nkw (y_callee fn) = 0%nat) by (destruct fn; reflexivity).
  assert (E3 : nkw (opt y_arg a) = 0%nat) by (destruct a as [a|]; [apply nkw_arg, H1; reflexivity|reflexivity]).
  assert (E4 : nkw (commas y_arg args) = 0%nat).
  { apply nkw_commas. intros b Hb. rewrite Forall_forall in H2. apply nkw_arg, H2, Hb. }
  rewrite E1, E2, E3, E4. reflexivity.
Qed.
Lemma nkw_stmt s : wf_stmt s -> nkw (y_stmt s) = 0%nat.
Proof. destruct s as [s|c]; [reflexivity|apply nkw_call]. Qed.
Lemma nkw_body s ss : wf_stmt s -> Forall wf_stmt ss -> nkw (y_stmt s ++ many y_stmt ss) = 0%nat.
Proof.
  intros H1 H2. rewrite nkw_app, nkw_stmt, nkw_many; auto. intros a Ha. rewrite Forall_forall in H2. apply nkw_stmt, H2, Ha.
Qed.
Lemma nkw_constr c : nkw (y_constr c) = 0%nat. Proof. destruct c; try reflexivity. destruct l; reflexivity. Qed.
Lemma nkw_column c : nkw (y_column c) = 0%nat.
Proof. unfold y_column. rewrite !nkw_app, nkw_many by (intros; apply nkw_constr). destruct (cc_type c); reflexivity. Qed.
Lemma nkw_ids l : nkw (commas y_id l) = 0%nat. Proof. apply nkw_commas. intros; reflexivity. Qed.
Lemma nkw_member m : nkw (y_member m) = 0%nat.
Proof.
  destruct m as [i|f]; cbn [y_member].
  - unfold y_index. rewrite !nkw_app, nkw_ids. destruct (ci_kind i); reflexivity.
  - unfold y_fk. rewrite !nkw_app, !nkw_ids, nkw_many.
    + destruct (cf_abbr f), (cf_rabbr f); reflexivity.
    + intros [on wd d] _. destruct on, wd, d; reflexivity.
Qed.
Lemma nkw_table t : nkw (y_table t) = 0%nat.
Proof.
  unfold y_table. rewrite !nkw_app, nkw_column, !nkw_commas.
  - destruct (ct_comma t); reflexivity.
  - intros; apply nkw_member.
  - intros; apply nkw_column.
Qed.
Lemma nkw_literal l : nkw (y_literal l) = 0%nat. Proof. destruct l; reflexivity. Qed.
Lemma nkw_ext x : nkw (y_ext x) = 0%nat.
Proof.
  unfold y_ext. rewrite !nkw_app. destruct (cx_config x) as [[c cs]|]; [|reflexivity]. cbn [opt]. unfold y_configs. rewrite !nkw_app.
  assert (H : forall d, nkw (y_config d) = 0%nat) by (intros d; unfold y_config; rewrite !nkw_app, nkw_literal; reflexivity).
  cbn [fst snd]. rewrite H, nkw_commas by (intros; apply H). reflexivity.
Qed.
Lemma nkw_annot a : nkw (y_annot a) = 0%nat.
Proof.
  unfold y_annot. rewrite !nkw_app.
  assert (H : forall d, nkw (y_attr d) = 0%nat) by (intros d; unfold y_attr; rewrite !nkw_app, nkw_literal; reflexivity).
  rewrite H, nkw_commas by (intros; apply H). reflexivity.
Qed.
Lemma nkw_init ts : nkw ts = 0%nat -> ninit ts = 0%nat.
Proof.
  induction ts as [|t ts IH]; [reflexivity|]. rewrite nkw_cons. unfold ninit, decl_word in *. cbn [filter].
  destruct (tt_eqb (ty t) INIT_); cbn; [discriminate|]. destruct (tt_eqb (ty t) ACTION_); [discriminate|]. exact IH.
Qed.
Lemma ninit_app a b : ninit (a ++ b) = (ninit a + ninit b)%nat.
Proof. unfold ninit. rewrite filter_app, app_length. reflexivity. Qed.
Lemma nkw_params a : nkw (opt y_param (cd_param a) ++ commas y_param (cd_params a)) = 0%nat.
Proof. rewrite nkw_app, nkw_commas by (intros; reflexivity). destruct (cd_param a); reflexivity. Qed.
Lemma nkw_annots l : nkw (many y_annot l) = 0%nat. Proof. apply nkw_many. intros; apply nkw_annot. Qed.
Lemma nkw_attrs l : nkw (many y_aattr l) = 0%nat. Proof. apply nkw_many. intros b _. destruct b; reflexivity. Qed.
Lemma ninit_action a : wf_action a -> ninit (y_action a) = 0%nat.
Proof.
  intros [H1 H2]. pose proof (nkw_init _ (nkw_body _ _ H1 H2)) as Hb. pose proof (nkw_init _ (nkw_params a)) as Hp.
  rewrite ninit_app in Hb, Hp.
  unfold y_action. rewrite !ninit_app, (nkw_init _ (nkw_annots _)), (nkw_init _ (nkw_attrs _)). cbn. lia.
Qed.
Lemma ninit_unit u : wf_unit u -> ninit (y_unit u) = length (inits (cu_decls u)).
Proof.
  intros H. unfold y_unit. rewrite !ninit_app. assert (E : nkw (many y_ext (cu_exts u)) = 0%nat) by (apply nkw_many; intros; apply nkw_ext).
  rewrite (nkw_init _ E). cbn.
  unfold wf_unit in H. induction H as [|d ds Hd H IH]; [reflexivity|]. rewrite many_app, ninit_app, IH. destruct d as [t|a|s ss]; cbn [y_decl inits length].
  - rewrite (nkw_init _ (nkw_table t)). reflexivity.
  - rewrite (ninit_action a Hd). reflexivity.
  - destruct Hd as [H1 H2]. rewrite !ninit_app. pose proof (nkw_init _ (nkw_body s ss H1 H2)) as E2. rewrite ninit_app in E2. cbn. lia.
Qed.

(** * The attribute lists of the actions, by their tokens *)
Lemma al_app a b : nkw a = 0%nat -> attr_lists (a ++ b) = attr_lists b.
Proof.
  induction a as [|t a IH]; [reflexivity|]. rewrite nkw_cons. unfold decl_word. cbn [app attr_lists].
  destruct (tt_eqb (ty t) ACTION_); [rewrite orb_true_r; discriminate|]. destruct (tt_eqb (ty t) INIT_); [discriminate|]. exact IH.
Qed.
Lemma after_paren a b : Forall (fun t => ty t <> R_PAREN) a -> after_r_paren (a ++ kw R_PAREN :: b) = b.
Proof.
  induction 1 as [|t a Ht Ha IH]; [reflexivity|]. cbn [app after_r_paren]. apply tt_eqb_neq in Ht. rewrite Ht. exact IH.
Qed.
Lemma attr_prefix_words l b : (forall t r, b = t :: r -> is_attr_word (ty t) = false) -> attr_prefix (many y_aattr l ++ b) = words l.
Proof.
  intros Hb. induction l as [|a l IH].
  - cbn [many map concat app]. destruct b as [|t r]; [reflexivity|]. cbn [attr_prefix]. rewrite (Hb t r eq_refl). reflexivity.
  - rewrite many_app, <- app_assoc. destruct a; cbn [y_aattr app attr_prefix words map]; cbn - [many attr_prefix]; rewrite IH; reflexivity.
Qed.
Lemma al_cons_other t r : ty t <> ACTION_ -> attr_lists (t :: r) = attr_lists r.
Proof. intros H. cbn. apply tt_eqb_neq in H. rewrite H. reflexivity. Qed.
Lemma params_no_paren a : Forall (fun t => ty t <> R_PAREN) (opt y_param (cd_param a) ++ commas y_param (cd_params a)).
Proof.
  apply Forall_app. split; [destruct (cd_param a); cbn; repeat constructor; discriminate|].
  induction (cd_params a) as [|p l IH]; [constructor|]. unfold commas. cbn [map concat]. constructor; [discriminate|]. constructor; [discriminate|exact IH].
Qed.
Lemma al_action a b : wf_action a -> attr_lists (y_action a ++ b) = words (cd_attrs a) :: attr_lists b.
Proof.
  intros [H1 H2]. unfold y_action. rewrite <- !app_assoc, (al_app _ _ (nkw_annots _)). cbn [app].
  change (attr_lists (kw ACTION_ :: ?r)) with (attr_prefix (after_r_paren r) :: attr_lists r). f_equal.
  - rewrite (app_assoc (opt _ _)).
    set (X := many y_aattr (cd_attrs a) ++ _).
    change (after_r_paren (y_id (cd_name a) ++ kw L_PAREN :: ((opt y_param (cd_param a) ++ commas y_param (cd_params a)) ++ kw R_PAREN :: X))) with
      (after_r_paren (([Tok IDENTIFIER (cd_name a); kw L_PAREN] ++ (opt y_param (cd_param a) ++ commas y_param (cd_params a))) ++ kw R_PAREN :: X)).
    rewrite after_paren by (apply Forall_app; split; [repeat constructor; discriminate|apply params_no_paren]).
    unfold X. apply attr_prefix_words. intros t r E. injection E as <- _. reflexivity.
  - rewrite (app_assoc (opt _ _)). unfold y_id. cbn [app]. rewrite !al_cons_other by discriminate.
    rewrite (al_app _ _ (nkw_params a)), al_cons_other by discriminate. rewrite (al_app _ _ (nkw_attrs _)), al_cons_other by discriminate.
    rewrite (app_assoc (y_stmt _)), (al_app _ _ (nkw_body _ _ H1 H2)), al_cons_other by discriminate. reflexivity.
Qed.
Lemma al_unit u : wf_unit u -> attr_lists (y_unit u) = map (fun a => words (cd_attrs a)) (actions (cu_decls u)).
Proof.
  intros H. unfold y_unit, y_id. cbn [app]. rewrite !al_cons_other by discriminate. rewrite al_app by (apply nkw_many; intros; apply nkw_ext).
  unfold wf_unit in H. induction H as [|d ds Hd H IH]; [reflexivity|]. rewrite many_app. destruct d as [t|a|s ss]; cbn [y_decl actions map].
  - rewrite (al_app _ _ (nkw_table t)). exact IH.
  - rewrite (al_action a _ Hd), IH. reflexivity.
  - destruct Hd as [H1 H2]. rewrite <- !app_assoc. cbn [app]. rewrite !al_cons_other by discriminate.
    rewrite (app_assoc (y_stmt _)), (al_app _ _ (nkw_body _ _ H1 H2)), al_cons_other by discriminate. exact IH.
Qed.

(** The faults of a program, by its tokens. *)
Lemma unit_fault_tokens u e : wf_unit u -> (unit_fault u e <-> program_fault (y_unit u) e).
Proof.
  intros Hw. unfold unit_fault, program_fault. rewrite (ninit_unit u Hw), (al_unit u Hw). split.
  - intros [H|(Hn & pre & a & post & E & Hpre & Hf)]; [left; exact H|right]. split; [exact Hn|]. exists (map (fun a => words (cd_attrs a)) pre), (words (cd_attrs a)), (map (fun a => words (cd_attrs a)) post).
    split; [rewrite E, map_app; reflexivity|]. split; [apply Forall_map; exact Hpre|exact Hf].
  - intros [H|(Hn & pre & l & post & E & Hpre & Hf)]; [left; exact H|right]. split; [exact Hn|].
    apply map_eq_app in E as (p1 & p2 & E & <- & E2). destruct p2 as [|a p2]; [discriminate|]. injection E2 as <- <-.
    exists p1, a, p2. split; [exact E|]. split; [apply (proj1 (Forall_map _ attr_words p1)) in Hpre; exact Hpre|exact Hf].
Qed.

Lemma misdeclared_fault text e : misdeclared text e <-> declaration_fault text e.
Proof.
  unfold misdeclared, declaration_fault. split.
  - intros (ts & Ht & Hp & Hf). pose proof (shaped_ok _ (visible_shaped _ _ Ht)) as Hok. apply p_unit_accepts in Hp as (u & Hu); [|exact Hok].
    apply p_unit_tree in Hu as [E Hw]; [|exact Hok]. exists ts, u. split; [exact Ht|]. split; [exact E|]. split; [exact Hw|].
    apply unit_fault_tokens; [exact Hw|]. rewrite <- E. exact Hf.
  - intros (ts & u & Ht & E & Hw & Hf). exists ts. split; [exact Ht|]. split.
    + apply p_unit_accepts; [apply shaped_ok, (visible_shaped text); exact Ht|]. exists u.
      apply p_unit_tree; [apply shaped_ok, (visible_shaped text); exact Ht|auto].
    + rewrite E. apply unit_fault_tokens; assumption.
Qed.

(** * SQL statements are verbatim *)
Lemma tokens_of_app text ts1 ts2 : tokens_of text (ts1 ++ ts2) -> exists r, text = concat (map tx ts1) ++ r /\ tokens_of r ts2.
Proof.
  revert text. induction ts1 as [|t ts1 IH]; intros text H; [exists text; auto|].
  cbn in H. inversion H as [|? ? rest ? Hf Hr]; subst. destruct (IH _ Hr) as (r & E & Hr2). exists r. split; [|exact Hr2].
  destruct Hf as (Hf & _). cbn. rewrite Hf, E, app_assoc. reflexivity.
Qed.
Lemma shape_semicolon k r : token_shape k (59%N :: r) -> k = SCOL /\ r = [].
Proof.
  intros H. destruct k; cbn in H; try discriminate H; try (injection H as H; split; [reflexivity|exact H]); exfalso.
  all: try (destruct H as (c & w & E & Hc & _); injection E as <- _; discriminate Hc).
  all: try (destruct H as (w & E & _); discriminate E).
  all: try (destruct H as [_ H]; inversion H as [|? ? Hd _]; discriminate Hd).
  - unfold sqlkw in H. cbn in H. repeat (destruct H as [H|H]; [discriminate H|]). exact H.
  - destruct H as (k & c & d & q & E & Hk & Hc & _). destruct (sqlkw_letter k Hk) as (x & y & -> & Hx). injection E as <- _. discriminate Hx.
  - destruct H as [H|H]; discriminate H.
  - destruct H as [H|H]; discriminate H.
Qed.
(** After an SQL statement token comes a semicolon, a closing brace, or nothing. *)
Lemma sql_next s t rest : first_token s t rest -> ty t = SQL_STMT -> match rest with [] => True | c :: _ => c = 59%N \/ c = 125%N end.
Proof.
  intros (E & Hne & Hs & Hmax & _) Ht. destruct rest as [|c rest]; [exact I|]. rewrite Ht in Hs.
  destruct Hs as (k & c0 & d & r & Etx & Hk & Hc & Hr).
  destruct (N.eq_dec c 59) as [->|H1]; [left; reflexivity|]. destruct (N.eq_dec c 125) as [->|H2]; [right; reflexivity|]. exfalso.
  assert (Hl : (length (tx t ++ [c]) <= length (tx t))%nat).
  { apply (Hmax SQL_STMT (tx t ++ [c]) rest); [rewrite E, <- app_assoc; reflexivity|]. exists k, c0, d, (r ++ [c]).
    split; [rewrite Etx, <- app_assoc; reflexivity|]. split; [exact Hk|]. split; [exact Hc|]. rewrite app_comm_cons. apply Forall_app. split; [exact Hr|].
    constructor; [auto|constructor]. }
  rewrite app_length in Hl. cbn in Hl. lia.
Qed.
Lemma drop_layout_split ts a t b : drop_layout ts = a ++ t :: b -> exists x y, ts = x ++ t :: y /\ drop_layout x = a /\ drop_layout y = b /\ is_layout (ty t) = false.
Proof.
  revert a. induction ts as [|u ts IH]; intros a H.
  - destruct a; discriminate.
  - unfold drop_layout in *. cbn [filter] in H. destruct (is_layout (ty u)) eqn:El; cbn [negb] in H.
    + destruct (IH a H) as (x & y & -> & Ha & Hb & Ht). exists (u :: x), y. split; [reflexivity|]. split; [|auto]. cbn [filter]. rewrite El. exact Ha.
    + destruct a as [|v a]; cbn in H; injection H as -> H.
      * exists [], ts. auto.
      * destruct (IH a H) as (x & y & -> & Ha & Hb & Ht). exists (v :: x), y. split; [reflexivity|]. split; [|auto]. cbn [filter]. rewrite El. cbn [negb]. rewrite Ha. reflexivity.
Qed.
Theorem sql_verbatim text ts s : tokens_of text ts -> part [Tok SQL_STMT s; fixed SCOL] (drop_layout ts) ->
  exists a b, text = a ++ s ++ lit ";" ++ b /\ Forall (fun c => c <> 59%N /\ c <> 125%N) s.
Proof.
  intros H (A & B & E). cbn [app] in E. apply drop_layout_split in E as (x & y & -> & _ & Hy & _).
  apply tokens_of_app in H as (r & -> & H). inversion H as [|? ? rest ? Hf Hr]; subst. pose proof (sql_next _ _ _ Hf eq_refl) as Hn.
  destruct Hf as (E & _ & Hs & _). cbn [tx] in *.
  assert (Hsc : exists b, rest = lit ";" ++ b).
  { destruct y as [|t y]; [discriminate Hy|]. inversion Hr as [|? ? rest2 ? Hf2 Hr2]; subst. destruct Hf2 as (E2 & Hne & Hs2 & _).
    destruct (tx t) as [|c w] eqn:Etx; [congruence|]. rewrite E2 in Hn. cbn in Hn. destruct Hn as [->| ->].
    - apply shape_semicolon in Hs2 as [_ ->]. exists rest2. rewrite E2. reflexivity.
    - exfalso. destruct t as [k kt]. cbn [ty tx] in *. subst kt. assert (Hk : is_layout k = false).
      { destruct k; try reflexivity; exfalso; cbn in Hs2.
        - destruct Hs2 as [Hs2|Hs2]; discriminate Hs2.
        - destruct Hs2 as [Hs2|Hs2]; discriminate Hs2.
        - destruct Hs2 as (b & Eb & _). discriminate Eb.
        - destruct Hs2 as (b & Eb & _). discriminate Eb. }
      unfold drop_layout in Hy. cbn [filter ty] in Hy. rewrite Hk in Hy. cbn [negb] in Hy. injection Hy as -> Ew _. discriminate Ew. }
  destruct Hsc as (b & ->). exists (concat (map tx x)), b. split; [rewrite E; reflexivity|].
  destruct Hs as (k & c & d & q & -> & Hk & Hc & Hq). apply Forall_app. split.
  - clear -Hk. apply Forall_forall. intros z Hz. assert (Hin : In (lower1 z) (lower k)) by (apply in_map; exact Hz).
    assert (HL : forall v, In v sql_words -> Forall (fun c => (97 <= c <= 122)%N) v).
    { intros v Hv. cbn in Hv. repeat (destruct Hv as [<-|Hv]; [repeat constructor; cbn; lia|]). destruct Hv. }
    specialize (HL _ Hk). rewrite Forall_forall in HL. specialize (HL _ Hin). unfold lower1 in HL. destruct ((65 <=? z) && (z <=? 90))%N; lia.
  - constructor; [|exact Hq]. unfold is_wsnl, is_blank, is_nl in Hc. split; intros ->; discriminate Hc.
Qed.

(** Statements of the actions are parts of the program. *)
Lemma body_part b ts st : w_body b ts -> In st b -> exists seg, part seg ts /\ w_stmt st seg.
Proof. intros [_ H] Hin. eapply series_part; eassumption. Qed.
Theorem statements_parts ts s a st : denotes ts s -> In a (elems (sc_actions s)) -> In st (elems (ac_stmts a)) ->
  exists seg, part seg ts /\ w_stmt st seg.
Proof.
  intros H Ha Hst. destruct (denotes_parts _ _ H) as (_ & _ & _ & ac & ini & Ea & _ & Hac & Hini). rewrite Ea in Ha. apply in_app_or in Ha as [Ha|Ha].
  - destruct (Hac a Ha) as (seg & Hp & HD). inversion HD as [n anns sanns tn ins sins ti l pub mut aux body tb Hx1 Hsa Hpp Hsp Hl Hpub Hm1 Hm2 Hx2 Hx3 Hb]; subst.
    cbn [ac_stmts elems] in Hst. destruct (body_part _ _ _ Hb Hst) as (sg & Hsg & HS). exists sg. split; [|exact HS].
    eapply part_trans; [|exact Hp]. do 6 apply part_r. apply part_l; exact Hsg.
  - destruct (Hini a Ha) as (seg & Hp & HD). inversion HD as [body tb Hb]; subst. cbn [ac_stmts elems] in Hst.
    destruct (body_part _ _ _ Hb Hst) as (sg & Hsg & HS). exists sg. split; [|exact HS].
    eapply part_trans; [|exact Hp]. apply part_r. apply part_l; exact Hsg.
Qed.

(** * Error kinds *)
Lemma sentinel_eqb_eq a b : sentinel_eqb a b = true <-> a = b.
Proof. unfold sentinel_eqb. destruct (sentinel_eq_dec a b); split; congruence. Qed.
Lemma chain_wrap k d s : chain_is (wrap k d) s = true <-> k = s.
Proof. cbn. apply sentinel_eqb_eq. Qed.

(** A report of validation is one of the module's errors other than a syntax error, or comes from an imported parser. *)
Definition own (z : report) : Prop := exists k d, z = inl (EWrap (ESent k) d) /\ k <> InvalidSyntax.
Definition imported (x : externals) (z : report) : Prop :=
  exists st, passes_on (act_parse x st) st z \/ passes_on (sql_parse x st) st z \/ passes_on (to_sql x st) st z.
Lemma says_own k d z : k <> InvalidSyntax -> says k d z -> own z.
Proof. intros H ->. exists k, d. auto. Qed.
Lemma first_bad_own {A} ok (bad : list A -> A -> report -> Prop) l z (P : report -> Prop) :
  (forall pre a, bad pre a z -> P z) -> first_bad ok bad l z -> P z.
Proof. intros H (pre & a & post & _ & _ & Hb). eapply H; exact Hb. Qed.
Lemma dup_own {A} (name : A -> str) k l z : k <> InvalidSyntax -> first_bad (fresh name) (dup name k) l z -> own z.
Proof. intros Hk. apply first_bad_own. intros pre a [_ H]. eapply says_own; eassumption. Qed.
Lemma missing_own known msg l z : missing known msg l z -> own z.
Proof. apply first_bad_own. intros pre a [_ H]. eapply says_own; [|exact H]. discriminate. Qed.
Lemma args_own x vars args z : first_bad (fun _ => arg_ok vars) (fun _ => arg_bad x vars) args z -> own z.
Proof. apply first_bad_own. intros pre a (p & _ & _ & H). eapply says_own; [|exact H]. discriminate. Qed.
Theorem report_kinds x s z : invalid_schema x s z -> own z \/ imported x z.
Proof.
  intros [H|[(_ & H)|[(_ & _ & H)|[(_ & _ & _ & H)|(_ & _ & _ & _ & H)]]]].
  - left. eapply dup_own; [|exact H]. discriminate.
  - left. revert H. apply first_bad_own. intros pre t [[_ H]|[_ [H|(_ & _ & H)]]].
    + eapply says_own; [|exact H]. discriminate.
    + revert H. apply first_bad_own. intros pre' c [[_ H]|[_ H]]; [eapply says_own; [|exact H]; discriminate|].
      revert H. apply first_bad_own. intros pre'' a [[_ H]|(_ & _ & H)]; (eapply says_own; [|exact H]; discriminate).
    + revert H. apply first_bad_own. intros pre' i [[_ H]|[_ H]]; [eapply says_own; [|exact H]; discriminate|eapply missing_own; exact H].
  - left. revert H. apply first_bad_own. intros pre a [[_ H]|[_ H]]; [eapply says_own; [|exact H]; discriminate|eapply dup_own; [|exact H]; discriminate].
  - left. revert H. apply first_bad_own. intros pre t. apply first_bad_own. intros pre' f [H|[_ [[_ H]|(p & _ & _ & [H|[_ H]])]]].
    + eapply missing_own; exact H.
    + eapply says_own; [|exact H]; discriminate.
    + eapply missing_own; exact H.
    + eapply dup_own; [|exact H]; discriminate.
  - set (P := fun z => own z \/ imported x z). change (P z). revert H. apply first_bad_own. intros pre a. unfold body_bad. apply first_bad_own. unfold P.
    intros pre' st H. unfold stmt_bad in H.
    destruct (act_parse x st) as [[|m args|e args recv|]|e|p] eqn:Ea.
    + right. exists st. destruct H as [H|[_ H]]; auto.
    + left. destruct H as [[_ H]|[_ H]]; [eapply says_own; [|exact H]; discriminate|eapply args_own; exact H].
    + left. destruct H as [[_ H]|[_ [H|[_ H]]]]; [eapply says_own; [|exact H]; discriminate|eapply args_own; exact H|eapply dup_own; [|exact H]; discriminate].
    + destruct H.
    + right. exists st. left. rewrite Ea. exact H.
    + right. exists st. left. rewrite Ea. exact H.
Qed.
Lemma imported_foreign w z : foreign_world w -> imported (w_ext w) z -> foreign_error (report_error z).
Proof.
  intros HF (st & H). destruct (HF st) as (F1 & F2 & F3).
  assert (G : forall {A} (r : res A), foreign_res r -> passes_on r st z -> foreign_error (report_error z)).
  { intros A r Hr Hp. destruct r as [a|e|p]; cbn in Hp; [destruct Hp|subst z|subst z]; cbn.
    - intros k. cbn. apply Hr.
    - destruct p as [q|e|q]; cbn in *; [intros k; reflexivity|exact Hr|intros k; reflexivity]. }
  destruct H as [H|[H|H]]; [apply (G _ _ F1 H)|apply (G _ _ F2 H)|apply (G _ _ F3 H)].
Qed.
Lemma unit_fault_kind u e : unit_fault u e -> exists k, In k [MultiInit; VisibilityAlreadySet; MutabilityAlreadySet; AuxiliaryAlreadySet] /\
  (e = ESent k \/ exists d, e = wrap k d).
Proof.
  intros [[_ ->]|(_ & pre & a & post & _ & _ & Hf)]; [exists MultiInit; cbn; auto|].
  destruct Hf as [[_ ->]|[(_ & _ & ->)|(_ & _ & _ & ->)]];
    [exists VisibilityAlreadySet|exists MutabilityAlreadySet|exists AuxiliaryAlreadySet]; (split; [cbn; tauto|right; eexists; reflexivity]).
Qed.

(** * Decimal numbers *)
Definition digit_value (l : str) : nat := fold_left (fun n c => (10 * n + (N.to_nat c - 48))%nat) l 0%nat.
Lemma digits_acc fuel : forall n acc, digits fuel n acc = digits fuel n [] ++ acc.
Proof.
  induction fuel as [|f IH]; intros n acc; [reflexivity|]. cbn [digits]. destruct (Nat.ltb n 10); [reflexivity|].
  rewrite IH, (IH _ [_]), <- app_assoc. reflexivity.
Qed.
Lemma digit_value_snoc l c : digit_value (l ++ [c]) = (10 * digit_value l + (N.to_nat c - 48))%nat.
Proof. unfold digit_value. rewrite fold_left_app. reflexivity. Qed.
Lemma digits_value fuel : forall n, (n < fuel)%nat -> digit_value (digits fuel n []) = n /\ Forall (fun c => is_digit c = true) (digits fuel n []) /\ digits fuel n [] <> [].
Proof.
  induction fuel as [|f IH]; intros n Hn; [lia|]. cbn [digits].
  assert (Hd : is_digit (N.of_nat (48 + n mod 10)) = true).
  { unfold is_digit. pose proof (Nat.mod_upper_bound n 10 ltac:(lia)). apply andb_true_iff. split; apply N.leb_le; lia. }
  destruct (Nat.ltb n 10) eqn:E.
  - apply Nat.ltb_lt in E. split; [|split; [constructor; [exact Hd|constructor]|discriminate]].
    unfold digit_value. cbn [fold_left]. rewrite Nat2N.id, Nat.mod_small by exact E. lia.
  - apply Nat.ltb_ge in E. rewrite digits_acc. pose proof (Nat.div_lt n 10 ltac:(lia) ltac:(lia)) as Hlt.
    destruct (IH (n / 10)%nat ltac:(lia)) as (I1 & I2 & I3). split; [|split].
    + rewrite digit_value_snoc, I1, Nat2N.id. pose proof (Nat.div_mod_eq n 10). lia.
    + apply Forall_app. split; [exact I2|constructor; [exact Hd|constructor]].
    + intros H. apply app_eq_nil in H as [H _]. contradiction.
Qed.
Theorem decimal_value n : digit_value (decimal n) = n /\ Forall (fun c => is_digit c = true) (decimal n) /\ decimal n <> [].
Proof. apply digits_value. lia. Qed.
