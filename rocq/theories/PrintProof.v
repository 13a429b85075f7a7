(** Plain schemas are exactly the schemas that can be written. *)
From Verif Require Import Tokens LexSpec LexShape LexerProof Lexer Schema Grammar Cst ParserGrammar Denote DenoteProof NameSpec Segments LayoutSpec Spacing Bigram
  LayoutProof PrintSpec ParseKF ParseSpec ParseProof ParseProof2 Validator ValidSpec Outcomes.
Local Open Scope N_scope.

(** * Single tokens *)
Definition good_tok (t : tok) : Prop := token_shape (ty t) (tx t) /\ prio t.
Lemma fixed_good k w : literal_of k = Some w -> good_tok (fixed k).
Proof.
  intros E. assert (P : forallb (fun k => match literal_of k with
      | Some w => match next_token w with Some (j, n) => tt_eqb j k && Nat.eqb n (length w) | None => false end | None => true end) all_tt = true)
    by (vm_compute; reflexivity).
  rewrite forallb_forall in P. specialize (P k (all_tt_complete k)). rewrite E in P. destruct (next_token w) as [[j n]|] eqn:En; [|discriminate].
  apply andb_prop in P as [P1 P2]. apply tt_eqb_eq in P1. apply Nat.eqb_eq in P2.
  apply next_token_some in En as (u & rest & Ew & El & _ & _ & _ & H1 & _ & H2). cbn [ty tx] in *.
  assert (Er : rest = []) by (apply length_zero_iff_nil; rewrite Ew, app_length in P2; lia). subst rest. rewrite app_nil_r in Ew. subst u j.
  unfold good_tok, fixed, prio. rewrite E. cbn [ty tx]. split; assumption.
Qed.

Lemma reserved_in k w : literal_of k = Some w -> (exists a r, w = a :: r /\ is_letter a = true) -> In w reserved.
Proof.
  intros E (a & r & Ew & Ha). destruct k; cbn in E; try discriminate; injection E as <-; try (injection Ew as <- <-; discriminate Ha); vm_compute; tauto.
Qed.
Lemma name_good n : good_name n -> good_tok (Tok IDENTIFIER n).
Proof.
  intros (Hi & Hr & Hq). split; [exact Hi|]. intros k Hk. cbn [ty tx] in *. destruct (shape_group _ _ Hk) as [Hw _|Hs Hsq|kk c d r Ek _ Hsq Hc HF|s w Hin _ Hw|Ek|b Ek _ _|c Hc _ Hws|b Ek _ _|b Ek _ _|Hin]; try (rewrite Ek; cbn; lia).
  - unfold wordk in Hw. unfold token_shape in Hk. destruct (literal_of k) as [w|] eqn:E; [|apply tt_eqb_eq in Hw; subst k; cbn; lia].
    exfalso. apply Hr. subst n. eapply reserved_in; [exact E|]. destruct Hi as (a & r & -> & Ha & _). eauto.
  - exfalso; auto.
  - cbn in Hin. destruct Hin as [E|[E|[E|[]]]]; injection E as <- <-; cbn; lia.
  - destruct Hc as [-> | ->]; cbn; lia.
  - exfalso. destruct Hi as (a & r & -> & Ha & _). clear -Hin Ha.
    assert (P : forallb (fun p => match snd p with a :: _ => negb (is_letter a) | [] => true end) ops = true) by (vm_compute; reflexivity).
    rewrite forallb_forall in P. specialize (P _ Hin). cbn [snd] in P. rewrite Ha in P. discriminate.
Qed.
Lemma kinds_at t a w : tx t = a :: w -> token_shape (ty t) (tx t) -> (fcls a <> 0%nat) -> (fcls a < 7)%nat -> tt_num (ty t) <> 8%nat -> tt_num (ty t) <> 9%nat -> tt_num (ty t) <> 10%nat -> w <> [] \/ (fcls a = 1)%nat \/ (fcls a = 2)%nat -> (fcls a <> 3)%nat -> prio t.
Proof.
  intros E Hs H0 H7 n8 n9 n10 Hw H3 k Hk. destruct (group_head _ _ (shape_group _ _ Hs)) as (b & w1 & E1 & Hb). destruct (group_head _ _ (shape_group _ _ Hk)) as (b' & w2 & E2 & Hb').
  assert (b = a) by congruence. assert (b' = a) by congruence. subst b b'.
  assert (LT : forall j, literal_of j = Some [a] -> token_shape j (tx t) -> w = []). { intros j Ej Hj. unfold token_shape in Hj. rewrite Ej, E in Hj. injection Hj as ->. reflexivity. }
  destruct (fcls a) as [|[|[|[|[|[|[|n]]]]]]] eqn:Ef; try lia.
  - rewrite Hb, Hb'. lia.
  - rewrite Hb, Hb'. lia.
  - destruct Hb as [Hb|Hb]; [|rewrite Hb in n9; cbn in n9; lia]. destruct Hb' as [->| ->]; [rewrite Hb; lia|]. exfalso. cbn in Hk. rewrite E in Hk. injection Hk as _ ->. destruct Hw as [Hw|[Hw|Hw]]; [congruence|lia|lia].
  - destruct Hb as [Hb|Hb]; [|rewrite Hb in n8; cbn in n8; lia]. destruct Hb' as [->| ->]; [rewrite Hb; lia|]. exfalso. cbn in Hk. rewrite E in Hk. injection Hk as _ ->. destruct Hw as [Hw|[Hw|Hw]]; [congruence|lia|lia].
  - destruct Hb as [Hb|Hb]; [|rewrite Hb in n10; cbn in n10; lia]. destruct Hb' as [->| ->]; [rewrite Hb; lia|]. exfalso. cbn in Hk. rewrite E in Hk. injection Hk as _ ->. destruct Hw as [Hw|[Hw|Hw]]; [congruence|lia|lia].
Qed.
Lemma ident_ne w : ident w -> w <> []. Proof. intros (a & r & -> & _). discriminate. Qed.
Lemma param_good p : good_param p -> good_tok (Tok PARAM_OR_VAR p).
Proof.
  intros (w & -> & Hw). assert (Hs : token_shape PARAM_OR_VAR (lit "$" ++ w)) by (exists w; auto). split; [exact Hs|].
  eapply (kinds_at (Tok PARAM_OR_VAR (lit "$" ++ w)) 36 w); try reflexivity; try exact Hs; cbn; try lia. left. apply ident_ne; exact Hw.
Qed.
Lemma index_name_good n : ident n -> good_tok (Tok INDEX_NAME (lit "#" ++ n)).
Proof.
  intros Hw. assert (Hs : token_shape INDEX_NAME (lit "#" ++ n)) by (exists n; auto). split; [exact Hs|].
  eapply (kinds_at (Tok INDEX_NAME (lit "#" ++ n)) 35 n); try reflexivity; try exact Hs; cbn; try lia. left. apply ident_ne; exact Hw.
Qed.
Lemma number_tok_good v : digits_only v -> good_tok (Tok UNSIGNED_NUMBER_LITERAL v).
Proof.
  intros [Hn Hd]. split; [split; assumption|]. destruct v as [|a v]; [congruence|]. inversion Hd as [|? ? Ha _]; subst.
  assert (E : fcls a = 1%nat) by (unfold fcls; rewrite Ha; destruct (is_letter a) eqn:El; [exfalso; unfold is_letter, is_digit in *; bd; lia|reflexivity]).
  eapply (kinds_at (Tok UNSIGNED_NUMBER_LITERAL (a :: v)) a v); try reflexivity; try (split; assumption); rewrite ?E; cbn; lia.
Qed.
Lemma string_tok_good v : quoted v -> good_tok (Tok STRING_LITERAL v).
Proof.
  intros (b & -> & Hb). assert (Hs : token_shape STRING_LITERAL (lit "'" ++ b ++ lit "'")) by (exists b; auto). split; [exact Hs|].
  eapply (kinds_at (Tok STRING_LITERAL (lit "'" ++ b ++ lit "'")) 39 (b ++ lit "'")); try reflexivity; try exact Hs; cbn; lia.
Qed.
Lemma sql_tok_good q : token_shape SQL_STMT q -> good_tok (Tok SQL_STMT q).
Proof.
  intros Hs. split; [exact Hs|]. intros k Hk. cbn [ty tx] in *. destruct Hs as (kk & c & d & r & -> & Hq & Hc & HF).
  destruct (sql_word_ident _ Hq) as (a & w & -> & Ha & _).
  destruct (group_head _ _ (shape_group _ _ Hk)) as (a' & w' & E & Hb). cbn in E. injection E as <- <-. assert (Ef : fcls a = 0%nat) by (unfold fcls; rewrite Ha; reflexivity).
  rewrite Ef in Hb. destruct Hb as [[_ Hi]|[[_ Hi]|Hk']]; [|apply sql_word_ident in Hi|subst; cbn; lia];
    (rewrite (ident_no_ws _ c Hi) in Hc; [discriminate|right; apply in_or_app; right; left; reflexivity]).
Qed.

(** * Writing *)
Lemma lexed_cons t ts : good_tok t -> lexed ts -> lexed (t :: ts). Proof. intros H1 H2. constructor; assumption. Qed.
Lemma lexed_app a b : lexed a -> lexed b -> lexed (a ++ b). Proof. intros H1 H2. apply Forall_app; auto. Qed.
Lemma lexed_nil : lexed []. Proof. constructor. Qed.
Ltac lx := repeat first [apply lexed_nil | apply lexed_app | apply lexed_cons | (eapply fixed_good; reflexivity) | assumption
  | (apply name_good; assumption) | (apply param_good; assumption) | (apply number_tok_good; assumption) | (apply index_name_good; assumption) ].

Lemma write_series {A} (D : A -> list tok -> Prop) l : Forall (fun a => exists ts, D a ts /\ lexed ts) l -> exists ts, series D l ts /\ lexed ts.
Proof.
  induction 1 as [|a l (ts & H1 & H2) _ (us & H3 & H4)]; [exists []; split; [constructor|lx]|]. exists (ts ++ us). split; [constructor; assumption|lx].
Qed.
Lemma write_listed {A} (D : A -> list tok -> Prop) l : Forall (fun a => exists ts, D a ts /\ lexed ts) l -> l <> [] -> exists ts, listed D l ts /\ lexed ts.
Proof.
  induction 1 as [|a l (ts & H1 & H2) HF IH]; intros Hn; [congruence|]. destruct l as [|b l]; [exists ts; split; [constructor|]; assumption|].
  destruct IH as (us & H3 & H4); [discriminate|]. exists (ts ++ fixed COMMA :: us). split; [constructor; assumption|lx].
Qed.
Lemma write_names l : Forall good_name l -> l <> [] -> exists ts, listed w_name l ts /\ lexed ts.
Proof.
  intros H. apply write_listed. revert H. apply Forall_impl. intros n Hn. exists [Tok IDENTIFIER n]. split; [reflexivity|lx].
Qed.
Lemma slice_norm {A} (s : slice A) : nil_if_empty s -> slice_of (elems s) s.
Proof. destruct s as [[|a l]|]; intros H; [congruence|right; split; [discriminate|reflexivity]|left; auto]. Qed.
Lemma slice_some {A} (s : slice A) : elems s <> [] -> s = Some (elems s). Proof. destruct s; [reflexivity|intros H; destruct (H eq_refl)]. Qed.

Lemma write_value v : literal_text_ok v -> exists ts, w_value v ts /\ lexed ts.
Proof.
  intros [H|H]; [exists [Tok UNSIGNED_NUMBER_LITERAL v]|exists [Tok STRING_LITERAL v]]; (split; [unfold w_value; auto|apply lexed_cons; [|lx]]).
  - apply number_tok_good; exact H.
  - apply string_tok_good; exact H.
Qed.
Ltac ins H := repeat (destruct H as [H|H]; [subst|]); [..|destruct H].
Lemma write_attribute a : good_attribute a -> exists ts, w_attribute a ts /\ lexed ts.
Proof.
  destruct a as [ty v]. intros [[H E]|[(n & Et & Ev & Hv)|(n & Et & Ev & Hv)]]; cbn [at_type at_value] in *; subst.
  - cbn in H. destruct H as [<-|[<-|[<-|[]]]]; [exists [fixed PRIMARY_]|exists [fixed NOT_NULL_]|exists [fixed UNIQUE_]]; (split; [constructor|lx]).
  - destruct (write_value n Hv) as (ts & Hw & HL). exists (in_parens DEFAULT_ ts). split; [constructor; exact Hw|unfold in_parens; lx].
  - cbn in Et. destruct Et as [<-|[<-|[<-|[<-|[]]]]]; eexists; (split; [constructor|unfold in_parens; lx]).
Qed.
Lemma write_column c : plain_column c -> exists ts, w_column c ts /\ lexed ts.
Proof.
  destruct c as [n ty s]. intros [(Hn & Ht & Ha) Hs]. cbn [co_name co_type co_attrs] in *.
  destruct (write_series w_attribute (elems s)) as (ts & H1 & H2). { revert Ha. apply Forall_impl. exact write_attribute. }
  assert (exists t, w_type ty t /\ lexed t) as (t & H3 & H4).
  { cbn in Ht. destruct Ht as [<-|[<-|[<-|[]]]]; eexists; (split; [constructor|lx]). }
  eexists. split; [econstructor; [exact H3|exact H1|apply slice_norm; exact Hs]|lx].
Qed.
Lemma write_index i : good_index i -> exists ts, w_index i ts /\ lexed ts.
Proof.
  destruct i as [n cs k]. intros (Hn & Hc & Hne & Hk). cbn [ix_name ix_cols ix_type] in *. rewrite (slice_some cs Hne).
  destruct (write_names _ Hc Hne) as (ts & H1 & H2). assert (exists t, w_ikind k t /\ lexed t) as (t & H3 & H4).
  { cbn in Hk. destruct Hk as [<-|[<-|[<-|[]]]]; eexists; (split; [constructor|lx]). }
  eexists. split; [econstructor; [exact H3|exact H1]|lx].
Qed.
Lemma write_fkaction a : good_fkaction a -> exists ts, w_fkaction a ts /\ lexed ts.
Proof.
  destruct a as [o d]. intros [Ho Hd]. cbn [fk_on fk_do] in *.
  assert (exists t, w_event o t /\ lexed t) as (t & H3 & H4). { cbn in Ho. destruct Ho as [<-|[<-|[]]]; eexists; (split; [constructor|lx]). }
  assert (exists t, w_effect d t /\ lexed t) as (u & H5 & H6). { cbn in Hd. destruct Hd as [<-|[<-|[<-|[<-|[<-|[]]]]]]; eexists; (split; [constructor|lx]). }
  exists (t ++ [] ++ u). split; [constructor; auto|lx].
Qed.
Lemma write_fkey f : plain_fkey f -> exists ts, w_fkey f ts /\ lexed ts.
Proof.
  destruct f as [c p t a]. intros [(Ht & Hc & Hcn & Hp & Hpn & Ha) Hs]. cbn [fk_table fk_child fk_parent fk_acts] in *.
  rewrite (slice_some c Hcn), (slice_some p Hpn). destruct (write_names _ Hc Hcn) as (tc & H1 & H2). destruct (write_names _ Hp Hpn) as (tp & H3 & H4).
  destruct (write_series w_fkaction (elems a)) as (ta & H5 & H6). { revert Ha. apply Forall_impl. exact write_fkaction. }
  eexists. split; [eapply (w_fkey_ FOREIGN_KEY_ REFERENCES_); [auto|auto|exact H1|exact H3|exact H5|apply slice_norm; exact Hs]|unfold in_parens; lx].
Qed.
Lemma write_members is_ fs_ : Forall good_index is_ -> Forall plain_fkey fs_ -> exists ts, w_members is_ fs_ ts /\ lexed ts.
Proof.
  intros Hi Hf. induction Hi as [|i is_ H _ (ts & H1 & H2)].
  - induction Hf as [|f fs_ H _ (ts & H1 & H2)]; [exists []; split; [constructor|lx]|]. destruct (write_fkey f H) as (t & H3 & H4).
    exists (fixed COMMA :: t ++ ts). split; [constructor; assumption|lx].
  - destruct (write_index i H) as (t & H3 & H4). exists (fixed COMMA :: t ++ ts). split; [constructor; assumption|lx].
Qed.
Lemma write_table t : plain_table t -> exists ts, w_table t ts /\ lexed ts.
Proof.
  destruct t as [n c i f]. intros ((Hn & Hc & Hne & Hi & Hf) & Hsi & Hsf & Hpc & Hpf). cbn [tb_name tb_cols tb_idx tb_fks] in *. rewrite (slice_some c Hne).
  destruct (write_listed w_column (elems c)) as (tc & H1 & H2); [revert Hpc; apply Forall_impl; exact write_column|exact Hne|].
  destruct (write_members _ _ Hi Hpf) as (tm & H3 & H4).
  exists ([fixed TABLE_; Tok IDENTIFIER n; fixed L_BRACE] ++ tc ++ tm ++ [] ++ [fixed R_BRACE]).
  split; [econstructor; [exact H1|exact H3|apply slice_norm; exact Hsi|apply slice_norm; exact Hsf|auto]|lx].
Qed.
Lemma write_extension e : plain_extension e -> exists ts, w_extension e ts /\ lexed ts.
Proof.
  destruct e as [n c a]. intros [(Hn & Ha & Hc) Hs]. cbn [ex_name ex_config ex_alias] in *. destruct c as [l|].
  - assert (Hl : l <> []) by (intros ->; apply Hs; reflexivity). cbn [elems] in Hc.
    destruct (write_listed w_config l) as (ts & H1 & H2); [|exact Hl|].
    { revert Hc. apply Forall_impl. intros [x v] [Hx Hv]. cbn [ec_arg ec_val] in *. destruct (write_value v Hv) as (t & Hw & HL). eexists. split; [constructor; exact Hw|lx]. }
    eexists. split; [constructor; exact H1|lx].
  - eexists. split; [constructor|lx].
Qed.
Lemma write_stmt st : statement st -> exists ts, w_stmt st ts /\ lexed ts.
Proof.
  intros [(q & -> & Hq)|(ts & Hd & HL & ->)].
  - eexists. split; [constructor|]. apply lexed_cons; [apply sql_tok_good; exact Hq|lx].
  - exists ts. split; [constructor; exact Hd|exact HL].
Qed.
Lemma write_body l : l <> [] -> Forall statement l -> exists ts, w_body l ts /\ lexed ts.
Proof.
  intros Hn H. destruct (write_series w_stmt l) as (ts & H1 & H2); [revert H; apply Forall_impl; exact write_stmt|]. exists ts. split; [split|]; assumption.
Qed.
Lemma write_params l : Forall good_param l -> exists ts, w_params l ts /\ lexed ts.
Proof.
  intros H. destruct l as [|p l]; [exists []; split; [constructor|lx]|]. destruct (write_listed w_param (p :: l)) as (ts & H1 & H2); [|discriminate|].
  - revert H. apply Forall_impl. intros x Hx. exists [Tok PARAM_OR_VAR x]. split; [reflexivity|lx].
  - exists ts. split; [constructor; exact H1|exact H2].
Qed.
Lemma write_action a : plain_action a -> exists ts, w_action a ts /\ lexed ts.
Proof.
  destruct a as [n an ins pub mu aux st]. intros ((Hn & Hi & Hst & Hm & Hx) & Hsa & Hsi & Ha & Hs). cbn [ac_name ac_annots ac_inputs ac_public ac_mut ac_aux ac_stmts] in *.
  destruct (write_series w_annotation (elems an)) as (tn & H1 & H2). { revert Ha. apply Forall_impl. intros x (ts & h1 & h2 & h3). exists ts. split; [split|]; assumption. }
  destruct (write_params _ Hi) as (ti & H3 & H4). rewrite (slice_some st Hst). destruct (write_body _ Hst Hs) as (tb & H5 & H6).
  set (l := (if pub then [PUBLIC_] else [PRIVATE_]) ++ (if str_eqb mu (lit "view") then [VIEW_] else []) ++ (match aux with Some _ => [OWNER_] | None => [] end)).
  exists (tn ++ [fixed ACTION_; Tok IDENTIFIER n; fixed L_PAREN] ++ ti ++ [fixed R_PAREN] ++ map fixed l ++ [fixed L_BRACE] ++ tb ++ [fixed R_BRACE]).
  cbn in Hm. split.
  - econstructor; [exact H1|apply slice_norm; exact Hsa|exact H3|apply slice_norm; exact Hsi|..|exact H5]; unfold l.
    + destruct Hm as [<-|[<-|[]]]; destruct Hx as [-> | ->]; destruct pub; (split; [repeat constructor; cbn; tauto|unfold once; cbn; lia]).
    + destruct Hm as [<-|[<-|[]]]; destruct Hx as [-> | ->]; destruct pub; cbn; split; intros; try discriminate; try tauto; intuition discriminate.
    + destruct Hm as [<-|[<-|[]]]; destruct Hx as [-> | ->]; destruct pub; cbn; intros; try reflexivity; intuition discriminate.
    + destruct Hm as [<-|[<-|[]]]; destruct Hx as [-> | ->]; destruct pub; cbn; intros; try reflexivity; tauto.
    + destruct Hm as [<-|[<-|[]]]; destruct Hx as [-> | ->]; destruct pub; cbn; intros; try reflexivity; intuition discriminate.
    + destruct Hm as [<-|[<-|[]]]; destruct Hx as [-> | ->]; destruct pub; cbn; intros; try reflexivity; tauto.
  - assert (Hl : lexed (map fixed l)).
    { unfold l. destruct Hm as [<-|[<-|[]]]; destruct Hx as [-> | ->]; destruct pub; cbn; lx. }
    lx.
Qed.
Lemma write_init a : plain_init a -> exists ts, w_init a ts /\ lexed ts.
Proof.
  intros [(body & Hb & ->) Hs]. cbn [ac_stmts elems] in Hs. destruct (write_body _ Hb Hs) as (tb & H5 & H6). eexists. split; [constructor; exact H5|lx].
Qed.
Lemma write_decls ta ac ini : Forall plain_table ta -> Forall plain_action ac -> Forall plain_init ini -> (length ini <= 1)%nat ->
  exists ts, w_decls ta ac ini ts /\ lexed ts.
Proof.
  intros Ht Ha Hi Hl. induction Ht as [|t ta H _ (us & h1 & h2)].
  - induction Ha as [|a ac H _ (us & h1 & h2)].
    + destruct ini as [|i [|]]; cbn in Hl; [exists []; split; [constructor|lx]| |lia]. inversion Hi; subst.
      destruct (write_init i) as (ts & h3 & h4); [assumption|]. exists (ts ++ []). split; [constructor; [exact h3|constructor]|lx].
    + destruct (write_action a H) as (ts & h3 & h4). exists (ts ++ us). split; [constructor; assumption|lx].
  - destruct (write_table t H) as (ts & h3 & h4). exists (ts ++ us). split; [constructor; assumption|lx].
Qed.
Theorem plain_tokens s : plain_schema s -> exists ts, denotes ts s /\ lexed ts.
Proof.
  destruct s as [o n ta ac xs]. intros (Ho & Hn & Hsx & Hx & Hst & Ht & Hsa & a & i & E & Hl & Ha & Hi). cbn [sc_owner sc_name sc_tables sc_actions sc_exts] in *. subst o.
  destruct (write_series w_extension (elems xs)) as (tx & h1 & h2); [revert Hx; apply Forall_impl; exact write_extension|].
  destruct (write_decls _ _ _ Ht Ha Hi Hl) as (td & h3 & h4).
  eexists. split; [econstructor; [exact h1|apply slice_norm; exact Hsx|exact h3|apply slice_norm; exact Hst|rewrite <- E; apply slice_norm; exact Hsa]|lx].
Qed.

(** * Laying the tokens out *)
Lemma denotes_program ts s : denotes ts s -> lexed ts -> program ts.
Proof.
  intros H HL. assert (Hs : shaped ts) by (revert HL; apply Forall_impl; tauto). apply v_unit_denotes in H as (u & E & _ & Hw); [|exact Hs].
  apply p_unit_accepts; [apply shaped_ok; exact Hs|]. exists u. apply p_unit_tree; [apply shaped_ok; exact Hs|auto].
Qed.
Lemma sql_then_semicolon vs x y : program vs -> adjacent vs x y -> ty x = SQL_STMT -> ty y = SCOL.
Proof.
  intros H HA Hx. pose proof (f_prs _ _ (kinds_fit _ _ H) _ _ HA) as P. rewrite Hx in P.
  assert (Q : forallb (fun p => implb (tt_eqb (fst p) SQL_STMT) (tt_eqb (snd p) SCOL)) (i_prs (kinds source_unit)) = true) by (vm_compute; reflexivity).
  rewrite forallb_forall in Q. specialize (Q _ P). cbn [fst snd] in Q. rewrite tt_eqb_refl in Q. apply tt_eqb_eq; exact Q.
Qed.
(** One blank after every token but SQL statements. *)
Definition spread (t : tok) : str := tx t ++ (if tt_eqb (ty t) SQL_STMT then [] else lit " ").
Definition spread_text (vs : list tok) : str := concat (map spread vs).
Theorem spread_layout vs : program vs -> lexed vs -> laid_out vs (spread_text vs).
Proof.
  intros HP HL. pose proof (program_no_sqlk _ HP) as HQ. pose proof (program_visible _ HP) as HV.
  assert (HS : forall x y, adjacent vs x y -> ty x = SQL_STMT -> ty y = SCOL) by (intros x y; apply sql_then_semicolon; exact HP). clear HP.
  induction vs as [|t vs IH]; [constructor|]. inversion HL as [|? ? [Ht Hp] HL']; inversion HQ as [|? ? Hq HQ']; inversion HV as [|? ? Hv HV']; subst.
  assert (R : laid_out vs (spread_text vs)). { apply IH; auto. intros x y (a & b & ->). apply HS. exists (t :: a), b. reflexivity. }
  unfold spread_text in *. cbn [map concat]. unfold spread at 1. destruct (tt_eqb (ty t) SQL_STMT) eqn:E.
  - apply tt_eqb_eq in E. rewrite app_nil_r. apply lo_tok; [exact R|]. intros c r Ec. destruct vs as [|y vs]; [discriminate|].
    assert (Hy : ty y = SCOL) by (eapply HS; [exists [], vs; reflexivity|exact E]). destruct (lexed_head _ _ HL') as [Hsy _]. rewrite Hy in Hsy. cbn in Hsy.
    cbn [map concat] in Ec. unfold spread at 1 in Ec. rewrite Hsy in Ec. cbn in Ec. injection Ec as <- _. rewrite E. reflexivity.
  - rewrite <- app_assoc. apply lo_tok; [apply lo_blank; [reflexivity|exact R]|]. intros c r Ec. cbn in Ec. injection Ec as <- _.
    destruct (ty t); try discriminate; reflexivity.
Qed.
(** Every plain schema can be written. *)
Theorem plain_writes s : plain_schema s -> exists text, writes text s.
Proof.
  intros H. destruct (plain_tokens s H) as (vs & HD & HL). pose proof (denotes_program _ _ HD HL) as HP.
  destruct (proj2 (program_layouts vs (spread_text vs) HP HL) (spread_layout vs HP HL)) as (ts & Ht & E). exists (spread_text vs), ts. rewrite E. auto.
Qed.

(** * Schemas that are written are plain *)
Lemma slice_plain {A} (l : list A) s : slice_of l s -> nil_if_empty s.
Proof. intros [[_ ->]|[Hn ->]]; [discriminate|]. intros E. injection E as ->. congruence. Qed.
Lemma column_plain c ts : w_column c ts -> lexed ts -> plain_column c.
Proof. intros H HL. split; [eapply column_good; eassumption|]. inversion H as [n ty t l s u Ht Hl Hn]; subst. eapply slice_plain; exact Hn. Qed.
Lemma fkey_plain f ts : w_fkey f ts -> lexed ts -> plain_fkey f.
Proof. intros H HL. split; [eapply fkey_good; eassumption|]. inversion H as [k r ch tc t pa tp acts sacts ta Hk Hr Hc Hp Ha Hsl]; subst. eapply slice_plain; exact Hsl. Qed.
Lemma table_plain t ts : w_table t ts -> lexed ts -> plain_table t.
Proof.
  intros H HL. split; [eapply table_good; eassumption|]. inversion H as [n cs tc is_ sis fs sfs tm o Hc Hm Hi Hf Ho]; subst. cbn [tb_idx tb_fks tb_cols elems].
  split; [eapply slice_plain; exact Hi|]. split; [eapply slice_plain; exact Hf|]. destruct (members_part _ _ _ Hm) as [_ M2]. split.
  - apply Forall_forall. intros c Hin. destruct (listed_part _ _ _ c Hc Hin) as (seg & Hp & HD). eapply column_plain; [exact HD|].
    eapply lexed_part; [|exact HL]. apply part_r, part_l; exact Hp.
  - rewrite (slice_elems _ _ Hf). apply Forall_forall. intros f Hin. destruct (M2 f Hin) as (seg & Hp & HD). eapply fkey_plain; [exact HD|].
    eapply lexed_part; [|exact HL]. apply part_r, part_r, part_l; exact Hp.
Qed.
Lemma extension_plain e ts : w_extension e ts -> lexed ts -> plain_extension e.
Proof.
  intros H HL. split; [eapply extension_good; eassumption|]. inversion H as [n a|n l t a Hl]; subst; cbn [ex_config]; [discriminate|].
  intros E. injection E as ->. eapply listed_ne; [exact Hl|reflexivity].
Qed.
Lemma body_plain b ts : w_body b ts -> lexed ts -> Forall statement b.
Proof.
  intros H HL. apply Forall_forall. intros st Hst. destruct (body_part _ _ _ H Hst) as (seg & Hp & Hw). pose proof (lexed_part _ _ Hp HL) as HLs.
  inversion Hw as [q|sg Hd]; subst.
  - left. exists q. split; [reflexivity|]. apply (lexed_head _ _ HLs).
  - right. exists seg. auto.
Qed.
Lemma action_plain a ts : w_action a ts -> lexed ts -> plain_action a.
Proof.
  intros H HL. split; [eapply action_good; eassumption|]. inversion H as [n anns sanns tn ins sins ti l pub mut aux body tb Ha Hsa Hp Hsp Hl Hpub Hm1 Hm2 Hx1 Hx2 Hb]; subst.
  cbn [ac_annots ac_inputs ac_stmts elems]. split; [eapply slice_plain; exact Hsa|]. split; [eapply slice_plain; exact Hsp|]. split.
  - rewrite (slice_elems _ _ Hsa). apply Forall_forall. intros an Hin. destruct (series_part _ _ _ an Ha Hin) as (seg & Hs & [h1 h2]).
    exists seg. split; [exact h1|]. split; [eapply lexed_part; [|exact HL]; apply part_l; exact Hs|exact h2].
  - eapply body_plain; [exact Hb|]. eapply lexed_part; [|exact HL]. part_tac.
Qed.
Lemma init_plain a ts : w_init a ts -> lexed ts -> plain_init a.
Proof.
  intros H HL. split; [eapply init_good; exact H|]. inversion H as [body tb Hb]; subst. cbn [ac_stmts elems]. eapply body_plain; [exact Hb|]. eapply lexed_part; [|exact HL]. part_tac.
Qed.
Theorem denotes_plain ts s : denotes ts s -> lexed ts -> plain_schema s.
Proof.
  intros H HL. pose proof (denotes_parts _ _ H) as (Hn & He & Ht & ac & ini & Ea & Hl & Hac & Hini).
  assert (E : sc_owner s = [] /\ nil_if_empty (sc_exts s) /\ nil_if_empty (sc_tables s) /\ nil_if_empty (sc_actions s)).
  { inversion H as [n xs sxs tx ta sta ac' ini' sac td Hx Hsx Hd Hst Hsa]; subst. cbn [sc_owner sc_exts sc_tables sc_actions]. split; [reflexivity|].
    split; [|split]; eapply slice_plain; eassumption. }
  destruct E as (E1 & E2 & E3 & E4). split; [exact E1|]. split; [eapply id_good; eassumption|]. split; [exact E2|]. split; [|split; [exact E3|split; [|split; [exact E4|]]]].
  - apply Forall_forall. intros e Hin. destruct (He e Hin) as (seg & Hp & HD). eapply extension_plain; [exact HD|]. eapply lexed_part; eassumption.
  - apply Forall_forall. intros t Hin. destruct (Ht t Hin) as (seg & Hp & HD). eapply table_plain; [exact HD|]. eapply lexed_part; eassumption.
  - exists ac, ini. split; [exact Ea|]. split; [exact Hl|]. split; apply Forall_forall; intros a Hin.
    + destruct (Hac a Hin) as (seg & Hp & HD). eapply action_plain; [exact HD|]. eapply lexed_part; eassumption.
    + destruct (Hini a Hin) as (seg & Hp & HD). eapply init_plain; [exact HD|]. eapply lexed_part; eassumption.
Qed.
Theorem writes_plain s : (exists text, writes text s) <-> plain_schema s.
Proof. split; [intros (text & ts & Ht & HD); eapply denotes_plain; [exact HD|eapply lexed_visible; exact Ht]|apply plain_writes]. Qed.

(** * Call statements *)
Definition rep (k : tt) : N :=
  match literal_of k with
  | Some (c :: _) => c
  | _ => match k with IDENTIFIER => 97 | UNSIGNED_NUMBER_LITERAL => 48 | PARAM_OR_VAR => 36 | BLOCK_VAR_OR_ANNOTATION => 64 | STRING_LITERAL => 39 | _ => 0 end
  end.
Lemma ext_letter k c : is_letter c = true -> extends k c = extends k 97.
Proof.
  intros H. assert (W : is_wordch c = true) by (unfold is_wordch; rewrite H; reflexivity).
  assert (D : is_digit c = false) by (unfold is_letter, is_digit in *; bd; lia).
  assert (NE : forall n, is_letter n = false -> (c =? n) = false) by (intros n Hn; apply N.eqb_neq; intros ->; congruence).
  destruct k; cbn [extends]; rewrite ?W, ?H, ?D, ?NE by reflexivity; try reflexivity.
  unfold is_nl. rewrite !NE by reflexivity. reflexivity.
Qed.
Lemma ext_digit k c : is_digit c = true -> extends k c = extends k 48.
Proof.
  intros H. assert (W : is_wordch c = true) by (unfold is_wordch; rewrite H; apply orb_true_iff; left; apply orb_true_r).
  assert (D : is_letter c = false) by (unfold is_letter, is_digit in *; bd; lia).
  assert (NE : forall n, is_digit n = false -> (c =? n) = false) by (intros n Hn; apply N.eqb_neq; intros ->; congruence).
  destruct k; cbn [extends]; rewrite ?W, ?H, ?D, ?NE by reflexivity; try reflexivity.
  unfold is_nl. rewrite !NE by reflexivity. reflexivity.
Qed.
Definition mergesb (a b : tt) : bool :=
  tmem a [NOT_; AND_; OR_] && tmem b [IDENTIFIER; UNSIGNED_NUMBER_LITERAL; NOT_] || tmem a [PARAM_OR_VAR; BLOCK_VAR_OR_ANNOTATION] && tmem b [AND_; OR_].
Lemma mergesb_iff t t' : mergesb (ty t) (ty t') = true <-> merges t t'.
Proof. unfold mergesb, merges. rewrite orb_true_iff, !andb_true_iff, !tmem_in. tauto. Qed.
Lemma call_extends ts t t' c w : derives (R call_stmt) ts -> adjacent ts t t' -> token_shape (ty t') (tx t') -> tx t' = c :: w ->
  (extends (ty t) c = true <-> merges t t').
Proof.
  intros Hd HA Hs E. rewrite <- mergesb_iff. pose proof (f_prs _ _ (kinds_fit _ _ Hd) _ _ HA) as P.
  assert (Q : forallb (fun p => (match snd p with SQL_STMT | WS | TERMINATOR | BLOCK_COMMENT | LINE_COMMENT | INDEX_NAME | SELECT_ | INSERT_ | UPDATE_ | DELETE_ | WITH_ | SQL_KEYWORDS => false | _ => true end)
      && Bool.eqb (extends (fst p) (rep (snd p))) (mergesb (fst p) (snd p))) (i_prs (kinds call_stmt)) = true) by (vm_compute; reflexivity).
  rewrite forallb_forall in Q. specialize (Q _ P). cbn [fst snd] in Q. apply andb_prop in Q as [Q1 Q2]. apply Bool.eqb_prop in Q2. rewrite <- Q2.
  enough (X : extends (ty t) c = extends (ty t) (rep (ty t'))) by (rewrite X; reflexivity).
  destruct t' as [k u]; cbn [ty tx] in *. subst u. destruct k; try discriminate Q1; try (cbn in Hs; injection Hs as -> _; reflexivity).
  - destruct Hs as (a & r & Er & Ha & _). injection Er as <- _. apply ext_letter; exact Ha.
  - destruct Hs as (r & Er & _). injection Er as -> _. reflexivity.
  - destruct Hs as (r & Er & _). injection Er as -> _. reflexivity.
  - destruct Hs as [_ Hs]. inversion Hs; subst. apply ext_digit; assumption.
  - destruct Hs as (r & Er & _). injection Er as -> _. reflexivity.
Qed.
Lemma call_clear ts : derives (R call_stmt) ts -> lexed ts -> clear_tokens ts.
Proof.
  intros Hd HL. split.
  - pose proof (derives_syms (fun k => negb (sqlk k)) eq_refl _ _ Hd eq_refl) as F. revert F. apply Forall_impl. intros t Ht. apply negb_true_iff; exact Ht.
  - intros a t t' b -> Hk w Hw. assert (Hs : token_shape (ty t') (tx t')) by (eapply lexed_in; [|exact HL]; apply in_or_app; right; right; left; reflexivity).
    assert (HA : adjacent (a ++ t :: t' :: b) t t') by (exists a, b; reflexivity). pose proof (f_prs _ _ (kinds_fit _ _ Hd) _ _ HA) as P.
    rewrite Hk, (star_only _ _ Hs Hw) in P. apply pmem_in in P. vm_compute in P. discriminate.
Qed.
(** The characters of a call read back as the same tokens iff no two neighbours merge. *)
Theorem call_text ts : derives (R call_stmt) ts -> lexed ts ->
  (tokens_of (chars ts) ts <-> forall t t', neighbours ts t t' -> ~ merges t t').
Proof.
  intros Hd HL. split.
  - intros Ht t t' HA Hm. pose proof (tokens_apart _ _ Ht (call_clear _ Hd HL)) as HAp. destruct HA as (a & b & E).
    assert (Hs : token_shape (ty t') (tx t')) by (eapply lexed_in; [|exact HL]; rewrite E; apply in_or_app; right; right; left; reflexivity).
    destruct (tx t') as [|c w] eqn:Et; [destruct (shape_nonempty _ _ Hs eq_refl)|]. rewrite E in HAp. apply apart_app in HAp as [_ HAp].
    assert (Hx : extends (ty t) c = false) by (eapply apart_next; [exact HAp|cbn; rewrite Et; reflexivity]).
    assert (Hy : extends (ty t) c = true) by (eapply (call_extends ts t t' c w); [exact Hd|exists a, b; exact E|rewrite Et; exact Hs|exact Et|exact Hm]). congruence.
  - intros HN. apply apart_tokens; [exact HL|].
    assert (HX : forall t t' c w, adjacent ts t t' -> tx t' = c :: w -> extends (ty t) c = false).
    { intros t t' c w HA Et. destruct (extends (ty t) c) eqn:Ex; [exfalso|reflexivity]. apply (HN t t' HA).
      eapply (call_extends ts t t' c w); [exact Hd|exact HA| |exact Et|exact Ex]. destruct HA as (a & b & ->).
      eapply lexed_in; [|exact HL]; apply in_or_app; right; right; left; reflexivity. }
    clear Hd HN. induction ts as [|t ts IH]; [constructor|]. inversion HL as [|? ? _ HL']; subst. destruct ts as [|t' ts]; [constructor|].
    destruct (lexed_head _ _ HL') as [Hs' _]. destruct (tx t') as [|c w] eqn:Et; [destruct (shape_nonempty _ _ Hs' eq_refl)|].
    eapply ap_more; [exact Et|eapply HX; [exists [], ts; reflexivity|exact Et]|]. apply IH; [exact HL'|].
    intros x y c1 w1 (a & b & E) Ey. eapply HX; [|exact Ey]. exists (t :: a), b. rewrite E. reflexivity.
Qed.

(** * SQL statements *)
Theorem sql_to_terminator k c body rest : sqlkw k -> is_wsnl c = true -> body <> [] -> Forall (fun x => x <> 59 /\ x <> 125) body ->
  (rest = [] \/ exists r, rest = 59 :: r \/ rest = 125 :: r) ->
  first_token (k ++ c :: body ++ rest) (Tok SQL_STMT (k ++ c :: body)) rest.
Proof.
  intros Hk Hc Hb HF Hr. destruct body as [|d body]; [congruence|].
  assert (Hs : token_shape SQL_STMT (k ++ c :: d :: body)) by (exists k, c, d, body; auto).
  destruct (sql_tok_good _ Hs) as [_ Hp]. replace (k ++ c :: (d :: body) ++ rest) with (tx (Tok SQL_STMT (k ++ c :: d :: body)) ++ rest)
    by (cbn [tx]; rewrite <- app_assoc; reflexivity).
  destruct Hr as [->|(r & [-> | ->])].
  - rewrite app_nil_r. apply last_head; assumption.
  - eapply apart_head; [exact Hs|exact Hp| |reflexivity]. reflexivity.
  - eapply apart_head; [exact Hs|exact Hp| |reflexivity]. reflexivity.
Qed.
