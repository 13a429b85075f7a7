(** Parts of a program are written by consecutive tokens of it; what that gives for names and values. *)
From Verif Require Import LexSpec LexShape LexerProof Grammar Schema Denote DenoteProof NameSpec.

Definition part (seg ts : list tok) : Prop := exists a b, ts = a ++ seg ++ b.
Lemma part_refl ts : part ts ts. Proof. exists [], []. rewrite app_nil_r. reflexivity. Qed.
Lemma part_trans a b c : part a b -> part b c -> part a c.
Proof. intros (x & y & ->) (u & v & ->). exists (u ++ x), (y ++ v). rewrite !app_assoc. reflexivity. Qed.
Lemma part_l seg a b : part seg a -> part seg (a ++ b).
Proof. intros (x & y & ->). exists x, (y ++ b). rewrite !app_assoc. reflexivity. Qed.
Lemma part_r seg a b : part seg b -> part seg (a ++ b).
Proof. intros (x & y & ->). exists (a ++ x), y. rewrite !app_assoc. reflexivity. Qed.
Lemma part_c seg x b : part seg b -> part seg (x :: b).
Proof. apply (part_r seg [x] b). Qed.
Lemma part_in t ts : part [t] ts <-> In t ts.
Proof.
  split; [intros (a & b & ->); apply in_or_app; right; left; reflexivity|]. intros H. apply in_split in H as (a & b & ->). exists a, b. reflexivity.
Qed.
Lemma in_part t seg ts : In t seg -> part seg ts -> In t ts.
Proof. intros H (a & b & ->). apply in_or_app; right; apply in_or_app; left; exact H. Qed.

Ltac part_tac := match goal with
  | |- part ?s ?s => apply part_refl
  | |- part ?s (?a ++ ?b) => first [apply part_l; solve [part_tac] | apply part_r; solve [part_tac]]
  | |- part ?s (_ :: _) => apply part_c; part_tac
  end.

Lemma series_part {A} (D : A -> list tok -> Prop) l ts a : series D l ts -> In a l -> exists seg, part seg ts /\ D a seg.
Proof.
  induction 1 as [|b ts l us Hb H IH]; intros Ha; [destruct Ha|]. destruct Ha as [<-|Ha].
  - exists ts. split; [part_tac|exact Hb].
  - destruct (IH Ha) as (seg & Hp & HD). exists seg. split; [apply part_r; exact Hp|exact HD].
Qed.
Lemma listed_part {A} (D : A -> list tok -> Prop) l ts a : listed D l ts -> In a l -> exists seg, part seg ts /\ D a seg.
Proof.
  induction 1 as [b ts Hb|b ts l us Hb H IH]; intros Ha.
  - destruct Ha as [<-|[]]. exists ts. split; [part_tac|exact Hb].
  - destruct Ha as [<-|Ha]; [exists ts; split; [part_tac|exact Hb]|].
    destruct (IH Ha) as (seg & Hp & HD). exists seg. split; [apply part_r, part_c; exact Hp|exact HD].
Qed.
Lemma listed_ne {A} (D : A -> list tok -> Prop) l ts : listed D l ts -> l <> []. Proof. intros []; discriminate. Qed.
Lemma slice_elems {A} (l : list A) s : slice_of l s -> elems s = l.
Proof. intros [[-> ->]|[_ ->]]; reflexivity. Qed.
Lemma members_part is_ fs_ ts : w_members is_ fs_ ts ->
  (forall i, In i is_ -> exists seg, part seg ts /\ w_index i seg) /\ (forall f, In f fs_ -> exists seg, part seg ts /\ w_fkey f seg).
Proof.
  induction 1 as [|i t is_ fs_ u Hi H [IH1 IH2]|f t is_ fs_ u Hf H [IH1 IH2]].
  - split; intros ? [].
  - split; [intros j [<-|Hj]; [exists t; split; [part_tac|exact Hi]|]|intros j Hj].
    + destruct (IH1 j Hj) as (seg & Hp & HD). exists seg. split; [apply part_c, part_r; exact Hp|exact HD].
    + destruct (IH2 j Hj) as (seg & Hp & HD). exists seg. split; [apply part_c, part_r; exact Hp|exact HD].
  - split; [intros j Hj|intros j [<-|Hj]; [exists t; split; [part_tac|exact Hf]|]].
    + destruct (IH1 j Hj) as (seg & Hp & HD). exists seg. split; [apply part_c, part_r; exact Hp|exact HD].
    + destruct (IH2 j Hj) as (seg & Hp & HD). exists seg. split; [apply part_c, part_r; exact Hp|exact HD].
Qed.
Lemma decls_part ta ac ini ts : w_decls ta ac ini ts ->
  (forall t, In t ta -> exists seg, part seg ts /\ w_table t seg) /\ (forall a, In a ac -> exists seg, part seg ts /\ w_action a seg) /\
  (forall a, In a ini -> exists seg, part seg ts /\ w_init a seg).
Proof.
  induction 1 as [|t ts ta ac ini us Ht H (IH1 & IH2 & IH3)|a ts ta ac ini us Ha H (IH1 & IH2 & IH3)|i ts ta ac us Hi H (IH1 & IH2 & IH3)].
  - split; [|split]; intros ? [].
  - split; [|split]; intros j Hj; [destruct Hj as [<-|Hj]; [exists ts; split; [part_tac|exact Ht]|]|..].
    + destruct (IH1 j Hj) as (seg & Hp & HD). exists seg. split; [apply part_r; exact Hp|exact HD].
    + destruct (IH2 j Hj) as (seg & Hp & HD). exists seg. split; [apply part_r; exact Hp|exact HD].
    + destruct (IH3 j Hj) as (seg & Hp & HD). exists seg. split; [apply part_r; exact Hp|exact HD].
  - split; [|split]; intros j Hj; [|destruct Hj as [<-|Hj]; [exists ts; split; [part_tac|exact Ha]|]|].
    + destruct (IH1 j Hj) as (seg & Hp & HD). exists seg. split; [apply part_r; exact Hp|exact HD].
    + destruct (IH2 j Hj) as (seg & Hp & HD). exists seg. split; [apply part_r; exact Hp|exact HD].
    + destruct (IH3 j Hj) as (seg & Hp & HD). exists seg. split; [apply part_r; exact Hp|exact HD].
  - split; [|split]; intros j Hj; [| |destruct Hj as [<-|[]]; exists ts; split; [part_tac|exact Hi]].
    + destruct (IH1 j Hj) as (seg & Hp & HD). exists seg. split; [apply part_r; exact Hp|exact HD].
    + destruct (IH2 j Hj) as (seg & Hp & HD). exists seg. split; [apply part_r; exact Hp|exact HD].
Qed.

(** Every declaration of a schema is a part of the program that writes it. *)
Theorem denotes_parts ts s : denotes ts s ->
  In (Tok IDENTIFIER (sc_name s)) ts /\
  (forall e, In e (elems (sc_exts s)) -> exists seg, part seg ts /\ w_extension e seg) /\
  (forall t, In t (elems (sc_tables s)) -> exists seg, part seg ts /\ w_table t seg) /\
  (exists ac ini, elems (sc_actions s) = ac ++ ini /\ (length ini <= 1)%nat /\
     (forall a, In a ac -> exists seg, part seg ts /\ w_action a seg) /\
     (forall a, In a ini -> exists seg, part seg ts /\ w_init a seg)).
Proof.
  intros H. inversion H as [n xs sxs tx ta sta ac ini sac td Hx Hsx Hd Hst Hsa]; subst. cbn [sc_name sc_exts sc_tables sc_actions].
  rewrite (slice_elems _ _ Hsx), (slice_elems _ _ Hst), (slice_elems _ _ Hsa).
  destruct (decls_part _ _ _ _ Hd) as (P1 & P2 & P3). split; [right; left; reflexivity|]. split; [|split].
  - intros e He. destruct (series_part _ _ _ e Hx He) as (seg & Hp & HD). exists seg. split; [apply part_r, part_l; exact Hp|exact HD].
  - intros t Ht. destruct (P1 t Ht) as (seg & Hp & HD). exists seg. split; [apply part_r, part_r; exact Hp|exact HD].
  - exists ac, ini. split; [reflexivity|]. split; [|split].
    + clear -Hd. remember ini as i0. revert Heqi0. induction Hd; intros; cbn; try lia; auto.
    + intros a Ha. destruct (P2 a Ha) as (seg & Hp & HD). exists seg. split; [apply part_r, part_r; exact Hp|exact HD].
    + intros a Ha. destruct (P3 a Ha) as (seg & Hp & HD). exists seg. split; [apply part_r, part_r; exact Hp|exact HD].
Qed.

(** * Names and values *)
Lemma lexed_part seg ts : part seg ts -> lexed ts -> lexed seg.
Proof. intros (a & b & ->) H. unfold lexed in *. rewrite !Forall_app in H. tauto. Qed.
Lemma lexed_in t ts : In t ts -> lexed ts -> token_shape (ty t) (tx t) /\ prio t.
Proof. intros H HL. unfold lexed in HL. rewrite Forall_forall in HL. apply HL; exact H. Qed.
Lemma lexed_head t ts : lexed (t :: ts) -> token_shape (ty t) (tx t) /\ prio t.
Proof. intros H. inversion H; assumption. Qed.
Lemma lexed_visible text ts : tokens_of text ts -> lexed (drop_layout ts).
Proof.
  intros H. unfold lexed, drop_layout. apply Forall_forall. intros t Ht. apply filter_In in Ht as [Ht _].
  pose proof (tokens_of_shape _ _ H) as HS. pose proof (tokens_of_prio _ _ H) as HP. rewrite Forall_forall in HS, HP. split; [apply HS; exact Ht|exact (HP t Ht)].
Qed.

Lemma reserved_shape n : In n reserved -> exists k, token_shape k n /\ (tt_num k < tt_num IDENTIFIER)%nat.
Proof.
  intros H. cbn in H.
  repeat (destruct H as [<-|H]; [first
    [ exists DATABASE_; split; [reflexivity|cbn; lia] | exists USE_; split; [reflexivity|cbn; lia] | exists AS_; split; [reflexivity|cbn; lia]
    | exists TABLE_; split; [reflexivity|cbn; lia] | exists ACTION_; split; [reflexivity|cbn; lia] | exists INIT_; split; [reflexivity|cbn; lia]
    | exists PUBLIC_; split; [reflexivity|cbn; lia] | exists PRIVATE_; split; [reflexivity|cbn; lia] | exists VIEW_; split; [reflexivity|cbn; lia]
    | exists OWNER_; split; [reflexivity|cbn; lia] | exists INT_; split; [reflexivity|cbn; lia] | exists TEXT_; split; [reflexivity|cbn; lia]
    | exists BLOB_; split; [reflexivity|cbn; lia] | exists MIN_; split; [reflexivity|cbn; lia] | exists MAX_; split; [reflexivity|cbn; lia]
    | exists MIN_LEN_; split; [reflexivity|cbn; lia] | exists MAX_LEN_; split; [reflexivity|cbn; lia] | exists NOT_NULL_; split; [reflexivity|cbn; lia]
    | exists PRIMARY_; split; [reflexivity|cbn; lia] | exists DEFAULT_; split; [reflexivity|cbn; lia] | exists UNIQUE_; split; [reflexivity|cbn; lia]
    | exists INDEX_; split; [reflexivity|cbn; lia] | exists FOREIGN_KEY_; split; [reflexivity|cbn; lia] | exists FOREIGN_KEY_ABBR_; split; [reflexivity|cbn; lia]
    | exists REFERENCES_; split; [reflexivity|cbn; lia] | exists REFERENCES_ABBR_; split; [reflexivity|cbn; lia] | exists ACTION_ON_UPDATE_; split; [reflexivity|cbn; lia]
    | exists ACTION_ON_DELETE_; split; [reflexivity|cbn; lia] | exists ACTION_DO_; split; [reflexivity|cbn; lia] | exists ACTION_DO_NO_ACTION_; split; [reflexivity|cbn; lia]
    | exists ACTION_DO_CASCADE_; split; [reflexivity|cbn; lia] | exists ACTION_DO_SET_NULL_; split; [reflexivity|cbn; lia] | exists ACTION_DO_SET_DEFAULT_; split; [reflexivity|cbn; lia]
    | exists ACTION_DO_RESTRICT_; split; [reflexivity|cbn; lia] | exists NOT_; split; [reflexivity|cbn; lia] | exists AND_; split; [reflexivity|cbn; lia]
    | exists OR_; split; [reflexivity|cbn; lia] ]|]).
  destruct H.
Qed.
Lemma sqlkw_shape n : sqlkw n -> exists k, token_shape k n /\ (tt_num k < tt_num IDENTIFIER)%nat.
Proof.
  intros H. cbn in H. destruct H as [H|[H|[H|[H|[H|[]]]]]]; symmetry in H;
    [exists SELECT_|exists INSERT_|exists UPDATE_|exists DELETE_|exists WITH_]; (split; [exact H|cbn; lia]).
Qed.
Lemma id_good ts n : lexed ts -> In (Tok IDENTIFIER n) ts -> good_name n.
Proof.
  intros HL Hin. destruct (lexed_in _ _ Hin HL) as [Hs Hp]. split; [exact Hs|]. unfold prio in Hp. cbn [ty tx] in Hp. split; intros H.
  - apply reserved_shape in H as (k & Hk & Hlt). specialize (Hp k Hk). lia.
  - apply sqlkw_shape in H as (k & Hk & Hlt). specialize (Hp k Hk). lia.
Qed.
Lemma names_good l ts : listed w_name l ts -> lexed ts -> Forall good_name l /\ l <> [].
Proof.
  intros H HL. split; [|eapply listed_ne; exact H]. apply Forall_forall. intros n Hn. destruct (listed_part _ _ _ n H Hn) as (seg & Hp & ->).
  apply part_in in Hp. eapply id_good; eassumption.
Qed.
Lemma value_good v ts : w_value v ts -> lexed ts -> literal_text_ok v.
Proof.
  intros [->| ->] HL; destruct (lexed_head _ _ HL) as [Hs _]; [left; exact Hs|right; exact Hs].
Qed.
Lemma number_good v ts : In (Tok UNSIGNED_NUMBER_LITERAL v) ts -> lexed ts -> digits_only v.
Proof. intros H HL. destruct (lexed_in _ _ H HL) as [Hs _]. exact Hs. Qed.

Lemma attribute_good a ts : w_attribute a ts -> lexed ts -> good_attribute a.
Proof.
  intros H HL. unfold good_attribute. inversion H as [| | |v t Hv|n|n|n|n]; subst; cbn [at_type at_value].
  - left. split; [left; reflexivity|reflexivity].
  - left. split; [right; left; reflexivity|reflexivity].
  - left. split; [right; right; left; reflexivity|reflexivity].
  - right. left. exists v. split; [reflexivity|]. split; [reflexivity|]. eapply value_good; [exact Hv|]. eapply lexed_part; [|exact HL].
    unfold in_parens. part_tac.
  - right. right. exists n. split; [cbn; tauto|]. split; [reflexivity|]. eapply number_good; [|exact HL]. cbn; tauto.
  - right. right. exists n. split; [cbn; tauto|]. split; [reflexivity|]. eapply number_good; [|exact HL]. cbn; tauto.
  - right. right. exists n. split; [cbn; tauto|]. split; [reflexivity|]. eapply number_good; [|exact HL]. cbn; tauto.
  - right. right. exists n. split; [cbn; tauto|]. split; [reflexivity|]. eapply number_good; [|exact HL]. cbn; tauto.
Qed.
Lemma column_good c ts : w_column c ts -> lexed ts -> good_column c.
Proof.
  intros H HL. inversion H as [n ty t l s u Ht Hl Hn]; subst. unfold good_column. cbn [co_name co_type co_attrs]. split; [|split].
  - eapply id_good; [exact HL|]. left; reflexivity.
  - inversion Ht; cbn; tauto.
  - rewrite (slice_elems _ _ Hn). apply Forall_forall. intros a Ha. destruct (series_part _ _ _ a Hl Ha) as (seg & Hp & HD).
    eapply attribute_good; [exact HD|]. eapply lexed_part; [|exact HL]. apply part_r, part_r; exact Hp.
Qed.
Lemma index_good i ts : w_index i ts -> lexed ts -> good_index i.
Proof.
  intros H HL. inversion H as [n k t l u Hk Hl]; subst. unfold good_index. cbn [ix_name ix_cols ix_type elems].
  assert (HN : Forall good_name l /\ l <> []) by (eapply names_good; [exact Hl|]; eapply lexed_part; [|exact HL]; part_tac).
  split; [|split; [apply HN|split; [apply HN|]]].
  - destruct (lexed_head _ _ HL) as [Hs _]. destruct Hs as (w & E & Hw). cbn in E. injection E as <-. exact Hw.
  - inversion Hk; cbn; tauto.
Qed.
Lemma fkaction_good a ts : w_fkaction a ts -> good_fkaction a.
Proof.
  intros H. inversion H as [on_ do_ t o u Ho Hd Hu]; subst. unfold good_fkaction. cbn [fk_on fk_do]. split; [inversion Ho|inversion Hu]; cbn; tauto.
Qed.
Lemma fkey_good f ts : w_fkey f ts -> lexed ts -> good_fkey f.
Proof.
  intros H HL. inversion H as [k r ch tc t pa tp acts sacts ta Hk Hr Hc Hp Ha Hsl]; subst. unfold good_fkey. cbn [fk_table fk_child fk_parent fk_acts elems].
  assert (HC : Forall good_name ch /\ ch <> []) by (eapply names_good; [exact Hc|]; eapply lexed_part; [|exact HL]; unfold in_parens; part_tac).
  assert (HP : Forall good_name pa /\ pa <> []) by (eapply names_good; [exact Hp|]; eapply lexed_part; [|exact HL]; part_tac).
  split; [eapply id_good; [exact HL|]; apply in_or_app; right; right; left; reflexivity|].
  split; [apply HC|]. split; [apply HC|]. split; [apply HP|]. split; [apply HP|].
  rewrite (slice_elems _ _ Hsl). apply Forall_forall. intros a Hin. destruct (series_part _ _ _ a Ha Hin) as (seg & _ & HD). eapply fkaction_good; exact HD.
Qed.
Lemma table_good t ts : w_table t ts -> lexed ts -> good_table t.
Proof.
  intros H HL. inversion H as [n cs tc is_ sis fs sfs tm o Hc Hm Hi Hf Ho]; subst. unfold good_table. cbn [tb_name tb_cols tb_idx tb_fks elems].
  destruct (members_part _ _ _ Hm) as [M1 M2].
  split; [eapply id_good; [exact HL|]; right; left; reflexivity|]. split; [|split; [eapply listed_ne; exact Hc|split]].
  - apply Forall_forall. intros c Hin. destruct (listed_part _ _ _ c Hc Hin) as (seg & Hp & HD). eapply column_good; [exact HD|].
    eapply lexed_part; [|exact HL]. apply part_r, part_l; exact Hp.
  - rewrite (slice_elems _ _ Hi). apply Forall_forall. intros i Hin. destruct (M1 i Hin) as (seg & Hp & HD). eapply index_good; [exact HD|].
    eapply lexed_part; [|exact HL]. apply part_r, part_r, part_l; exact Hp.
  - rewrite (slice_elems _ _ Hf). apply Forall_forall. intros f Hin. destruct (M2 f Hin) as (seg & Hp & HD). eapply fkey_good; [exact HD|].
    eapply lexed_part; [|exact HL]. apply part_r, part_r, part_l; exact Hp.
Qed.
Lemma extension_good e ts : w_extension e ts -> lexed ts -> good_extension e.
Proof.
  intros H HL. inversion H as [n a|n l t a Hl]; subst; unfold good_extension; cbn [ex_name ex_alias ex_config elems].
  - split; [eapply id_good; [exact HL|]; cbn; tauto|]. split; [eapply id_good; [exact HL|]; cbn; tauto|constructor].
  - split; [eapply id_good; [exact HL|]; cbn; tauto|]. split; [eapply id_good; [exact HL|]; apply in_or_app; right; apply in_or_app; right; cbn; tauto|].
    apply Forall_forall. intros c Hc. destruct (listed_part _ _ _ c Hl Hc) as (seg & Hp & HD).
    assert (HS : lexed seg) by (eapply lexed_part; [|exact HL]; apply part_r, part_l; exact Hp).
    inversion HD as [cn v ct Hv]; subst. cbn [ec_arg ec_val]. split; [eapply id_good; [exact HS|]; left; reflexivity|].
    eapply value_good; [exact Hv|]. eapply lexed_part; [|exact HS]. part_tac.
Qed.
Lemma params_part l ts p : w_params l ts -> In p l -> In (Tok PARAM_OR_VAR p) ts.
Proof.
  intros H Hp. inversion H as [|l' ts' Hl|l' ts' Hl]; subst; [destruct Hp| |]; destruct (listed_part _ _ _ p Hl Hp) as (seg & Hs & ->); apply part_in in Hs.
  - exact Hs.
  - right; exact Hs.
Qed.
Lemma action_good a ts : w_action a ts -> lexed ts -> good_action a.
Proof.
  intros H HL. inversion H as [n anns sanns tn ins sins ti l pub mut aux body tb Ha Hsa Hp Hsp Hl Hpub Hm1 Hm2 Hx1 Hx2 Hb]; subst.
  unfold good_action. cbn [ac_name ac_inputs ac_stmts ac_mut ac_aux elems].
  split; [eapply id_good; [exact HL|]; apply in_or_app; right; right; left; reflexivity|]. split; [|split; [apply Hb|split]].
  - rewrite (slice_elems _ _ Hsp). apply Forall_forall. intros p Hin. pose proof (params_part _ _ p Hp Hin) as HT.
    assert (HT' : In (Tok PARAM_OR_VAR p) (tn ++ [fixed ACTION_; Tok IDENTIFIER n; fixed L_PAREN] ++ ti ++ [fixed R_PAREN] ++ map fixed l ++
       [fixed L_BRACE] ++ tb ++ [fixed R_BRACE])) by (eapply in_part; [exact HT|]; part_tac).
    destruct (lexed_in _ _ HT' HL) as [Hs _]. exact Hs.
  - destruct (in_dec tt_eq_dec VIEW_ l) as [Hv|Hv]; [rewrite (Hm1 Hv)|rewrite (Hm2 Hv)]; cbn; tauto.
  - destruct (in_dec tt_eq_dec OWNER_ l) as [Hv|Hv]; [right; apply Hx1; exact Hv|left; apply Hx2; exact Hv].
Qed.
Lemma init_good a ts : w_init a ts -> init_block a.
Proof. intros H. inversion H as [body tb Hb]; subst. exists body. split; [apply Hb|reflexivity]. Qed.

(** All names and values of a schema written by a lexed program. *)
Theorem denotes_good ts s : denotes ts s -> lexed ts ->
  good_name (sc_name s) /\ Forall good_extension (elems (sc_exts s)) /\ Forall good_table (elems (sc_tables s)) /\
  (exists ac ini, elems (sc_actions s) = ac ++ ini /\ (length ini <= 1)%nat /\ Forall good_action ac /\ Forall init_block ini).
Proof.
  intros H HL. destruct (denotes_parts _ _ H) as (Hn & He & Ht & ac & ini & Ea & Hl & Hac & Hini). split; [eapply id_good; eassumption|]. split; [|split].
  - apply Forall_forall. intros e Hin. destruct (He e Hin) as (seg & Hp & HD). eapply extension_good; [exact HD|]. eapply lexed_part; eassumption.
  - apply Forall_forall. intros t Hin. destruct (Ht t Hin) as (seg & Hp & HD). eapply table_good; [exact HD|]. eapply lexed_part; eassumption.
  - exists ac, ini. split; [exact Ea|]. split; [exact Hl|]. split; apply Forall_forall; intros a Hin.
    + destruct (Hac a Hin) as (seg & Hp & HD). eapply action_good; [exact HD|]. eapply lexed_part; eassumption.
    + destruct (Hini a Hin) as (seg & Hp & HD). eapply init_good; exact HD.
Qed.
