(** The parser reads back every tree from its tokens. *)
From Verif Require Import Cst Parser ExprProof ParserProof.

Local Arguments kw : simpl never.
Local Arguments commas : simpl never.
Local Arguments many : simpl never.
Local Arguments opt : simpl never.
Local Arguments expect : simpl never.
Local Arguments p_many : simpl never.
Local Arguments p_maybe : simpl never.
Local Arguments p_paren : simpl never.
Local Arguments p_opt : simpl never.
Local Arguments p_either : simpl never.
Local Arguments length : simpl never.
Local Arguments la : simpl never.
Local Arguments la2 : simpl never.

Ltac norm := repeat (rewrite <- app_assoc; cbn [app]); cbn [app].
Ltac lac := unfold la, la2, nobin; cbn; auto.

Lemma c_expect t (y : str -> list tok) : (forall s, y s = [Tok t s]) -> complete (expect t) y all all.
Proof. intros Hy a r _ _. rewrite Hy. apply expect_c. Qed.
Lemma c_id : complete p_id y_id all all. Proof. apply c_expect; reflexivity. Qed.
Lemma c_param : complete p_param y_param all all. Proof. apply c_expect; reflexivity. Qed.
Lemma c_number : complete p_number y_number all all. Proof. apply c_expect; reflexivity. Qed.
Lemma c_id' s r : p_id (Tok IDENTIFIER s :: r) = Some (s, r). Proof. apply expect_c. Qed.
Lemma c_param' s r : p_param (Tok PARAM_OR_VAR s :: r) = Some (s, r). Proof. apply expect_c. Qed.
Lemma c_literal : complete p_literal y_literal all all. Proof. intros [s|s] r _ _; reflexivity. Qed.
Lemma c_coltype : complete p_coltype y_coltype all all. Proof. intros [] r _ _; reflexivity. Qed.
Lemma c_ikind : complete p_ikind (fun k => [kw match k with IPrimary => PRIMARY_ | IUnique => UNIQUE_ | IIndex => INDEX_ end]) all all.
Proof. intros [] r _ _; reflexivity. Qed.
Lemma c_fkon : complete p_fkon (fun k => [kw match k with OnUpdate => ACTION_ON_UPDATE_ | OnDelete => ACTION_ON_DELETE_ end]) all all.
Proof. intros [] r _ _; reflexivity. Qed.
Lemma c_fkdo : complete p_fkdo (fun k => [kw match k with DoNoAction => ACTION_DO_NO_ACTION_ | DoCascade => ACTION_DO_CASCADE_
         | DoSetNull => ACTION_DO_SET_NULL_ | DoSetDefault => ACTION_DO_SET_DEFAULT_ | DoRestrict => ACTION_DO_RESTRICT_ end]) all all.
Proof. intros [] r _ _; reflexivity. Qed.
Lemma c_aattr : complete p_aattr y_aattr all all. Proof. intros [] r _ _; reflexivity. Qed.
Lemma c_popt t (b : bool) r : la [t] r = false -> p_opt t ((if b then [kw t] else []) ++ r) = (b, r).
Proof.
  intros H. destruct b; cbn; unfold p_opt; [cbn; rewrite tt_eqb_refl; reflexivity|].
  destruct r as [|x r]; [reflexivity|]. unfold la, tmem in H. cbn in H. rewrite orb_false_r in H. rewrite H. reflexivity.
Qed.

Lemma all_forall {A} (l : list A) : Forall all l. Proof. apply Forall_forall. intros; exact I. Qed.
#[local] Hint Resolve all_forall : core.

Definition nocomma r := la [COMMA] r = false.

(** Comma lists read with one token of look-ahead. *)
Lemma c_commas {A} (p : list tok -> option (A * list tok)) y wf fol l r :
  complete p y wf fol -> (forall r, fol (kw COMMA :: r)) -> Forall wf l -> fol r -> la [COMMA] r = false ->
  p_many (la [COMMA]) (p_comma p) (length (commas y l ++ r)) (commas y l ++ r) = Some (l, r).
Proof. intros. eapply p_commas_c; eauto. Qed.

Lemma c_ids : complete p_ids (fun p => y_id (fst p) ++ commas y_id (snd p)) all nocomma.
Proof.
  intros [a l] r _ Hr. unfold p_ids. cbn [fst snd]. norm. rewrite c_id by exact I. 
  rewrite (c_commas p_id y_id all all); auto using c_id; try exact I. intros; exact I.
Qed.

Lemma c_paren {A} (p : list tok -> option (A * list tok)) y wf (fol : list tok -> Prop) a r : complete p y wf fol ->
  (forall r, fol (kw R_PAREN :: r)) -> wf a -> p_paren p (kw L_PAREN :: y a ++ kw R_PAREN :: r) = Some (a, r).
Proof.
  intros Hp Hf Ha. pose proof (p_paren_complete p y wf fol Hp Hf a r Ha I) as H. cbn [app] in H. rewrite <- app_assoc in H. exact H.
Qed.

Lemma c_constr : complete p_constr y_constr all all.
Proof.
  intros c r _ _. destruct c as [| | |l|n|n|n|n]; try reflexivity; cbn [y_constr app]; norm; unfold p_constr, p_map; cbn.
  all: first [rewrite (c_paren p_literal y_literal all all); auto using c_literal; intros; exact I
             | rewrite (c_paren p_number y_number all all); auto using c_number; intros; exact I].
Qed.

Definition nocon r := la constr_first r = false.
Lemma c_column : complete p_column y_column all nocon.
Proof.
  intros [n t l] r _ Hr. unfold p_column, y_column. cbn [cc_name cc_type cc_constrs]. norm. rewrite c_id by exact I.
  rewrite c_coltype by exact I. rewrite (p_many_c (la constr_first) p_constr y_constr all all); auto using c_constr; try (intros; exact I).
  - intros [] r' _; reflexivity.
  - intros [] _; discriminate.
Qed.

Lemma c_index : complete p_index y_index all all.
Proof.
  intros [n k a l] r _ _. unfold p_index, y_index. cbn [ci_name ci_kind ci_first ci_rest]. norm. rewrite expect_c.
  rewrite (c_ikind k _ I I : p_ikind (kw _ :: _) = _).
  pose proof (c_paren p_ids _ all nocomma (a, l) r c_ids (fun _ => eq_refl) I) as H. cbn [fst snd] in H. rewrite <- app_assoc in H.
  rewrite H. reflexivity.
Qed.

Lemma c_fkact : complete p_fkact y_fkact all all.
Proof.
  intros [o w d] r _ _. unfold p_fkact, y_fkact. cbn [fa_on fa_word fa_do]. norm.
  rewrite (c_fkon o _ I I : p_fkon (kw _ :: _) = _). rewrite c_popt by (destruct d; reflexivity).
  rewrite (c_fkdo d _ I I : p_fkdo (kw _ :: _) = _). reflexivity.
Qed.

Definition noon r := la [ACTION_ON_UPDATE_; ACTION_ON_DELETE_] r = false.
Lemma c_fk : complete p_fk y_fk all noon.
Proof.
  intros [b c cs rb t p ps l] r _ Hr. unfold p_fk, y_fk.
  cbn [cf_abbr cf_child cf_childs cf_rabbr cf_table cf_parent cf_parents cf_acts]. norm.
  replace (p_either FOREIGN_KEY_ FOREIGN_KEY_ABBR_ _) with (Some (b, kw L_PAREN
     :: y_id c ++ commas y_id cs ++ kw R_PAREN :: kw (if rb then REFERENCES_ABBR_ else REFERENCES_)
     :: y_id t ++ kw L_PAREN :: y_id p ++ commas y_id ps ++ kw R_PAREN :: many y_fkact l ++ r)) by (destruct b; reflexivity).
  assert (HP : forall a l r, p_paren p_ids (kw L_PAREN :: y_id a ++ commas y_id l ++ kw R_PAREN :: r) = Some ((a, l), r)).
  { intros a0 l0 r0. pose proof (c_paren p_ids _ all nocomma (a0, l0) r0 c_ids (fun _ => eq_refl) I) as H.
    cbn [fst snd] in H. rewrite <- app_assoc in H. exact H. }
  rewrite HP.
  replace (p_either REFERENCES_ REFERENCES_ABBR_ _) with (Some (rb, 
     y_id t ++ kw L_PAREN :: y_id p ++ commas y_id ps ++ kw R_PAREN :: many y_fkact l ++ r)) by (destruct rb; reflexivity).
  rewrite c_id by exact I. rewrite HP.
  rewrite (p_many_c (la [ACTION_ON_UPDATE_; ACTION_ON_DELETE_]) p_fkact y_fkact all all); auto using c_fkact; try (intros; exact I).
  - intros [[] w d] r' _; reflexivity.
  - intros [[] w d] _; discriminate.
Qed.

Lemma c_member : complete p_member y_member all noon.
Proof.
  intros [i|f] r _ Hr; unfold p_member; cbn [y_member].
  - replace (la [INDEX_NAME] (y_index i ++ r)) with true by reflexivity. rewrite c_index by exact I. reflexivity.
  - replace (la [INDEX_NAME] (y_fk f ++ r)) with false by (destruct f as [[]]; reflexivity). rewrite c_fk; auto. exact I.
Qed.

Lemma many_nil_or {A} (y : A -> list tok) l : many y l = [] /\ l = [] \/ exists a l', l = a :: l' /\ many y l = y a ++ many y l'.
Proof. destruct l as [|a l]; [left; auto|right; eauto]. Qed.

Lemma c_table : complete p_table y_table all all.
Proof.
  intros [n c cs ms b] r _ _. unfold p_table, y_table. cbn [ct_name ct_first ct_rest ct_members ct_comma]. norm.
  rewrite expect_kwc, c_id by exact I. rewrite expect_kwc.
  assert (H0 : forall l, nocon l -> nocon (commas y_column cs ++ l)) by (intros l Hl; destruct cs; [exact Hl|reflexivity]).
  assert (H1 : forall P : list tok -> Prop, (forall l, P (kw COMMA :: l)) -> P (kw R_BRACE :: r) ->
     P (commas y_member ms ++ (if b then [kw COMMA] else []) ++ kw R_BRACE :: r)).
  { intros P Hp1 Hp2. destruct ms as [|m ms]; [|apply Hp1]. destruct b; [apply Hp1|exact Hp2]. }
  rewrite c_column; [|exact I|apply H0; apply H1; reflexivity].
  rewrite (p_commas_c (la2 COMMA [IDENTIFIER]) p_column y_column all nocon); auto using c_column.
  - rewrite (p_commas_c (la2 COMMA [INDEX_NAME; FOREIGN_KEY_; FOREIGN_KEY_ABBR_]) p_member y_member all noon); auto using c_member.
    + rewrite c_popt by reflexivity. rewrite expect_kwc. reflexivity.
    + intros [i|[[]]] r' _; reflexivity.
    + reflexivity.
    + destruct b; reflexivity.
    + destruct b; [reflexivity|destruct r; reflexivity].
  - reflexivity.
  - apply H1; reflexivity.
  - destruct ms as [|m ms]; [destruct b; [reflexivity|destruct r; reflexivity]|]. destruct m as [i|[[]]]; reflexivity.
Qed.

Create HintDb pc.
#[local] Hint Resolve c_id c_param c_aattr c_literal all_forall : pc.
Ltac side := solve [ auto with pc | intros; exact I | reflexivity
  | intros [] ? ?; reflexivity | intros [] ?; discriminate ].

Lemma c_config : complete p_config y_config all all.
Proof.
  intros [n v] r _ _. unfold p_config, y_config. cbn [cg_name cg_value]. norm. rewrite c_id by exact I. rewrite expect_kwc, c_literal by exact I. reflexivity.
Qed.
#[local] Hint Resolve c_config : pc.
Lemma c_configs : complete p_configs y_configs all all.
Proof.
  intros [c l] r _ _. unfold p_configs, y_configs. cbn [fst snd]. norm. rewrite expect_kwc, c_config by exact I.
  rewrite (c_commas p_config y_config all all) by side.
  rewrite expect_kwc. reflexivity.
Qed.
#[local] Hint Resolve c_configs : pc.
Lemma c_ext : complete p_ext y_ext all all.
Proof.
  intros [n c a] r _ _. unfold p_ext, y_ext. cbn [cx_name cx_config cx_alias]. norm. rewrite expect_kwc, c_id by exact I.
  rewrite (p_maybe_complete _ p_configs y_configs all all) by side.
  rewrite expect_kwc, c_id by exact I. rewrite expect_kwc. reflexivity.
Qed.
#[local] Hint Resolve c_ext : pc.
Lemma c_attr : complete p_attr y_attr all all.
Proof.
  intros [n v] r _ _. unfold p_attr, y_attr. cbn [ca_name ca_value]. norm. rewrite c_id by exact I. rewrite expect_kwc, c_literal by exact I. reflexivity.
Qed.
#[local] Hint Resolve c_attr : pc.
Lemma c_annot : complete p_annot y_annot all all.
Proof.
  intros [t a l] r _ _. unfold p_annot, y_annot. cbn [cn_target cn_first cn_rest]. norm. rewrite expect_c, expect_kwc, c_attr by exact I.
  rewrite (c_commas p_attr y_attr all all) by side.
  rewrite expect_kwc. reflexivity.
Qed.
#[local] Hint Resolve c_annot : pc.
Lemma c_arg : complete p_arg y_arg wf_arg nobin.
Proof. intros a r [Ha _] Hr. apply p_arg_complete; assumption. Qed.
Lemma arg_first a r : wf_arg a -> la expr_first (y_arg a ++ r) = true.
Proof.
  intros [Ha _]. apply E_inv in Ha as (p & o & -> & Hp & _). unfold y_arg.
  destruct Hp as [x Hx|x e z Hx _ _|x e Hx _|x e Hx _|x y z Hx _ _|x y s z Hx _ _ _|x y e z Hx _ _ _];
    cbn [app]; unfold la; destruct (ty x); try discriminate Hx; reflexivity.
Qed.
Lemma c_recv : complete p_recv y_recv all all.
Proof.
  intros [a l] r _ _. unfold p_recv, y_recv. cbn [fst snd]. norm. rewrite c_param by exact I.
  rewrite (c_commas p_param y_param all all) by side.
  rewrite expect_kwc. reflexivity.
Qed.
#[local] Hint Resolve c_recv : pc.
Lemma c_callee : complete p_callee y_callee all (fun r => la [PERIOD] r = false).
Proof.
  intros [e f|f] r _ Hr; unfold p_callee; cbn [y_callee]; norm.
  - replace (la2 _ _ _) with true by reflexivity. rewrite c_id by exact I. rewrite expect_kwc. rewrite c_id by exact I. reflexivity.
  - assert (H : la2 IDENTIFIER [PERIOD] (y_id f ++ r) = false).
    { unfold y_id, la2. cbn [app]. destruct r as [|x r]; [reflexivity|]. exact Hr. }
    rewrite H. rewrite c_id by exact I. reflexivity.
Qed.
Lemma c_call : complete p_call y_call wf_call all.
Proof.
  intros [rc fn a l] r [Ha Hl] _. cbn [cl_arg cl_args] in Ha, Hl. unfold p_call, y_call. cbn [cl_recv cl_fn cl_arg cl_args]. norm.
  rewrite (p_maybe_complete _ p_recv y_recv all all) by (try side; destruct fn; reflexivity).
  rewrite c_callee; [|exact I|reflexivity]. rewrite expect_kwc.
  rewrite (p_maybe_complete _ p_arg y_arg wf_arg nobin);
    [|exact c_arg|exact arg_first|exact Ha|destruct l; reflexivity|destruct l; reflexivity].
  rewrite (c_commas p_arg y_arg wf_arg nobin); [|exact c_arg|reflexivity|exact Hl|reflexivity|reflexivity].
  rewrite !expect_kwc. reflexivity.
Qed.
Lemma call_first c r : la [SQL_STMT] (y_call c ++ r) = false /\ la stmt_first (y_call c ++ r) = true.
Proof. destruct c as [[[? ?]|] [? ?|?] ? ?]; split; reflexivity. Qed.
Lemma c_stmt : complete p_stmt y_stmt wf_stmt all.
Proof.
  intros [s|c] r Hw _; unfold p_stmt; cbn [y_stmt].
  - cbn [app]. replace (la [SQL_STMT] _) with true by reflexivity. rewrite expect_c, expect_kwc. reflexivity.
  - rewrite (proj1 (call_first c r)). rewrite c_call; auto. exact I.
Qed.
Lemma stmt_first_ok s r : la stmt_first (y_stmt s ++ r) = true.
Proof. destruct s as [s|c]; [reflexivity|]. apply call_first. Qed.
Lemma stmt_nonempty s : y_stmt s <> [].
Proof. intros H. pose proof (stmt_first_ok s []) as H1. rewrite H in H1. discriminate. Qed.
Lemma c_block s ss r : wf_stmt s -> Forall wf_stmt ss ->
  p_block (kw L_BRACE :: y_stmt s ++ many y_stmt ss ++ kw R_BRACE :: r) = Some ((s, ss), r).
Proof.
  intros Hs Hss. unfold p_block. rewrite expect_kwc, c_stmt; [|exact Hs|exact I].
  rewrite (p_many_c (la stmt_first) p_stmt y_stmt wf_stmt all);
    [|exact c_stmt|intros; apply stmt_first_ok|intros; exact I|intros; apply stmt_nonempty|exact Hss|exact I|reflexivity].
  rewrite expect_kwc. reflexivity.
Qed.
Lemma c_action : complete p_action y_action wf_action all.
Proof.
  intros [an n p ps ats s ss] r [Hs Hss] _. cbn [cd_stmt cd_stmts] in Hs, Hss. unfold p_action, y_action.
  cbn [cd_annots cd_name cd_param cd_params cd_attrs cd_stmt cd_stmts]. norm.
  rewrite (p_many_c (la [BLOCK_VAR_OR_ANNOTATION]) p_annot y_annot all all) by side.
  rewrite expect_kwc, c_id by exact I. rewrite expect_kwc.
  rewrite (p_maybe_complete _ p_param y_param all all) by (try side; destruct ps; reflexivity).
  rewrite (c_commas p_param y_param all all) by side.
  rewrite expect_kwc.
  rewrite (p_many_c (la [PUBLIC_; PRIVATE_; VIEW_; OWNER_]) p_aattr y_aattr all all) by side.
  rewrite c_block by assumption. reflexivity.
Qed.
Lemma action_first a r : la [TABLE_] (y_action a ++ r) = false /\ la [INIT_] (y_action a ++ r) = false /\
  la [TABLE_; ACTION_; INIT_; BLOCK_VAR_OR_ANNOTATION] (y_action a ++ r) = true.
Proof. destruct a as [[|? ?] ? ? ? ? ? ?]; split; try split; reflexivity. Qed.
Lemma c_decl : complete p_decl y_decl wf_decl all.
Proof.
  intros [t|a|s ss] r Hw _; unfold p_decl; cbn [y_decl].
  - replace (la [TABLE_] (y_table t ++ r)) with true by reflexivity. rewrite c_table by exact I. reflexivity.
  - destruct (action_first a r) as (H1 & H2 & _). rewrite H1, H2, c_action; auto. exact I.
  - norm. replace (la [TABLE_] _) with false by reflexivity. replace (la [INIT_] _) with true by reflexivity.
    unfold p_init. rewrite !expect_kwc. destruct Hw as [Hs Hss]. rewrite c_block; auto.
Qed.
Lemma decl_first d r : la [TABLE_; ACTION_; INIT_; BLOCK_VAR_OR_ANNOTATION] (y_decl d ++ r) = true.
Proof. destruct d as [t|a|s ss]; [reflexivity|apply action_first|reflexivity]. Qed.
Lemma c_unit u : wf_unit u -> p_unit (y_unit u) = Some u.
Proof.
  intros Hw. destruct u as [n xs ds]. unfold wf_unit in Hw. cbn [cu_decls] in Hw. unfold p_unit, y_unit. cbn [cu_name cu_exts cu_decls]. norm.
  rewrite expect_kwc, c_id by exact I. rewrite expect_kwc.
  rewrite (p_many_c (la [USE_]) p_ext y_ext all all); try side.
  - rewrite <- (app_nil_r (many y_decl ds)).
    rewrite (p_many_c (la [TABLE_; ACTION_; INIT_; BLOCK_VAR_OR_ANNOTATION]) p_decl y_decl wf_decl all);
      [reflexivity|exact c_decl|intros; apply decl_first|intros; exact I| |exact Hw|exact I|reflexivity].
    intros d _ Hd. pose proof (decl_first d []) as H1. rewrite app_nil_r, Hd in H1. discriminate.
  - destruct ds as [|[t|a|s ss] ds]; try reflexivity. rewrite many_app. cbn [y_decl].
    destruct a as [[|? ?] ? ? ? ? ? ?]; reflexivity.
Qed.
