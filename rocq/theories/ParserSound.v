(** What the parser accepts is the yield of the tree it returns. *)
From Verif Require Import Cst Parser ExprProof ParserProof.

Create HintDb psound.

Ltac psub :=
  match goal with
  | E : expect ?t ?ts = Some (?s, ?r), Hok : toks_ok ?ts |- _ =>
      first [ apply (expect_kw t ts s r Hok) in E; [|discriminate] | apply expect_s in E ]; subst ts;
      apply toks_ok_cons in Hok as [_ Hok]
  | E : ?p ?ts = Some (?a, ?r), Hok : toks_ok ?ts |- _ =>
      let S := fresh in
      eassert (S : sound p _ _) by (eauto 6 with psound nocore);
      apply S in E; [|exact Hok]; clear S; let W := fresh "W" in destruct E as [-> W];
      apply toks_ok_app in Hok as [_ Hok]
  end.
Ltac plet :=
  match goal with
  | H : match ?e with Some _ => _ | None => None end = Some _ |- _ =>
      let E := fresh "E" in destruct e as [[? ?]|] eqn:E; [|discriminate H]
  | H : (let (_, _) := ?e in _) = Some _ |- _ => destruct e as [? ?] eqn:?
  end.
Ltac pdone H := injection H as <- <-; split;
  [first [reflexivity
         | unfold commas, y_call, y_action, y_table, y_ext, y_annot; cbn; repeat (rewrite <- app_assoc; cbn [app]); reflexivity]|].
Ltac ptok ts x Hok H Hx :=
  destruct ts as [|x ts]; [discriminate H|]; apply toks_ok_cons in Hok as [Hx Hok].
(** Decide a chain of token comparisons. *)
Ltac pchain H x :=
  repeat match type of H with
  | (if tt_eqb (ty x) ?t then _ else _) = _ =>
      let E := fresh "E" in destruct (tt_eqb (ty x) t) eqn:E; [apply tt_eqb_eq in E|]
  end.
Lemma kw_is x t : tok_ok x -> ty x = t -> literal_of t <> None -> x = kw t.
Proof.
  intros Hx Ht Hl. destruct (literal_of t) as [w|] eqn:E; [|congruence]. rewrite (kw_of x w), Ht; auto. rewrite Ht; exact E.
Qed.
Lemma tok_is x t : ty x = t -> x = Tok t (tx x).
Proof. destruct x; cbn; intros ->; reflexivity. Qed.

Lemma s_expect t (y : str -> list tok) : (forall s, y s = [Tok t s]) -> sound (expect t) y all.
Proof. intros Hy ts s r _ H. apply expect_s in H. subst. rewrite Hy. split; [reflexivity|exact I]. Qed.
Lemma s_id : sound p_id y_id all. Proof. apply s_expect; reflexivity. Qed.
Lemma s_param : sound p_param y_param all. Proof. apply s_expect; reflexivity. Qed.
Lemma s_number : sound p_number y_number all. Proof. apply s_expect; reflexivity. Qed.
Lemma s_many {A} st (p : list tok -> option (A * list tok)) y n : sound p y all -> sound (p_many st p n) (many y) all.
Proof. intros H ts a r Hok Hp. apply (p_many_sound _ _ _ _ _ H) in Hp as [-> _]; auto. split; [reflexivity|exact I]. Qed.
Lemma s_commas {A} st (p : list tok -> option (A * list tok)) y n : sound p y all -> sound (p_many st (p_comma p) n) (commas y) all.
Proof. intros H. apply s_many. apply p_comma_sound; exact H. Qed.
#[export] Hint Resolve s_id s_param s_number : psound.
#[export] Hint Resolve s_commas | 1 : psound.
#[export] Hint Resolve s_many | 2 : psound.
#[export] Hint Resolve p_commas_sound | 3 : psound.
#[export] Hint Resolve p_many_sound | 4 : psound.
#[export] Hint Resolve p_paren_sound p_maybe_sound : psound.

Lemma s_literal : sound p_literal y_literal all.
Proof.
  intros ts a r Hok H. unfold p_literal in H. ptok ts x Hok H Hx. pchain H x; try discriminate; injection H as <- <-; cbn;
    rewrite (tok_is x _ E) at 1 || rewrite (tok_is x _ E0) at 1; split; try exact I; reflexivity.
Qed.
Lemma s_coltype : sound p_coltype y_coltype all.
Proof.
  intros ts a r Hok H. unfold p_coltype in H. ptok ts x Hok H Hx. pchain H x; try discriminate; injection H as <- <-; cbn [y_coltype app];
    (split; [f_equal; apply kw_is; auto; discriminate|exact I]).
Qed.
Lemma s_ikind : sound p_ikind (fun k => [kw match k with IPrimary => PRIMARY_ | IUnique => UNIQUE_ | IIndex => INDEX_ end]) all.
Proof.
  intros ts a r Hok H. unfold p_ikind in H. ptok ts x Hok H Hx. pchain H x; try discriminate; injection H as <- <-; cbn [app];
    (split; [f_equal; apply kw_is; auto; discriminate|exact I]).
Qed.
Lemma s_fkon : sound p_fkon (fun k => [kw match k with OnUpdate => ACTION_ON_UPDATE_ | OnDelete => ACTION_ON_DELETE_ end]) all.
Proof.
  intros ts a r Hok H. unfold p_fkon in H. ptok ts x Hok H Hx. pchain H x; try discriminate; injection H as <- <-; cbn [app];
    (split; [f_equal; apply kw_is; auto; discriminate|exact I]).
Qed.
Lemma s_fkdo : sound p_fkdo (fun k => [kw match k with DoNoAction => ACTION_DO_NO_ACTION_ | DoCascade => ACTION_DO_CASCADE_
         | DoSetNull => ACTION_DO_SET_NULL_ | DoSetDefault => ACTION_DO_SET_DEFAULT_ | DoRestrict => ACTION_DO_RESTRICT_ end]) all.
Proof.
  intros ts a r Hok H. unfold p_fkdo in H. ptok ts x Hok H Hx. pchain H x; try discriminate; injection H as <- <-; cbn [app];
    (split; [f_equal; apply kw_is; auto; discriminate|exact I]).
Qed.
Lemma s_aattr : sound p_aattr y_aattr all.
Proof.
  intros ts a r Hok H. unfold p_aattr in H. ptok ts x Hok H Hx. pchain H x; try discriminate; injection H as <- <-; cbn [app y_aattr];
    (split; [f_equal; apply kw_is; auto; discriminate|exact I]).
Qed.
Lemma s_either t u : literal_of t <> None -> literal_of u <> None ->
  sound (p_either t u) (fun b : bool => [kw (if b then u else t)]) all.
Proof.
  intros Ht Hu ts a r Hok H. unfold p_either in H. ptok ts x Hok H Hx. pchain H x; try discriminate; injection H as <- <-; cbn [app];
    (split; [f_equal; apply kw_is; auto|exact I]).
Qed.
Lemma s_popt t ts b r : literal_of t <> None -> toks_ok ts -> p_opt t ts = (b, r) -> ts = (if b then [kw t] else []) ++ r.
Proof.
  intros Ht Hok H. unfold p_opt in H. destruct ts as [|x ts]; [injection H as <- <-; reflexivity|].
  apply toks_ok_cons in Hok as [Hx Hok]. destruct (tt_eqb (ty x) t) eqn:E; injection H as <- <-; [|reflexivity].
  apply tt_eqb_eq in E. cbn. f_equal. apply kw_is; auto.
Qed.
#[export] Hint Resolve s_literal s_coltype s_ikind s_fkon s_fkdo s_aattr : psound.

Lemma s_ids : sound p_ids (fun p => y_id (fst p) ++ commas y_id (snd p)) all.
Proof. intros ts a r Hok H. unfold p_ids in H. repeat (plet; psub). pdone H. exact I. Qed.
#[export] Hint Resolve s_ids : psound.

Lemma s_constr : sound p_constr y_constr all.
Proof.
  intros ts a r Hok H. unfold p_constr in H. ptok ts x Hok H Hx. pchain H x; try discriminate;
    unfold p_map in H; rewrite (kw_is _ _ Hx E) || rewrite (kw_is _ _ Hx E0) || rewrite (kw_is _ _ Hx E1) || rewrite (kw_is _ _ Hx E2)
     || rewrite (kw_is _ _ Hx E3) || rewrite (kw_is _ _ Hx E4) || rewrite (kw_is _ _ Hx E5) || rewrite (kw_is _ _ Hx E6); try discriminate;
    try (plet; psub); pdone H; exact I.
Qed.
#[export] Hint Resolve s_constr : psound.

Lemma s_column : sound p_column y_column all.
Proof. intros ts a r Hok H. unfold p_column in H. repeat (plet; psub). pdone H. exact I. Qed.
Lemma s_index : sound p_index y_index all.
Proof. intros ts a r Hok H. unfold p_index in H. repeat (plet; try psub). pdone H. exact I. Qed.
Lemma s_fkact : sound p_fkact y_fkact all.
Proof.
  intros ts a r Hok H. unfold p_fkact in H. plet; psub. plet.
  match goal with E : p_opt _ _ = _ |- _ => apply s_popt in E; [subst|discriminate|exact Hok] end.
  apply toks_ok_app in Hok as [_ Hok]. plet; psub. pdone H. exact I.
Qed.
#[export] Hint Resolve s_column s_index s_fkact : psound.

Lemma s_fk : sound p_fk y_fk all.
Proof.
  intros ts a r Hok H. unfold p_fk in H. plet.
  match goal with E : p_either _ _ _ = _ |- _ => apply s_either in E as [-> _]; [|discriminate|discriminate|exact Hok] end.
  apply toks_ok_app in Hok as [_ Hok]. plet; psub. plet.
  plet. match goal with E : p_either _ _ _ = _ |- _ => apply s_either in E as [-> _]; [|discriminate|discriminate|exact Hok] end.
  apply toks_ok_app in Hok as [_ Hok]. repeat (plet; try psub). pdone H. exact I.
Qed.
#[export] Hint Resolve s_fk : psound.

Lemma s_member : sound p_member y_member all.
Proof.
  intros ts a r Hok H. unfold p_member, p_map in H. destruct (la [INDEX_NAME] ts); plet; psub; pdone H; exact I.
Qed.
#[export] Hint Resolve s_member : psound.

Lemma s_table : sound p_table y_table all.
Proof.
  intros ts a r Hok H. unfold p_table in H. do 6 (plet; psub). plet.
  match goal with E : p_opt _ _ = _ |- _ => apply s_popt in E; [subst|discriminate|exact Hok] end.
  apply toks_ok_app in Hok as [_ Hok]. plet; psub. pdone H. exact I.
Qed.

Lemma s_config : sound p_config y_config all.
Proof. intros ts a r Hok H. unfold p_config in H. repeat (plet; psub). pdone H. exact I. Qed.
#[export] Hint Resolve s_table s_config : psound.
Lemma s_configs : sound p_configs y_configs all.
Proof. intros ts a r Hok H. unfold p_configs in H. repeat (plet; psub). pdone H. exact I. Qed.
#[export] Hint Resolve s_configs : psound.
Lemma s_ext : sound p_ext y_ext all.
Proof. intros ts a r Hok H. unfold p_ext in H. repeat (plet; psub). pdone H. exact I. Qed.
Lemma s_attr : sound p_attr y_attr all.
Proof. intros ts a r Hok H. unfold p_attr in H. repeat (plet; psub). pdone H. exact I. Qed.
#[export] Hint Resolve s_ext s_attr : psound.
Lemma s_annot : sound p_annot y_annot all.
Proof. intros ts a r Hok H. unfold p_annot in H. repeat (plet; psub). pdone H. exact I. Qed.
#[export] Hint Resolve s_annot : psound.

Lemma s_arg : sound p_arg y_arg wf_arg.
Proof.
  intros ts a r Hok H. apply p_arg_sound in H as [-> Ha]. split; [reflexivity|]. split; [exact Ha|].
  apply toks_ok_app in Hok as [Hok _]. exact Hok.
Qed.
Lemma s_recv : sound p_recv y_recv all.
Proof. intros ts a r Hok H. unfold p_recv in H. repeat (plet; psub). pdone H. exact I. Qed.
Lemma s_callee : sound p_callee y_callee all.
Proof.
  intros ts a r Hok H. unfold p_callee, p_map in H. destruct (la2 IDENTIFIER [PERIOD] ts); repeat (plet; psub); pdone H; exact I.
Qed.
#[export] Hint Resolve s_arg s_recv s_callee : psound.
Lemma s_call : sound p_call y_call wf_call.
Proof.
  intros ts a r Hok H. unfold p_call in H. repeat (plet; psub). pdone H. split; cbn; assumption.
Qed.
#[export] Hint Resolve s_call : psound.
Lemma s_stmt : sound p_stmt y_stmt wf_stmt.
Proof.
  intros ts a r Hok H. unfold p_stmt, p_map in H. destruct (la [SQL_STMT] ts); repeat (plet; psub); pdone H; [exact I|assumption].
Qed.
#[export] Hint Resolve s_stmt : psound.
Lemma s_block : sound p_block (fun p => [kw L_BRACE] ++ y_stmt (fst p) ++ many y_stmt (snd p) ++ [kw R_BRACE])
  (fun p => wf_stmt (fst p) /\ Forall wf_stmt (snd p)).
Proof. intros ts a r Hok H. unfold p_block in H. repeat (plet; psub). pdone H. split; assumption. Qed.
#[export] Hint Resolve s_block : psound.
Lemma s_action : sound p_action y_action wf_action.
Proof.
  intros ts a r Hok H. unfold p_action in H. repeat (plet; try psub). pdone H. assumption.
Qed.
Lemma s_init : sound p_init y_decl wf_decl.
Proof. intros ts a r Hok H. unfold p_init in H. repeat (plet; try psub). pdone H. assumption. Qed.
#[export] Hint Resolve s_action s_init : psound.
Lemma s_decl : sound p_decl y_decl wf_decl.
Proof.
  intros ts a r Hok H. unfold p_decl, p_map in H. destruct (la [TABLE_] ts); [|destruct (la [INIT_] ts)].
  - plet; psub; pdone H; exact I.
  - apply s_init in H; assumption.
  - plet; psub; pdone H; assumption.
Qed.
#[export] Hint Resolve s_decl : psound.
Lemma s_unit ts u : toks_ok ts -> p_unit ts = Some u -> ts = y_unit u /\ wf_unit u.
Proof.
  intros Hok H. unfold p_unit in H. repeat (plet; psub).
  match type of H with match ?l with _ => _ end = _ => destruct l; [|discriminate H] end.
  injection H as <-. cbn. rewrite ?app_nil_r. split; [reflexivity|assumption].
Qed.
