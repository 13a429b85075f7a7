(** Whatever parse tree the parser built, the outcome is the one of ParseKF.v; tracing only prints. *)
From Verif Require Import LexSpec LexerProof Grammar Cst Schema Visitor Validator ParseKF ParseSpec ParserProof ParserGrammar Denote DenoteProof ParseProof
  Tree TreeSpec TreeVisitor TreeProof TreeExists Run RunSpec.
From Coq Require Import NArith.

Lemma tokens_fines text ts : tokens_of text ts -> fines (drop_layout ts).
Proof.
  intros H. assert (HT : Forall (fun t => tx t <> []) ts).
  { clear -H. induction H as [|s t rest ts Hf Hr IH]; constructor; [apply Hf|exact IH]. }
  pose proof (shaped_ok _ (visible_shaped _ _ H)) as HO. unfold fines, toks_ok in *. rewrite Forall_forall in *. intros x Hx. split; [apply HO; exact Hx|].
  apply filter_In in Hx as [Hx _]. apply HT, Hx.
Qed.
Lemma visited tr text t : tree_of_text text t -> exists u, parse_tree text = Some u /\ snd (visit tr source_unit (visit_source_unit tr) (Some t)) = v_unit u.
Proof.
  intros (ts & Ht & Hp). destruct (g_unit _ _ Hp (tokens_fines _ _ Ht)) as (u & E & Hw & Hv). exists u. split; [|apply Hv].
  apply parse_tree_spec. exists ts. auto.
Qed.
Lemma parser_gave_some text : (exists t, tree_of_text text t) <-> syntactically_valid text.
Proof.
  split.
  - intros (t & ts & Ht & Hp). exists ts. split; [exact Ht|]. apply program_tree. exists t. exact Hp.
  - intros (ts & Ht & Hp). apply program_tree in Hp as (t & Hp). exists t, ts. auto.
Qed.
Lemma parse_run_outcome w input pt l mode m : parser_gave input pt -> snd (parse_run w input pt l mode) = parse_kf w input l m.
Proof.
  intros H. unfold parse_run, parse_kf. destruct pt as [t|]; cbn [parser_gave] in H.
  - apply (visited (tracing mode)) in H as (u & E & Hv). rewrite E. destruct l as [|e l]; [|reflexivity].
    destruct (visit _ _ _ _) as [lines r]. cbn [snd] in Hv. subst r. destruct (v_unit u) as [s|e|p]; [|reflexivity|reflexivity].
    destruct (validate (w_ext w) s); reflexivity.
  - apply parse_tree_none in H. rewrite H. unfold messages. destruct (w_msgs w input) as [e1 es]. cbn [map].
    destruct l as [|e l]; [reflexivity|]. cbn [app]. unfold deferred. cbn [snd]. f_equal. cbn. rewrite <- app_assoc. reflexivity.
Qed.

(** ** What is printed *)
Definition prints {A} (tr : bool) (root : tree) (m : M A) : Prop := forall x, In x (fst m) -> tr = true /\ exists s, below root s /\ x = visit_line s.
Lemma p_ret {A} tr root (a : A) : prints tr root (ret a). Proof. intros x []. Qed.
Lemma p_raise {A} tr root p : prints tr root (@raise A p). Proof. intros x []. Qed.
Lemma p_andthen {A B} tr root (m : M A) (k : A -> M B) : prints tr root m -> (forall a, prints tr root (k a)) -> prints tr root (andthen m k).
Proof.
  intros H1 H2 x. destruct m as [l [a|e|p]]; cbn [andthen fst]; intros Hx; try (apply H1; exact Hx).
  specialize (H2 a x). destruct (k a) as [l' r']. cbn [fst] in *. apply in_app_iff in Hx as [Hx|Hx]; [apply H1; exact Hx|apply H2; exact Hx].
Qed.
Lemma p_each {A B} tr root (f : A -> M B) l : (forall a, In a l -> prints tr root (f a)) -> prints tr root (each f l).
Proof.
  induction l as [|a l IH]; intros H; [apply p_ret|]. cbn [each]. apply p_andthen; [apply H; left; reflexivity|]. intros b.
  apply p_andthen; [apply IH; intros; apply H; right; assumption|]. intros; apply p_ret.
Qed.
Lemma p_on {A} tr root c (k : tree -> M A) : (forall t, c = Some t -> prints tr root (k t)) -> prints tr root (on c k).
Proof. intros H. destruct c; cbn; [apply H; reflexivity|apply p_raise]. Qed.
Lemma p_text tr root c : prints tr root (text_of c). Proof. apply p_on. intros; apply p_ret. Qed.
Lemma p_from1 tr root s : prints tr root (from1 s). Proof. destruct s; [apply p_raise|apply p_ret]. Qed.
Lemma p_visit {A} tr root n (f : tree -> M A) c : (forall t, c = Some t -> below root t /\ prints tr root (f t)) -> prints tr root (visit tr n f c).
Proof.
  intros H. apply p_on. intros t E. destruct (H t E) as [Hb Hf]. apply p_andthen.
  - intros x Hx. destruct tr; cbn in Hx; [|contradiction]. destruct Hx as [<-|[]]. split; [reflexivity|]. exists t. auto.
  - intros _. destruct (is_node n t); [exact Hf|apply p_raise].
Qed.
Lemma p_below {A} tr root s (m : M A) : below root s -> prints tr s m -> prints tr root m.
Proof.
  intros Hs Hm x Hx. destruct (Hm x Hx) as (E & t & Ht & Ex). split; [exact E|]. exists t. split; [|exact Ex]. clear -Hs Ht. induction Hs as [|n cs c s Hin Hs IH]; [exact Ht|].
  eapply b_child; eauto.
Qed.
Lemma all_of_below n t c : In c (all_of n t) -> below t c.
Proof. unfold all_of. intros H. apply filter_In in H as [H _]. destruct t; cbn in H; try contradiction. eapply b_child; [exact H|constructor]. Qed.
Lemma child_of_below n i t c : child_of n i t = Some c -> below t c.
Proof. intros H. apply nth_error_In in H. eapply all_of_below. exact H. Qed.
Lemma p_each_visit {A} tr n (f : tree -> M A) m t : (forall c, prints tr c (f c)) -> prints tr t (each (fun c => visit tr n f (Some c)) (all_of m t)).
Proof.
  intros H. apply p_each. intros c Hc. apply p_visit. intros t' E. injection E as <-. apply all_of_below in Hc. split; [exact Hc|].
  eapply p_below; [exact Hc|apply H].
Qed.
Lemma p_child_visit {A} tr n (f : tree -> M A) m i t : (forall c, prints tr c (f c)) -> prints tr t (visit tr n f (child_of m i t)).
Proof.
  intros H. apply p_visit. intros c Hc. apply child_of_below in Hc. split; [exact Hc|]. eapply p_below; [exact Hc|apply H].
Qed.
Create HintDb prints.
#[local] Hint Resolve p_ret p_raise p_text p_from1 p_each_visit p_child_visit : prints.
Ltac prt := repeat first
  [ progress intros
  | solve [auto with prints]
  | match goal with |- prints _ _ (andthen _ _) => apply p_andthen end
  | match goal with |- prints _ _ (if ?b then _ else _) => destruct b end
  | match goal with |- prints _ _ (match ?b with _ => _ end) => destruct b end ].
Lemma p_ext_config_list tr t : prints tr t (visit_ext_config_list t).
Proof. apply p_each. prt. Qed.
#[local] Hint Resolve p_ext_config_list : prints.
Lemma p_extension_directive tr t : prints tr t (visit_extension_directive tr t).
Proof. unfold visit_extension_directive. prt. Qed.
Lemma p_column_constraint tr t : prints tr t (visit_column_constraint t).
Proof. unfold visit_column_constraint. prt. Qed.
#[local] Hint Resolve p_extension_directive p_column_constraint : prints.
Lemma p_column_def tr t : prints tr t (visit_column_def tr t).
Proof. unfold visit_column_def. prt. apply p_on. prt. Qed.
#[local] Hint Resolve p_column_def : prints.
Lemma p_column_def_list tr t : prints tr t (visit_column_def_list tr t).
Proof. unfold visit_column_def_list. prt. Qed.
Lemma p_column_name_list tr t : prints tr t (visit_column_name_list t).
Proof. apply p_each. prt. Qed.
#[local] Hint Resolve p_column_def_list p_column_name_list : prints.
Lemma p_index_def tr t : prints tr t (visit_index_def tr t).
Proof. unfold visit_index_def. prt. Qed.
Lemma p_foreign_key_action tr t : prints tr t (visit_foreign_key_action t).
Proof. apply p_ret. Qed.
#[local] Hint Resolve p_index_def p_foreign_key_action : prints.
Lemma p_foreign_key_def tr t : prints tr t (visit_foreign_key_def tr t).
Proof. unfold visit_foreign_key_def. prt. Qed.
#[local] Hint Resolve p_foreign_key_def : prints.
Lemma p_table_decl tr t : prints tr t (visit_table_decl tr t).
Proof. unfold visit_table_decl. prt. Qed.
Lemma p_seen_auxs tr t l : forall seen, prints tr t (seen_auxs seen l).
Proof. induction l as [|a l IH]; intros seen; cbn [seen_auxs]; prt. Qed.
#[local] Hint Resolve p_table_decl p_seen_auxs : prints.
Lemma p_action_attr_list tr t : prints tr t (visit_action_attr_list t).
Proof. unfold visit_action_attr_list. prt. Qed.
Lemma p_annotation_decl tr t : prints tr t (visit_annotation_decl t).
Proof. apply p_from1. Qed.
Lemma p_param_list tr t : prints tr t (visit_param_list t).
Proof. apply p_each. prt. Qed.
Lemma p_action_stmt tr t : prints tr t (visit_action_stmt t).
Proof. apply p_ret. Qed.
#[local] Hint Resolve p_action_attr_list p_annotation_decl p_param_list p_action_stmt : prints.
Lemma p_action_stmt_list tr t : prints tr t (visit_action_stmt_list tr t).
Proof. unfold visit_action_stmt_list. prt. Qed.
#[local] Hint Resolve p_action_stmt_list : prints.
Lemma p_action_decl tr t : prints tr t (visit_action_decl tr t).
Proof. unfold visit_action_decl. prt. apply p_on. prt. Qed.
Lemma p_init_decl tr t : prints tr t (visit_init_decl tr t).
Proof. unfold visit_init_decl. prt. Qed.
#[local] Hint Resolve p_action_decl p_init_decl : prints.
Lemma p_source_unit tr t : prints tr t (visit_source_unit tr t).
Proof. unfold visit_source_unit. cbv zeta. prt. apply p_on. prt. Qed.

Lemma fst_andthen {A B} (m : M A) (k : A -> M B) : exists r, fst (andthen m k) = fst m ++ r.
Proof. destruct m as [l [a|e|p]]; cbn; [destruct (k a); eexists; reflexivity|exists []; rewrite app_nil_r; reflexivity|exists []; rewrite app_nil_r; reflexivity]. Qed.
Lemma visit_first {A} n (f : tree -> M A) t : exists r, fst (visit true n f (Some t)) = visit_line t :: r.
Proof. unfold visit, on. destruct (fst_andthen (A := unit) (B := A) ([visit_line t], Ok Datatypes.tt) (fun _ => if is_node n t then f t else raise bad_type)) as (r & E). exists r. rewrite E. reflexivity. Qed.

Lemma silent w input pt l mode : tracing mode = false -> fst (parse_run w input pt l mode) = [].
Proof.
  intros H. assert (HD : forall lines r l e, fst (deferred mode lines r l e) = lines) by (intros; unfold deferred; rewrite H; apply app_nil_r).
  unfold parse_run. destruct pt as [t|]; [|destruct (l ++ _); apply HD]. destruct l; [|apply HD].
  assert (HV : fst (visit (tracing mode) source_unit (visit_source_unit (tracing mode)) (Some t)) = []).
  { destruct (fst (visit _ _ _ _)) as [|x xs] eqn:E; [reflexivity|exfalso].
    destruct (p_visit (tracing mode) t source_unit (visit_source_unit (tracing mode)) (Some t)) with (x := x) as [HT _].
    - intros t' E'. injection E' as <-. split; [constructor|apply p_source_unit].
    - rewrite E. left; reflexivity.
    - congruence. }
  destruct (visit _ _ _ _) as [lines [s|e|p]]; cbn [fst] in HV; subst lines; [destruct (validate (w_ext w) s)|..]; apply HD.
Qed.
Lemma traced w input pt l mode : tracing mode = true ->
  exists lines, fst (parse_run w input pt l mode) = lines ++ [final_line (o_listener (snd (parse_run w input pt l mode)))] /\
    match l, pt with
    | [], Some t => exists r, lines = visit_line t :: r /\ (forall x, In x r -> exists s, below t s /\ x = visit_line s)
    | _, _ => lines = []
    end.
Proof.
  intros H. assert (HD : forall lines r l e, fst (deferred mode lines r l e) = lines ++ [final_line (o_listener (snd (deferred mode lines r l e)))])
    by (intros; unfold deferred; rewrite H; reflexivity).
  unfold parse_run. destruct pt as [t|].
  - destruct l as [|e l]; [|exists []; split; [apply HD|reflexivity]]. rewrite H.
    pose proof (p_visit true t source_unit (visit_source_unit true) (Some t)) as HP. destruct (visit_first source_unit (visit_source_unit true) t) as (r & E).
    destruct (visit true _ _ _) as [lines res]. cbn [fst] in *. exists lines. split.
    + destruct res as [s|e|p]; [destruct (validate (w_ext w) s)|..]; apply HD.
    + exists r. split; [exact E|]. intros x Hx. destruct (HP) with (x := x) as (_ & s & Hs & Ex).
      * intros t' E'. injection E' as <-. split; [constructor|apply p_source_unit].
      * cbn [fst]. rewrite E. right; exact Hx.
      * eauto.
  - exists []. split; [destruct (l ++ _); apply HD|destruct l; reflexivity].
Qed.

(** ** Panics *)
Lemma v_auxs_panic l : forall seen p, v_auxs seen l = Panic p -> exists d, p = PErr (wrap AuxiliaryAlreadySet d).
Proof.
  induction l as [|a l IH]; intros seen p; cbn [v_auxs]; [discriminate|]. destruct (mem_str a seen); [intros E; injection E as <-; eauto|].
  destruct (v_auxs _ l) eqn:E; cbn; [discriminate|discriminate|]. intros E'. injection E' as <-. eapply IH; eassumption.
Qed.
Lemma v_aattrs_panic l p : v_aattrs l = Panic p -> exists s d, In s [VisibilityAlreadySet; MutabilityAlreadySet; AuxiliaryAlreadySet] /\ p = PErr (wrap s d).
Proof.
  unfold v_aattrs. destruct (visibilities l) as [|v1 [|v2 vs]]; cbn [bind]; [| |intros E; injection E as <-; do 2 eexists; split; [|reflexivity]; left; reflexivity];
  (destruct (mutabilities l) as [|m1 [|m2 ms]]; cbn [bind]; [| |intros E; injection E as <-; do 2 eexists; split; [|reflexivity]; right; left; reflexivity]);
  (destruct (auxiliaries l) as [|a1 az]; cbn [bind]; [discriminate|]);
  (destruct (v_auxs [] (a1 :: az)) eqn:E; cbn [bind]; [discriminate|discriminate|]; intros E'; injection E' as <-;
   apply v_auxs_panic in E as (d & ->); do 2 eexists; split; [|reflexivity]; right; right; left; reflexivity).
Qed.
Lemma mapM_panic {A B} (f : A -> res B) l p : mapM f l = Panic p -> exists a, In a l /\ f a = Panic p.
Proof.
  induction l as [|a l IH]; cbn [mapM]; [discriminate|]. destruct (f a) eqn:E; cbn [bind]; [|discriminate|].
  - destruct (mapM f l) eqn:E2; cbn [bind]; [discriminate|discriminate|]. intros E3. injection E3 as <-. destruct (IH eq_refl) as (x & Hx & Ex). exists x. split; [right; exact Hx|exact Ex].
  - intros E3. injection E3 as <-. exists a. split; [left; reflexivity|exact E].
Qed.
Lemma v_unit_panic u p : v_unit u = Panic p -> exists s, In s [MultiInit; VisibilityAlreadySet; MutabilityAlreadySet; AuxiliaryAlreadySet] /\
  (p = PErr (ESent s) \/ exists d, p = PErr (wrap s d)).
Proof.
  unfold v_unit. intros H.
  assert (HM : forall r : list action -> res schema, (forall x q, r x <> Panic q) -> bind (mapM v_action (actions (cu_decls u))) r = Panic p ->
    exists s, In s [MultiInit; VisibilityAlreadySet; MutabilityAlreadySet; AuxiliaryAlreadySet] /\ (p = PErr (ESent s) \/ exists d, p = PErr (wrap s d))).
  { intros r Hr. destruct (mapM _ _) eqn:E; cbn [bind]; [intros E'; exfalso; eapply Hr; exact E'|discriminate|]. intros E'. injection E' as <-.
    apply mapM_panic in E as (a & _ & Ea). unfold v_action in Ea. destruct (v_aattrs (cd_attrs a)) as [[[x y] z]|e|q] eqn:E; cbn [bind] in Ea; [discriminate|discriminate|].
    injection Ea as <-. apply v_aattrs_panic in E as (s & d & Hs & ->). exists s. split; [right; exact Hs|right; eauto]. }
  destruct (inits (cu_decls u)) as [|i1 [|i2 is]]; [eapply HM; [|exact H]; discriminate|eapply HM; [|exact H]; discriminate|].
  injection H as <-. exists MultiInit. split; [left; reflexivity|left; reflexivity].
Qed.
Lemma visitor_safe text t trace p : tree_of_text text t -> snd (visit trace source_unit (visit_source_unit trace) (Some t)) = Panic p ->
  p <> nil_call /\ p <> bad_slice /\ p <> bad_type /\
  exists s, In s [MultiInit; VisibilityAlreadySet; MutabilityAlreadySet; AuxiliaryAlreadySet] /\ err_is [panic_error p] s = true.
Proof.
  intros Ht Hp. apply (visited trace) in Ht as (u & _ & Hv). rewrite Hv in Hp. apply v_unit_panic in Hp as (s & Hs & Hp).
  destruct Hp as [->|(d & ->)]; (split; [discriminate|]); (split; [discriminate|]); (split; [discriminate|]); exists s; (split; [exact Hs|]);
    cbn; unfold sentinel_eqb; destruct (sentinel_eq_dec s s); congruence || reflexivity.
Qed.
