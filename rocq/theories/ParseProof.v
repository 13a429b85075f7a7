(** ParseKF meets its specification. *)
From Verif Require Import LexSpec LexerProof Grammar Cst ParserProof ParserGrammar Schema Denote DenoteProof Visitor
  Validator ValidSpec ValidProof ValidProof3 ParseKF ParseSpec.

Lemma drop_layout_shaped ts : Forall (fun t => token_shape (ty t) (tx t)) ts -> shaped (drop_layout ts).
Proof. intros H. unfold shaped, drop_layout. rewrite Forall_forall in *. intros t Ht. apply filter_In in Ht as [Ht _]. apply H; exact Ht. Qed.
Lemma visible_shaped text ts : tokens_of text ts -> shaped (drop_layout ts).
Proof. intros H. apply drop_layout_shaped. eapply tokens_of_shape; exact H. Qed.

Lemma parse_tree_spec text u : parse_tree text = Some u <-> exists ts, tokens_of text ts /\ drop_layout ts = y_unit u /\ wf_unit u.
Proof.
  unfold parse_tree. split.
  - destruct (tokenize text) as [vs|] eqn:E; [|discriminate]. intros H. apply tokenize_spec in E as (ts & Ht & ->).
    apply p_unit_tree in H as [E Hw]; [|apply shaped_ok, (visible_shaped text); exact Ht]. exists ts; auto.
  - intros (ts & Ht & E & Hw). assert (Et : tokenize text = Some (drop_layout ts)) by (apply tokenize_spec; exists ts; auto).
    rewrite Et. apply p_unit_tree; [apply shaped_ok, (visible_shaped text); exact Ht|auto].
Qed.
Lemma parse_tree_valid text : (exists u, parse_tree text = Some u) <-> syntactically_valid text.
Proof.
  unfold syntactically_valid. split.
  - intros (u & H). apply parse_tree_spec in H as (ts & Ht & E & Hw). exists ts. split; [exact Ht|].
    apply p_unit_accepts; [apply shaped_ok, (visible_shaped text); exact Ht|]. exists u.
    apply p_unit_tree; [apply shaped_ok, (visible_shaped text); exact Ht|auto].
  - intros (ts & Ht & Hp). pose proof (shaped_ok _ (visible_shaped _ _ Ht)) as Hok. apply p_unit_accepts in Hp as (u & Hu); [|exact Hok].
    exists u. apply p_unit_tree in Hu as [E Hw]; [|exact Hok]. apply parse_tree_spec. exists ts; auto.
Qed.
Lemma parse_tree_none text : parse_tree text = None <-> ~ syntactically_valid text.
Proof.
  rewrite <- parse_tree_valid. destruct (parse_tree text) as [u|]; split; intros H; try discriminate; try reflexivity.
  - exfalso; apply H; eauto.
  - intros (u & Hu); discriminate.
Qed.

Lemma writes_tree text s : writes text s <-> exists u, parse_tree text = Some u /\ v_unit u = Ok s.
Proof.
  unfold writes. split.
  - intros (ts & Ht & Hd). apply v_unit_denotes in Hd as (u & E & Hv & Hw); [|apply (visible_shaped text); exact Ht].
    exists u. split; [|exact Hv]. apply parse_tree_spec. exists ts; auto.
  - intros (u & Hu & Hv). apply parse_tree_spec in Hu as (ts & Ht & E & Hw). exists ts. split; [exact Ht|].
    apply v_unit_denotes; [apply (visible_shaped text); exact Ht|]. exists u; auto.
Qed.
Lemma writes_fun text s s' : writes text s -> writes text s' -> s = s'.
Proof. rewrite !writes_tree. intros (u & Hu & Hv) (u' & Hu' & Hv'). congruence. Qed.
Lemma writes_valid text s : writes text s -> syntactically_valid text.
Proof. rewrite writes_tree. intros (u & Hu & _). apply parse_tree_valid. exists u; exact Hu. Qed.

(** The fault the declarations of a text have: too many init blocks, or a repeated action attribute. *)
Definition declaration_fault (text : str) (e : gerr) : Prop :=
  exists ts u, tokens_of text ts /\ drop_layout ts = y_unit u /\ wf_unit u /\ unit_fault u e.
Lemma declaration_fault_tree text e : declaration_fault text e <-> exists u, parse_tree text = Some u /\ unit_fault u e.
Proof.
  unfold declaration_fault. split.
  - intros (ts & u & Ht & E & Hw & Hf). exists u. split; [|exact Hf]. apply parse_tree_spec. exists ts; auto.
  - intros (u & Hu & Hf). apply parse_tree_spec in Hu as (ts & Ht & E & Hw). exists ts, u. auto.
Qed.


(** The four ways a call with a fresh listener can end. *)
Lemma fresh_cases w text m :
  (~ syntactically_valid text /\ parse_kf w text [] m = Outcome None (map syntax_error (messages w text) ++ [ESelf]))
  \/ (exists e, declaration_fault text e /\ parse_kf w text [] m = Outcome None [e])
  \/ (exists s z, writes text s /\ invalid_schema (w_ext w) s z /\ parse_kf w text [] m = Outcome (Some s) [report_error z])
  \/ (exists s, accepted w text s /\ parse_kf w text [] m = Outcome (Some s) []).
Proof.
  unfold parse_kf. destruct (parse_tree text) as [u|] eqn:Eu.
  2:{ left. split; [apply parse_tree_none; exact Eu|reflexivity]. }
  right. destruct (v_unit u) as [s|e|p] eqn:Ev.
  - assert (Hw : writes text s) by (apply writes_tree; exists u; auto). right.
    destruct (validate_spec (w_ext w) s) as [V1 V2]. destruct (validate (w_ext w) s) as [[]|e|p].
    + right. exists s. split; [split; [exact Hw|apply V1; reflexivity]|reflexivity].
    + left. exists s, (inl e). split; [exact Hw|]. split; [apply V2; reflexivity|reflexivity].
    + left. exists s, (inr p). split; [exact Hw|]. split; [apply V2; reflexivity|reflexivity].
  - destruct (v_unit_no_err _ _ Ev).
  - left. apply v_unit_fault in Ev as (e & -> & Hf). exists e. split; [apply declaration_fault_tree; exists u; auto|reflexivity].
Qed.
Lemma fault_not_writes text e s : declaration_fault text e -> writes text s -> False.
Proof.
  rewrite declaration_fault_tree, writes_tree. intros (u & Hu & Hf) (u' & Hu' & Hv). assert (u' = u) by congruence. subst u'.
  assert (E : v_unit u = Panic (PErr e)) by (apply v_unit_fault; eauto). congruence.
Qed.
Lemma fault_valid text e : declaration_fault text e -> syntactically_valid text.
Proof. rewrite declaration_fault_tree. intros (u & Hu & _). apply parse_tree_valid. exists u; exact Hu. Qed.
Lemma fault_fun text e e' : declaration_fault text e -> declaration_fault text e' -> e = e'.
Proof.
  rewrite !declaration_fault_tree. intros (u & Hu & Hf) (u' & Hu' & Hf'). assert (u' = u) by congruence. subst u'.
  assert (E : v_unit u = Panic (PErr e)) by (apply v_unit_fault; eauto).
  assert (E' : v_unit u = Panic (PErr e')) by (apply v_unit_fault; eauto). congruence.
Qed.
Lemma valid_not_invalid x s z : valid_schema x s -> invalid_schema x s z -> False.
Proof. destruct (validate_spec x s) as [V1 V2]. intros H1 H2. apply V1 in H1. apply V2 in H2. rewrite H1 in H2. destruct z; exact H2. Qed.
Lemma invalid_fun x s z z' : invalid_schema x s z -> invalid_schema x s z' -> z = z'.
Proof. destruct (validate_spec x s) as [_ V2]. intros H1 H2. apply V2 in H1, H2. eapply stops_fun; eassumption. Qed.
Lemma valid_or_invalid x s : valid_schema x s \/ exists z, invalid_schema x s z.
Proof.
  destruct (validate_spec x s) as [V1 V2]. destruct (validate x s) as [[]|e|p].
  - left. apply V1. reflexivity.
  - right. exists (inl e). apply V2. reflexivity.
  - right. exists (inr p). apply V2. reflexivity.
Qed.

(** C18: exactly the accepted texts give a schema without error. *)
Theorem parse_accepts w text m s : parse_kf w text [] m = Outcome (Some s) [] <-> accepted w text s.
Proof.
  destruct (fresh_cases w text m) as [[H ->]|[(e & H & ->)|[(s' & z & H1 & H2 & ->)|(s' & H & ->)]]]; split; try discriminate.
  - intros [HW _]. destruct H. eapply writes_valid; exact HW.
  - intros [HW _]. destruct (fault_not_writes _ _ _ H HW).
  - intros [HW HV]. rewrite (writes_fun _ _ _ H1 HW) in H2. destruct (valid_not_invalid _ _ _ HV H2).
  - intros E. injection E as <-. exact H.
  - intros [HW HV]. destruct H as [HW' _]. rewrite (writes_fun _ _ _ HW HW'). reflexivity.
Qed.
Theorem parse_no_error w text m : no_error (parse_kf w text [] m) = true <-> exists s, accepted w text s.
Proof.
  split.
  - destruct (fresh_cases w text m) as [[H ->]|[(e & H & ->)|[(s' & z & H1 & H2 & ->)|(s' & H & ->)]]]; cbn; try discriminate.
    + destruct (messages w text); discriminate.
    + intros _. exists s'; exact H.
  - intros (s & H). apply (parse_accepts w text m) in H. rewrite H. reflexivity.
Qed.

(** The invalid ones. *)
Theorem parse_syntax w text m : ~ syntactically_valid text <->
  parse_kf w text [] m = Outcome None (map syntax_error (messages w text) ++ [ESelf]).
Proof.
  split.
  - intros H. unfold parse_kf. apply parse_tree_none in H. rewrite H. reflexivity.
  - intros E H. apply parse_tree_valid in H as (u & Hu). unfold parse_kf in E. rewrite Hu in E.
    assert (HL : o_listener (parse_kf w text [] m) = map syntax_error (messages w text) ++ [ESelf]) by (unfold parse_kf; rewrite Hu, E; reflexivity).
    unfold parse_kf in HL. rewrite Hu in HL. unfold messages in HL. destruct (w_msgs w text) as [m0 ms]. cbn [map app] in HL.
    destruct (v_unit u) as [s|e|p]; [destruct (validate (w_ext w) s)| |]; cbn in HL; try discriminate; injection HL as _ HL; destruct ms; discriminate.
Qed.
Theorem parse_declaration w text m e : declaration_fault text e -> parse_kf w text [] m = Outcome None [e].
Proof.
  rewrite declaration_fault_tree. intros (u & Hu & Hf). unfold parse_kf. rewrite Hu.
  assert (E : v_unit u = Panic (PErr e)) by (apply v_unit_fault; eauto). rewrite E. reflexivity.
Qed.
Theorem parse_invalid w text m s z : writes text s -> invalid_schema (w_ext w) s z ->
  parse_kf w text [] m = Outcome (Some s) [report_error z].
Proof.
  rewrite writes_tree. intros (u & Hu & Hv) Hi. unfold parse_kf. rewrite Hu, Hv.
  destruct (validate_spec (w_ext w) s) as [_ V2]. apply V2 in Hi. destruct (validate (w_ext w) s), z; cbn in Hi; try contradiction; subst; reflexivity.
Qed.

(** Every call returns an error unless it returns the schema. *)
Lemma result_or_error w text l m : o_listener (parse_kf w text l m) = [] ->
  l = [] /\ exists s, parse_kf w text l m = Outcome (Some s) [].
Proof.
  destruct l as [|e l].
  - intros H. split; [reflexivity|]. destruct (parse_no_error w text m) as [N _]. unfold no_error in N. rewrite H in N.
    destruct (N eq_refl) as (s & Hs). exists s. apply parse_accepts; exact Hs.
  - unfold parse_kf. destruct (parse_tree text); intros H; cbn in H; discriminate.
Qed.

(** Listeners only grow. *)
Lemma listener_grows w text l m : exists r, o_listener (parse_kf w text l m) = l ++ r.
Proof.
  unfold parse_kf. destruct (parse_tree text) as [u|]; [|eexists; reflexivity].
  destruct l as [|e l]; [|eexists; reflexivity]. cbn [app]. eauto.
Qed.
Lemma used_listener w text e l m : exists r, o_listener (parse_kf w text (e :: l) m) = e :: l ++ r /\ r <> [] /\ o_result (parse_kf w text (e :: l) m) = None.
Proof.
  unfold parse_kf. destruct (parse_tree text) as [u|]; cbn.
  - exists [ESelf]. repeat split. discriminate.
  - eexists. split; [reflexivity|]. split; [|reflexivity]. destruct (messages w text); discriminate.
Qed.
Lemma run_grows w calls : forall l, exists r, run w calls l = l ++ r.
Proof.
  induction calls as [|[t m] calls IH]; intros l; cbn [run]; [exists []; symmetry; apply app_nil_r|].
  destruct (listener_grows w t l m) as [r ->]. destruct (IH (l ++ r)) as [r' ->]. exists (r ++ r'). rewrite app_assoc. reflexivity.
Qed.
Lemma run_app w c1 c2 l : run w (c1 ++ c2) l = run w c2 (run w c1 l).
Proof. revert l. induction c1 as [|[t m] c1 IH]; intros l; cbn; auto. Qed.
