(** Consequences for the outcome of ParseKF, in the form in which the properties are stated. *)
From Verif Require Import LexSpec LexShape LexerProof Grammar Cst ParserProof ParserGrammar Schema Denote FaultSpec DenoteProof Visitor
  Validator ValidSpec ValidProof ValidProof3 ParseKF ParseSpec ParseProof NameSpec Segments ParseProof2.

(** The four outcomes of a call with a fresh listener exclude each other and are exhaustive. *)
Theorem fresh_outcome w text m :
  (~ syntactically_valid text /\ parse_kf w text [] m = Outcome None (map syntax_error (messages w text) ++ [ESelf]))
  \/ (exists e, misdeclared text e /\ parse_kf w text [] m = Outcome None [e])
  \/ (exists s z, writes text s /\ invalid_schema (w_ext w) s z /\ parse_kf w text [] m = Outcome (Some s) [report_error z])
  \/ (exists s, accepted w text s /\ parse_kf w text [] m = Outcome (Some s) []).
Proof.
  destruct (fresh_cases w text m) as [H|[(e & H & E)|H]]; [left; exact H| |right; right; exact H].
  right; left. exists e. split; [apply misdeclared_fault; exact H|exact E].
Qed.
Theorem misdeclared_outcome w text m e : misdeclared text e -> parse_kf w text [] m = Outcome None [e].
Proof. intros H. apply parse_declaration, misdeclared_fault, H. Qed.
Theorem misdeclared_or_writes text : syntactically_valid text -> (exists s, writes text s) \/ (exists e, misdeclared text e).
Proof.
  intros H. pose (w := World (Externals (fun _ => Ok OtherStmt) (fun _ => Ok Datatypes.tt) (fun _ => Ok Datatypes.tt) (fun s => s)) (fun _ => ([], []))).
  destruct (fresh_outcome w text Default) as [[H' _]|[(e & He & _)|[(s & z & Hs & _)|(s & Hs & _)]]]; [contradiction|eauto| |].
  - left; eauto.
  - left. exists s. apply Hs.
Qed.

(** errors.Is on what a call returns. *)
Lemma chain_syntax msg k : chain_is (syntax_error msg) k = true <-> k = InvalidSyntax.
Proof. unfold syntax_error. rewrite chain_wrap. split; congruence. Qed.
Theorem err_is_invalid_syntax w text m : foreign_world w ->
  (err_is (o_listener (parse_kf w text [] m)) InvalidSyntax = true <-> ~ syntactically_valid text).
Proof.
  intros HF. destruct (fresh_outcome w text m) as [[H ->]|[(e & H & ->)|[(s & z & H1 & H2 & ->)|(s & H & ->)]]].
  - split; [intros _; exact H|]. intros _. unfold messages. destruct (w_msgs w text) as [m0 ms]. cbn [o_listener map app err_is].
    apply chain_syntax. reflexivity.
  - split; [|intros Hn; destruct Hn; destruct H as (ts & Ht & Hp & _); exists ts; auto]. cbn [o_listener err_is]. intros HC. exfalso.
    apply misdeclared_fault in H as (ts & u & _ & _ & _ & Hf). apply unit_fault_kind in Hf as (k & Hk & Hf).
    destruct Hf as [->|(d & ->)]; [cbn in HC; apply sentinel_eqb_eq in HC; subst k|apply chain_wrap in HC; subst k];
      cbn in Hk; intuition discriminate.
  - split; [|intros Hn; destruct Hn; eapply writes_valid; exact H1]. cbn [o_listener err_is]. intros HC. exfalso.
    apply report_kinds in H2 as [(k & d & -> & Hk)|Hi].
    + cbn in HC. apply sentinel_eqb_eq in HC. contradiction.
    + apply (imported_foreign w) in Hi; [|exact HF]. rewrite (Hi InvalidSyntax) in HC. discriminate.
  - split; [discriminate|]. intros Hn. destruct Hn. destruct H as [H _]. eapply writes_valid; exact H.
Qed.
Theorem err_is_syntax_only w text m k : ~ syntactically_valid text ->
  (err_is (o_listener (parse_kf w text [] m)) k = true <-> k = InvalidSyntax).
Proof.
  intros H. apply (parse_syntax w text m) in H. rewrite H. unfold messages. destruct (w_msgs w text) as [m0 ms]. apply chain_syntax.
Qed.
Theorem err_is_misdeclared w text m e : misdeclared text e ->
  exists k, In k [MultiInit; VisibilityAlreadySet; MutabilityAlreadySet; AuxiliaryAlreadySet] /\
    forall k', err_is (o_listener (parse_kf w text [] m)) k' = true <-> k' = k.
Proof.
  intros H. rewrite (misdeclared_outcome _ _ _ _ H). apply misdeclared_fault in H as (ts & u & _ & _ & _ & Hf).
  apply unit_fault_kind in Hf as (k & Hk & Hf). exists k. split; [exact Hk|]. intros k'. cbn [o_listener err_is].
  destruct Hf as [->|(d & ->)]; [cbn; rewrite sentinel_eqb_eq|rewrite chain_wrap]; split; congruence.
Qed.
Theorem err_is_invalid w text m s z : foreign_world w -> writes text s -> invalid_schema (w_ext w) s z ->
  (forall k d, z = inl (EWrap (ESent k) d) -> forall k', err_is (o_listener (parse_kf w text [] m)) k' = true <-> k' = k) /\
  ((forall k d, z <> inl (EWrap (ESent k) d)) -> forall k', err_is (o_listener (parse_kf w text [] m)) k' = false).
Proof.
  intros HF H1 H2. rewrite (parse_invalid _ _ _ _ _ H1 H2). cbn [o_listener err_is]. split.
  - intros k d -> k'. cbn. rewrite sentinel_eqb_eq. split; congruence.
  - intros Hz k'. apply report_kinds in H2 as [(k & d & -> & _)|Hi]; [destruct (Hz k d); reflexivity|].
    apply (imported_foreign w) in Hi; [|exact HF]. apply Hi.
Qed.

(** ** The loop of errors.Is, with the list in itself followed *)
(** One round: compare, then unwrap; ESelf is the list, which unwraps to its first element. *)
Fixpoint is_loop (l : listener) (fuel : nat) (e : gerr) (k : sentinel) : option bool :=
  match fuel with
  | O => None
  | S f =>
    match e with
    | ESent k' => Some (sentinel_eqb k' k)
    | EWrap e' _ => is_loop l f e' k
    | ENew _ => Some false
    | ESelf => match l with [] => Some false | e' :: _ => is_loop l f e' k end
    end
  end.
Fixpoint no_self (e : gerr) : bool := match e with ESent _ | ENew _ => true | EWrap e _ => no_self e | ESelf => false end.
Fixpoint esize (e : gerr) : nat := match e with EWrap e _ => S (esize e) | _ => 1 end.
Lemma loop_stops l e k : no_self e = true -> forall n, is_loop l (esize e + n) e k = Some (chain_is e k).
Proof. induction e; intros H n; cbn in *; try reflexivity; try discriminate. apply IHe; exact H. Qed.
(** The imported parsers know nothing of this list. *)
Definition own_errors {A} (r : res A) : Prop := match r with Err e | Panic (PErr e) => no_self e = true | _ => True end.
Definition separate_world (w : world) : Prop :=
  forall st, own_errors (act_parse (w_ext w) st) /\ own_errors (sql_parse (w_ext w) st) /\ own_errors (to_sql (w_ext w) st).
Lemma report_no_self w s z : separate_world w -> invalid_schema (w_ext w) s z -> no_self (report_error z) = true.
Proof.
  intros HS H. apply report_kinds in H as [(k & d & -> & _)|(st & H)]; [reflexivity|]. destruct (HS st) as (F1 & F2 & F3).
  assert (G : forall {A} (r : res A), own_errors r -> passes_on r st z -> no_self (report_error z) = true).
  { intros A r Hr Hp. destruct r as [a|e|p]; cbn in Hp; [destruct Hp|subst z; exact Hr|subst z]. destruct p; cbn in *; auto. }
  destruct H as [H|[H|H]]; [apply (G _ _ F1 H)|apply (G _ _ F2 H)|apply (G _ _ F3 H)].
Qed.
Lemma first_no_self w text m e r : separate_world w -> o_listener (parse_kf w text [] m) = e :: r -> no_self e = true.
Proof.
  intros HS. destruct (fresh_outcome w text m) as [[H ->]|[(e' & H & ->)|[(s & z & H1 & H2 & ->)|(s & H & ->)]]]; cbn [o_listener].
  - unfold messages. destruct (w_msgs w text) as [m0 ms]. cbn. intros E. injection E as <- _. reflexivity.
  - intros E. injection E as <- _. apply misdeclared_fault in H as (ts & u & _ & _ & _ & Hf). apply unit_fault_kind in Hf as (k & _ & [->|(d & ->)]); reflexivity.
  - intros E. injection E as <- _. eapply report_no_self; eassumption.
  - discriminate.
Qed.
Theorem history_first w calls : separate_world w -> forall l, (forall e r, l = e :: r -> no_self e = true) ->
  forall e r, run w calls l = e :: r -> no_self e = true.
Proof.
  intros HS. induction calls as [|[t m] calls IH]; intros l Hl e r H; [exact (Hl e r H)|]. cbn [run] in H. eapply IH; [|exact H].
  intros e' r' E. destruct l as [|e0 l]; [eapply first_no_self; eassumption|].
  destruct (listener_grows w t (e0 :: l) m) as [q Eq]. rewrite Eq in E. injection E as <- _. eapply Hl; reflexivity.
Qed.
(** errors.Is ends on the listener after any history, with the answer [err_is]. *)
Theorem errors_is_ends w calls k : separate_world w -> exists fuel, forall n, is_loop (run w calls []) (fuel + n) ESelf k = Some (err_is (run w calls []) k).
Proof.
  intros HS. destruct (run w calls []) as [|e r] eqn:E; [exists 1%nat; reflexivity|]. exists (S (esize e)). intros n. cbn. apply loop_stops.
  eapply (history_first w calls HS []); [intros; discriminate|exact E].
Qed.

(** ** Accepted texts *)
Theorem accepted_names w text m s : parse_kf w text [] m = Outcome (Some s) [] ->
  good_name (sc_name s) /\ Forall good_extension (elems (sc_exts s)) /\ Forall good_table (elems (sc_tables s)) /\
  (exists ac ini, elems (sc_actions s) = ac ++ ini /\ (length ini <= 1)%nat /\ Forall good_action ac /\ Forall init_block ini).
Proof.
  intros H. apply parse_accepts in H as [(ts & Ht & HD) _]. eapply denotes_good; [exact HD|]. eapply lexed_visible; exact Ht.
Qed.
(** Any schema returned, valid or not, is what the text writes. *)
Theorem result_writes w text m s l : parse_kf w text [] m = Outcome (Some s) l -> writes text s.
Proof.
  destruct (fresh_outcome w text m) as [[H ->]|[(e & H & ->)|[(s' & z & H1 & H2 & ->)|(s' & H & ->)]]]; intros E; try discriminate; injection E as <- _.
  - exact H1.
  - apply H.
Qed.
Theorem writes_result w text m s : writes text s -> o_result (parse_kf w text [] m) = Some s.
Proof.
  intros H. destruct (valid_or_invalid (w_ext w) s) as [Hv|(z & Hz)].
  - assert (E : accepted w text s) by (split; assumption). apply (parse_accepts w text m) in E. rewrite E. reflexivity.
  - rewrite (parse_invalid _ _ m _ _ H Hz). reflexivity.
Qed.

(** ** init *)
Theorem ninit_writes text ts s : tokens_of text ts -> denotes (drop_layout ts) s -> (ninit (drop_layout ts) <= 1)%nat /\
  exists ac, Forall good_action ac /\
    ((ninit (drop_layout ts) = 0%nat /\ elems (sc_actions s) = ac) \/
     (ninit (drop_layout ts) = 1%nat /\ exists i, init_block i /\ elems (sc_actions s) = ac ++ [i])).
Proof.
  intros Ht HD. pose proof (visible_shaped _ _ Ht) as HS. assert (HL := lexed_visible _ _ Ht).
  destruct (denotes_good _ _ HD HL) as (_ & _ & _ & _). apply v_unit_denotes in HD as (u & E & Hv & Hw); [|exact HS].
  assert (HD : denotes (drop_layout ts) s) by (apply v_unit_denotes; eauto).
  rewrite E, (ninit_unit u Hw).
  assert (Hac : forall is_, inits (cu_decls u) = is_ -> (length is_ <= 1)%nat -> exists acts, mapM v_action (actions (cu_decls u)) = Ok acts /\
     elems (sc_actions s) = acts ++ v_inits is_).
  { intros is_ Ei Hl. unfold v_unit in Hv. rewrite Ei in Hv. destruct is_ as [|i [|j is_]]; cbn in Hl; [| |lia];
      (destruct (mapM v_action (actions (cu_decls u))) as [acts|e|p]; cbn in Hv; try discriminate; injection Hv as <-; exists acts;
       split; [reflexivity|]; cbn [sc_actions v_inits map fst snd]).
    - rewrite app_nil_r. destruct acts; reflexivity.
    - destruct acts; reflexivity. }
  assert (Hn : (length (inits (cu_decls u)) <= 1)%nat).
  { unfold v_unit in Hv. destruct (inits (cu_decls u)) as [|i [|j is_]]; cbn; try lia. discriminate. }
  split; [exact Hn|]. destruct (Hac _ eq_refl Hn) as (acts & Em & Ea).
  assert (Hg : Forall good_action acts).
  { apply mapM_ok in Em. apply Forall_forall. intros a Ha.
    assert (Hin : exists c, In c (actions (cu_decls u)) /\ v_action c = Ok a).
    { clear -Em Ha. induction Em as [|c a' cs as_ Hc Hcs IH]; [destruct Ha|]. destruct Ha as [->|Ha]; [exists c; split; [left; reflexivity|exact Hc]|].
      destruct (IH Ha) as (c' & Hc' & E). exists c'. split; [right; exact Hc'|exact E]. }
    destruct Hin as (c & Hc & Hva).
    assert (Hpart : part (y_action c) (y_unit u) /\ wf_action c).
    { assert (Hdd : In (DAction c) (cu_decls u)).
      { clear -Hc. induction (cu_decls u) as [|d ds IH]; [destruct Hc|]. destruct d as [t|a|q qs]; cbn in Hc; [right; auto|destruct Hc as [->|Hc]; [left; reflexivity|right; auto]|right; auto]. }
      split; [|unfold wf_unit in Hw; rewrite Forall_forall in Hw; exact (Hw _ Hdd)].
      apply in_split in Hdd as (d1 & d2 & Ed). unfold y_unit. rewrite Ed. do 4 apply part_r.
      exists (many y_decl d1), (many y_decl d2). unfold many. rewrite map_app, concat_app. reflexivity. }
    destruct Hpart as [Hp Hwc]. rewrite <- E in Hp. eapply action_good; [|eapply lexed_part; eassumption].
    apply k_action; [unfold shaped in *; rewrite Forall_forall in *; intros t Ht'; apply HS; eapply in_part; eassumption|]. exists c. auto. }
  exists acts. split; [exact Hg|]. destruct (inits (cu_decls u)) as [|i [|j is_]]; cbn in Hn; [left|right|lia].
  - split; [reflexivity|]. rewrite Ea. apply app_nil_r.
  - split; [reflexivity|]. exists (v_init (fst i) (snd i)). split; [|exact Ea]. exists (map v_stmt (fst i :: snd i)). split; [discriminate|reflexivity].
Qed.
Lemma init_reserved : In (lit "init") reserved. Proof. cbn. tauto. Qed.
Theorem only_init a : good_action a -> ac_name a <> lit "init".
Proof. intros ((_ & H & _) & _) E. apply H. rewrite E. exact init_reserved. Qed.

(** ** Layout *)
Theorem same_visible w t1 t2 m ts1 ts2 : tokens_of t1 ts1 -> tokens_of t2 ts2 -> drop_layout ts1 = drop_layout ts2 ->
  o_result (parse_kf w t1 [] m) = o_result (parse_kf w t2 [] m) /\
  (syntactically_valid t1 <-> syntactically_valid t2) /\
  (syntactically_valid t1 -> parse_kf w t1 [] m = parse_kf w t2 [] m).
Proof.
  intros H1 H2 E. assert (Ep : parse_tree t1 = parse_tree t2).
  { unfold parse_tree. assert (E1 : tokenize t1 = Some (drop_layout ts1)) by (apply tokenize_spec; eauto).
    assert (E2 : tokenize t2 = Some (drop_layout ts2)) by (apply tokenize_spec; eauto). rewrite E1, E2, E. reflexivity. }
  split; [|split].
  - unfold parse_kf. rewrite Ep. destruct (parse_tree t2); reflexivity.
  - rewrite <- !parse_tree_valid, Ep. tauto.
  - intros Hv. apply parse_tree_valid in Hv as (u & Hu). unfold parse_kf. rewrite <- Ep, Hu. reflexivity.
Qed.

(** ** Statements *)
Theorem statements_vetted w text m s a st : parse_kf w text [] m = Outcome (Some s) [] -> In a (elems (sc_actions s)) -> In st (elems (ac_stmts a)) ->
  act_parse (w_ext w) st = Ok Dml -> sql_parse (w_ext w) st = Ok Datatypes.tt /\ to_sql (w_ext w) st = Ok Datatypes.tt.
Proof.
  intros H Ha Hst HD. apply parse_accepts in H as [_ HV]. apply in_split in Hst as (pre & post & E).
  pose proof (vs_bodies _ _ HV a Ha pre st post E) as Hs. unfold stmt_ok in Hs. rewrite HD in Hs. exact Hs.
Qed.
(** A statement is the text of an SQL statement, verbatim, or the characters of a call without layout. *)
Theorem statements_text w text m s l a st : parse_kf w text [] m = Outcome (Some s) l -> In a (elems (sc_actions s)) -> In st (elems (ac_stmts a)) ->
  exists ts, tokens_of text ts /\
  ((exists q, part [Tok SQL_STMT q; fixed SCOL] (drop_layout ts) /\ st = q ++ lit ";" /\ Forall (fun c => c <> 59%N /\ c <> 125%N) q /\
     exists x y, text = x ++ st ++ y)
   \/ (exists seg, part seg (drop_layout ts) /\ derives (R call_stmt) seg /\ st = chars seg)).
Proof.
  intros H Ha Hst. apply result_writes in H as (ts & Ht & HD). exists ts. split; [exact Ht|].
  destruct (statements_parts _ _ _ _ HD Ha Hst) as (seg & Hp & Hw). inversion Hw as [q|sg Hd]; subst.
  - left. exists q. split; [exact Hp|]. split; [reflexivity|]. destruct (sql_verbatim text ts q Ht Hp) as (x & y & E & Hq). split; [exact Hq|].
    exists x, y. rewrite E. rewrite <- app_assoc. reflexivity.
  - right. exists seg. auto.
Qed.

(** ** Error texts *)
Theorem semantic_text w text m :
  (forall e, misdeclared text e -> list_text (o_listener (parse_kf w text [] m)) = error_text e) /\
  (forall s z, writes text s -> invalid_schema (w_ext w) s z -> list_text (o_listener (parse_kf w text [] m)) = error_text (report_error z)).
Proof.
  split.
  - intros e H. rewrite (misdeclared_outcome _ _ _ _ H). reflexivity.
  - intros s z H1 H2. rewrite (parse_invalid _ _ _ _ _ H1 H2). reflexivity.
Qed.
Theorem syntax_text w text m m0 ms : ~ syntactically_valid text -> messages w text = m0 :: ms ->
  list_text (o_listener (parse_kf w text [] m)) = lit "syntax error: " ++ m0 ++ lit " (with " ++ decimal (S (length ms)) ++ lit "+ errors)".
Proof.
  intros H Em. apply (parse_syntax w text m) in H. rewrite H, Em. cbn [o_listener map app].
  assert (E : forall a r, r <> [] -> list_text (a :: r) = error_text a ++ lit " (with " ++ decimal (length r) ++ lit "+ errors)") by (intros a [|b r] Hr; [congruence|reflexivity]).
  rewrite E by (destruct ms; discriminate). rewrite app_length, map_length. cbn [length]. rewrite Nat.add_1_r. cbn [error_text syntax_error wrap]. unfold syntax_error, wrap. cbn [error_text].
  rewrite <- !app_assoc. reflexivity.
Qed.
