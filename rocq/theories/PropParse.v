(** Properties of ParseKF, its listener and its errors: C18, C19, C20, C36. *)
From Verif Require Import Grammar Schema Denote Validator ValidSpec ParseKF ParseSpec ParseProof ParseProof2 Outcomes Sample.

(** C18.  [parse_kf] is total and its result type has no panic: every panic of the visitor or of the imported parsers
    ([act_parse], [sql_parse], [to_sql] may return [Panic]) ends in the listener. *)
Theorem C18_no_error_iff_accepted : forall w text m s, parse_kf w text [] m = Outcome (Some s) [] <-> accepted w text s.
Proof. intros w text m s. apply parse_accepts. Qed.
Print Assumptions C18_no_error_iff_accepted.
Theorem C18_nil_error_means_schema : forall w text l m, o_listener (parse_kf w text l m) = [] ->
  l = [] /\ exists s, parse_kf w text l m = Outcome (Some s) [].
Proof. exact result_or_error. Qed.
Print Assumptions C18_nil_error_means_schema.
Theorem C18_every_outcome : forall w text m,
  (~ syntactically_valid text /\ parse_kf w text [] m = Outcome None (map syntax_error (messages w text) ++ [ESelf]))
  \/ (exists e, misdeclared text e /\ parse_kf w text [] m = Outcome None [e])
  \/ (exists s z, writes text s /\ invalid_schema (w_ext w) s z /\ parse_kf w text [] m = Outcome (Some s) [report_error z])
  \/ (exists s, accepted w text s /\ parse_kf w text [] m = Outcome (Some s) []).
Proof. exact fresh_outcome. Qed.
Print Assumptions C18_every_outcome.
Example C18_case : accepted sample_world sample_text sample_schema. Proof. exact sample_accepted. Qed.
(** A panicking SQL parser. *)
Example C18_panic_case : exists s, parse_kf (World (Externals sample_act (fun _ => Panic (POther (lit "boom"))) (fun _ => Ok Datatypes.tt) (fun p => p)) (fun _ => ([], [])))
  broken_sql [] Default = Outcome (Some s) [ENew (lit "unknown panic : boom")].
Proof. eexists. vm_compute. reflexivity. Qed.

(** C19 *)
Theorem C19_invalid_syntax_iff : forall w text m, foreign_world w ->
  (err_is (o_listener (parse_kf w text [] m)) InvalidSyntax = true <-> ~ syntactically_valid text).
Proof. exact err_is_invalid_syntax. Qed.
Print Assumptions C19_invalid_syntax_iff.
Theorem C19_invalid_syntax_only : forall w text m k, ~ syntactically_valid text ->
  (err_is (o_listener (parse_kf w text [] m)) k = true <-> k = InvalidSyntax).
Proof. exact err_is_syntax_only. Qed.
Print Assumptions C19_invalid_syntax_only.
Theorem C19_misdeclared_has_its_sentinel : forall w text m e, misdeclared text e ->
  exists k, In k [MultiInit; VisibilityAlreadySet; MutabilityAlreadySet; AuxiliaryAlreadySet] /\
    forall k', err_is (o_listener (parse_kf w text [] m)) k' = true <-> k' = k.
Proof. exact err_is_misdeclared. Qed.
Print Assumptions C19_misdeclared_has_its_sentinel.
Theorem C19_invalid_has_its_sentinel : forall w text m s z, foreign_world w -> writes text s -> invalid_schema (w_ext w) s z ->
  (forall k d, z = inl (EWrap (ESent k) d) -> forall k', err_is (o_listener (parse_kf w text [] m)) k' = true <-> k' = k) /\
  ((forall k d, z <> inl (EWrap (ESent k) d)) -> forall k', err_is (o_listener (parse_kf w text [] m)) k' = false).
Proof. exact err_is_invalid. Qed.
Print Assumptions C19_invalid_has_its_sentinel.
(** errors.Is terminates although the list contains itself after a syntax error. *)
Theorem C19_errors_is_ends : forall w calls k, separate_world w ->
  exists fuel, forall n, is_loop (run w calls []) (fuel + n) ESelf k = Some (err_is (run w calls []) k).
Proof. exact errors_is_ends. Qed.
Print Assumptions C19_errors_is_ends.
Example C19_case : foreign_world sample_world /\ separate_world sample_world /\
  err_is (o_listener (parse_kf sample_world two_views [] Default)) MutabilityAlreadySet = true /\
  In ESelf (run sample_world [(no_semicolon, Default)] []).
Proof.
  split; [exact sample_foreign|]. split.
  - intros st. cbn. unfold sample_act, sample_sql. split; [|split; [|exact I]].
    + destruct (mem_str _ _); [exact I|]. repeat (destruct (str_eqb st _); [exact I|]). reflexivity.
    + destruct (str_eqb st _); [reflexivity|exact I].
  - split; vm_compute; [reflexivity|tauto].
Qed.

(** C20 *)
Theorem C20_used_listener_fails : forall w text e l m, exists r,
  o_listener (parse_kf w text (e :: l) m) = e :: l ++ r /\ r <> [] /\ o_result (parse_kf w text (e :: l) m) = None.
Proof. exact used_listener. Qed.
Print Assumptions C20_used_listener_fails.
Theorem C20_histories_only_grow : forall w calls l, exists r, run w calls l = l ++ r.
Proof. exact run_grows. Qed.
Print Assumptions C20_histories_only_grow.
Theorem C20_first_error_stays : forall w c1 c2 e, first_error (Outcome None (run w c1 [])) = Some e ->
  first_error (Outcome None (run w (c1 ++ c2) [])) = Some e.
Proof.
  intros w c1 c2 e H. rewrite run_app. destruct (run_grows w c2 (run w c1 [])) as [r ->]. unfold first_error in *. cbn in *.
  destruct (run w c1 []); [discriminate|exact H].
Qed.
Print Assumptions C20_first_error_stays.
Example C20_case : first_error (Outcome None (run sample_world [(sample_text, Default); (two_inits, Trace); (sample_text, Default)] [])) = Some (ESent MultiInit).
Proof. vm_compute. reflexivity. Qed.

(** C36 *)
Theorem C36_semantic_error_text : forall w text m,
  (forall e, misdeclared text e -> list_text (o_listener (parse_kf w text [] m)) = error_text e) /\
  (forall s z, writes text s -> invalid_schema (w_ext w) s z -> list_text (o_listener (parse_kf w text [] m)) = error_text (report_error z)).
Proof. exact semantic_text. Qed.
Print Assumptions C36_semantic_error_text.
(** The text after a syntax error: the number announced is the number of syntax errors, one more than there are others. *)
Theorem C36_syntax_error_text : forall w text m m0 ms, ~ syntactically_valid text -> messages w text = m0 :: ms ->
  list_text (o_listener (parse_kf w text [] m)) = lit "syntax error: " ++ m0 ++ lit " (with " ++ decimal (S (length ms)) ++ lit "+ errors)".
Proof. exact syntax_text. Qed.
Print Assumptions C36_syntax_error_text.
Theorem C36_number_printed_is_decimal : forall n, digit_value (decimal n) = n /\ Forall (fun c => LexSpec.is_digit c = true) (decimal n) /\ decimal n <> [].
Proof. exact decimal_value. Qed.
Print Assumptions C36_number_printed_is_decimal.
Theorem C36_counts_other_errors_refuted : exists w text, ~ syntactically_valid text /\ length (messages w text) = 1%nat /\
  list_text (o_listener (parse w text)) = lit "syntax error: line 1:0 mismatched input (with 1+ errors)".
Proof.
  exists sample_world, no_semicolon. split; [apply (parse_syntax sample_world no_semicolon Default); vm_compute; reflexivity|].
  split; [reflexivity|vm_compute; reflexivity].
Qed.
Print Assumptions C36_counts_other_errors_refuted.
Example C36_case : list_text (o_listener (parse sample_world two_views)) = lit "action mutability already specified: view".
Proof. vm_compute. reflexivity. Qed.
(** The words of each kind of fault: what the messages say, in words of their own. *)
Definition words_of_kinds : list (sentinel * str) :=
  [(MultiInit, lit "more than one init"); (VisibilityAlreadySet, lit "action visibility already specified"); (MutabilityAlreadySet, lit "action mutability already specified");
   (AuxiliaryAlreadySet, lit "action auxiliary already specified"); (AttributeNotAllow, lit "attribute not allowed"); (DuplicateTable, lit "duplicate table");
   (DuplicateExtension, lit "duplicate extension"); (DuplicateColumn, lit "duplicate column"); (DuplicateAttribute, lit "duplicate attribute"); (DuplicateIndex, lit "duplicate index");
   (DuplicateAction, lit "duplicate action"); (DuplicateParam, lit "duplicate param"); (DupFKAction, lit "duplicate foreign key action"); (DuplicateVariable, lit "duplicate variable");
   (TableNotFound, lit "table not found"); (ColumnNotFound, lit "column not found"); (ActionNotFound, lit "action not found"); (VariableNotFound, lit "variable not found");
   (ExtensionNotFound, lit "extension not found"); (BlockVarNotFound, lit "block variable not found"); (InvalidSyntax, lit "syntax error"); (NotSupportColumnType, lit "not support column type")].
Theorem C36_message_of_each_kind : forall w text m k words, In (k, words) words_of_kinds ->
  (misdeclared text (ESent k) -> list_text (o_listener (parse_kf w text [] m)) = words) /\
  (forall d, misdeclared text (EWrap (ESent k) d) -> list_text (o_listener (parse_kf w text [] m)) = words ++ lit ": " ++ d) /\
  (forall s d, writes text s -> invalid_schema (w_ext w) s (inl (EWrap (ESent k) d)) -> list_text (o_listener (parse_kf w text [] m)) = words ++ lit ": " ++ d).
Proof.
  intros w text m k words H. assert (E : words = error_text (ESent k)).
  { revert H. unfold words_of_kinds. cbn [In]. intros H. repeat (destruct H as [H|H]; [injection H as <- <-; reflexivity|]). destruct H. }
  destruct (semantic_text w text m) as [S1 S2]. rewrite E. split; [intros H'; exact (S1 _ H')|]. split; [intros d H'; exact (S1 _ H')|].
  intros s d Hw Hi. exact (S2 s _ Hw Hi).
Qed.
Print Assumptions C36_message_of_each_kind.
(** Every kind has words, and the message tells the kind: no two kinds give the same message, whatever the names in it. *)
Theorem C36_the_message_tells_the_kind : forall k k' d d',
  (exists words, In (k, words) words_of_kinds) /\ (error_text (EWrap (ESent k) d) = error_text (EWrap (ESent k') d') -> k = k' /\ d = d').
Proof.
  intros k k' d d'. split; [destruct k; eexists; unfold words_of_kinds; cbn [In]; repeat (first [left; reflexivity|right])|].
  cbn [error_text]. intros E. assert (G : sentinel_text k = sentinel_text k').
  { assert (C : forall k, Forall (fun c => c <> 58%N) (sentinel_text k)) by (intros []; repeat (constructor; [discriminate|]); constructor).
    assert (P : forall (a b : str) u v, Forall (fun c => c <> 58%N) a -> Forall (fun c => c <> 58%N) b -> a ++ 58%N :: u = b ++ 58%N :: v -> a = b).
    { induction a as [|x a IH]; intros [|y b] u v Ha Hb Eq; [reflexivity| | |]; cbn in Eq; injection Eq as E1 E2.
      - inversion Hb; congruence.
      - inversion Ha; congruence.
      - subst y. f_equal. inversion Ha; inversion Hb; subst. eapply IH; eassumption. }
    exact (P _ _ (32%N :: d) (32%N :: d') (C k) (C k') E). }
  assert (k = k') as <- by (destruct k, k'; try reflexivity; discriminate G). split; [reflexivity|]. apply app_inv_head in E. apply (app_inv_head (lit ": ")) in E. exact E.
Qed.
Print Assumptions C36_the_message_tells_the_kind.
Example C36_case_words : exists k d, misdeclared two_views (EWrap (ESent k) d) /\ In (k, lit "action mutability already specified") words_of_kinds.
Proof.
  exists MutabilityAlreadySet, (lit "view"). split; [|unfold words_of_kinds; cbn [In]; auto].
  assert (R : parse_kf sample_world two_views [] Default = Outcome None [EWrap (ESent MutabilityAlreadySet) (lit "view")]) by (vm_compute; reflexivity).
  destruct (fresh_outcome sample_world two_views Default) as [[H E]|[(e & H & E)|[(s & z & H1 & H2 & E)|(s & H & E)]]]; rewrite R in E; try discriminate.
  injection E as <-. exact H.
Qed.
