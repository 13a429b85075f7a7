(** Parsers sharing the DFAs of their decisions, under any schedule: C50. *)
From Coq Require Import ZArith Lia.
From Verif Require Import Str Tokens LexSpec Lexer Grammar Schema ParseKF Sample Tree TreeSpec Run Atn AtnLexer ScanSpec AtnParser AtnParserTable GoParser ParserCode PredictSpec GoParserTable GoParserProof Predict PredictTable PredictProof
  Recovery ParseCache ParseCacheProof Asking AskingProof PropAtn PropTree PropCode PropRecovery.
Local Open Scope Z_scope.

(** Any equality of DFA states at least as fine as that of antlr4-go. *)
Definition finer (same : list config -> list config -> bool) : Prop := forall a b, same a b = true -> configs_eqb a b = true.
(** The calls p.Source_unit() of a process: tokens, and how many statements may be run.  First for the trees, then for the errors. *)
Definition tree_calls (calls : list (nat * list tok)) : list (asking (option (option tree))) := map (fun e => tree_program parser_atn rule_functions (fst e) (snd e)) calls.
Definition report_calls (calls : list (nat * list tok)) : list (asking whole) := map (fun e => report_program parser_atn rule_functions (default_strategy parser_atn) (fst e) (snd e)) calls.

Lemma tree_legit calls : Forall legit (tree_calls calls).
Proof. apply Forall_forall. intros x Hx. apply in_map_iff in Hx as (e & <- & _). apply legit_tree, rule_functions_ask. Qed.
Lemma report_legit calls : Forall legit (report_calls calls).
Proof. apply Forall_forall. intros x Hx. apply in_map_iff in Hx as (e & <- & _). apply legit_report, rule_functions_ask. Qed.

(** C50 *)
(** Whoever asks for predictions (of this parser's decisions): the result is as if it had been alone with empty DFAs, whatever
    the others do and whatever has been cached. *)
Theorem C50_as_if_alone : forall X same (progs : list (asking X)) n c ths i a t x, finer same -> Forall legit progs -> runs same n (boot progs) (c, ths) ->
  nth_error progs i = Some a -> nth_error ths i = Some t -> t_prog t = Ret x -> x = alone a.
Proof.
  intros X same progs n c ths i a t x Hs Hl R Ha Ht Hx. destruct (runs_ok same Hs progs n _ _ (boot_ok progs Hl) R) as ((_ & _ & H) & _). destruct (H i a t Ha Ht) as (_ & E). rewrite Hx in E. exact E.
Qed.
Print Assumptions C50_as_if_alone.
Theorem C50_trees_any_schedule : forall same calls n c ths i f ts t r, finer same -> runs same n (boot (tree_calls calls)) (c, ths) ->
  nth_error calls i = Some (f, ts) -> nth_error ths i = Some t -> t_prog t = Ret (Some r) ->
  match r with Some pt => parse_tree_of ts pt | None => ~ program ts end /\ returns_with adaptive_predict ts r.
Proof.
  intros same calls n c ths i f ts t r Hs R Hi Ht Hr. assert (H : returns_with adaptive_predict ts r).
  { exists f. rewrite <- alone_tree. symmetry. eapply C50_as_if_alone; [exact Hs|apply tree_legit|exact R| |exact Ht|exact Hr]. unfold tree_calls. rewrite nth_error_map, Hi. reflexivity. }
  split; [|exact H]. destruct r as [pt|]; [apply C45_trees_follow_the_grammar; exact H|apply C45_error_iff_not_a_program; exact H].
Qed.
Print Assumptions C50_trees_any_schedule.
Theorem C50_errors_any_schedule : forall same calls n c ths i f ts t w, finer same -> runs same n (boot (report_calls calls)) (c, ths) ->
  nth_error calls i = Some (f, ts) -> nth_error ths i = Some t -> t_prog t = Ret w -> w <> Unended -> gives (default_strategy parser_atn) ts w.
Proof.
  intros same calls n c ths i f ts t w Hs R Hi Ht Hr Hw. split; [exact Hw|]. exists f. rewrite <- alone_report. symmetry. eapply C50_as_if_alone; [exact Hs|apply report_legit|exact R| |exact Ht|exact Hr]. unfold report_calls. rewrite nth_error_map, Hi. reflexivity.
Qed.
Print Assumptions C50_errors_any_schedule.
(** Allowed enough statements, the calls that come to an end have a result, always the same. *)
Theorem C50_enough_statements : forall ts, exists f0 r, forall same calls n c ths i f t x, finer same -> runs same n (boot (tree_calls calls)) (c, ths) ->
  nth_error calls i = Some (f, ts) -> (f0 <= f)%nat -> nth_error ths i = Some t -> t_prog t = Ret x -> x = Some r.
Proof.
  intros ts. destruct (C45_the_call_ends ts) as (r & Hr). apply returns_run in Hr as (f0 & Hf). exists f0, r. intros same calls n c ths i f t x Hs R Hi L Ht Hx.
  rewrite <- (Hf f L), <- alone_tree. eapply C50_as_if_alone; [exact Hs|apply tree_legit|exact R| |exact Ht|exact Hx]. unfold tree_calls. rewrite nth_error_map, Hi. reflexivity.
Qed.
Print Assumptions C50_enough_statements.
(** A call that has not finished can always take a step, whatever the others do; *)
Theorem C50_nobody_is_blocked : forall X same (progs : list (asking X)) n c ths i t, finer same -> Forall legit progs -> runs same n (boot progs) (c, ths) -> nth_error ths i = Some t ->
  (exists x, t_prog t = Ret x) \/ exists c' t', step same c t = Some (c', t') /\ moves same (c, ths) (c', upd i t' ths).
Proof.
  intros X same progs n c ths i t Hs Hl R Ht. destruct (runs_ok same Hs progs n _ _ (boot_ok progs Hl) R) as ((Hc & Hlen & H) & _). cbn [fst snd] in *.
  destruct (nth_error progs i) as [a|] eqn:Ha; [|apply nth_error_None in Ha; assert (i < length ths)%nat by (apply nth_error_Some; congruence); lia].
  destruct (H i a t Ha Ht) as (Hok & _). pose proof (step_ok same Hs c t Hc Hok) as G. destruct (step same c t) as [(c', t')|] eqn:E; [right; exists c', t'; split; [reflexivity|]; econstructor; eassumption|left; exact G].
Qed.
Print Assumptions C50_nobody_is_blocked.
(** and no schedule goes on for ever. *)
Theorem C50_every_schedule_ends : forall X (progs : list (asking X)), Forall legit progs -> exists m, forall same n q, finer same -> runs same n (boot progs) q -> (n <= m)%nat.
Proof. intros X progs Hl. exists (total (snd (boot progs))). intros same n q Hs R. destruct (runs_ok same Hs progs n _ _ (boot_ok progs Hl) R) as (_ & L). lia. Qed.
Print Assumptions C50_every_schedule_ends.
(** The calls of the parser are such askers. *)
Theorem C50_parsers_ask_legitimately : forall calls, Forall legit (tree_calls calls) /\ Forall legit (report_calls calls).
Proof. intros calls. split; [apply tree_legit|apply report_legit]. Qed.
Print Assumptions C50_parsers_ask_legitimately.
(** ParseKF: the outcome does not depend on what other calls, earlier ones or simultaneous ones, left in the DFAs. *)
Theorem C50_parses_are_independent : forall w text ts same calls n c ths i f t pt l mode m, code_points text -> tokens_of text ts -> finer same -> runs same n (boot (tree_calls calls)) (c, ths) ->
  nth_error calls i = Some (f, drop_layout ts) -> nth_error ths i = Some t -> t_prog t = Ret (Some pt) ->
  snd (parse_run w text pt l mode) = parse_kf w text l m.
Proof.
  intros w text ts same calls n c ths i f t pt l mode m Hcp Hts Hs R Hi Ht Hr. apply C45_code_to_result; [exact Hcp|]. left. exists ts. split; [apply C39_tables_give_the_tokens; assumption|].
  eapply C50_trees_any_schedule; eassumption.
Qed.
Print Assumptions C50_parses_are_independent.

(** Two parsers taking turns; the edges of decisions 7 and 10 are made once and found by the other. *)
Fixpoint take_turns {X} (same : list config -> list config -> bool) (fuel : nat) (i : nat) (p : caches * list (thread X)) : nat * (caches * list (thread X)) :=
  match fuel with
  | O => (O, p)
  | S f =>
    let j := Nat.modulo i (length (snd p)) in
    match nth_error (snd p) j with
    | None => (O, p)
    | Some t => match step same (fst p) t with
                | Some (c', t') => let (k, q) := take_turns same f (S i) (c', upd j t' (snd p)) in (S k, q)
                | None => take_turns same f (S i) p
                end
    end
  end.
Lemma runs_cons {X} same k : forall (p q r : caches * list (thread X)), moves same p q -> runs same k q r -> runs same (S k) p r.
Proof.
  induction k as [|k IH]; intros p q r M R; inversion R; subst.
  - econstructor; [constructor|exact M].
  - econstructor; [eapply IH; eauto|assumption].
Qed.
Lemma take_turns_runs {X} same fuel : forall i (p : caches * list (thread X)), runs same (fst (take_turns same fuel i p)) p (snd (take_turns same fuel i p)).
Proof.
  induction fuel as [|f IH]; intros i [d ths]; cbn [take_turns fst snd]; [constructor|].
  destruct (nth_error ths _) as [t|] eqn:E; [|constructor]. destruct (step same d t) as [[d' t']|] eqn:ES; [|apply IH].
  specialize (IH (S i) (d', upd (Nat.modulo i (length ths)) t' ths)). destruct (take_turns same f (S i) _) as [k q]. cbn [fst snd] in *.
  eapply runs_cons; [econstructor; eauto|exact IH].
Qed.
Definition sample_calls : list (nat * list tok) := [(300%nat, tokens_in (lit "database a; table t { id int, name text }")); (300%nat, tokens_in (lit "database a; table t { id int, ; }"))].
Definition results {X} (q : caches * list (thread X)) : list (option X) := map (fun t => match t_prog t with Ret x => Some x | _ => None end) (snd q).
Example C50_case : finer configs_eqb /\ exists n q, runs configs_eqb n (boot (report_calls sample_calls)) q /\ (8 < n)%nat /\
  results q = [Some (Ended []); Some (Ended [Report NoViableAlt 2 (Since 3)])].
Proof.
  split; [intros a b H; exact H|]. exists (fst (take_turns configs_eqb 60 0 (boot (report_calls sample_calls)))), (snd (take_turns configs_eqb 60 0 (boot (report_calls sample_calls)))).
  split; [apply take_turns_runs|]. vm_compute. split; [lia|reflexivity].
Qed.
