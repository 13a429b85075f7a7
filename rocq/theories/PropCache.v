(** Lexers sharing their DFA, under any schedule: C42.  Also Go strings as inputs of the tables (C39, C41). *)
From Coq Require Import ZArith List Lia.
From Verif Require Import Str LexSpec Lexer Grammar Schema ParseKF ParseSpec ParseBytes Utf8Spec Utf8 Utf8Proof JsonSpec GoJson Sample
  Tree TreeSpec Run RunSpec RunProof Atn AtnLexer ScanSpec AtnLexerProof AtnParser AtnTree LexCache LexCacheProof PropAtn PropTree.

(** Every Go string is read as code points, so the hypothesis [code_points] of C39, C40 and C41 holds for every input. *)
Theorem C39_go_strings_are_code_points : forall input, code_points (runes input).
Proof.
  intros input. unfold code_points. eapply Forall_impl; [|apply runes_scalar]. intros c [H|[_ H]]; [|exact H].
  eapply N.le_trans; [apply N.lt_le_incl; exact H|]. discriminate.
Qed.
Print Assumptions C39_go_strings_are_code_points.
Theorem C41_bytes_to_result : forall w input pt l mode m, tables_gave (runes input) pt ->
  let o := snd (parse_run w (runes input) pt l mode) in
  parse_bytes w input l m = Outcome (option_map (map_schema bytes_of) (o_result o)) (o_listener o).
Proof.
  intros w input pt l mode m H. rewrite (C41_tables_to_result w _ pt l mode m (C39_go_strings_are_code_points input) H). reflexivity.
Qed.
Print Assumptions C41_bytes_to_result.

(** C42.  [boot texts]: the lexers of a process, none of which has started.  [runs lexer_atn k p q]: [k] steps lead from [p] to
    [q], each made by some lexer, whichever. *)
Theorem C42_any_schedule : forall texts k d ths i text t, Forall code_points texts -> runs lexer_atn k (boot texts) (d, ths) ->
  nth_error texts i = Some text -> nth_error ths i = Some t ->
  (exists rest, scanned text (map shown (t_out t) ++ rest)) /\ (finished t -> scanned text (map shown (t_out t))).
Proof.
  intros texts k d ths i text t Hcp R Hi Ht. destruct (schedule_result _ _ _ _ Hcp R) as [_ H].
  destruct (H _ _ _ Hi Ht) as (rest & E & Hf & _).
  pose proof (proj1 (Forall_forall _ _) Hcp _ (nth_error_In _ _ Hi)) as Hs.
  destruct (C39_tables_scan_as_specified text Hs) as (evs & E' & Hsc). rewrite E in E'. injection E' as E'. split.
  - exists (map shown rest). apply Hsc. rewrite <- E', map_app. reflexivity.
  - intros F. rewrite (Hf F), app_nil_r in E'. apply Hsc. rewrite E'. reflexivity.
Qed.
Print Assumptions C42_any_schedule.
(** As if it had run alone with an empty cache *)
Theorem C42_as_if_alone : forall texts k d ths i text t, Forall code_points texts -> runs lexer_atn k (boot texts) (d, ths) ->
  nth_error texts i = Some text -> nth_error ths i = Some t -> finished t -> lexer_events text = Some (t_out t).
Proof.
  intros texts k d ths i text t Hcp R Hi Ht F. destruct (schedule_result _ _ _ _ Hcp R) as [_ H].
  destruct (H _ _ _ Hi Ht) as (rest & E & Hf & _). rewrite (Hf F), app_nil_r in E. exact E.
Qed.
Print Assumptions C42_as_if_alone.
(** A lexer that has not finished can always take a step, whatever the others do; *)
Theorem C42_nobody_is_blocked : forall texts k d ths i t, Forall code_points texts -> runs lexer_atn k (boot texts) (d, ths) ->
  nth_error ths i = Some t -> finished t \/ exists d' t', step lexer_atn d t = Some (d', t') /\ moves lexer_atn (d, ths) (d', upd i t' ths).
Proof.
  intros texts k d ths i t Hcp R Ht. destruct (schedule_result _ _ _ _ Hcp R) as [Hlen H].
  destruct (nth_error texts i) as [text|] eqn:Hi.
  - destruct (H _ _ _ Hi Ht) as (rest & _ & _ & [F|(d' & t' & Hs)]); [left; exact F|right]. exists d', t'. split; [exact Hs|]. econstructor; eauto.
  - apply nth_error_None in Hi. assert (i < length ths)%nat by (apply nth_error_Some; congruence). lia.
Qed.
Print Assumptions C42_nobody_is_blocked.
(** and no schedule goes on for ever. *)
Theorem C42_every_schedule_ends : forall texts, Forall code_points texts -> exists n, forall k q, runs lexer_atn k (boot texts) q -> (k <= n)%nat.
Proof. exact schedule_ends. Qed.
Print Assumptions C42_every_schedule_ends.

(** What the parser's tables make of the events of a lexer. *)
Definition parser_made (evs : list event) (pt : option tree) : Prop :=
  match pt with
  | Some t => exists ts, evs = map (fun t => Token (Z.of_nat (tt_num (ty t))) (if is_layout (ty t) then 1 else 0)%Z (tx t)) ts /\ parser_builds (drop_layout ts) t
  | None => ~ ((forall u, ~ In (Bad u) evs) /\ accepts parser_atn (flat_map (fun e => match e with Token k 0%Z _ => [k] | _ => [] end) evs ++ [-1]%Z))
  end.
(** ParseKF on the inputs of a process: each outcome is that of the input on its own, under any schedule of the lexers. *)
Theorem C42_parses_are_independent : forall w inputs k d ths i input t pt l mode m,
  runs lexer_atn k (boot (map runes inputs)) (d, ths) ->
  nth_error inputs i = Some input -> nth_error ths i = Some t -> finished t -> parser_made (t_out t) pt ->
  let o := snd (parse_run w (runes input) pt l mode) in
  parse_bytes w input l m = Outcome (option_map (map_schema bytes_of) (o_result o)) (o_listener o).
Proof.
  intros w inputs k d ths i input t pt l mode m R Hi Ht F Hp. apply C41_bytes_to_result.
  assert (Hcp : Forall code_points (map runes inputs)).
  { apply Forall_forall. intros x Hx. apply in_map_iff in Hx as (b & <- & _). apply C39_go_strings_are_code_points. }
  assert (Hi' : nth_error (map runes inputs) i = Some (runes input)) by (rewrite nth_error_map, Hi; reflexivity).
  pose proof (C42_as_if_alone _ _ _ _ _ _ _ Hcp R Hi' Ht F) as E. destruct pt as [tr|]; cbn [tables_gave parser_made] in *.
  - destruct Hp as (ts & Ee & Hb). exists ts. rewrite E, Ee. auto.
  - intros (evs & E' & HB & HA). rewrite E in E'. injection E' as <-. apply Hp. auto.
Qed.
Print Assumptions C42_parses_are_independent.

(** Two lexers taking turns over "ab" and "a!", to the end; the second one finds the state the first one has made. *)
Fixpoint take_turns (fuel : nat) (i : nat) (p : dfa * list thread) : nat * (dfa * list thread) :=
  match fuel with
  | O => (O, p)
  | S f =>
    let j := Nat.modulo i (length (snd p)) in
    match nth_error (snd p) j with
    | None => (O, p)
    | Some t => match step lexer_atn (fst p) t with
                | Some (d', t') => let (k, q) := take_turns f (S i) (d', upd j t' (snd p)) in (S k, q)
                | None => take_turns f (S i) p
                end
    end
  end.
Lemma runs_cons k : forall p q r, moves lexer_atn p q -> runs lexer_atn k q r -> runs lexer_atn (S k) p r.
Proof.
  induction k as [|k IH]; intros p q r M R; inversion R; subst.
  - econstructor; [constructor|exact M].
  - econstructor; [eapply IH; eauto|assumption].
Qed.
Lemma take_turns_runs fuel : forall i p, runs lexer_atn (fst (take_turns fuel i p)) p (snd (take_turns fuel i p)).
Proof.
  induction fuel as [|f IH]; intros i [d ths]; cbn [take_turns fst snd]; [constructor|].
  destruct (nth_error ths _) as [t|] eqn:E; [|constructor]. destruct (step lexer_atn d t) as [[d' t']|] eqn:ES; [|apply IH].
  specialize (IH (S i) (d', upd (Nat.modulo i (length ths)) t' ths)). destruct (take_turns f (S i) _) as [k q]. cbn [fst snd] in *.
  eapply runs_cons; [econstructor; eauto|exact IH].
Qed.
Example C42_case : exists k d ths t u, runs lexer_atn k (boot [lit "ab"; lit "a!"]) (d, ths) /\ (8 < k)%nat /\
  nth_error ths 0 = Some t /\ finished t /\ t_out t = [Token 73 0 (lit "ab")] /\
  nth_error ths 1 = Some u /\ finished u /\ t_out u = [Token 73 0 (lit "a"); Bad (lit "!")].
Proof.
  pose proof (take_turns_runs 60 0 (boot [lit "ab"; lit "a!"])) as R. remember (take_turns 60 0 (boot [lit "ab"; lit "a!"])) as z eqn:Ez.
  vm_compute in Ez. subst z. cbn [fst snd] in R.
  eexists _, _, _, _, _. split; [exact R|]. split; [lia|]. split; [reflexivity|]. split; [split; reflexivity|]. split; [reflexivity|].
  split; [reflexivity|]. split; [split; reflexivity|reflexivity].
Qed.
