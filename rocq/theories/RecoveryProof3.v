(** Runs of Source_unit with error recovery: they end without a panic, what they report, and how much. *)
From Coq Require Import ZArith Lia.
From Verif Require Import Str Tokens Grammar Tree AtnData Atn AtnParser AtnParserTable AtnParserProof GoParser ParserCode PredictSpec GoParserTable GoParserProof Predict PredictTable PredictProof
  Recovery RecoveryTable RecoveryProof RecoveryCheck RecoveryProof2.
Local Open Scope Z_scope.

(** *** No panic *)
Section Panics.
Variable A : atn.
Definition calls (k : stack) : Prop := Forall (fun e => follow_state A (fst e) <> None) k.
Lemma expected_some k : calls k -> forall l, expected_around A k l <> None.
Proof.
  induction 1 as [|(n, p) k Hn Hk IH]; intros l; cbn [expected_around]; destruct (zmem (-2) l); try discriminate. cbn [fst] in Hn. destruct (follow_state A n) as [q|]; [|congruence].
  specialize (IH (next_tokens A q)). destruct (expected_around A k (next_tokens A q)); [discriminate|congruence].
Qed.
Lemma returns_some k : calls k -> returns_of A k <> None.
Proof.
  induction 1 as [|(n, p) k Hn Hk IH]; cbn [returns_of]; [discriminate|]. cbn [fst] in Hn. destruct (follow_state A n) as [q|]; [|congruence]. destruct (returns_of A k); [discriminate|congruence].
Qed.
Lemma recovery_some k : calls k -> recovery_set A k <> None.
Proof. intros H. apply returns_some in H. unfold recovery_set. destruct (returns_of A k); [discriminate|congruence]. Qed.
Lemma insertion_some k n : calls k -> n_trans (node_at A n) <> [] -> insertion_set A k n <> None.
Proof.
  intros H Hn. apply returns_some in H. unfold insertion_set, next_tokens_in. destruct (n_trans (node_at A n)); [congruence|]. destruct (returns_of A k); [discriminate|congruence].
Qed.
End Panics.
Section NoPanic.
Variable P : predictor.
Variable P_at : forall (d p : Z) (input : list Z), nat.
Local Notation A := parser_atn.
Local Notation D := (default_strategy A).
Local Notation rexec := (rexec A rule_functions P P_at D).
Local Notation rstmt := (rstmt A rule_functions P P_at D).
Local Notation Every := (Every (call_ok A) true).
Lemma delete_some k s : calls A k -> delete_one D k s <> None.
Proof. intros H. unfold delete_one. cbn [expected default_strategy]. pose proof (expected_some A k H (next_tokens A (cur s))). destruct (expected_around A k _); [discriminate|congruence]. Qed.
Lemma exit_some k s : calls A k -> error_exit D k s <> None.
Proof.
  intros H. unfold error_exit. destruct (err s); [|discriminate]. unfold recover. cbn [recovery default_strategy]. pose proof (recovery_some A k H). destruct (recovery_set A k); [discriminate|congruence].
Qed.
Lemma inline_some k s : calls A k -> n_trans (node_at A (cur s)) <> [] -> recover_inline D k s <> Panic.
Proof.
  intros H Hn. unfold recover_inline. pose proof (delete_some k s H). destruct (delete_one D k s) as [[o|]|]; [discriminate| |congruence]. cbn [insertion default_strategy].
  pose proof (insertion_some A k (cur s) H Hn). destruct (insertion_set A k (cur s)); [discriminate|congruence].
Qed.
Lemma seq_panic r g : r <> Panic -> (forall s, g s <> Panic) -> seq_out r g <> Panic.
Proof. destruct r; cbn; auto. Qed.
Lemma check_panic s : check s <> Panic. Proof. unfold check. destruct (err s); discriminate. Qed.
Lemma no_panic : forall f k p b c s, Every b c -> calls A k -> rexec f k p c s <> Panic.
Proof.
  induction f as [|f IH]; intros k p b c s Hc Hk; [discriminate|]. destruct c as [|x c]; [discriminate|]. rewrite rexec_cons. pose proof (every_cons _ _ _ _ _ Hc) as (Hc' & Hx).
  apply seq_panic; [|intros s1; eapply IH; eassumption].
  destruct x as [n t|n c0|n r j|n|c0 b0|c0 b0|c0 b0|cases e|d cases|d e b0 r|n j]; cbn [RecoveryProof.rstmt]; cbv zeta.
  - apply seq_panic; [|apply check_panic]. destruct (_ =? t); [discriminate|]. apply inline_some; [exact Hk|]. cbn [call_ok] in Hx. change (cur (set_state n s)) with n. destruct (n_trans (node_at A n)); [discriminate Hx|discriminate].
  - destruct (holds c0 _); [discriminate|]. apply inline_some; [exact Hk|]. cbn [call_ok] in Hx. change (cur (set_state n s)) with n. destruct (n_trans (node_at A n)); [discriminate Hx|discriminate].
  - cbn [call_ok] in Hx. rewrite !andb_true_iff in Hx. destruct Hx as ((Hx & Hr1) & Hr2). destruct (nth_error rule_functions (Z.to_nat r)) as [(start, body)|] eqn:Ef.
    2: { apply nth_error_None in Ef. change (length rule_functions) with 51%nat in Ef. lia. }
    assert (Hk' : calls A ((n, p) :: k)). { constructor; [|exact Hk]. cbn [fst]. unfold follow_state. destruct (n_trans (node_at A n)) as [|[] ?]; try discriminate Hx. discriminate. }
    pose proof (IH ((n, p) :: k) j false body (set_state start (set_state n s)) (fun_all _ _ _ Ef) Hk') as G.
    destruct (rexec f ((n, p) :: k) j body _) as [s1|s1| |]; cbn [leave]; try discriminate; try congruence; pose proof (exit_some ((n, p) :: k) s1 Hk') as E; destruct (error_exit D ((n, p) :: k) s1); congruence.
  - apply seq_panic; [|apply check_panic]. unfold sync. destruct (_ || _); [discriminate|]. destruct (zmem _ _).
    + pose proof (delete_some k (set_state n s) Hk). destruct (delete_one D k _) as [[o|]|]; congruence.
    + cbn [expected recovery default_strategy]. pose proof (expected_some A k Hk (next_tokens A (cur (set_state n s)))). pose proof (recovery_some A k Hk).
      destruct (expected_around A k _); [|congruence]. destruct (recovery_set A k); congruence.
  - destruct (holds c0 (la1 s)); [eapply IH; eassumption|discriminate].
  - destruct (holds c0 (la1 s)); [|discriminate]. apply seq_panic; [eapply IH; eassumption|]. intros s1. apply (IH k p false); [eapply every_again; [exact I|exact Hc]|exact Hk].
  - apply seq_panic; [eapply IH; eassumption|]. intros s1. destruct (holds c0 (la1 s1)); [|discriminate]. apply (IH k p false); [eapply every_again; [exact I|exact Hc]|exact Hk].
  - destruct (case_of (la1 s) cases) as [b0|] eqn:Ec; [eapply IH; [eapply Hx; exact Ec|exact Hk]|]. destruct e; discriminate.
  - destruct (P d k p (rinput s)) as [a|]; [|discriminate]. destruct Hx as (_ & Hx). destruct (alt_of a cases) as [b0|] eqn:Ea; [eapply IH; [eapply Hx; exact Ea|exact Hk]|discriminate].
  - destruct (P d k p (rinput s)) as [a|]; [|discriminate]. destruct Hx as (_ & Hx1 & Hx2 & _). destruct (a =? e); [discriminate|].
    apply seq_panic; [destruct (a =? 1); [eapply IH; eassumption|discriminate]|]. intros s1. apply seq_panic; [eapply IH; eassumption|]. intros s2. apply (IH k p true); [eapply every_again; [reflexivity|exact Hc]|exact Hk].
  - destruct (j >=? p); discriminate.
Qed.
End NoPanic.

(** *** AdaptivePredict's answers are in the table *)
Lemma o_eqb_spec a b : o_eqb a b = true -> a = b.
Proof. destruct a, b; cbn; try discriminate; auto. rewrite Z.eqb_eq. congruence. Qed.
Lemma nub_in x l : In x l -> In x (nub l).
Proof.
  induction l as [|y l IH]; [auto|]. cbn [nub In]. intros [->|H].
  - destruct (existsb (o_eqb x) l) eqn:E; [|left; reflexivity]. apply existsb_exists in E as (z & Hz & E). apply o_eqb_spec in E. subst z. apply IH. exact Hz.
  - destruct (existsb (o_eqb y) l); [|right]; apply IH; exact H.
Qed.
Lemma assoc_map {T} (f : Z -> T) l x : In x l -> assoc x (map (fun y => (y, f y)) l) = Some (f x).
Proof. induction l as [|y l IH]; [destruct 1|]. cbn. destruct (Z.eqb_spec x y) as [->|N]; [auto|]. intros [->|H]; [congruence|auto]. Qed.
Local Opaque parser_atn decision_state firsts follows.
Lemma predict_of_table : of_table adaptive_predict.
Proof.
  intros d k p ts Hd Hp. unfold answers. rewrite answer_table_is, (assoc_map answer_row _ _ Hd). destruct (input_split ts) as (t & u & Ei & Ht & Hu). rewrite Ei. cbn [hd].
  unfold answer_row. cbv zeta. rewrite (assoc_map (fun t => answers_at d t _) _ _ Ht). eexists. split; [reflexivity|]. unfold answers_at. apply nub_in. apply in_flat_map.
  exists (p, starts d p). split; [apply in_map_iff; exists p; split; [reflexivity|apply in_precs; exact Hp]|]. cbn [fst snd].
  pose proof all_decided as G. rewrite forallb_forall in G. specialize (G d Hd). unfold decided in G. rewrite forallb_forall in G. specialize (G p (in_precs p Hp)).
  unfold adaptive_predict, sim. fold (starts d p). destruct (starts d p) as [cs|]; [|discriminate G]. rewrite forallb_forall in G. specialize (G t Ht). unfold answers_with. destruct (astep d p cs t) as [x|cs'] eqn:Ex.
  - rewrite (run_one _ _ _ _ _ _ Ex). left. destruct x; reflexivity.
  - rewrite andb_true_iff, negb_true_iff, Z.eqb_neq, forallb_forall in G. destruct G as (Hne & G). destruct (Hu Hne) as (t2 & u2 & -> & Ht2). specialize (G t2 Ht2).
    destruct (astep d p cs' t2) as [x|] eqn:E2; [|discriminate G]. rewrite (run_two _ _ _ _ _ _ _ _ Ex Hne E2). apply in_map_iff. exists t2. split; [rewrite E2; destruct x; reflexivity|exact Ht2].
Qed.
Local Transparent parser_atn decision_state firsts follows.

(** *** How many errors are reported *)
Definition weight (s : rst) : nat := (length (reports s) + here s + if mode s then 0 else 1)%nat.
Definition lighter (s s' : rst) : Prop := (weight s' <= weight s)%nat.
Section Count.
Variable P : predictor.
Variable P_at : forall (d p : Z) (input : list Z), nat.
Local Notation A := parser_atn.
Local Notation D := (default_strategy A).
Local Notation rexec := (rexec A rule_functions P P_at D).
Local Notation rstmt := (rstmt A rule_functions P P_at D).
Lemma lighter_tell r s : lighter s (tell r s).
Proof. unfold lighter, weight, tell, here. destruct (mode s) eqn:E; [rewrite E; lia|]. cbn. rewrite app_length. cbn. lia. Qed.
Lemma lighter_until l s : lighter s (consume_until l s).
Proof. unfold lighter, weight, here. cbn. destruct (drop_until_suffix l (toks s)) as (pre & H). rewrite H at 2. rewrite app_length. lia. Qed.
Lemma lighter_advance s : lighter s (advance s).
Proof. unfold lighter, weight, here. cbn. destruct (toks s); cbn; lia. Qed.
Lemma lighter_match s : la1 s <> -1 -> lighter s (advance (report_match s)).
Proof. intros H. rewrite la_end in H. unfold lighter, weight, here. cbn. destruct (toks s) as [|x l]; [destruct H; reflexivity|]. cbn. destruct (mode s); lia. Qed.
Lemma lighter_trans a b c : lighter a b -> lighter b c -> lighter a c. Proof. unfold lighter. lia. Qed.
Lemma lighter_exit k s s' : error_exit D k s = Some s' -> lighter s s'.
Proof.
  unfold error_exit. destruct (err s) as [r|]; [|intros H; injection H as <-; unfold lighter; lia]. unfold recover. destruct (recovery D k) as [l|]; [|discriminate]. intros H. injection H as <-.
  eapply lighter_trans; [apply (lighter_tell r)|]. set (u := tell r s). set (v := if is_last u && zmem (cur u) (lstates u) then advance u else u).
  apply (lighter_trans _ v); [unfold v; destruct (_ && _); [apply lighter_advance|unfold lighter; lia]|].
  apply (lighter_trans _ (RSt (toks v) (err v) (mode v) (Some (here v)) (cur v :: lstates v) (cur v) (reports v))); [unfold lighter, weight, here; cbn; lia|]. apply (lighter_until l).
Qed.
Lemma lighter_delete k s s' : la1 s <> -1 -> delete_one D k s = Some (Some s') -> lighter s s'.
Proof.
  unfold delete_one. destruct (expected D k (cur s)) as [e|]; [|discriminate]. destruct (zmem (la2 s) e); [|discriminate]. intros Hla H. injection H as <-. eapply lighter_trans; [apply (lighter_tell (Report Unwanted (here s) (Expecting e)))|].
  apply (lighter_match (tell (Report Unwanted (here s) (Expecting e)) s)). rewrite la_end in *. rewrite tell_toks. exact Hla.
Qed.
(** At the end of file no token is deleted, as it is not expected after it. *)
Lemma delete_end k s o : la1 s = -1 -> zmem (-1) (next_tokens A (cur s)) = false -> zmem (-2) (next_tokens A (cur s)) = false -> delete_one D k s <> Some (Some o).
Proof.
  intros Hla H1 H2. assert (E : expected_around A k (next_tokens A (cur s)) = Some (next_tokens A (cur s))) by (destruct k as [|(n, p) k]; cbn [expected_around]; rewrite H2; reflexivity).
  unfold delete_one. cbn [expected default_strategy]. rewrite E. replace (la2 s) with (-1) by (apply la_end in Hla; unfold la2; rewrite Hla; reflexivity). rewrite H1. discriminate.
Qed.
Lemma lighter_inline k s : (la1 s = -1 -> zmem (-1) (next_tokens A (cur s)) = false /\ zmem (-2) (next_tokens A (cur s)) = false) ->
  match recover_inline D k s with Next s' | Exit s' => lighter s s' | _ => True end.
Proof.
  intros Hend. unfold recover_inline. destruct (delete_one D k s) as [[o|]|] eqn:E; [| |exact I].
  - eapply lighter_trans; [|apply lighter_advance]. destruct (Z.eq_dec (la1 s) (-1)) as [El|El]; [destruct (Hend El); destruct (delete_end k s o El); assumption|]. eapply lighter_delete; eassumption.
  - destruct (insertion D k (cur s)) as [l|]; [|exact I]. destruct (zmem _ l); [apply lighter_tell|unfold lighter, weight, here; cbn; lia].
Qed.
Lemma lighter_check s r : match r with Next s' | Exit s' => lighter s s' | _ => True end -> match seq_out r check with Next s' | Exit s' => lighter s s' | _ => True end.
Proof. destruct r as [s'|s'| |]; cbn; auto. unfold check. destruct (err s'); auto. Qed.
Lemma sync_ok_end B n : sync_ok B n (-1) = false -> zmem (-1) (next_tokens B n) = false /\ zmem (-2) (next_tokens B n) = false.
Proof. unfold sync_ok. rewrite !orb_false_iff. tauto. Qed.
Lemma lighter_sync k s : match sync A D k s with Next s' | Exit s' => lighter s s' | _ => True end.
Proof.
  unfold sync. destruct (mode s || sync_ok A (cur s) (la1 s)) eqn:Es; [unfold lighter; lia|]. destruct (zmem (n_type _) _).
  - destruct (delete_one D k s) as [[o|]|] eqn:E; [| |exact I]; [|unfold lighter, weight, here; cbn; lia].
    destruct (Z.eq_dec (la1 s) (-1)) as [El|El]; [|eapply lighter_delete; eassumption]. exfalso. apply orb_false_iff in Es as (_ & Es). rewrite El in Es. apply sync_ok_end in Es as (E1 & E2).
    exact (delete_end k s o El E1 E2 E).
  - destruct (expected D k (cur s)); [|exact I]. destruct (recovery D k); [|exact I]. eapply lighter_trans; [apply lighter_tell|]. apply lighter_until.
Qed.
Lemma ends_every n r j start body : no_end_ok A (Call n r j) = true -> nth_error rule_functions (Z.to_nat r) = Some (start, body) -> Every (no_end_ok A) false false body.
Proof.
  intros Hr H. cbn [no_end_ok] in Hr. pose proof ends_not_asked as G. rewrite forallb_forall in G. exists 40%nat. apply (G (start, body)). right.
  destruct (Z.to_nat r) as [|i] eqn:E; [lia|]. apply nth_error_In in H as H'. destruct rule_functions as [|f0 l]; [destruct i; discriminate H|]. cbn [nth_error] in H. apply nth_error_In in H. exact H.
Qed.
Lemma run_lighter f k p b c s : Every (no_end_ok A) false b c -> match rexec f k p c s with Next s' | Exit s' => lighter s s' | _ => True end.
Proof.
  intros Hc. refine (keep A P P_at D (no_end_ok A) lighter (fun _ => True) _ lighter_trans _ _ _ _ _ ends_every f k p b c s I Hc); auto.
  - intros u. unfold lighter. lia.
  - intros n u. unfold lighter, weight, here. cbn. lia.
  - intros e u. unfold lighter, weight, here. cbn. lia.
  - intros k0 u u' _. apply lighter_exit.
  - intros f0 k0 p0 x u _ Hok Hx. destruct x as [n t|n c0|n r j|n|c0 b0|c0 b0|c0 b0|cases e|d cases|d e b0 r|n j]; try destruct Hx; cbn [RecoveryProof.rstmt]; cbv zeta; cbn [no_end_ok] in Hok.
    + rewrite !andb_true_iff, !negb_true_iff in Hok. destruct Hok as ((Ht & H1) & H2). apply lighter_check. destruct (Z.eqb_spec (la1 (set_state n u)) t) as [El|_].
      * apply (lighter_match (set_state n u)). lia.
      * apply (lighter_inline k0 (set_state n u)). auto.
    + rewrite !andb_true_iff, !negb_true_iff in Hok. destruct Hok as ((Ht & H1) & H2). destruct (holds c0 (la1 (set_state n u))) eqn:Eh.
      * apply (lighter_match (set_state n u)). intros E. congruence.
      * apply (lighter_inline k0 (set_state n u)). auto.
    + apply lighter_check. apply (lighter_sync k0 (set_state n u)).
Qed.
End Count.

(** *** Source_unit *)
Section App.
Variable A : atn.
Variable P : predictor.
Variable P_at : forall (d p : Z) (input : list Z), nat.
Variable S : strategy.
Local Notation rexec := (rexec A rule_functions P P_at S).
Lemma rexec_app k p c2 : forall f c1 s, rexec f k p (c1 ++ c2) s <> More ->
  rexec f k p (c1 ++ c2) s = seq_out (rexec f k p c1 s) (rexec f k p c2).
Proof.
  induction f as [|f IH]; intros c1 s H; [destruct H; reflexivity|]. destruct c1 as [|x c1]; [cbn [app]; rewrite rexec_nil; reflexivity|].
  change ((x :: c1) ++ c2) with (x :: (c1 ++ c2)) in *. rewrite !rexec_cons in *. destruct (rstmt A rule_functions P P_at S f k p x s) as [s1|s1| |]; cbn [seq_out] in *; try reflexivity.
  rewrite IH by exact H. rewrite IH in H by exact H. destruct (rexec f k p c1 s1) as [s2|s2| |]; cbn [seq_out] in *; try reflexivity. symmetry. apply fuel_mono. exact H.
Qed.
End App.
Local Notation drun := (recovering_run parser_atn rule_functions adaptive_predict predict_at (default_strategy parser_atn)).
Lemma run_one_end S P P_at f f' ts r r' : recovering_run parser_atn rule_functions P P_at S f ts = Ended r -> recovering_run parser_atn rule_functions P P_at S f' ts = Ended r' -> r = r'.
Proof.
  unfold recovering_run. destruct rule_functions as [|(start, body) l] eqn:E0; [discriminate|]. rewrite <- E0. intros H H'.
  assert (G : forall f r, match leave S [] (rexec parser_atn rule_functions P P_at S f [] 0 body (start_state start ts)) Next with Next s | Exit s => Ended (reports s) | Panic => Panicked | More => Unended end = Ended r ->
    rexec parser_atn rule_functions P P_at S f [] 0 body (start_state start ts) <> More) by (intros f0 r0 K E; rewrite E in K; discriminate K).
  rewrite (fuel_one parser_atn rule_functions P P_at S f f' [] 0 body (start_state start ts) _ _ eq_refl eq_refl (G _ _ H) (G _ _ H')) in H. congruence.
Qed.
Local Opaque rule_functions main_code.
Lemma run_shape S P P_at f ts : recovering_run parser_atn rule_functions P P_at S f ts =
  match leave S [] (rexec parser_atn rule_functions P P_at S f [] 0 (main_code ++ [Match 118 (-1)]) (start_state 0 ts)) Next with
  | Next s | Exit s => Ended (reports s) | Panic => Panicked | More => Unended end.
Proof.
  unfold recovering_run. pose proof main_code_is as H. destruct rule_functions as [|(start, body) l]; [discriminate H|]. cbn [nth_error] in H. injection H as -> ->. reflexivity.
Qed.
(** It ends, with any sets of tokens to recover by. *)
Theorem recovery_ends P P_at S ts : of_table P -> exists f, recovering_run parser_atn rule_functions P P_at S f ts <> Unended.
Proof.
  intros HP. destruct (fun_good 0 0 (main_code ++ [Match 118 (-1)]) main_code_is) as (_ & Hg).
  destruct (run_ends parser_atn P P_at S HP (start_state 0 ts) _ [] 0 Hg) as (f & H); [unfold prec_ok; lia|unfold in_univ; cbn; lia|]. exists f. rewrite run_shape. apply fine_more in H.
  destruct (rexec _ _ _ _ _ f [] 0 _ _) as [s|s| |]; cbn [leave]; try discriminate; try congruence; destruct (error_exit S [] s); discriminate.
Qed.
Theorem recovery_no_panic P P_at f ts : recovering_run parser_atn rule_functions P P_at (default_strategy parser_atn) f ts <> Panicked.
Proof.
  rewrite run_shape. assert (Hc : calls parser_atn []) by constructor.
  pose proof (no_panic P P_at f [] 0 false (main_code ++ [Match 118 (-1)]) (start_state 0 ts) (fun_all 0 0 _ main_code_is) Hc) as G.
  destruct (rexec _ _ _ _ _ f [] 0 _ _) as [s|s| |]; cbn [leave]; try discriminate; try congruence; pose proof (exit_some [] s Hc) as E; destruct (error_exit _ [] s); try discriminate; congruence.
Qed.
(** Reports, exactly if the run that stops at the first error fails. *)
Theorem recovery_agrees P P_at S f ts r : recovering_run parser_atn rule_functions P P_at S f ts = Ended r -> source_unit_fun parser_atn rule_functions P f ts <> None ->
  (r = [] <-> exists t, source_unit_fun parser_atn rule_functions P f ts = Some (Some t)).
Proof.
  rewrite run_shape. unfold source_unit_fun. replace (match rule_functions with (_, b) :: _ => b | [] => [] end) with (main_code ++ [Match 118 (-1)])
    by (pose proof main_code_is as H; destruct rule_functions as [|(start, body) l]; [discriminate H|]; cbn [nth_error] in H; injection H as -> ->; reflexivity).
  set (c := main_code ++ [Match 118 (-1)]). pose proof (fun_all 0 0 c main_code_is) as Hc. assert (Hs : clean (St ts []) (start_state 0 ts)) by (repeat split).
  pose proof (run_agrees parser_atn P P_at S f [] 0 false c _ _ Hc Hs) as G. pose proof (told_keep parser_atn P P_at S f [] 0 false c _ Hc (clean_told _ _ Hs)) as T.
  intros H Hn. destruct (GoParser.exec parser_atn rule_functions P f [] 0 c (St ts [])) as [s1| |]; [| |destruct Hn; reflexivity]; cbn [agrees] in G.
  - destruct (rexec _ _ _ _ _ f [] 0 _ _) as [s|s| |]; try (exfalso; exact G). destruct G as (_ & G2 & _ & G4). cbn [leave] in H. unfold error_exit in H. rewrite G2 in H. cbn in H. injection H as <-. split; [eauto|intros _; exact G4].
  - split; [|intros (t & E); discriminate E]. intros ->. exfalso.
    destruct (rexec _ _ _ _ _ f [] 0 _ _) as [s|s| |]; cbn [leave] in H; try discriminate H; (destruct (error_exit S [] s) as [s'|] eqn:E; [|discriminate H]); injection H as H; (apply bad_exit in E; [|exact T|exact G]); congruence.
Qed.
Local Transparent main_code.
Lemma exists_main : exists c a d b n, main_code = c ++ [Sync a] ++ [For d (b ++ [Sync n])].
Proof. unfold main_code. do 5 eexists. match goal with |- [?x1; ?x2; ?x3; ?x4; ?x5; ?x6] = _ => instantiate (5 := [x1; x2; x3; x4]) end. cbn [app]. repeat f_equal.
  match goal with |- [?x; ?y; ?z] = _ => instantiate (2 := [x; y]) end. reflexivity. Qed.
Local Opaque main_code.
(** No error is left over when the declarations have been read: a Sync comes last. *)
Section Clear.
Variable P : predictor.
Variable P_at : forall (d p : Z) (input : list Z), nat.
Variable S : strategy.
Local Notation rexec := (rexec parser_atn rule_functions P P_at S).
Lemma sync_clear f k p c n s s' : rexec f k p (c ++ [Sync n]) s = Next s' -> err s' = None.
Proof.
  intros H. rewrite rexec_app in H by congruence. destruct (rexec f k p c s) as [s1|s1| |]; cbn [seq_out] in H; try discriminate H. destruct f as [|f]; [discriminate H|].
  rewrite rexec_cons in H. cbn [RecoveryProof.rstmt] in H. destruct (sync parser_atn S k (set_state n s1)) as [v|v| |]; cbn [seq_out] in H; try discriminate H. unfold check in H.
  destruct (err v) eqn:Ev; cbn [seq_out] in H; [discriminate H|]. destruct f; [discriminate H|]. injection H as <-. exact Ev.
Qed.
Lemma for_clear c b n : forall f k p s s', err s = None -> rexec f k p [For c (b ++ [Sync n])] s = Next s' -> err s' = None.
Proof.
  induction f as [|f IH]; intros k p s s' Hs H; [discriminate H|]. rewrite rexec_cons in H. cbn [RecoveryProof.rstmt] in H. destruct (holds c (la1 s)).
  - destruct (rexec f k p (b ++ [Sync n]) s) as [s1|s1| |] eqn:E; cbn [seq_out] in H; try discriminate H. apply sync_clear in E.
    destruct (rexec f k p [For c (b ++ [Sync n])] s1) as [s2|s2| |] eqn:E2; cbn [seq_out] in H; try discriminate H. apply IH in E2; [|exact E]. destruct f; [discriminate H|]. injection H as <-. exact E2.
  - cbn [seq_out] in H. destruct f; [discriminate H|]. injection H as <-. exact Hs.
Qed.
Lemma main_clear f s s' : rexec f [] 0 main_code s = Next s' -> err s' = None.
Proof.
  intros H. destruct (exists_main) as (c & a & d & b & n & E). rewrite E in H. rewrite app_assoc, rexec_app in H by congruence.
  destruct (rexec f [] 0 (c ++ [Sync a]) s) as [s1|s1| |] eqn:E1; cbn [seq_out] in H; try discriminate H. apply sync_clear in E1. eapply for_clear; eassumption.
Qed.
End Clear.
Theorem recovery_count P P_at f ts r : recovering_run parser_atn rule_functions P P_at (default_strategy parser_atn) f ts = Ended r -> (length r <= length ts + 1)%nat.
Proof.
  rewrite run_shape. set (m := Match 118 (-1)). set (D := default_strategy parser_atn). intros H.
  assert (Hmain : Every (no_end_ok parser_atn) false false main_code).
  { exists 40%nat. pose proof ends_not_asked as G. rewrite forallb_forall in G. apply (G (0, main_code)). left. reflexivity. }
  assert (W0 : weight (start_state 0 ts) = (length ts + 1)%nat) by (unfold weight, here; cbn; lia).
  assert (Hw : forall s, lighter (start_state 0 ts) s -> (length (reports s) <= length ts + 1)%nat) by (intros s Hs; unfold lighter in Hs; rewrite W0 in Hs; unfold weight in Hs; lia).
  pose proof (run_lighter P P_at f [] 0 false main_code (start_state 0 ts) Hmain) as G. fold D in G.
  assert (Hex : forall s s', lighter (start_state 0 ts) s -> error_exit D [] s = Some s' -> (length (reports s') <= length ts + 1)%nat).
  { intros s s' Hs E. apply Hw. eapply lighter_trans; [exact Hs|]. eapply lighter_exit. exact E. }
  destruct (rexec parser_atn rule_functions P P_at D f [] 0 (main_code ++ [m]) (start_state 0 ts)) as [s|s| |] eqn:E; try discriminate H; rewrite rexec_app in E by congruence.
  all: cbn [leave] in H; (destruct (error_exit D [] s) as [s'|] eqn:Ee; [|discriminate H]); injection H as <-.
  - destruct (rexec parser_atn rule_functions P P_at D f [] 0 main_code (start_state 0 ts)) as [s1|s1| |] eqn:E1; cbn [seq_out] in E; try discriminate E. apply main_clear in E1.
    destruct f as [|f]; [discriminate E|]. unfold m in E. rewrite rexec_cons in E. cbn [RecoveryProof.rstmt] in E. set (s2 := set_state 118 s1) in *.
    assert (G2 : lighter (start_state 0 ts) s2) by exact G. assert (E2 : err s2 = None) by exact E1. clearbody s2. destruct (Z.eqb_spec (la1 s2) (-1)) as [El|El].
    + cbn [seq_out] in E. unfold check in E. change (err (advance (report_match s2))) with (err s2) in E. rewrite E2 in E. cbn [seq_out] in E. destruct f; [discriminate E|]. injection E as <-.
      unfold error_exit in Ee. change (err (advance (report_match s2))) with (err s2) in Ee. rewrite E2 in Ee. injection Ee as <-. exact (Hw s2 G2).
    + pose proof (lighter_inline [] s2) as L. specialize (L ltac:(intros K; congruence)). apply lighter_check in L. fold D in L. destruct (seq_out (recover_inline D [] s2) check) as [v|v| |]; cbn [seq_out] in E; try discriminate E.
      destruct f; [discriminate E|]. injection E as <-. eapply Hex; [|exact Ee]. eapply lighter_trans; eassumption.
  - destruct (rexec parser_atn rule_functions P P_at D f [] 0 main_code (start_state 0 ts)) as [s1|s1| |] eqn:E1; cbn [seq_out] in E; try discriminate E; [apply main_clear in E1|injection E as <-; eapply Hex; eassumption].
    destruct f as [|f]; [discriminate E|]. unfold m in E. rewrite rexec_cons in E. cbn [RecoveryProof.rstmt] in E. set (s2 := set_state 118 s1) in *.
    assert (G2 : lighter (start_state 0 ts) s2) by exact G. assert (E2 : err s2 = None) by exact E1. clearbody s2. destruct (Z.eqb_spec (la1 s2) (-1)) as [El|El].
    + cbn [seq_out] in E. unfold check in E. change (err (advance (report_match s2))) with (err s2) in E. rewrite E2 in E. cbn [seq_out] in E. destruct f; discriminate E.
    + pose proof (lighter_inline [] s2) as L. specialize (L ltac:(intros K; congruence)). apply lighter_check in L. fold D in L. destruct (seq_out (recover_inline D [] s2) check) as [v|v| |]; cbn [seq_out] in E; try discriminate E.
      * destruct f; discriminate E.
      * injection E as <-. eapply Hex; [|exact Ee]. eapply lighter_trans; eassumption.
Qed.
