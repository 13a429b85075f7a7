(** The bound on a whole run of the parser. *)
From Coq Require Import ZArith Lia.
From Verif Require Import Str Tokens Grammar Tree AtnData Atn AtnParser AtnParserTable AtnParserProof GoParser ParserCode PredictSpec GoParserTable GoParserProof Predict PredictTable PredictProof Recovery RecoveryTable RecoveryProof RecoveryCheck RecoveryProof2 RecoveryProof3 Work WorkTable WorkProof.
Local Open Scope Z_scope.

Local Notation wx := (wexec parser_atn rule_functions).
Local Notation whole_code := (main_code ++ [Match 118 (-1)]).
Local Opaque parser_atn rule_functions main_code.
Lemma counting_shape P P_at S f ts : counting_run parser_atn rule_functions P P_at S f ts =
  match leave S [] (rexec parser_atn rule_functions P P_at S f [] 0 whole_code (start_state 0 ts)) Next with
  | Next s | Exit s => Some (reports s, snd (wx P P_at S f [] 0 whole_code (start_state 0 ts))) | _ => None end.
Proof.
  rewrite <- (wexec_is parser_atn rule_functions P P_at S f [] 0 whole_code (start_state 0 ts)).
  unfold counting_run. pose proof main_code_is as H. destruct rule_functions as [|(start, body) l]; [discriminate H|]. cbn [nth_error] in H. injection H as -> ->. reflexivity.
Qed.
Lemma counting_is P P_at S f ts : match recovering_run parser_atn rule_functions P P_at S f ts with
  | Ended r => exists n, counting_run parser_atn rule_functions P P_at S f ts = Some (r, n) | _ => counting_run parser_atn rule_functions P P_at S f ts = None end.
Proof. rewrite counting_shape, run_shape. destruct (leave _ _ _ _); eauto. Qed.
Lemma main_light : Light whole_code.
Proof. exact (fun_light 0 0 _ main_code_is). Qed.
Lemma meas_le s : (meas s <= here s * 502 + 501)%nat.
Proof. unfold meas, left. pose proof (unseen_le s). destruct (toks s); [lia|]. destruct (is_last s); lia. Qed.
Lemma meas_eq s s' : toks s' = toks s -> last s' = last s -> lstates s' = lstates s -> meas s' = meas s.
Proof. intros H1 H2 H3. unfold meas, left, unseen, is_last, here. rewrite H1, H2, H3. reflexivity. Qed.
Theorem statements_bounded P P_at S f ts r n : of_table P -> counting_run parser_atn rule_functions P P_at S f ts = Some (r, n) ->
  (n <= most + K * (length ts * 502 + 501))%nat.
Proof.
  intros HP H. rewrite counting_shape in H. set (s0 := start_state 0 ts) in *.
  assert (Hn : (snd (wx P P_at S f [] 0 whole_code s0) <= most + K * meas s0)%nat).
  { destruct (light_quick _ main_light (la1 s0) (in_la s0)) as ((b & Hb) & Hq).
    pose proof (main parser_atn P P_at S HP (fun _ => True) meas) as M.
    assert (M' : claim parser_atn P P_at S (fun _ => True) meas f).
    { apply M; try (intros; exact I); auto.
      - intros f0 k0 p0 c0 s1. destruct (rexec parser_atn rule_functions P P_at S f0 k0 p0 c0 s1); intros; exact I.
      - intros f0 k0 p0 x0 s1. destruct (rstmt parser_atn rule_functions P P_at S f0 k0 p0 x0 s1); intros; exact I.
      - intros s' s _ _ (E & E'). unfold meas, here. rewrite E, E'. reflexivity.
      - intros s' s. apply meas_eq. }
    specialize (M' shallow whole_code s0 [] 0 b (proj2 (fun_good 0 0 _ main_code_is)) main_light ltac:(unfold prec_ok; lia) ltac:(unfold in_univ; cbn; lia) Hb).
    destruct (rexec parser_atn rule_functions P P_at S f [] 0 whole_code s0) as [s|s| |]; try discriminate H; specialize (M' I);
      pose proof (C_K (meas s0 - meas s)) as CK; (assert (K * (meas s0 - meas s) <= K * meas s0)%nat by (apply Nat.mul_le_mono_l; lia)); lia. }
  assert (E : n = snd (wx P P_at S f [] 0 whole_code s0)) by (destruct (leave _ _ _ _); try discriminate H; injection H as _ <-; reflexivity).
  rewrite E. pose proof (meas_le s0) as Hm. change (here s0) with (length ts) in Hm.
  assert (K * meas s0 <= K * (length ts * 502 + 501))%nat by (apply Nat.mul_le_mono_l; exact Hm). lia.
Qed.
