(** How deeply calls nest: C61. *)
From Coq Require Import ZArith Lia.
From Verif Require Import LexSpec Lexer Grammar Schema Sample Tree Atn AtnParser AtnParserTable GoParser ParserCode Predict Recovery RecoveryProof Stack StackProof StackDeep PropCode PropRecovery.
Local Open Scope Z_scope.

(** [nested ts n]: while p.Source_unit() runs on the tokens [ts], recovery from errors included, there are at most [n] calls of rule functions under way at a time, and at some time [n]. *)
Definition nested (ts : list tok) (n : nat) : Prop :=
  exists fuel r, measuring_run parser_atn rule_functions adaptive_predict predict_at (default_strategy parser_atn) fuel ts = Some (r, n).

Lemma some_both {A B} (x x' : A) (y y' : B) : Some (x, y) = Some (x', y') -> x = x' /\ y = y'. Proof. intros H. injection H. auto. Qed.
Lemma measuring_shape fuel ts : measuring_run parser_atn rule_functions adaptive_predict predict_at (default_strategy parser_atn) fuel ts =
  match recovering_run parser_atn rule_functions adaptive_predict predict_at (default_strategy parser_atn) fuel ts with
  | Ended r => Some (r, S (snd (dexec parser_atn rule_functions adaptive_predict predict_at (default_strategy parser_atn) fuel [] 0 (match rule_functions with (_, b) :: _ => b | [] => [] end) (start_state 0 ts))))
  | _ => None
  end.
Proof.
  unfold measuring_run, recovering_run. cbn [rule_functions]. cbv zeta. rewrite dexec_is. destruct (leave _ _ _ _); reflexivity.
Qed.
(** C61 *)
Theorem C61_calls_nest_no_deeper_than_the_tokens : forall ts n, nested ts n -> (n <= length ts + 9)%nat.
Proof.
  intros ts n (f & r & H). rewrite measuring_shape in H. destruct (recovering_run _ _ _ _ _ _ _) eqn:E; try discriminate. apply some_both in H as [_ <-].
  destruct (both parser_atn adaptive_predict predict_at (default_strategy parser_atn) f) as [W _].
  specialize (W 8%nat 8%nat _ [] 0 (start_state 0 ts) (ex_intro _ 60%nat unit_within)). change (top 8 8 (here (start_state 0 ts))) with (Nat.max 8 (8 + length ts)) in W. change (length (@nil (Z * Z))) with 0%nat in W. eapply Nat.le_trans; [apply le_n_S; exact W|]. lia.
Qed.
Print Assumptions C61_calls_nest_no_deeper_than_the_tokens.
Theorem C61_each_run_is_measured : forall ts, exists n, nested ts n.
Proof.
  intros ts. destruct (C47_the_parser_ends ts) as (r & _ & f & H). eexists _, f, r. rewrite measuring_shape, H. reflexivity.
Qed.
Print Assumptions C61_each_run_is_measured.
(** Measuring changes nothing: the reports are those of C47. *)
Theorem C61_the_run_measured : forall ts fuel r n, measuring_run parser_atn rule_functions adaptive_predict predict_at (default_strategy parser_atn) fuel ts = Some (r, n) -> reported ts r.
Proof.
  intros ts f r n H. rewrite measuring_shape in H. destruct (recovering_run _ _ _ _ _ _ _) eqn:E; try discriminate. apply some_both in H as [-> _]. split; [discriminate|]. exists f. exact E.
Qed.
Print Assumptions C61_the_run_measured.
(** No constant is a bound: n open parentheses make n calls nest. *)
Theorem C61_constant_depth_refuted : ~ exists c : nat, forall ts n, nested ts n -> (n <= c)%nat.
Proof.
  intros (c & H). destruct (C47_the_parser_ends (begun ++ opens (S c))) as (r & HR). apply gives_run in HR as (f & HR). specialize (HR (f + (100 + 4 * c))%nat ltac:(lia)).
  pose proof (measuring_shape (f + (100 + 4 * c)) (begun ++ opens (S c))) as M. rewrite HR in M. pose proof (H _ _ (ex_intro _ _ (ex_intro _ r M))) as HN.
  pose proof (deep_program predict_at c (f + (100 + 4 * c))%nat ltac:(lia) 0 _ eq_refl) as D. unfold deep_at in D. pose proof (Nat.le_trans _ _ _ (le_n_S _ _ D) HN). lia.
Qed.
Print Assumptions C61_constant_depth_refuted.
(** Cases: a program, and one with errors. *)
Example C61_case : nested (tokens_in (lit "database a; action f($a) public { g(((($a + 1)))); }")) 13.
Proof. exists 300%nat. eexists. vm_compute. reflexivity. Qed.
Example C61_case_errors : nested (tokens_in (lit "database a; action f( $a , ) public { g(- - - - $a + ); }")) 13.
Proof. exists 300%nat. eexists. vm_compute. reflexivity. Qed.
