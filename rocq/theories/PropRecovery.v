(** The parser's code with error recovery: C47. *)
From Coq Require Import ZArith Lia.
From Verif Require Import LexSpec Lexer Grammar Schema Sample Tree Atn AtnParser AtnParserTable AtnTree GoParser ParserCode PredictSpec GoParserTable GoParserProof Predict PredictTable PredictProof
  Recovery RecoveryTable RecoveryProof RecoveryCheck RecoveryProof2 RecoveryProof3 PropAtn PropTree PropCode.
Local Open Scope Z_scope.

(** [gives S ts r]: p.Source_unit() on the tokens [ts], recovering from errors by the token sets of [S], ends ([Ended]: with the
    list of the errors reported to the listeners; [Panicked]: by a panic). *)
Definition gives (S : strategy) (ts : list tok) (w : whole) : Prop :=
  w <> Unended /\ exists fuel, recovering_run parser_atn rule_functions adaptive_predict predict_at S fuel ts = w.
Definition reported (ts : list tok) (r : list report) : Prop := gives (default_strategy parser_atn) ts (Ended r).

Lemma gives_run S ts w : gives S ts w -> exists fuel, forall f, (fuel <= f)%nat -> recovering_run parser_atn rule_functions adaptive_predict predict_at S f ts = w.
Proof.
  intros (Hw & f0 & H). exists f0. intros f L. rewrite run_shape in *.
  destruct (rexec parser_atn rule_functions adaptive_predict predict_at S f0 [] 0 (main_code ++ [Match 118 (-1)]) (start_state 0 ts)) eqn:E.
  4: { cbn [leave] in H. congruence. }
  all: rewrite (fuel_more _ _ _ _ _ f0 f [] 0 _ _ _ L E ltac:(discriminate)); exact H.
Qed.
Lemma returns_run P ts r : returns_with P ts r -> exists fuel, forall f, (fuel <= f)%nat -> source_unit_fun parser_atn rule_functions P f ts = Some r.
Proof.
  intros (f0 & H). exists f0. intros f L. unfold source_unit_fun in *.
  destruct (GoParserProof.exec_mono parser_atn rule_functions P f0 f [] 0 (match rule_functions with (_, b) :: _ => b | [] => [] end) (St ts []) L) as [G|G]; [rewrite G in H; discriminate H|rewrite G; exact H].
Qed.
Lemma gives_none S ts r : gives S ts (Ended r) -> (r = [] <-> program ts).
Proof.
  intros H. destruct (C45_the_call_ends ts) as (t & Ht). pose proof (C45_error_iff_not_a_program ts) as E.
  apply gives_run in H as (f1 & H). apply returns_run in Ht as G. destruct G as (f2 & G).
  pose proof (H (f1 + f2)%nat ltac:(lia)) as H1. pose proof (G (f1 + f2)%nat ltac:(lia)) as H2.
  pose proof (recovery_agrees _ _ _ _ _ _ H1 ltac:(congruence)) as K. rewrite H2 in K. rewrite K. split.
  - intros (t' & E'). injection E' as ->. apply C40_a_tree_is_built_for_every_program. exists t'. destruct Ht as (f & Ht). eapply source_unit_sound; [exact adaptive_predict_alternatives|exact Ht].
  - intros Hp. destruct t as [t|]; [eauto|]. destruct (proj1 E Ht Hp).
Qed.

(** C47 *)
Theorem C47_the_parser_ends : forall ts, exists r, reported ts r.
Proof.
  intros ts. destruct (recovery_ends adaptive_predict predict_at (default_strategy parser_atn) ts predict_of_table) as (f & H).
  pose proof (recovery_no_panic adaptive_predict predict_at f ts) as N.
  destruct (recovering_run parser_atn rule_functions adaptive_predict predict_at (default_strategy parser_atn) f ts) as [r| |] eqn:E; [|congruence|congruence].
  exists r. split; [discriminate|]. exists f. exact E.
Qed.
Print Assumptions C47_the_parser_ends.
Theorem C47_one_result : forall ts w w', gives (default_strategy parser_atn) ts w -> gives (default_strategy parser_atn) ts w' -> w = w'.
Proof.
  intros ts w w' H H'. apply gives_run in H as (f & H), H' as (f' & H'). rewrite <- (H (f + f')%nat ltac:(lia)). apply H'. lia.
Qed.
Print Assumptions C47_one_result.
Theorem C47_no_panic : forall ts, ~ gives (default_strategy parser_atn) ts Panicked.
Proof. intros ts (_ & f & H). exact (recovery_no_panic _ _ _ _ H). Qed.
Print Assumptions C47_no_panic.
Theorem C47_reported_iff_not_a_program : forall ts r, reported ts r -> (r = [] <-> program ts).
Proof. intros ts r H. exact (gives_none _ _ _ H). Qed.
Print Assumptions C47_reported_iff_not_a_program.
Theorem C47_no_more_reports_than_tokens : forall ts r, reported ts r -> (length r <= length ts + 1)%nat.
Proof. intros ts r (_ & f & H). exact (recovery_count _ _ _ _ _ H). Qed.
Print Assumptions C47_no_more_reports_than_tokens.
(** Whatever sets of tokens the recovery goes by: the call ends, and reports nothing exactly for a program. *)
Theorem C47_whatever_recovery_goes_by : forall S ts, (exists w, gives S ts w) /\ forall r, gives S ts (Ended r) -> (r = [] <-> program ts).
Proof.
  intros S ts. split; [|intros r; apply gives_none].
  destruct (recovery_ends adaptive_predict predict_at S ts predict_of_table) as (f & H). eexists. split; [exact H|]. exists f. reflexivity.
Qed.
Print Assumptions C47_whatever_recovery_goes_by.

(** Cases. *)
Example C47_case : reported (tokens_in (lit "database a; table t { id int primary, name text }")) [].
Proof. split; [discriminate|]. exists 300%nat. vm_compute. reflexivity. Qed.
Example C47_case_missing : reported (tokens_in (lit "database a table t { id int }")) [Report Missing 6 (Expecting [2])].
Proof. split; [discriminate|]. exists 300%nat. vm_compute. reflexivity. Qed.
Example C47_case_four : reported (tokens_in (lit "database a; table t { id id id }; action f( $a , ) public { g($a + ); }"))
  [Report Mismatch 19 (Expecting [41; 42; 43]); Report Unwanted 16 (Expecting [-1; 36; 35; 76; 34]); Report Missing 10 (Expecting [75]); Report Mismatch 3 (Expecting [73; 70; 13; 14; 18; 3; 76; 75; 77; 78])].
Proof. split; [discriminate|]. exists 300%nat. vm_compute. reflexivity. Qed.
Example C47_case_braces : reported (tokens_in (lit "}}}}")) [Report Mismatch 4 (Expecting [31])].
Proof. split; [discriminate|]. exists 300%nat. vm_compute. reflexivity. Qed.
