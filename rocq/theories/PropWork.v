(** How much work a text is: C53. *)
From Coq Require Import ZArith Lia.
From Verif Require Import LexSpec Lexer Grammar Schema Sample Tree Atn AtnLexer AtnParser AtnParserTable GoParser ParserCode PredictSpec GoParserTable GoParserProof Predict PredictTable PredictProof
  Recovery RecoveryTable RecoveryProof RecoveryCheck RecoveryProof2 RecoveryProof3 Work WorkTable WorkProof WorkBound ScanSpec AtnLexerProof LexWork PropAtn PropTree PropCode PropRecovery.
Local Open Scope Z_scope.

(** [looks s n]: to split [s] into tokens, the lexer looks at a character [n] times (the end of the text counts as one). *)
Definition looks (s : str) (n : nat) : Prop := lexer_reads s = Some n.
(** [statements ts n]: p.Source_unit() on the tokens [ts] executes [n] statements of the rule functions, recovery from errors included. *)
Definition statements (ts : list tok) (n : nat) : Prop :=
  exists fuel r, counting_run parser_atn rule_functions adaptive_predict predict_at (default_strategy parser_atn) fuel ts = Some (r, n).

(** C53 *)
Theorem C53_lexing_ends : forall s, code_points s -> exists n, looks s n.
Proof. intros s Hs. destruct (lexer_looked s Hs) as (n & E & _). exists n. exact E. Qed.
Print Assumptions C53_lexing_ends.
Theorem C53_lexing_at_most_quadratic : forall s n, code_points s -> looks s n -> (2 * n <= (length s + 1) * (length s + 2))%nat.
Proof. intros s n Hs H. destruct (lexer_looked s Hs) as (m & E & Hm). unfold looks in H. rewrite E in H. injection H as <-. apply looked_quadratic. exact Hm. Qed.
Print Assumptions C53_lexing_at_most_quadratic.
(** If every "/*" of the text has a "*/" after it (in particular if there is none), each character is looked at three times, on average, at most. *)
Theorem C53_lexing_linear_when_comments_close : forall s n, code_points s -> (forall a b, s = a ++ lit "/*" ++ b -> exists x y, b = x ++ lit "*/" ++ y) ->
  looks s n -> (n <= 3 * length s + 1)%nat.
Proof. intros s n Hs Hc H. destruct (lexer_looked s Hs) as (m & E & Hm). unfold looks in H. rewrite E in H. injection H as <-. apply closing_linear; assumption. Qed.
Print Assumptions C53_lexing_linear_when_comments_close.
(** And so it is for every text that is accepted. *)
Theorem C53_lexing_linear_for_programs : forall s n ts, code_points s -> tokens_of s ts -> program (drop_layout ts) -> looks s n -> (n <= 3 * length s + 1)%nat.
Proof. intros s n ts Hs Ht Hp H. destruct (lexer_looked s Hs) as (m & E & Hm). unfold looks in H. rewrite E in H. injection H as <-. eapply program_linear; eassumption. Qed.
Print Assumptions C53_lexing_linear_for_programs.
(** But not for every text: each "/*" that is never closed costs a look at all that follows it. *)
Theorem C53_lexing_linear_refuted : ~ exists c : nat, forall s n, code_points s -> looks s n -> (n <= c * (length s + 1))%nat.
Proof.
  intros (c & H). set (k := (4 * c + 4)%nat). destruct (lexer_looked (openers k) (openers_points k)) as (n & E & Hn).
  specialize (H _ n (openers_points k) E). apply openers_many in Hn. rewrite openers_len in H. assert (Hk : (k = 4 * c + 4)%nat) by reflexivity. clearbody k. nia.
Qed.
Print Assumptions C53_lexing_linear_refuted.

Theorem C53_parsing_ends : forall ts, exists n, statements ts n.
Proof.
  intros ts. destruct (C47_the_parser_ends ts) as (r & _ & f & H). pose proof (counting_is adaptive_predict predict_at (default_strategy parser_atn) f ts) as G. rewrite H in G. destruct G as (n & G). exists n, f, r. exact G.
Qed.
Print Assumptions C53_parsing_ends.
(** Counting changes nothing: the reports are those of C47. *)
Theorem C53_the_run_counted : forall ts fuel r n, counting_run parser_atn rule_functions adaptive_predict predict_at (default_strategy parser_atn) fuel ts = Some (r, n) -> reported ts r.
Proof.
  intros ts f r n H. pose proof (counting_is adaptive_predict predict_at (default_strategy parser_atn) f ts) as G. destruct (recovering_run _ _ _ _ _ _ _) as [r'| |] eqn:E; [|congruence|congruence].
  destruct G as (n' & G). rewrite G in H. injection H as <- _. split; [discriminate|]. exists f. exact E.
Qed.
Print Assumptions C53_the_run_counted.
Theorem C53_parsing_linear : forall ts n, statements ts n -> Z.of_nat n <= 783120 * (Z.of_nat (length ts) + 1).
Proof.
  intros ts n (f & r & H). apply statements_bounded in H; [|exact predict_of_table]. Transparent most shallow.
  assert (Em : Z.of_nat most = 26) by reflexivity. assert (Ek : Z.of_nat K = 1560) by reflexivity. apply Nat2Z.inj_le in H. rewrite Nat2Z.inj_add, Nat2Z.inj_mul, Nat2Z.inj_add, Nat2Z.inj_mul in H.
  rewrite Em, Ek in H. change (Z.of_nat 502) with 502 in H. change (Z.of_nat 501) with 501 in H. lia.
Qed.
Print Assumptions C53_parsing_linear.

(** Cases. *)
Example C53_case_text : looks (lit "database a; // x") 23. Proof. vm_compute. reflexivity. Qed.
Example C53_case_openers : looks (lit "/* /* /* ") 34. Proof. vm_compute. reflexivity. Qed.
Example C53_case_closed : forall a b, lit "/**/" = a ++ lit "/*" ++ b -> exists x y, b = x ++ lit "*/" ++ y.
Proof.
  intros a b E. destruct a as [|a1 [|a2 [|a3 a]]]; cbn in E; try discriminate E; [injection E as <-; exists [], []; reflexivity|].
  exfalso. apply (f_equal (@length _)) in E. cbn in E. rewrite app_length in E. cbn in E. lia.
Qed.
Example C53_case_program : statements (tokens_in (lit "database a; table t { id int primary, name text }")) 50.
Proof. exists 300%nat. eexists. vm_compute. reflexivity. Qed.
Example C53_case_errors : statements (tokens_in (lit "database a; table t { id id id }; action f( $a , ) public { g($a + ); }")) 108.
Proof. exists 300%nat. eexists. vm_compute. reflexivity. Qed.
