(** Texts with open parentheses make calls nest. *)
From Coq Require Import ZArith Lia.
From Verif Require Import Str Tokens Grammar Tree AtnData Atn AtnParser AtnParserTable GoParser ParserCode Predict Recovery RecoveryProof Stack StackProof.
Local Open Scope Z_scope.

Section Deep.
Variable P_at : forall (d p : Z) (input : list Z), nat.
Local Notation S0 := (default_strategy parser_atn).
Local Notation rexec := (rexec parser_atn rule_functions adaptive_predict P_at S0).
Local Notation rstmt := (rstmt parser_atn rule_functions adaptive_predict P_at S0).
Local Notation dexec := (dexec parser_atn rule_functions adaptive_predict P_at S0).
Local Notation dstmt := (dstmt parser_atn adaptive_predict P_at S0).
Definition deep_at (d : nat) (f : nat) (k : stack) (p : Z) (c : list code) (s : rst) : Prop := (d <= snd (dexec f k p c s))%nat.
Lemma dseq_l r g d : (d <= snd r)%nat -> (d <= snd (dseq r g))%nat.
Proof. unfold dseq. destruct (fst r); cbn [snd]; lia. Qed.
Lemma dseq_r r g s d : fst r = Next s -> (d <= snd (g s))%nat -> (d <= snd (dseq r g))%nat.
Proof. unfold dseq. intros ->. cbn [snd]. lia. Qed.
Lemma deep_now f k p c s : deep_at (length k) f k p c s.
Proof.
  revert k p c s. induction f as [|f IH]; intros k p c s; [apply Nat.le_refl|]. destruct c as [|x c]; [apply Nat.le_refl|]. unfold deep_at. rewrite dexec_cons. apply dseq_l.
  assert (L : forall n b q t, (length k <= snd (dexec f ((n, p) :: k) q b t))%nat) by (intros n b q t; specialize (IH ((n, p) :: k) q b t); unfold deep_at in IH; cbn [length] in IH; lia).
  destruct x as [n t|n c0|n r j|n|c0 q|c0 q|c0 q|cases e|d cases|d e q r|n j]; cbn [StackProof.dstmt]; cbv zeta; try apply Nat.le_refl.
  - destruct (nth_error rule_functions (Z.to_nat r)) as [(start, body)|]; [apply L|apply Nat.le_refl].
  - destruct (holds c0 (la1 s)); [apply IH|apply Nat.le_refl].
  - destruct (holds c0 (la1 s)); [apply dseq_l, IH|apply Nat.le_refl].
  - apply dseq_l, IH.
  - destruct (case_of (la1 s) cases); [apply IH|apply Nat.le_refl].
  - destruct (adaptive_predict d k p (rinput s)); [destruct (alt_of z cases); [apply IH|apply Nat.le_refl]|apply Nat.le_refl].
  - destruct (adaptive_predict d k p (rinput s)); [|apply Nat.le_refl]. destruct (z =? e); [apply Nat.le_refl|]. apply dseq_l. destruct (z =? 1); [apply IH|apply Nat.le_refl].
Qed.
(** To the next statement, and into a statement *)
Lemma deep_next d f k p x c s s' : rstmt f k p x s = Next s' -> deep_at d f k p c s' -> deep_at d (S f) k p (x :: c) s.
Proof. intros E H. unfold deep_at. rewrite dexec_cons. eapply dseq_r; [rewrite (dstmt_is _ _ _ _ f (dexec_is _ _ _ _ f)); exact E|exact H]. Qed.
Lemma deep_call d f k p n r j c s start body : nth_error rule_functions (Z.to_nat r) = Some (start, body) -> deep_at d f ((n, p) :: k) j body (set_state start (set_state n s)) -> deep_at d (S f) k p (Call n r j :: c) s.
Proof. intros E H. unfold deep_at. rewrite dexec_cons. apply dseq_l. cbn [StackProof.dstmt]. rewrite E. exact H. Qed.
Lemma deep_if d f k p q b c s : holds q (la1 s) = true -> deep_at d f k p b s -> deep_at d (S f) k p (If q b :: c) s.
Proof. intros E H. unfold deep_at. rewrite dexec_cons. apply dseq_l. cbn [StackProof.dstmt]. rewrite E. exact H. Qed.
Lemma deep_for d f k p q b c s : holds q (la1 s) = true -> deep_at d f k p b s -> deep_at d (S f) k p (For q b :: c) s.
Proof. intros E H. unfold deep_at. rewrite dexec_cons. apply dseq_l. cbn [StackProof.dstmt]. rewrite E. apply dseq_l. exact H. Qed.
Lemma deep_do d f k p q b c s : deep_at d f k p b s -> deep_at d (S f) k p (Do q b :: c) s.
Proof. intros H. unfold deep_at. rewrite dexec_cons. apply dseq_l. cbn [StackProof.dstmt]. apply dseq_l. exact H. Qed.
Lemma deep_switch d f k p cases e b c s : case_of (la1 s) cases = Some b -> deep_at d f k p b s -> deep_at d (S f) k p (Switch cases e :: c) s.
Proof. intros E H. unfold deep_at. rewrite dexec_cons. apply dseq_l. cbn [StackProof.dstmt]. rewrite E. exact H. Qed.

Definition opens (n : nat) : list tok := repeat (Tok L_PAREN (lit "(")) n.
Lemma deep_expr n : forall f k p s r, toks s = opens n ++ r -> err s = None -> (4 * n <= f)%nat -> deep_at (length k + n) f k p body50 s.
Proof.
  induction n as [|n IH]; intros f k p s r ET EE L; [rewrite Nat.add_0_r; apply deep_now|]. destruct f as [|[|[|[|f]]]]; try lia. unfold body50. cbn [nth_error rule_functions].
  assert (LA : la1 s = 3) by (unfold la1; rewrite ET; reflexivity).
  eapply deep_next.
  { cbn [RecoveryProof.rstmt]. unfold sync. change (la1 (set_state 425 s)) with (la1 s). rewrite LA. cbn [cur set_state]. replace (sync_ok parser_atn 425 3) with true by (vm_compute; reflexivity). rewrite orb_true_r. cbn [seq_out]. unfold check. cbn [err set_state]. rewrite EE. reflexivity. }
  eapply deep_switch; [change (la1 (set_state 425 s)) with (la1 s); rewrite LA; reflexivity|].
  eapply deep_next.
  { cbn [RecoveryProof.rstmt]. cbv zeta. change (la1 (set_state 402 (set_state 425 s))) with (la1 s). rewrite LA. cbn [Z.eqb Pos.eqb seq_out]. unfold check. cbn [err advance report_match set_state]. rewrite EE. reflexivity. }
  eapply deep_call; [reflexivity|]. replace (length k + Datatypes.S n)%nat with (length ((403%Z, p) :: k) + n)%nat by (cbn [length]; lia). 
  apply (IH f ((403, p) :: k) 0 _ r); [cbn; rewrite ET; reflexivity|cbn; exact EE|lia].
Qed.
(** The same from the start of a program *)
Definition begun : list tok := [Tok DATABASE_ (lit "database"); Tok IDENTIFIER (lit "d"); Tok SCOL (lit ";"); Tok ACTION_ (lit "action"); Tok IDENTIFIER (lit "a"); Tok L_PAREN (lit "("); Tok R_PAREN (lit ")");
  Tok PUBLIC_ (lit "public"); Tok L_BRACE (lit "{"); Tok IDENTIFIER (lit "f"); Tok L_PAREN (lit "(")].
Local Ltac next := eapply deep_next; [vm_compute; reflexivity|].
Lemma deep_program n f : (100 + 4 * n <= f)%nat -> forall start body, nth_error rule_functions 0 = Some (start, body) -> deep_at (8 + n) f [] 0 body (start_state start (begun ++ opens (Datatypes.S n))).
Proof.
  intros L start body E. injection E as <- <-. change (opens (Datatypes.S n)) with (Tok L_PAREN (lit "(") :: opens n). remember (opens n) as rest eqn:ER.
  assert (EF : exists g, f = (96 + g)%nat /\ (4 * Datatypes.S n <= g)%nat) by (exists (f - 96)%nat; lia). destruct EF as (g & -> & Lg).
  next. next. next. next. next. apply deep_for; [reflexivity|]. next. eapply deep_switch; [reflexivity|]. eapply deep_call; [reflexivity|].
  next. next. next. next. next. next. next. next. next. eapply deep_call; [reflexivity|]. next. apply deep_do. eapply deep_call; [reflexivity|]. next. eapply deep_switch; [reflexivity|]. eapply deep_call; [reflexivity|].
  next. next. eapply deep_call; [reflexivity|]. next. next. eapply deep_call; [reflexivity|]. next. apply deep_if; [reflexivity|]. eapply deep_call; [reflexivity|].
  match goal with |- deep_at _ ?f ?k ?p _ ?s => change (deep_at (length k + Datatypes.S n) f k p body50 s) end.
  apply (deep_expr (Datatypes.S n)) with (r := []); [rewrite app_nil_r; cbn [toks set_state]; rewrite ER; reflexivity|reflexivity|]. lia.
Qed.
End Deep.
