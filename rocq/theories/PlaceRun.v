(** Errors are reported at tokens of the text (or at the end of file). *)
From Coq Require Import ZArith Lia.
From Verif Require Import Str Grammar AtnData Atn AtnParser AtnParserTable GoParser Predict Recovery RecoveryProof.
Local Open Scope Z_scope.

Section Run.
Variable A : atn.
Variable funs : list (Z * list code).
Variable P : predictor.
Variable P_at : forall (d p : Z) (input : list Z), nat.
Variable S : strategy.
Variable n : nat.
Definition inside (s : rst) : Prop := (length (toks s) <= n)%nat /\ (forall r, err s = Some r -> (r_left r <= n)%nat) /\ Forall (fun r => (r_left r <= n)%nat) (reports s).
Definition out_in (o : outcome) : Prop := match o with Next s | Exit s => inside s | _ => True end.
Lemma in_seq o g : out_in o -> (forall s, inside s -> out_in (g s)) -> out_in (seq_out o g). Proof. destruct o; cbn; auto. Qed.
Lemma in_check s : inside s -> out_in (check s). Proof. intros H. unfold check. destruct (err s); exact H. Qed.
Lemma in_state q s : inside s -> inside (set_state q s). Proof. exact (fun H => H). Qed.
Lemma in_match s : inside s -> inside (report_match s). Proof. exact (fun H => H). Qed.
Lemma tl_le {X} (l : list X) : (length (tl l) <= length l)%nat. Proof. destruct l; cbn; lia. Qed.
Lemma in_advance s : inside s -> inside (advance s).
Proof. intros (H & H2). split; [cbn; pose proof (tl_le (toks s)); lia|exact H2]. Qed.
Lemma in_err k m y s : (m <= length (toks s))%nat -> inside s -> inside (set_err (Some (Report k m y)) s).
Proof. intros L (H & H1 & H2). split; [exact H|]. split; [|exact H2]. intros r E. injection E as <-. cbn. lia. Qed.
Lemma in_noerr s : inside s -> inside (set_err None s).
Proof. intros (H & H1 & H2). split; [exact H|]. split; [|exact H2]. intros r E. discriminate E. Qed.
Lemma in_tell r s : (r_left r <= n)%nat -> inside s -> inside (tell r s).
Proof. intros L (H & H1 & H2). unfold tell. destruct (mode s); [split; auto|]. split; [exact H|]. split; [exact H1|]. apply Forall_app. auto. Qed.
Lemma drop_le set l : (length (drop_until set l) <= length l)%nat.
Proof. induction l as [|x l IH]; cbn; [lia|]. destruct (zmem (kind_of x) set); cbn; lia. Qed.
Lemma in_until set s : inside s -> inside (consume_until set s).
Proof. intros (H & H2). split; [cbn; pose proof (drop_le set (toks s)); lia|exact H2]. Qed.
Lemma in_delete k s : inside s -> match delete_one S k s with Some (Some s') => inside s' | _ => True end.
Proof.
  intros H. unfold delete_one. destruct (expected S k (cur s)) as [e|]; [|exact I]. destruct (zmem (la2 s) e); [|exact I].
  apply in_match, in_advance, in_tell; [exact (proj1 H)|exact H].
Qed.
Lemma in_inline k s : inside s -> out_in (recover_inline S k s).
Proof.
  intros H. unfold recover_inline. pose proof (in_delete k s H) as G. destruct (delete_one S k s) as [[s'|]|]; [apply in_advance; exact G| |exact I].
  destruct (insertion S k (cur s)) as [l|]; [|exact I]. cbn. destruct (zmem (la1 s) l); [apply in_tell; [exact (proj1 H)|exact H]|apply (in_err Mismatch (length (toks s)) _ s); [reflexivity|exact H]].
Qed.
Lemma in_sync k s : inside s -> out_in (sync A S k s).
Proof.
  intros H. unfold sync. destruct (mode s || sync_ok A (cur s) (la1 s)); [exact H|]. match goal with |- context [if ?b then _ else _] => destruct b end.
  - pose proof (in_delete k s H) as G. destruct (delete_one S k s) as [[s'|]|]; [exact G| |exact I]. cbn [out_in]. apply (in_err Mismatch (length (toks s)) _ s); [reflexivity|exact H].
  - destruct (expected S k (cur s)) as [e|]; [|exact I]. destruct (recovery S k) as [r|]; [|exact I]. cbn [out_in]; apply in_until; apply in_tell; [exact (proj1 H)|exact H].
Qed.
Lemma in_exit k s : inside s -> match error_exit S k s with Some s' => inside s' | None => True end.
Proof.
  intros H. unfold error_exit. destruct (err s) as [r|] eqn:E; [|exact H]. assert (H' : inside (tell r s)) by (apply in_tell; [exact (proj1 (proj2 H) r E)|exact H]). unfold recover.
  destruct (recovery S k) as [l|]; [|exact I]. apply in_noerr, in_until. destruct (is_last (tell r s) && zmem (cur (tell r s)) (lstates (tell r s))); [apply (in_advance _ H')|exact H'].
Qed.
Lemma in_leave k o g : out_in o -> (forall s, inside s -> out_in (g s)) -> out_in (leave S k o g).
Proof. intros H Hg. destruct o as [s|s| |]; cbn [leave]; try exact I; pose proof (in_exit k s H) as G; (destruct (error_exit S k s); [apply Hg; exact G|exact I]). Qed.
Lemma in_noviable d p s : inside s -> inside (no_viable P_at d p s).
Proof. intros H. unfold no_viable. apply in_err; [unfold here; lia|exact H]. Qed.
Lemma in_run : forall f k p c s, inside s -> out_in (rexec A funs P P_at S f k p c s).
Proof.
  induction f as [|f IH]; intros k p c s H; [exact I|]. destruct c as [|x c]; [exact H|]. rewrite rexec_cons. apply in_seq; [|intros; apply IH; assumption].
  destruct x as [q t|q c0|q r j|q|c0 b|c0 b|c0 b|cases e|d cases|d e b r|q j]; cbn [rstmt].
  - cbv zeta. apply in_seq; [|intros; apply in_check; assumption]. destruct (_ =? _); [apply in_advance, in_match, in_state; exact H|apply in_inline; exact H].
  - cbv zeta. destruct (holds _ _); [apply in_advance, in_match, in_state; exact H|apply in_inline; exact H].
  - destruct (nth_error funs (Z.to_nat r)) as [(st, body)|]; [|exact I]. apply in_leave; [apply IH; exact H|]. intros s' H'. destruct (r =? 50); exact H'.
  - apply in_seq; [apply in_sync; exact H|intros; apply in_check; assumption].
  - destruct (holds _ _); [apply IH|]; exact H.
  - destruct (holds _ _); [|exact H]. apply in_seq; [apply IH; exact H|intros; apply IH; assumption].
  - apply in_seq; [apply IH; exact H|]. intros s' H'. destruct (holds _ _); [apply IH|]; exact H'.
  - destruct (case_of _ _); [apply IH; exact H|]. destruct e; [apply (in_err NoViableAlt (length (toks s)) _ s); [reflexivity|exact H]|exact H].
  - destruct (P _ _ _ _); [|apply in_noviable; exact H]. cbv zeta. destruct (alt_of _ _); [apply IH|]; apply in_noerr; exact H.
  - destruct (P _ _ _ _) as [a|]; [|apply in_noviable; exact H]. cbv zeta. pose proof (in_noerr s H) as H'. destruct (a =? e); [exact H'|]. apply in_seq; [destruct (a =? 1); [apply IH|]; exact H'|].
    intros s1 H1. apply in_seq; [apply IH; exact H1|intros; apply IH; assumption].
  - cbv zeta. destruct (_ >=? _); [exact H|]. apply (in_err FailedPredicate (length (toks s)) _ (set_state q s)); [reflexivity|exact H].
Qed.
End Run.
Lemma reports_inside A funs P P_at S f ts rs : recovering_run A funs P P_at S f ts = Ended rs -> Forall (fun r => (r_left r <= length ts)%nat) rs.
Proof.
  unfold recovering_run. destruct funs as [|(start, body) fs] eqn:E; [discriminate|]. rewrite <- E.
  assert (G : inside (length ts) (start_state start ts)). { split; [reflexivity|]. split; [discriminate|constructor]. }
  pose proof (in_run A funs P P_at S (length ts) f [] 0 body _ G) as H. pose proof (in_leave S (length ts) [] _ Next H (fun s Hs => Hs)) as H'.
  destruct (leave S [] (rexec A funs P P_at S f [] 0 body (start_state start ts)) Next) as [s|s| |]; intros E'; try discriminate E'; injection E' as <-; apply H'.
Qed.
