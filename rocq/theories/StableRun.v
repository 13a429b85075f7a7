(** Two texts that go on in the same way up to the token after the first wrong one: the runs with recovery report the same first
    error.  The runs are compared statement by statement, along [pexec] of FirstRun.v. *)
From Coq Require Import ZArith Lia.
From Verif Require Import Str Tokens Grammar Tree AtnData Atn AtnParser AtnParserTable AtnParserProof GoParser ParserCode PredictSpec GoParserTable GoParserProof Predict PredictTable PredictProof
  Recovery RecoveryTable RecoveryProof RecoveryCheck RecoveryProof2 RecoveryProof3 FirstTable FirstRun FirstProof Fetch FetchProof Asking AskingProof.
Local Open Scope Z_scope.

Lemma funs_ask_ok : forallb (fun e => forallb ask_ok (snd e)) rule_functions = true. Proof. vm_compute. reflexivity. Qed.
Section Two.
Variable A : atn.
Variable P : predictor.
Variable P_at : forall (d p : Z) (input : list Z), nat.
Variable S : strategy.
Variable y1 y2 : list tok.
(** The answers depend on two tokens only. *)
Hypothesis two : forall d k p x, In d PredictSpec.asked -> 0 <= p <= 11 -> (2 <= length x)%nat ->
  P d k p (kinds (x ++ y1) ++ [-1]) = P d k p (kinds (x ++ y2) ++ [-1]) /\ P_at d p (kinds (x ++ y1) ++ [-1]) = P_at d p (kinds (x ++ y2) ++ [-1]) /\ Nat.le (P_at d p (kinds (x ++ y1) ++ [-1])) 1.
Local Notation rexec := (rexec A rule_functions P P_at S).
Local Notation rstmt := (rstmt A rule_functions P P_at S).
Local Notation pexec := (pexec A rule_functions P P_at).

(** The same report, with the other rest behind it. *)
Definition moved (n : nat) : nat := (n - length y1 + length y2)%nat.
Definition moved_detail (d : detail) : detail := match d with Since n => Since (moved n) | d => d end.
Definition moved_report (r : report) : report := Report (r_kind r) (moved (r_left r)) (moved_detail (r_detail r)).
Definition pair_said (s1 s2 : rst) : Prop := exists r, said (eq r) s1 /\ said (eq (moved_report r)) s2.
Definition pair_pending (s1 s2 : rst) : Prop := exists r, pending (eq r) s1 /\ pending (eq (moved_report r)) s2.
Definition same_tokens (x : list tok) (s1 s2 : rst) : Prop := toks s1 = x ++ y1 /\ toks s2 = x ++ y2.
Definition first_two (top : bool) (o1 o2 : outcome) : Prop := exists r, first_out top (eq r) o1 /\ first_out top (eq (moved_report r)) o2.

Lemma moved_here x s1 s2 : same_tokens x s1 s2 -> here s2 = moved (here s1).
Proof. unfold here, moved. intros (-> & ->). rewrite !app_length. lia. Qed.
Lemma moved_back x s1 s2 k n : same_tokens x s1 s2 -> (2 <= length x)%nat -> (n <= 1)%nat -> moved_report (Report k (here s1 - n) (Since (here s1))) = Report k (here s2 - n) (Since (here s2)).
Proof. intros H L Ln. rewrite (moved_here _ _ _ H). unfold moved_report. cbn [r_kind r_left r_detail moved_detail]. f_equal. destruct H as (H & _). unfold moved, here. rewrite H, app_length. lia. Qed.
Lemma same_la1 x s1 s2 : same_tokens x s1 s2 -> (2 <= length x)%nat -> la1 s1 = la1 s2.
Proof. unfold la1. intros (-> & ->) L. destruct x as [|a x]; [cbn in L; lia|]. reflexivity. Qed.
Lemma same_la2 x s1 s2 : same_tokens x s1 s2 -> (2 <= length x)%nat -> la2 s1 = la2 s2.
Proof. unfold la2. intros (-> & ->). intros L. destruct x as [|a [|b x]]; [cbn in L; lia|cbn in L; lia|reflexivity]. Qed.
Lemma tell_two s1 s2 r : mode s1 = false -> mode s2 = false -> reports s1 = [] -> reports s2 = [] -> pair_said (tell r s1) (tell (moved_report r) s2).
Proof. intros. exists r. split; apply said_tell; auto. Qed.
Definition settles (x : list tok) (o1 o2 : outcome) : Prop :=
  match o1, o2 with
  | Next s1, Next s2 => pair_said s1 s2 \/ pair_pending s1 s2 /\ same_tokens x s1 s2
  | Panic, Panic => True
  | _, _ => False
  end.
Lemma inline_two k x s1 s2 : same_tokens x s1 s2 -> (2 <= length x)%nat -> cur s1 = cur s2 -> mode s1 = false -> mode s2 = false -> reports s1 = [] -> reports s2 = [] ->
  settles x (recover_inline S k s1) (recover_inline S k s2).
Proof.
  intros Hx H2 Hc M1 M2 R1 R2. unfold recover_inline, delete_one, awaited. rewrite <- Hc, <- (same_la1 _ _ _ Hx H2), <- (same_la2 _ _ _ Hx H2), (moved_here _ _ _ Hx).
  destruct (expected S k (cur s1)) as [e|]; [|exact I]. destruct (zmem (la2 s1) e).
  - left. exact (tell_two s1 s2 (Report Unwanted (here s1) (Expecting e)) M1 M2 R1 R2).
  - destruct (insertion S k (cur s1)) as [l|]; [|exact I]. destruct (zmem (la1 s1) l).
    + left. exact (tell_two s1 s2 (Report Missing (here s1) (Expecting e)) M1 M2 R1 R2).
    + right. split; [|exact Hx]. exists (Report Mismatch (here s1) (Expecting e)). split; (split; [assumption|]; split; [assumption|]; eexists; split; reflexivity).
Qed.
Lemma sync_two k x s1 s2 : same_tokens x s1 s2 -> (2 <= length x)%nat -> cur s1 = cur s2 -> mode s1 = false -> mode s2 = false -> reports s1 = [] -> reports s2 = [] -> sync_ok A (cur s1) (la1 s1) = false ->
  settles x (sync A S k s1) (sync A S k s2).
Proof.
  intros Hx H2 Hc M1 M2 R1 R2 Ho. unfold sync. rewrite M1, M2, <- Hc, <- (same_la1 _ _ _ Hx H2), Ho. cbn [orb]. unfold delete_one, awaited. rewrite <- Hc, <- (same_la2 _ _ _ Hx H2), (moved_here _ _ _ Hx). destruct (zmem _ _).
  - destruct (expected S k (cur s1)) as [e|]; [|exact I]. destruct (zmem (la2 s1) e).
    + left. exact (tell_two s1 s2 (Report Unwanted (here s1) (Expecting e)) M1 M2 R1 R2).
    + right. split; [|exact Hx]. exists (Report Mismatch (here s1) (Expecting e)). split; (split; [assumption|]; split; [assumption|]; eexists; split; reflexivity).
  - destruct (expected S k (cur s1)) as [e|]; [|exact I]. destruct (recovery S k) as [l|]; [|exact I]. left.
    exact (tell_two s1 s2 (Report Unwanted (here s1) (Expecting e)) M1 M2 R1 R2).
Qed.
Lemma check_two x o1 o2 : settles x o1 o2 -> first_two false (seq_out o1 check) (seq_out o2 check).
Proof.
  assert (C : forall E s, said E s -> first_out false E (check s)) by (intros E s H; unfold check; destruct (err s); left; exact H).
  assert (D : forall E s, pending E s -> first_out false E (check s)) by (intros E s H; unfold check; pose proof H as (_ & _ & r & Hr & _); rewrite Hr; right; exact H).
  destruct o1 as [s1|s1| |], o2 as [s2|s2| |]; intros H; try (exfalso; exact H); cbn [seq_out].
  - destruct H as [(r & H1 & H2)|((r & H1 & H2) & _)]; exists r; (split; first [apply C; assumption|apply D; assumption]).
  - exists (Report Unwanted 0 (Level 0)). split; exact I.
Qed.

(** After a MatchSet that did not match, the next statement finds the error. *)
Lemma tell_err_some s r : err s <> None -> err (tell r s) <> None.
Proof. rewrite tell_err. auto. Qed.
Definition exits (o1 o2 : outcome) : Prop :=
  match o1, o2 with
  | Exit s1, Exit s2 => pair_said s1 s2 \/ pair_pending s1 s2
  | Panic, Panic => True
  | _, _ => False
  end.
Lemma pending_err E s : pending E s -> err s <> None. Proof. intros (_ & _ & r & H & _). congruence. Qed.
Lemma check_exits x o1 o2 : settles x o1 o2 -> (forall s, o1 = Next s -> err s <> None) -> (forall s, o2 = Next s -> err s <> None) -> exits (seq_out o1 check) (seq_out o2 check).
Proof.
  intros H H1 H2. destruct o1 as [s1|s1| |], o2 as [s2|s2| |]; try (exfalso; exact H); try exact I. cbn [seq_out settles] in *. unfold check. specialize (H1 _ eq_refl). specialize (H2 _ eq_refl).
  destruct (err s1); [|congruence]. destruct (err s2); [|congruence]. cbn [exits]. tauto.
Qed.
Lemma sync_err k s s' : sync A S k s = Next s' -> err s <> None -> err s' <> None.
Proof.
  intros E He. unfold sync in E. destruct (_ || _); [injection E as <-; exact He|]. destruct (zmem _ _).
  - destruct (delete_one S k _) as [[o|]|] eqn:Ed; [| |discriminate E]; injection E as <-; [apply delete_err in Ed; rewrite Ed; exact He|discriminate].
  - destruct (expected S k _); [|discriminate E]. destruct (recovery S k); [|discriminate E]. injection E as <-. cbn. rewrite tell_err. exact He.
Qed.
Lemma stop_two f k p y x s1 s2 b q : stops y = Some (b, q) -> pair_pending s1 s2 -> same_tokens x s1 s2 -> (2 <= length x)%nat -> exits (rstmt f k p y s1) (rstmt f k p y s2).
Proof.
  intros Hy Hp Hx H2. pose proof Hp as (r & Hp1 & Hp2). pose proof Hp1 as (R1 & M1 & r1 & E1 & <-). pose proof Hp2 as (R2 & M2 & r2 & E2 & <-).
  destruct y as [m t|m c0|m r0 j|m|c0 b0|c0 b0|c0 b0|cases e|d cases|d e b0 r0|m j]; try discriminate Hy; cbn [RecoveryProof.rstmt]; cbv zeta.
  - change (la1 (set_state m s1)) with (la1 s1). change (la1 (set_state m s2)) with (la1 s2). rewrite <- (same_la1 _ _ _ Hx H2). destruct (la1 s1 =? t).
    + cbn [seq_out]. unfold check. change (err (advance (report_match (set_state m s1)))) with (err s1). change (err (advance (report_match (set_state m s2)))) with (err s2). rewrite E1, E2. right. exists r.
      split; (split; [assumption|]; split; [reflexivity|]; eexists; split; [eassumption|reflexivity]).
    + apply (check_exits x); [apply inline_two; try assumption; reflexivity| |]; intros s' E0; apply (inline_err S k _ _ E0); cbn; congruence.
  - destruct (sync_ok A m (la1 s1)) eqn:Eo.
    + unfold sync. change (cur (set_state m s1)) with m. change (cur (set_state m s2)) with m. change (la1 (set_state m s1)) with (la1 s1). change (la1 (set_state m s2)) with (la1 s2). rewrite <- (same_la1 _ _ _ Hx H2), Eo, !orb_true_r.
      cbn [seq_out]. unfold check. change (err (set_state m s1)) with (err s1). change (err (set_state m s2)) with (err s2). rewrite E1, E2. right. exact Hp.
    + apply (check_exits x); [apply sync_two; try assumption; reflexivity| |]; intros s' E0; apply (sync_err _ _ _ E0); cbn; congruence.
Qed.
Lemma pair_exit k s1 s2 : pair_said s1 s2 \/ pair_pending s1 s2 -> exists r,
  (forall s', error_exit S k s1 = Some s' -> said (eq r) s') /\ (forall s', error_exit S k s2 = Some s' -> said (eq (moved_report r)) s').
Proof. intros [(r & H1 & H2)|(r & H1 & H2)]; exists r; (split; intros s' E; [eapply exit_said; [|exact E]; tauto|eapply exit_said; [|exact E]; tauto]). Qed.
Lemma settle_two f k p c x s1 s2 b call sy q : Every anything false b c -> settler c = Some (call, sy, q) -> pair_pending s1 s2 -> same_tokens x s1 s2 -> (2 <= length x)%nat ->
  first_two false (rexec f k p c s1) (rexec f k p c s2).
Proof.
  intros Hb Hs Hp Hx H2. destruct c as [|i c]; [discriminate Hs|]. destruct f as [|f]; [exists (Report Unwanted 0 (Level 0)); split; exact I|]. rewrite !rexec_cons. cbn [settler] in Hs. destruct (stops i) as [(b1, n)|] eqn:Ex.
  - pose proof (stop_two f k p i x s1 s2 _ _ Ex Hp Hx H2) as G. destruct (rstmt f k p i s1) as [v1|v1| |], (rstmt f k p i s2) as [v2|v2| |]; try (exfalso; exact G); cbn [seq_out].
    + destruct G as [(r & G1 & G2)|(r & G1 & G2)]; exists r; cbn [first_out]; tauto.
    + exists (Report Unwanted 0 (Level 0)). split; exact I.
  - destruct i as [m t|m c0|m r0 j|m|c0 b0|c0 b0|c0 b0|cases e|d cases|d e b0 r0|m j]; try discriminate Hs. cbn [RecoveryProof.rstmt].
    destruct (nth_error rule_functions (Z.to_nat r0)) as [(start, [|y body])|] eqn:Ef; [discriminate Hs| |discriminate Hs]. destruct (stops y) as [(b1, n)|] eqn:Ey; [|discriminate Hs].
    destruct f as [|f]; [exists (Report Unwanted 0 (Level 0)); split; exact I|]. rewrite !rexec_cons.
    pose proof (stop_two f ((m, p) :: k) j y x (set_state start (set_state m s1)) (set_state start (set_state m s2)) _ _ Ey Hp Hx H2) as G.
    destruct (rstmt f ((m, p) :: k) j y (set_state start (set_state m s1))) as [v1|v1| |], (rstmt f ((m, p) :: k) j y (set_state start (set_state m s2))) as [v2|v2| |]; try (exfalso; exact G); cbn [seq_out leave].
    + apply (pair_exit ((m, p) :: k)) in G as (r & G1 & G2). exists r. apply every_cons in Hb as (Hb & _).
      assert (K : forall E v, (forall s', error_exit S ((m, p) :: k) v = Some s' -> said E s') -> first_out false E (seq_out (match error_exit S ((m, p) :: k) v with Some s' => Next (if r0 =? 50 then s' else set_state m s') | None => Panic end) (rexec (Datatypes.S f) k p c))).
      { intros E v Hv. destruct (error_exit S ((m, p) :: k) v) as [s'|]; [|exact I]. specialize (Hv s' eq_refl). cbn [seq_out]. eapply said_out; [exact Hb|]. destruct (r0 =? 50); exact Hv. }
      split; apply K; assumption.
    + exists (Report Unwanted 0 (Level 0)). split; exact I.
Qed.

(** *** Side by side *)
Definition side (top : bool) (r : pres) (o1 o2 : outcome) : Prop :=
  match r with
  | PDone l => (length l < length y1 + 2)%nat \/ exists x v1 v2, l = x ++ y1 /\ (2 <= length x)%nat /\ o1 = Next v1 /\ o2 = Next v2 /\ cl (x ++ y1) v1 /\ cl (x ++ y2) v2
  | PFail n _ => (length y1 + 2 <= n)%nat -> first_two top o1 o2
  | PMore => True
  end.
Definition small (l : list tok) (r : pres) : Prop := match r with PDone l' => length l' <= length l | PFail n _ => n <= length l | PMore => True end%nat.
Lemma side_seq top r o1 o2 g h : side false r o1 o2 -> (forall l, small l (g l)) ->
  (forall x v1 v2, (2 <= length x)%nat -> cl (x ++ y1) v1 -> cl (x ++ y2) v2 -> side top (g (x ++ y1)) (h v1) (h v2)) ->
  (forall E u, said E u -> first_out top E (h u)) -> side top (pthen r g) (seq_out o1 h) (seq_out o2 h).
Proof.
  intros H Hs Hg Hh. destruct r as [l|n w|]; cbn [pthen side] in *; [|intros L; destruct (H L) as (r & H1 & H2); exists r|exact I].
  - destruct H as [H|(x & v1 & v2 & -> & H2 & -> & -> & C1 & C2)]; [|apply Hg; assumption]. specialize (Hs l). destruct (g l) as [l'|n w|]; cbn [small side] in *; [left; lia|intros L; exfalso; lia|exact I].
  - assert (K : forall E o, first_out false E o -> first_out top E (seq_out o h)); [|split; apply K; assumption].
    intros E o H0. destruct o as [u|u| |]; cbn [seq_out first_out] in *; auto. destruct H0 as [H0|(H0 & _)]; [exact (Hh _ u H0)|discriminate H0].
Qed.
Lemma pexec_small f k p c l : small l (pexec f k p c l).
Proof. unfold small. pose proof (pexec_le A rule_functions P P_at f k p c l) as H. destruct (pexec f k p c l); exact H. Qed.
Lemma side_run : forall f k p b top c x u1 u2, 0 <= p <= 11 -> forallb ask_ok c = true -> Every anything false b c -> SetOk top c -> (2 <= length x)%nat -> cl (x ++ y1) u1 -> cl (x ++ y2) u2 ->
  side top (pexec f k p c (x ++ y1)) (rexec f k p c u1) (rexec f k p c u2).
Proof.
  induction f as [|f IH]; intros k p b top c x u1 u2 Hp Ha Hc Ho Hx Hu Hv; [exact I|]. destruct c as [|i c]; [right; exists x, u1, u2; auto 8|]. rewrite pexec_cons, !rexec_cons.
  pose proof (every_cons _ _ _ _ _ Hc) as (Hc' & Hi). pose proof (set_cons _ _ _ Ho) as (Ho' & Hy). cbn [forallb] in Ha. apply andb_prop in Ha as (Hai & Ha).
  pose proof (cl_la _ _ Hu) as Hla. pose proof (cl_input _ _ Hu) as Hin. pose proof (cl_here _ _ Hu) as Hh. pose proof Hu as (H1 & H2 & H3 & H4).
  pose proof (cl_la _ _ Hv) as Kla. pose proof (cl_input _ _ Hv) as Kin. pose proof (cl_here _ _ Hv) as Kh. pose proof Hv as (K1 & K2 & K3 & K4).
  assert (Hst : same_tokens x u1 u2) by (split; assumption). pose proof (same_la1 _ _ _ Hst Hx) as El. assert (Elp : pla (x ++ y2) = pla (x ++ y1)) by congruence. rewrite Elp in Kla. clear Elp El.
  assert (Hgo : forall c0 b0 x0 v1 v2, forallb ask_ok c0 = true -> Every anything false b0 c0 -> SetOk false c0 -> (2 <= length x0)%nat -> cl (x0 ++ y1) v1 -> cl (x0 ++ y2) v2 -> side false (pexec f k p c0 (x0 ++ y1)) (rexec f k p c0 v1) (rexec f k p c0 v2)).
  { intros. eapply IH; eassumption. }
  assert (Hseq : side false (pstmt A rule_functions P P_at (pexec f) k p i (x ++ y1)) (rstmt f k p i u1) (rstmt f k p i u2) ->
    side top (pthen (pstmt A rule_functions P P_at (pexec f) k p i (x ++ y1)) (pexec f k p c)) (seq_out (rstmt f k p i u1) (rexec f k p c)) (seq_out (rstmt f k p i u2) (rexec f k p c))).
  { intros G. apply side_seq; [exact G|intros; apply pexec_small|intros; eapply IH; eassumption|intros E v Hs; eapply said_out; eassumption]. }
  assert (Hstay : forall o1 o2 v1 v2, o1 = Next v1 -> o2 = Next v2 -> cl (x ++ y1) v1 -> cl (x ++ y2) v2 -> side false (PDone (x ++ y1)) o1 o2) by (intros; right; exists x, v1, v2; auto 8).
  assert (Hstep : forall v1 v2, cl (tl (x ++ y1)) v1 -> cl (tl (x ++ y2)) v2 -> side false (PDone (tl (x ++ y1))) (Next v1) (Next v2)).
  { intros v1 v2 G1 G2. destruct x as [|t x]; [cbn in Hx; lia|]. cbn [app tl] in *. destruct (Nat.le_gt_cases 2 (length x)) as [L|L]; [right; exists x, v1, v2; auto 8|left; rewrite app_length; lia]. }
  assert (Hsq : forall c1 b1 c2 b2 x0 v1 v2, forallb ask_ok c1 = true -> forallb ask_ok c2 = true -> Every anything false b1 c1 -> SetOk false c1 -> Every anything false b2 c2 -> SetOk false c2 -> (2 <= length x0)%nat -> cl (x0 ++ y1) v1 -> cl (x0 ++ y2) v2 ->
    side false (pthen (pexec f k p c1 (x0 ++ y1)) (pexec f k p c2)) (seq_out (rexec f k p c1 v1) (rexec f k p c2)) (seq_out (rexec f k p c1 v2) (rexec f k p c2))).
  { intros. apply side_seq; [eapply Hgo; eassumption|intros; apply pexec_small|intros; eapply Hgo; eassumption|intros; eapply said_out; eassumption]. }
  destruct i as [m t|m c0|m r0 j|m|c0 b0|c0 b0|c0 b0|cases e|d cases|d e b0 r0|m j];
    (match goal with |- context [MatchSet] => idtac | _ => apply Hseq end); cbn [RecoveryProof.rstmt pstmt]; cbv zeta; cbn [ask_ok] in Hai; rewrite ?Hla, ?Hin, ?Kla, ?Kin.
  - change (la1 (set_state m u1)) with (la1 u1). change (la1 (set_state m u2)) with (la1 u2). rewrite Hla, Kla. destruct (pla (x ++ y1) =? t).
    + cbn [seq_out]. unfold check. change (err (advance (report_match (set_state m u1)))) with (err u1). change (err (advance (report_match (set_state m u2)))) with (err u2). rewrite H2, K2. apply Hstep; [exact (cl_match _ (set_state m u1) Hu)|exact (cl_match _ (set_state m u2) Hv)].
    + intros _. apply (check_two x). apply inline_two; try assumption; reflexivity.
  - (* MatchSet *) change (la1 (set_state m u1)) with (la1 u1). change (la1 (set_state m u2)) with (la1 u2). rewrite Hla, Kla. destruct (holds c0 (pla (x ++ y1))).
    + apply side_seq; [apply Hstep; [exact (cl_match _ (set_state m u1) Hu)|exact (cl_match _ (set_state m u2) Hv)]|intros; apply pexec_small|intros; eapply IH; eassumption|intros; eapply said_out; eassumption].
    + cbn [pthen side]. intros _. assert (Hst' : same_tokens x (set_state m u1) (set_state m u2)) by exact Hst. pose proof (inline_two k x (set_state m u1) (set_state m u2) Hst' Hx eq_refl H3 K3 H4 K4) as G.
      destruct (recover_inline S k (set_state m u1)) as [v1|v1| |], (recover_inline S k (set_state m u2)) as [v2|v2| |]; try (exfalso; exact G); cbn [seq_out]; [|exists (Report Unwanted 0 (Level 0)); split; exact I].
      destruct G as [(r & G1 & G2)|(G & Gx)]; [exists r; split; eapply said_out; eassumption|]. destruct Hy as [Hy|(Ht & Hy)].
      * unfold settled in Hy. destruct (settler c) as [((call, sy), q)|] eqn:Es; [|discriminate Hy].
        pose proof (settle_two f k p c x v1 v2 _ _ _ _ Hc' Es G Gx Hx) as (r & G1 & G2). exists r. destruct top; [|split; assumption].
        split; [clear G2|clear G1]; [destruct (rexec f k p c v1) as [w|w| |]|destruct (rexec f k p c v2) as [w|w| |]]; cbn in *; auto; tauto.
      * subst top c. destruct G as (r & G1 & G2). exists r. destruct f; [split; exact I|]. split; right; auto.
  - destruct (nth_error rule_functions (Z.to_nat r0)) as [(start, body)|] eqn:Ef; [|exists (Report Unwanted 0 (Level 0)); split; exact I].
    pose proof (IH ((m, p) :: k) j false true body x (set_state start (set_state m u1)) (set_state start (set_state m u2)) ltac:(lia) (fun_ok _ funs_ask_ok _ _ _ Ef) (any_fun _ _ _ Ef) (set_fun _ _ _ Ef) Hx Hu Hv) as G.
    destruct (pexec f ((m, p) :: k) j body (x ++ y1)) as [l'|n w|]; cbn [side] in *; [|intros L; destruct (G L) as (r & G1 & G2); exists r|exact I].
    + destruct G as [G|(x' & v1 & v2 & -> & L & -> & -> & (C1 & C2 & C3 & C4) & (D1 & D2 & D3 & D4))]; [left; exact G|]. right. cbn [leave]. unfold error_exit. rewrite C2, D2. eexists x', _, _. split; [reflexivity|]. split; [exact L|]. split; [reflexivity|]. split; [reflexivity|].
      destruct (r0 =? 50); repeat split; assumption.
    + assert (K : forall E o, first_out true E o -> first_out false E (leave S ((m, p) :: k) o (fun s' => Next (if r0 =? 50 then s' else set_state m s')))); [|split; apply K; assumption].
      intros E o H0. destruct o as [w1|w1| |]; cbn [leave first_out] in *; try exact I;
        (destruct (error_exit S ((m, p) :: k) w1) as [w2|] eqn:E2; [|exact I]); apply (exit_said S _ _ _ E) in E2; try tauto; left; destruct (r0 =? 50); exact E2.
  - destruct (sync_ok A m (pla (x ++ y1))) eqn:E.
    + unfold sync. change (cur (set_state m u1)) with m. change (cur (set_state m u2)) with m. change (la1 (set_state m u1)) with (la1 u1). change (la1 (set_state m u2)) with (la1 u2). rewrite Hla, Kla, E, !orb_true_r. cbn [seq_out]. unfold check.
      change (err (set_state m u1)) with (err u1). change (err (set_state m u2)) with (err u2). rewrite H2, K2. eapply Hstay; [reflexivity|reflexivity|exact Hu|exact Hv].
    + intros _. apply (check_two x). apply sync_two; try assumption; try reflexivity. change (cur (set_state m u1)) with m. change (la1 (set_state m u1)) with (la1 u1). rewrite Hla. exact E.
  - destruct (holds c0 (pla (x ++ y1))); [eapply Hgo; eassumption|eapply Hstay; try reflexivity; assumption].
  - destruct (holds c0 (pla (x ++ y1))); [|eapply Hstay; try reflexivity; assumption]. eapply Hsq; try eassumption; [cbn; rewrite Hai; reflexivity|eapply (every_again _ _ _ false); [|exact Hc]; exact I|eapply set_again; [exact I|exact Ho]].
  - apply (side_seq _ _ _ _ _ (fun s' => if holds c0 (la1 s') then rexec f k p [Do c0 b0] s' else Next s')); [eapply Hgo; eassumption| | |].
    + intros l. destruct (holds c0 (pla l)); [apply pexec_small|cbn; lia].
    + intros x' v1 v2 L C1 C2. rewrite (cl_la _ _ C1), (cl_la _ _ C2). assert (El : pla (x' ++ y1) = pla (x' ++ y2)) by (destruct x'; [cbn in L; lia|reflexivity]). rewrite <- El.
      destruct (holds c0 (pla (x' ++ y1))); [|right; exists x', v1, v2; auto 8]. eapply Hgo; try eassumption; [cbn; rewrite Hai; reflexivity|eapply (every_again _ _ _ false); [|exact Hc]; exact I|eapply set_again; [exact I|exact Ho]].
    + intros E v Hs. destruct (holds c0 (la1 v)); [eapply said_out; [eapply (every_again _ _ _ false); [|exact Hc]; exact I|exact Hs]|left; exact Hs].
  - destruct (case_of (pla (x ++ y1)) cases) as [b0|] eqn:Ec; [eapply Hgo; [eapply case_ok; eassumption|exact (Hi _ _ Ec)|exact (Hy _ _ Ec)|exact Hx|exact Hu|exact Hv]|]. destruct e; [|eapply Hstay; try reflexivity; assumption].
    intros _. exists (Report NoViableAlt (here u1) (Since (here u1))). split; right; (split; [assumption|]; split; [assumption|]; eexists; split; [reflexivity|]); [reflexivity|]. rewrite (moved_here _ _ _ Hst). reflexivity.
  - apply andb_prop in Hai as (Hd & Hai). destruct (two d k p x (zmem_in _ _ Hd) Hp Hx) as (EP & EA & LA). rewrite <- EP. destruct (P d k p (kinds (x ++ y1) ++ [-1])) as [a|].
    + destruct Hi as (_ & Hi). destruct (alt_of a cases) as [b0|] eqn:Ea; [eapply Hgo; [eapply alt_ok; eassumption|exact (Hi _ _ Ea)|exact (Hy _ _ Ea)|exact Hx|exact (cl_err _ _ Hu)|exact (cl_err _ _ Hv)]|]. eapply Hstay; [reflexivity|reflexivity|exact (cl_err _ _ Hu)|exact (cl_err _ _ Hv)].
    + intros _. unfold no_viable. rewrite Hin, Kin, <- EA. set (n := P_at d p (kinds (x ++ y1) ++ [-1])) in *. exists (Report NoViableAlt (here u1 - n) (Since (here u1))). split; right; (split; [assumption|]; split; [assumption|]; eexists; split; [reflexivity|]); [reflexivity|].
      apply (moved_back x); assumption.
  - apply andb_prop in Hai as (Hai & Har). apply andb_prop in Hai as (Hd & Hab). destruct (two d k p x (zmem_in _ _ Hd) Hp Hx) as (EP & EA & LA). rewrite <- EP. destruct (P d k p (kinds (x ++ y1) ++ [-1])) as [a|].
    + destruct Hi as (_ & Hi1 & Hi2 & _), Hy as (Hy1 & Hy2). apply cl_err in Hu, Hv. destruct (a =? e); [eapply Hstay; [reflexivity|reflexivity|exact Hu|exact Hv]|].
      assert (Hq : Every anything false true [Loop d e b0 r0]) by (eapply every_again; [reflexivity|exact Hc]). assert (Hb : SetOk false [Loop d e b0 r0]) by (eapply set_again; [exact I|exact Ho]).
      assert (Haa : forallb ask_ok [Loop d e b0 r0] = true) by (cbn [forallb ask_ok]; rewrite Hd, Hab, Har; reflexivity).
      apply (side_seq _ _ _ _ (fun l' => pthen (pexec f k p r0 l') (pexec f k p [Loop d e b0 r0])) (fun s' => seq_out (rexec f k p r0 s') (rexec f k p [Loop d e b0 r0]))).
      * destruct (a =? 1); [eapply Hgo; eassumption|eapply Hstay; [reflexivity|reflexivity|exact Hu|exact Hv]].
      * intros l. pose proof (pexec_small f k p r0 l) as G. destruct (pexec f k p r0 l) as [l2|n w|]; cbn [pthen small] in *; auto. pose proof (pexec_small f k p [Loop d e b0 r0] l2) as G2. destruct (pexec f k p [Loop d e b0 r0] l2); cbn [small] in *; auto; lia.
      * intros x' v1 v2 L C1 C2. eapply Hsq; eassumption.
      * intros E v Hs. pose proof (said_run A P P_at S f k p _ r0 v E Hi2 Hs) as K. destruct (rexec f k p r0 v); cbn [seq_out]; cbn; auto. eapply said_out; eassumption.
    + intros _. unfold no_viable. rewrite Hin, Kin, <- EA. set (n := P_at d p (kinds (x ++ y1) ++ [-1])) in *. exists (Report NoViableAlt (here u1 - n) (Since (here u1))). split; right; (split; [assumption|]; split; [assumption|]; eexists; split; [reflexivity|]); [reflexivity|].
      apply (moved_back x); assumption.
  - destruct (j >=? p); [eapply Hstay; [reflexivity|reflexivity|exact Hu|exact Hv]|]. intros _. exists (Report FailedPredicate (here u1) (Level j)). split; right; (split; [assumption|]; split; [assumption|]; eexists; split; [reflexivity|]); [reflexivity|].
    change (here (set_state m u2)) with (here u2). rewrite (moved_here _ _ _ Hst). reflexivity.
Qed.
End Two.

(** *** AdaptivePredict *)
Lemma predicted_at_two d p ts ts' : In d PredictSpec.asked -> 0 <= p <= 11 -> firstn 2 (kinds ts ++ [-1]) = firstn 2 (kinds ts' ++ [-1]) ->
  predict_at d p (kinds ts ++ [-1]) = predict_at d p (kinds ts' ++ [-1]).
Proof.
  intros Hd Hp He. pose proof all_decided as G. rewrite forallb_forall in G. specialize (G d Hd). unfold decided in G. rewrite forallb_forall in G. specialize (G p (in_precs p Hp)).
  unfold predict_at. fold (starts d p). destruct (starts d p) as [cs|]; [|reflexivity]. rewrite forallb_forall in G.
  destruct (input_split ts) as (t & u & Ei & Ht & Hu), (input_split ts') as (t' & u' & Ei' & _ & Hu'). rewrite Ei, Ei' in *. cbn [firstn] in He. injection He as <- He.
  specialize (G t Ht). cbn [looked]. unfold astep in G. destruct (Predict.step _ _ _ p cs t) as [y|cs'] eqn:Ex; [reflexivity|].
  rewrite andb_true_iff, negb_true_iff, Z.eqb_neq, forallb_forall in G. destruct G as (Hne & G). destruct (Hu Hne) as (t2 & u2 & -> & Ht2), (Hu' Hne) as (t2' & u2' & -> & _). specialize (G t2 Ht2).
  injection He as <-. cbn [looked]. destruct (Predict.step _ _ _ p cs' t2) as [y|]; [reflexivity|discriminate G].
Qed.
Lemma predicts_two y1 y2 d k p x : In d PredictSpec.asked -> 0 <= p <= 11 -> (2 <= length x)%nat ->
  adaptive_predict d k p (kinds (x ++ y1) ++ [-1]) = adaptive_predict d k p (kinds (x ++ y2) ++ [-1]) /\ predict_at d p (kinds (x ++ y1) ++ [-1]) = predict_at d p (kinds (x ++ y2) ++ [-1]) /\ Nat.le (predict_at d p (kinds (x ++ y1) ++ [-1])) 1.
Proof.
  intros Hd Hp L. assert (E : firstn 2 (kinds (x ++ y1) ++ [-1]) = firstn 2 (kinds (x ++ y2) ++ [-1])) by (destruct x as [|a [|b x]]; [cbn in L; lia|cbn in L; lia|reflexivity]).
  split; [apply two_decide; assumption|]. split; [apply predicted_at_two; assumption|]. eapply Nat.le_trans; [apply predict_at_le|apply predict_seen_le; assumption].
Qed.
Theorem first_moved f x y1 y2 r rs rs2 : recovering_run parser_atn rule_functions adaptive_predict predict_at (default_strategy parser_atn) f (x ++ y1) = Ended (r :: rs) -> (length y1 + 2 <= r_left r)%nat -> (2 <= length x)%nat ->
  recovering_run parser_atn rule_functions adaptive_predict predict_at (default_strategy parser_atn) f (x ++ y2) = Ended rs2 -> exists rs', rs2 = moved_report y1 y2 r :: rs'.
Proof.
  intros H L Lx Hr2. pose proof H as H0. apply first_report in H0 as (w & Hw & _). rewrite run_shape in H, Hr2.
  assert (Hu : cl (x ++ y1) (start_state 0 (x ++ y1))) by (repeat split). assert (Hv : cl (x ++ y2) (start_state 0 (x ++ y2))) by (repeat split).
  assert (Hp : 0 <= 0 <= 11) by lia.
  pose proof (side_run parser_atn adaptive_predict predict_at (default_strategy parser_atn) y1 y2 (predicts_two y1 y2) f [] 0 false true _ x _ _ Hp (fun_ok _ funs_ask_ok _ _ _ main_code_is) (any_fun 0 0 _ main_code_is) (set_fun 0 0 _ main_code_is) Lx Hu Hv) as G.
  rewrite Hw in G. specialize (G L) as (r0 & G1 & G2).
  set (S := default_strategy parser_atn) in *. set (M := main_code ++ [Match 118 (-1)]) in *.
  assert (K : forall E ts rs0, first_out true E (rexec parser_atn rule_functions adaptive_predict predict_at S f [] 0 M (start_state 0 ts)) ->
    match leave S [] (rexec parser_atn rule_functions adaptive_predict predict_at S f [] 0 M (start_state 0 ts)) Next with Next s | Exit s => Ended (reports s) | Panic => Panicked | More => Unended end = Ended rs0 -> exists r l, rs0 = r :: l /\ E r).
  { clear. intros E ts rs0 HE H. destruct (rexec parser_atn rule_functions adaptive_predict predict_at S f [] 0 M (start_state 0 ts)) as [u|u| |]; cbn [leave first_out] in *; try discriminate H;
      (destruct (error_exit S [] u) as [v|] eqn:Ev; [|discriminate H]); apply (exit_said S _ _ _ E) in Ev; try tauto; destruct Ev as (r' & l & Er & He); injection H as <-; exists r', l; auto. }
  apply (K _ _ _ G1) in H as (r1 & l1 & E1 & ->). apply (K _ _ _ G2) in Hr2 as (r2 & l2 & -> & <-). injection E1 as -> _. exists l2. reflexivity.
Qed.
