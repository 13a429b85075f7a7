(** Fetch.v: the parser is that of Recovery.v; how far it has fetched at each report. *)
From Coq Require Import ZArith Lia Bool.
From Verif Require Import Str Tokens LexSpec Grammar Tree AtnData Atn AtnLexer AtnParser AtnParserTable ParseKF GoParser ParserCode PredictSpec GoParserTable GoParserProof Predict PredictTable PredictProof LexPos Message
  Recovery RecoveryTable RecoveryProof RecoveryCheck RecoveryProof2 FirstTable FirstRun FirstProof FirstProof2 FirstProof3 PlaceRun Fetch.
Local Open Scope Z_scope.

(** *** Without the tokens fetched *)
Definition proj (o : fout) : outcome := match o with FNext s => Next (core s) | FExit s => Exit (core s) | FPanic => Panic | FMore => More end.
Lemma proj_seq o g g' : (forall s, proj (g s) = g' (core s)) -> proj (fseq o g) = seq_out (proj o) g'. Proof. intros H. destruct o; cbn; auto. Qed.
Section Same.
Variable A : atn.
Variable funs : list (Z * list code).
Variable P : predictor.
Variables P_at P_seen : forall (d p : Z) (input : list Z), nat.
Variable S : strategy.
Lemma core_tell r s : core (ftell r s) = tell r (core s). Proof. reflexivity. Qed.
Lemma core_delete k s : option_map (option_map core) (fdelete_one S k s) = delete_one S k (core s).
Proof. unfold fdelete_one, delete_one. cbn [see core]. destruct (expected S k (cur (core s))) as [e|]; [|reflexivity]. cbn [option_map]. destruct (zmem _ e); reflexivity. Qed.
Lemma proj_check s : proj (fcheck s) = check (core s). Proof. unfold fcheck, check. destruct (err (core s)); reflexivity. Qed.
Lemma proj_inline k s : proj (frecover_inline S k s) = recover_inline S k (core s).
Proof.
  unfold frecover_inline, recover_inline. rewrite <- core_delete. destruct (fdelete_one S k s) as [[s'|]|]; cbn [option_map]; try reflexivity.
  cbn [see core]. destruct (insertion S k (cur (core s))) as [l|]; [|reflexivity]. cbn [proj]. destruct (zmem (la1 (core s)) l); reflexivity.
Qed.
Lemma proj_sync k s : proj (fsync A S k s) = sync A S k (core s).
Proof.
  unfold fsync, sync. destruct (_ || _); [reflexivity|]. destruct (zmem _ _).
  - rewrite <- core_delete. destruct (fdelete_one S k s) as [[s'|]|]; reflexivity.
  - destruct (expected S k (cur (core s))) as [e|]; [|reflexivity]. destruct (recovery S k); reflexivity.
Qed.
Lemma core_exit k s : option_map core (ferror_exit S k s) = error_exit S k (core s).
Proof. unfold ferror_exit, error_exit. destruct (err (core s)) as [r|]; [|reflexivity]. unfold frecover. rewrite core_tell. destruct (recover S k (tell r (core s))); reflexivity. Qed.
Lemma proj_leave k o g g' : (forall s, proj (g s) = g' (core s)) -> proj (fleave S k o g) = leave S k (proj o) g'.
Proof.
  intros H. destruct o as [s|s| |]; cbn [fleave proj leave]; try reflexivity; rewrite <- core_exit; destruct (ferror_exit S k s); cbn [option_map]; auto.
Qed.
Lemma proj_seq2 o o' g g' : proj o = o' -> (forall s, proj (g s) = g' (core s)) -> proj (fseq o g) = seq_out o' g'. Proof. intros <- H. apply proj_seq. exact H. Qed.
Theorem same_run : forall f k p c s, proj (fexec A funs P P_at P_seen S f k p c s) = rexec A funs P P_at S f k p c (core s).
Proof.
  induction f as [|f IH]; intros k p c s; [reflexivity|]. destruct c as [|x c]; [reflexivity|]. cbn [fexec rexec]. apply proj_seq2; [|intros; apply IH].
  destruct x as [n t|n c0|n r j|n|c0 b|c0 b|c0 b|cases e|d cases|d e b r|n j]; cbv zeta; unfold asked.
  - apply proj_seq2; [|apply proj_check]. cbn [move core]. destruct (_ =? _); [reflexivity|apply proj_inline].
  - cbn [move core]. destruct (holds _ _); [reflexivity|apply proj_inline].
  - destruct (nth_error funs (Z.to_nat r)) as [(st, body)|]; [|reflexivity]. rewrite (proj_leave _ _ _ (fun s' => Next (if r =? 50 then s' else set_state n s'))) by (intros s'; destruct (r =? 50); reflexivity). rewrite IH. reflexivity.
  - apply proj_seq2; [apply proj_sync|apply proj_check].
  - destruct (holds _ _); [apply IH|reflexivity].
  - destruct (holds _ _); [|reflexivity]. apply proj_seq2; [apply IH|intros; apply IH].
  - apply proj_seq2; [apply IH|]. intros s'. destruct (holds _ _); [apply IH|reflexivity].
  - destruct (case_of _ _); [apply IH|]. destruct e; reflexivity.
  - cbn [see core]. destruct (P d k p (rinput (core s))) as [a|]; [|reflexivity]. destruct (alt_of a cases); [rewrite IH; reflexivity|reflexivity].
  - cbn [see core]. destruct (P d k p (rinput (core s))) as [a|]; [|reflexivity]. destruct (a =? e); [reflexivity|]. apply proj_seq2; [destruct (a =? 1); [rewrite IH; reflexivity|reflexivity]|]. intros s'. apply proj_seq2; [apply IH|intros; apply IH].
  - cbn [move core]. destruct (j >=? p); reflexivity.
Qed.
End Same.

(** *** How far AdaptivePredict looks: at least to the token it reports, at most one token more than the next one *)
Lemma looked_le A ps dr p : forall ts cs i, (looked A ps dr p cs i ts <= looked_at A ps dr p cs i ts)%nat.
Proof.
  induction ts as [|t ts IH]; intros cs i; cbn [looked looked_at]; [lia|]. destruct (Predict.step A ps dr p cs t) as [x|cs']; [|apply IH]. destruct (reach A ps dr cs t) as [[|]|]; lia.
Qed.
Lemma predict_at_le d p ts : (predict_at d p ts <= predict_seen d p ts)%nat.
Proof. unfold predict_at, predict_seen. destruct (start_set _ _ _ _ _); [apply looked_le|lia]. Qed.
Lemma predict_seen_le d p ts : In d PredictSpec.asked -> 0 <= p <= 11 -> (predict_seen d p (kinds ts ++ [(-1)%Z]) <= 1)%nat.
Proof.
  intros Hd Hp. destruct (taken_at d p Hd Hp) as (cs & Es & G). unfold predict_seen. unfold starts in Es. rewrite Es.
  destruct (input_split ts) as (t & u & Ei & Ht & Hu). rewrite Ei. cbn [looked_at]. specialize (G t Ht). unfold astep in G. destruct (Predict.step _ _ _ p cs t) as [x|cs'] eqn:E1; [lia|]. destruct G as (Ht1 & _ & _ & G).
  destruct (Hu Ht1) as (t2 & u2 & -> & H2). cbn [looked_at]. destruct (G t2 H2) as (x & Ex & _). rewrite Ex. lia.
Qed.

(** *** The Sync after a MatchSet is not one of a loop *)
Definition no_loop (q : Z) : bool := zmem (n_type (node_at parser_atn q)) [3; 4; 5; 10].
Definition calm_after (c : list code) : bool := match settler c with Some (_, true, q) => no_loop q | _ => true end.
Fixpoint calm (f : nat) (c : list code) : bool :=
  match f, c with
  | O, _ => false
  | Datatypes.S _, [] => true
  | Datatypes.S f, x :: c' =>
      match x with
      | MatchSet _ _ => calm_after c'
      | If _ b | For _ b | Do _ b => calm f b
      | Switch cases _ => forallb (fun x => calm f (snd x)) cases
      | Choose _ cases => forallb (fun x => calm f (snd x)) cases
      | Loop _ _ b r => calm f b && calm f r
      | _ => true
      end && calm f c'
  end.
Lemma all_calm : forallb (fun e : Z * list code => calm 40 (snd e)) rule_functions = true. Proof. vm_compute. reflexivity. Qed.
Definition Calm (c : list code) : Prop := exists f, calm f c = true.
Lemma calm_nil : Calm []. Proof. exists 1%nat. reflexivity. Qed.
Lemma calm_cons x c : Calm (x :: c) -> Calm c /\ match x with
  | MatchSet m _ => calm_after c = true
  | If _ b | For _ b | Do _ b => Calm b
  | Switch cases _ => forall t b, case_of t cases = Some b -> Calm b
  | Choose _ cases => forall a b, alt_of a cases = Some b -> Calm b
  | Loop _ _ b r => Calm b /\ Calm r
  | _ => True
  end.
Proof.
  intros (f & H). destruct f as [|f]; [discriminate H|]. cbn [calm] in H. apply andb_true_iff in H as (H & Hc). split; [exists f; exact Hc|].
  destruct x as [n t|n c0|n r j|n|c0 b0|c0 b0|c0 b0|cases e|d cases|d e b0 r|n j]; try exact I; try (exists f; exact H).
  - exact H.
  - intros t b0. revert H. clear Hc. induction cases as [|(ts, b1) l IH]; cbn; [discriminate|]. rewrite andb_true_iff. intros (H & Hl). destruct (zmem t ts); [intros E; injection E as ->; exists f; exact H|auto].
  - intros a b0. revert H. clear Hc. induction cases as [|(i, b1) l IH]; cbn; [discriminate|]. rewrite andb_true_iff. intros (H & Hl). destruct (a =? i); [intros E; injection E as ->; exists f; exact H|auto].
  - apply andb_true_iff in H as (H1 & H2). split; exists f; assumption.
Qed.
Lemma calm_again x c : match x with For _ _ | Do _ _ | Loop _ _ _ _ => True | _ => False end -> Calm (x :: c) -> Calm [x].
Proof.
  intros Hx (f & H). destruct f as [|f]; [discriminate H|]. exists (Datatypes.S f). cbn [calm] in *. apply andb_true_iff in H as (H & Hc).
  assert (Hn : calm f [] = true) by (destruct f; [discriminate Hc|reflexivity]). rewrite Hn, andb_true_r. destruct x; try (exfalso; exact Hx); exact H.
Qed.
Lemma calm_fun r start body : nth_error rule_functions (Z.to_nat r) = Some (start, body) -> Calm body.
Proof. intros H. exists 40%nat. pose proof all_calm as G. rewrite forallb_forall in G. apply (G (start, body)). eapply nth_error_In. exact H. Qed.

(** *** What has been fetched at each report *)
(** [log]: from [hi] down to [lo] *)
Fixpoint falls (hi : nat) (l : list nat) (lo : nat) : Prop := match l with [] => (lo <= hi)%nat | h :: r => (h <= hi)%nat /\ falls h r lo end.
Lemma falls_le l : forall hi lo, falls hi l lo -> (lo <= hi)%nat.
Proof. induction l as [|h l IH]; cbn; [auto|]. intros hi lo (H & K). apply IH in K. lia. Qed.
Lemma falls_lower l : forall hi lo lo', (lo' <= lo)%nat -> falls hi l lo -> falls hi l lo'.
Proof. induction l as [|h l IH]; cbn; [lia|]. intros hi lo lo' H (H1 & K). split; [exact H1|]. eapply IH; eassumption. Qed.
Lemma falls_add l : forall hi lo, falls hi l lo -> falls hi (l ++ [lo]) lo.
Proof. induction l as [|h l IH]; cbn; [auto|]. intros hi lo (H1 & K). auto. Qed.

Section Kept.
Variable n : nat.
Variable P : predictor.
Variables P_at P_seen : forall (d p : Z) (input : list Z), nat.
Variable S : strategy.
Hypothesis at_seen : forall d p ts, (P_at d p ts <= P_seen d p ts)%nat.
Hypothesis seen_next : forall d p ts, In d PredictSpec.asked -> 0 <= p <= 11 -> (P_seen d p (kinds ts ++ [(-1)%Z]) <= 1)%nat.
Local Notation A := parser_atn.
Local Notation fexec := (fexec A rule_functions P P_at P_seen S).
Definition first_near (rs : list report) (l : list nat) : Prop := match rs, l with r :: _, h :: _ => (r_left r <= Datatypes.S h)%nat | _, _ => True end.
Definition J (s : fst_) : Prop :=
  falls n (log s) (seen s) /\ (seen s <= here (core s) <= Datatypes.S (seen s))%nat /\ Forall2 (fun r h => (h <= r_left r <= h + 2)%nat) (reports (core s)) (log s) /\ first_near (reports (core s)) (log s) /\
  (Recovery.mode (core s) = true -> reports (core s) <> []).
Definition due (r : report) (s : fst_) : Prop := (seen s <= r_left r <= seen s + 2)%nat /\ (reports (core s) = [] -> (r_left r <= Datatypes.S (seen s))%nat).
Definition pend (s : fst_) : Prop := forall r, err (core s) = Some r -> due r s.
Definition held (s : fst_) : Prop := forall r, err (core s) = Some r -> r_left r = here (core s).
Lemma J_move g s : (here (g (core s)) <= here (core s))%nat -> reports (g (core s)) = reports (core s) -> (Recovery.mode (g (core s)) = true -> Recovery.mode (core s) = true) -> J s -> J (move g s).
Proof.
  intros Hh Hr Hm (H1 & H2 & H3 & H4 & H5). unfold J. cbn [move core seen log]. rewrite Hr. split; [|split; [lia|split; [assumption|split; [assumption|auto]]]]. eapply falls_lower; [|exact H1]. lia.
Qed.
Lemma J_see m s : (m <= 1)%nat -> J s -> J (see m s).
Proof. intros Hm (H1 & H2 & H3 & H4 & H5). unfold J. cbn [see core seen log]. split; [|split; [lia|split; [assumption|split; assumption]]]. eapply falls_lower; [|exact H1]. lia. Qed.
Lemma J_tell r s : due r s -> J s -> J (ftell r s).
Proof.
  intros (Hr & Hf) (H1 & H2 & H3 & H4 & H5). unfold J, ftell. cbn [core seen log]. unfold tell, here. destruct (Recovery.mode (core s)) eqn:Em; [rewrite Em; repeat split; assumption || (unfold here in H2; lia) || exact H5|]. cbn [toks reports Recovery.mode].
  split; [apply falls_add; exact H1|]. split; [exact H2|]. split; [apply Forall2_app; [exact H3|repeat constructor; lia]|]. split; [|intros _ E; destruct (reports (core s)); discriminate E].
  unfold first_near in *. destruct (reports (core s)) as [|r0 l0], (log s) as [|h0 l1]; inversion H3; subst; cbn [app]; [apply Hf; reflexivity|]. exact H4.
Qed.
Lemma told_some r s : J s -> reports (core (ftell r s)) <> [].
Proof. intros (_ & _ & _ & _ & H). unfold ftell. cbn [core]. unfold tell. destruct (Recovery.mode (core s)); [auto|]. cbn. intros E. destruct (reports (core s)); discriminate E. Qed.
Lemma due_here s k d : J s -> due (Report k (here (core s)) d) s.
Proof. intros (_ & H & _). unfold due. cbn [r_left]. lia. Qed.
Lemma held_pend s : J s -> held s -> pend s.
Proof. intros H Hh r Hr. destruct H as (_ & H & _). unfold due. rewrite (Hh r Hr). lia. Qed.
Lemma held_none s : err (core s) = None -> held s. Proof. intros H r. rewrite H. discriminate. Qed.
Lemma pend_none s : err (core s) = None -> pend s. Proof. intros H r. rewrite H. discriminate. Qed.
Lemma J_advance s : J s -> J (move advance s).
Proof. intros H. apply J_move; [unfold here, advance; cbn; apply PlaceRun.tl_le|reflexivity|auto|exact H]. Qed.
Lemma J_match s : J s -> J (move (fun c => advance (report_match c)) s).
Proof. intros H. apply J_move; [unfold here, advance; cbn; apply PlaceRun.tl_le|reflexivity|cbn; discriminate|exact H]. Qed.
Lemma J_same g s : toks (g (core s)) = toks (core s) -> reports (g (core s)) = reports (core s) -> Recovery.mode (g (core s)) = Recovery.mode (core s) -> J s -> J (move g s).
Proof. intros Ht Hr Hm. apply J_move; [unfold here; rewrite Ht; lia|exact Hr|rewrite Hm; auto]. Qed.
Lemma J_state m s : J s -> J (move (set_state m) s). Proof. apply J_same; reflexivity. Qed.
Lemma J_err e s : J s -> J (move (set_err e) s). Proof. apply J_same; reflexivity. Qed.
(** A step that leaves the error and takes at most one token away *)
Lemma held_step s s' : J s' -> held s -> err (core s') = err (core s) -> (here (core s') <= here (core s))%nat -> (here (core s) <= Datatypes.S (here (core s')))%nat -> (here (core s) <= Datatypes.S (seen s'))%nat -> pend s'.
Proof. intros (_ & Hn & _) Hh He H1 H2 H3 r Hr. rewrite He in Hr. unfold due. rewrite (Hh r Hr). lia. Qed.
Lemma here_advance c : (here c <= Datatypes.S (here (advance c)))%nat /\ (here (advance c) <= here c)%nat.
Proof. unfold here, advance. cbn. destruct (toks c); cbn; lia. Qed.

Lemma delete_J k s s' : J s -> held s -> fdelete_one S k s = Some (Some s') -> J s' /\ pend s' /\ err (core s') = err (core s) /\ reports (core s') <> [] /\ (here (core s') <= here (core s) <= Datatypes.S (here (core s')))%nat.
Proof.
  intros H Hh. unfold fdelete_one. cbv zeta. change (core (see 1 s)) with (core s). destruct (expected S k (cur (core s))) as [e|]; [|discriminate]. destruct (zmem (la2 (core s)) e); [|discriminate]. intros E. injection E as <-.
  pose proof (J_see 1 s (le_n 1) H) as H1. pose proof (due_here (see 1 s) Unwanted (Expecting e) H1) as Hd. pose proof (J_tell _ _ Hd H1) as H2. pose proof (told_some (Report Unwanted (here (core s)) (Expecting e)) _ H1) as Hs.
  change (core (see 1 s)) with (core s) in *. set (u := ftell (Report Unwanted (here (core s)) (Expecting e)) (see 1 s)) in *. assert (Eu : err (core u) = err (core s)) by (unfold u, ftell; cbn [core see]; apply tell_err). assert (Tu : toks (core u) = toks (core s)) by (unfold u, ftell; cbn [core see]; apply tell_toks).
  assert (H3 : J (move (fun c => report_match (advance c)) u)) by (apply J_move; [unfold here, advance; cbn; apply PlaceRun.tl_le|reflexivity|cbn; discriminate|exact H2]). split; [exact H3|].
  pose proof (here_advance (core u)) as (Ha1 & Ha2). assert (Hu : here (core u) = here (core s)) by (unfold here; rewrite Tu; reflexivity).
  assert (Hx : here (core (move (fun c => report_match (advance c)) u)) = here (advance (core u))) by reflexivity.
  split; [|split; [exact Eu|split; [exact Hs|rewrite Hx; lia]]]. eapply held_step; [exact H3|exact Hh|exact Eu|rewrite Hx; lia|rewrite Hx; lia|]. cbn [move seen]. unfold here at 2. cbn [toks report_match]. fold (here (advance (core u))).
  destruct H2 as (_ & H2 & _). lia.
Qed.
(** RecoverInline *)
Lemma inline_J k s : J s -> held s -> match frecover_inline S k s with FNext s' => J s' /\ pend s' /\ (err (core s) = None -> held s') /\ (err (core s) <> None -> err (core s') <> None) | FExit _ | FMore => False | FPanic => True end.
Proof.
  intros H Hh. unfold frecover_inline. destruct (fdelete_one S k s) as [[s1|]|] eqn:E; [| |exact I].
  - destruct (delete_J k s s1 H Hh E) as (H1 & Hp & He & Hr & Hl). pose proof (here_advance (core s1)) as (Ha1 & Ha2). split; [apply J_advance; exact H1|]. split; [|split; [intros G; apply held_none; cbn; congruence|cbn; congruence]].
    intros r Er. cbn in Er. specialize (Hp r Er). rewrite He in Er. specialize (Hh r Er). destruct Hp as (Hp & _). destruct H1 as (_ & H1 & _). unfold due. cbn [move seen core]. split; [lia|]. intros G. cbn in G. contradiction.
  - cbv zeta. change (core (see 1 s)) with (core s). destruct (insertion S k (cur (core s))) as [l|]; [|exact I]. pose proof (J_see 1 s (le_n 1) H) as H1. destruct (zmem (la1 (core s)) l).
    + pose proof (J_tell _ _ (due_here _ Missing (awaited S k (core s)) H1) H1) as H2. split; [exact H2|]. change (core (see 1 s)) with (core s).
      assert (Hh' : held (ftell (Report Missing (here (core s)) (awaited S k (core s))) (see 1 s))). { intros r. unfold ftell, here. cbn [core see]. rewrite tell_err, tell_toks. apply Hh. }
      split; [apply held_pend; assumption|]. split; [auto|]. unfold ftell. cbn [core see]. rewrite tell_err. auto.
    + assert (H2 : J (move (set_err (Some (Report Mismatch (here (core s)) (awaited S k (core s))))) (see 1 s))) by (apply J_err; exact H1). split; [exact H2|]. assert (Hh' : held (move (set_err (Some (Report Mismatch (here (core s)) (awaited S k (core s))))) (see 1 s))).
      { intros r G. cbn in G. injection G as <-. reflexivity. } split; [apply held_pend; assumption|]. split; [auto|]. intros _. discriminate.
Qed.
Lemma J_until set s : J s -> J (move (consume_until set) s).
Proof. intros H. apply J_move; [unfold here, consume_until; cbn; apply PlaceRun.drop_le|reflexivity|auto|exact H]. Qed.
(** Sync *)
Lemma sync_J k s : J s -> held s -> (err (core s) = None \/ no_loop (cur (core s)) = true) -> match fsync A S k s with FNext s' => J s' /\ pend s' /\ (err (core s) <> None -> err (core s') <> None) | FExit _ | FMore => False | FPanic => True end.
Proof.
  intros H Hh Hl. unfold fsync. destruct (Recovery.mode (core s) || sync_ok A (cur (core s)) (la1 (core s))) eqn:Em; [split; [exact H|split; [apply held_pend; assumption|auto]]|]. fold (no_loop (cur (core s))). destruct (no_loop (cur (core s))).
  - destruct (fdelete_one S k s) as [[s1|]|] eqn:E; [| |exact I].
    + destruct (delete_J k s s1 H Hh E) as (H1 & Hp & He & _). split; [exact H1|]. split; [exact Hp|]. rewrite He. auto.
    + cbv zeta. change (core (see 1 s)) with (core s). pose proof (J_see 1 s (le_n 1) H) as H1. assert (H2 : J (move (set_err (Some (Report Mismatch (here (core s)) (awaited S k (core s))))) (see 1 s))) by (apply J_err; exact H1).
      split; [exact H2|]. split; [|discriminate]. apply held_pend; [exact H2|]. intros r G. cbn in G. injection G as <-. reflexivity.
  - destruct Hl as [Hl|Hl]; [|discriminate Hl]. destruct (expected S k (cur (core s))) as [e|]; [|exact I]. destruct (recovery S k) as [l|]; [|exact I].
    pose proof (J_tell _ _ (due_here _ Unwanted (Expecting e) H) H) as H2. split; [apply J_until; exact H2|]. assert (G : err (core (move (consume_until (e ++ l)) (ftell (Report Unwanted (here (core s)) (Expecting e)) s))) = None) by (cbn; rewrite tell_err; exact Hl).
    split; [apply pend_none; exact G|congruence].
Qed.
(** errorExit *)
Lemma exit_J k s s' : J s -> pend s -> ferror_exit S k s = Some s' -> J s' /\ err (core s') = None.
Proof.
  intros H Hp. unfold ferror_exit. destruct (err (core s)) as [r|] eqn:E; [|intros G; injection G as <-; auto]. pose proof (J_tell _ _ (Hp r E) H) as H1. unfold frecover. destruct (recover S k (core (ftell r s))) as [c|] eqn:Er; [|discriminate].
  intros G. injection G as <-. split; [|reflexivity]. apply J_err. apply recover_same in Er as Er'. destruct Er' as (_ & Em & Rr). apply J_move; [|exact Rr|rewrite Em; auto|exact H1].
  unfold recover in Er. destruct (recovery S k) as [l|]; [|discriminate Er]. injection Er as <-. unfold here, consume_until. cbn [toks]. etransitivity; [apply PlaceRun.drop_le|]. destruct (_ && _); cbn [advance toks]; [apply PlaceRun.tl_le|apply Nat.le_refl].
Qed.
Definition ok_out (top : bool) (o : fout) : Prop := match o with FNext s => J s /\ pend s /\ (err (core s) = None \/ top = true) | FExit s => J s /\ pend s | _ => True end.
Lemma ok_seq top o g : ok_out false o -> (forall s, J s -> err (core s) = None -> ok_out top (g s)) -> ok_out top (fseq o g).
Proof. intros H Hg. destruct o as [s|s| |]; cbn [fseq ok_out] in *; auto. destruct H as (H & _ & [He|He]); [auto|discriminate He]. Qed.
Lemma ok_top top o : ok_out false o -> ok_out top o.
Proof. destruct o; cbn; auto. intros (H & Hp & [He|He]); [auto|discriminate He]. Qed.
Lemma ok_check o : match o with FNext s => J s /\ pend s | FExit _ | FMore => False | FPanic => True end -> ok_out false (fseq o fcheck).
Proof. destruct o as [s|s| |]; cbn; auto; [|tauto]. intros (H & Hp). unfold fcheck. destruct (err (core s)) eqn:E; cbn; auto. Qed.
Lemma ok_leave k top o g : ok_out true o -> (forall s, J s -> err (core s) = None -> ok_out top (g s)) -> ok_out top (fleave S k o g).
Proof.
  intros H Hg. destruct o as [s|s| |]; cbn [fleave ok_out] in *; auto; destruct (ferror_exit S k s) as [s'|] eqn:E; try exact I; (destruct (exit_J k s s'); [tauto|tauto|exact E|auto]).
Qed.
Lemma ok_next s : J s -> err (core s) = None -> ok_out false (FNext s). Proof. intros H E. cbn. split; [exact H|]. split; [apply pend_none; exact E|auto]. Qed.
(** What comes after a MatchSet that has set an error *)
Lemma stop_J f k p x c s b q : stops x = Some (b, q) -> (b = true -> no_loop q = true) -> J s -> held s -> err (core s) <> None -> match fexec (Datatypes.S f) k p (x :: c) s with FExit s' => J s' /\ pend s' | FPanic => True | _ => False end.
Proof.
  intros Hx Hb H Hh He. assert (Hc : forall o, match o with FNext s' => J s' /\ pend s' /\ err (core s') <> None | FExit _ | FMore => False | FPanic => True end -> match fseq (fseq o fcheck) (fexec f k p c) with FExit s' => J s' /\ pend s' | FPanic => True | _ => False end).
  { intros o. destruct o as [s1|s1| |]; cbn; try tauto. intros (G1 & G2 & G3). unfold fcheck. destruct (err (core s1)) eqn:E; [|congruence]. cbn. auto. }
  destruct x as [m t|m c0|m r0 j|m|c0 b0|c0 b0|c0 b0|cases e|d cases|d e b0 r0|m j]; try discriminate Hx; cbn [fexec]; cbv zeta; cbn [stops] in Hx; injection Hx as <- <-; apply Hc; pose proof (J_state m s H) as H1; assert (Hh1 : held (move (set_state m) s)) by exact Hh.
  - destruct (la1 _ =? t).
    + pose proof (J_match _ H1) as H2. split; [exact H2|]. split; [|exact He]. pose proof (here_advance (report_match (set_state m (core s)))) as (Ha1 & Ha2). change (here (report_match (set_state m (core s)))) with (here (core s)) in *.
      eapply (held_step _ _ H2 Hh1); [reflexivity|exact Ha2|exact Ha1|]. cbn [move seen core]. change (here (set_state m (core s))) with (here (core s)). destruct H as (_ & H & _). lia.
    + pose proof (inline_J k _ H1 Hh1) as G. destruct (frecover_inline S k (move (set_state m) s)); try exact G. destruct G as (G1 & G2 & _ & G3). split; [exact G1|]. split; [exact G2|]. apply G3. exact He.
  - pose proof (sync_J k _ H1 Hh1 (or_intror (Hb eq_refl))) as G. destruct (fsync A S k (move (set_state m) s)); try exact G. destruct G as (G1 & G2 & G3). split; [exact G1|]. split; [exact G2|]. apply G3. exact He.
Qed.
Definition all_ok (f : nat) : Prop := forall k p top c s, Good c -> SetOk top c -> Calm c -> prec_ok p -> J s -> err (core s) = None -> ok_out top (fexec f k p c s).
Lemma settled_J f : (forall g, (g <= f)%nat -> all_ok g) -> forall k p top c s m, Good c -> SetOk top c -> Calm c -> prec_ok p -> settled m c = true -> calm_after c = true -> J s -> held s -> err (core s) <> None -> ok_out top (fexec f k p c s).
Proof.
  intros IH k p top c s m Hg Ho Hk Hp Hs Hq H Hh He. unfold settled in Hs. unfold calm_after in Hq. destruct (settler c) as [((call, sy), q)|] eqn:Es; [|discriminate Hs]. clear Hs. destruct f as [|f]; [exact I|]. destruct c as [|x c]; [discriminate Es|]. cbn [settler] in Es.
  destruct (stops x) as [(b1, n1)|] eqn:Ex.
  - injection Es as <- <- <-. pose proof (stop_J f k p x c s _ _ Ex ltac:(intros ->; exact Hq) H Hh He) as G. destruct (fexec (Datatypes.S f) k p (x :: c) s); try exact I; try (exfalso; exact G). exact G.
  - destruct x as [m1 t|m1 c0|m1 r0 j|m1|c0 b0|c0 b0|c0 b0|cases e|d cases|d e b0 r0|m1 j]; try discriminate Es. cbn [fexec].
    destruct (nth_error rule_functions (Z.to_nat r0)) as [(start, [|y body])|] eqn:Ef; [discriminate Es| |discriminate Es]. destruct (stops y) as [(b1, n1)|] eqn:Ey; [|discriminate Es]. injection Es as <- <- <-. destruct f as [|f]; [exact I|].
    pose proof (stop_J f ((m1, p) :: k) j y body (move (fun c => set_state start (set_state m1 c)) s) _ _ Ey ltac:(intros ->; exact Hq) (J_same (fun c => set_state start (set_state m1 c)) s eq_refl eq_refl eq_refl H) Hh He) as G.
    destruct (fexec (Datatypes.S f) ((m1, p) :: k) j (y :: body) (move (fun c => set_state start (set_state m1 c)) s)) as [s1|s1| |]; try exact I; try (exfalso; exact G). cbn [fleave].
    destruct (ferror_exit S ((m1, p) :: k) s1) as [s2|] eqn:Ee; [|exact I]. destruct (exit_J _ _ _ (proj1 G) (proj2 G) Ee) as (G1 & G2). cbn [fseq].
    apply (good_cons P_at) in Hg as (f' & Hg & _). apply set_cons in Ho as (Ho & _). apply calm_cons in Hk as (Hk & _).
    destruct (r0 =? 50); apply (IH (Datatypes.S f) ltac:(lia)); try assumption; try (eexists; exact Hg); apply J_state; exact G1.
Qed.
Lemma J_ask d p s : In d PredictSpec.asked -> prec_ok p -> J s -> J (Fetch.asked P_seen d p s).
Proof. intros Hd Hp H. apply J_see; [|exact H]. apply seen_next; assumption. Qed.
Lemma J_noviable d p s : In d PredictSpec.asked -> prec_ok p -> J s -> ok_out false (FExit (move (no_viable P_at d p) (Fetch.asked P_seen d p s))).
Proof.
  intros Hd Hp H. pose proof (J_ask d p s Hd Hp H) as H1. assert (H2 : J (move (no_viable P_at d p) (Fetch.asked P_seen d p s))) by (apply J_same; try reflexivity; exact H1). split; [exact H2|].
  intros r E. cbn in E. injection E as <-. unfold due. cbn [r_left move seen core Fetch.asked see no_viable set_err]. change (here (no_viable P_at d p (core s))) with (here (core s)).
  pose proof (seen_next d p (toks (core s)) Hd Hp) as G. pose proof (at_seen d p (kinds (toks (core s)) ++ [-1])) as G'. unfold rinput. destruct H as (_ & H & _).
  generalize dependent (P_seen d p (kinds (toks (core s)) ++ [(-1)%Z])). generalize dependent (P_at d p (kinds (toks (core s)) ++ [(-1)%Z])). change (here (set_err _ (core s))) with (here (core s)). intros x y G G'.
  change (here (RSt _ _ _ _ _ _ _)) with (here (core s)). split; [lia|]. intros _. lia.
Qed.
Lemma run_ok : forall f, all_ok f.
Proof.
  induction f as [f IHf] using lt_wf_ind. destruct f as [|f]; [intros ? ? ? ? ? ? ? ? ? ? ?; exact I|]. assert (IH : all_ok f) by (apply IHf; lia).
  intros k p top c s Hg Ho Hk Hp H He. destruct c as [|x c]; [apply ok_top, ok_next; assumption|]. pose proof Hg as Hg0. pose proof Ho as Ho0. pose proof Hk as Hk0. apply (good_cons P_at) in Hg as (f' & Hg' & Hx). assert (Hg : Good c) by (eexists; exact Hg'). apply set_cons in Ho as (Ho & Hy). apply calm_cons in Hk as (Hk & Hz).
  assert (Hrest : forall o, ok_out false o -> ok_out top (fseq o (fexec f k p c))) by (intros o G; apply ok_seq; [exact G|]; intros; apply IH; assumption).
  destruct x as [m t|m c0|m r0 j|m|c0 b0|c0 b0|c0 b0|cases e|d cases|d e b0 r0|m j]; cbn [Fetch.fexec]; cbv zeta.
  - apply Hrest, ok_check. pose proof (J_state m s H) as H1. destruct (_ =? t).
    + split; [apply J_match; exact H1|apply pend_none; exact He].
    + pose proof (inline_J k _ H1 (held_none _ He)) as G. destruct (frecover_inline S k (move (set_state m) s)); tauto.
  - pose proof (J_state m s H) as H1. destruct (holds c0 _).
    + apply Hrest, ok_next; [apply J_match; exact H1|exact He].
    + pose proof (inline_J k _ H1 (held_none _ He)) as G. destruct (frecover_inline S k (move (set_state m) s)) as [s1|s1| |]; try exact I; try (exfalso; exact G). cbn [fseq]. destruct G as (G1 & G2 & G3 & _). specialize (G3 He).
      destruct (err (core s1)) as [r|] eqn:E1; [|apply IH; assumption]. destruct Hy as [Hy|(-> & ->)].
      * eapply settled_J; try eassumption; [intros g Hg1; apply IHf; lia|rewrite E1; discriminate].
      * destruct f; [exact I|]. cbn. auto.
  - apply Hrest. destruct (nth_error rule_functions (Z.to_nat r0)) as [(start, body)|] eqn:Ef; [|exact I]. rewrite !andb_true_iff in Hx. destruct Hx as (((_ & Hj1) & Hj2) & _). apply ok_leave.
    + apply IH; [exact (proj2 (fun_good _ _ _ Ef))|exact (set_fun _ _ _ Ef)|exact (calm_fun _ _ _ Ef)|unfold prec_ok; lia|apply J_same; try reflexivity; exact H|exact He].
    + intros s1 G1 G2. destruct (r0 =? 50); apply ok_next; try assumption. apply J_state. exact G1.
  - apply Hrest, ok_check. pose proof (sync_J k _ (J_state m s H) (held_none _ He) (or_introl He)) as G. destruct (fsync A S k (move (set_state m) s)); tauto.
  - apply Hrest. destruct (holds c0 _); [apply IH; try assumption; eexists; exact Hx|apply ok_next; assumption].
  - apply Hrest. destruct (holds c0 _); [|apply ok_next; assumption]. destruct Hx as (Hx1 & Hx2). apply ok_seq; [apply IH; try assumption; eexists; exact Hx1|]. intros s1 G1 G2. apply IH; try assumption; [eapply again_for; eassumption|eapply set_again; [exact I|exact Ho0]|eapply calm_again; [exact I|exact Hk0]].
  - apply Hrest. destruct Hx as (Hx1 & Hx2). apply ok_seq; [apply IH; try assumption; eexists; exact Hx1|]. intros s1 G1 G2. destruct (holds c0 _); [|apply ok_next; assumption]. apply IH; try assumption; [eapply again_do; eassumption|eapply set_again; [exact I|exact Ho0]|eapply calm_again; [exact I|exact Hk0]].
  - apply Hrest. destruct (case_of (la1 (core s)) cases) as [b0|] eqn:Ec; [apply IH; try assumption; [eapply case_good; eassumption|exact (Hy _ _ Ec)|exact (Hz _ _ Ec)]|]. destruct e; [|apply ok_next; assumption].
    assert (H1 : J (move (set_err (Some (Report NoViableAlt (here (core s)) (Since (here (core s)))))) s)) by (apply J_err; exact H). split; [exact H1|]. apply held_pend; [exact H1|]. intros r E. cbn in E. injection E as <-. reflexivity.
  - apply Hrest. destruct Hx as (Hd & Hx). change (core (Fetch.asked P_seen d p s)) with (core s). pose proof (J_ask d p s Hd Hp H) as H1. destruct (P d k p (rinput (core s))) as [a|]; [|apply J_noviable; assumption].
    destruct (alt_of a cases) as [b0|] eqn:Ea; [apply IH; try assumption; [eapply alt_good; eassumption|exact (Hy _ _ Ea)|exact (Hz _ _ Ea)|apply J_err; exact H1|reflexivity]|apply ok_next; [apply J_err; exact H1|reflexivity]].
  - apply Hrest. destruct Hx as (Hd & Hx1 & Hx2 & Hx3), Hy as (Hy1 & Hy2), Hz as (Hz1 & Hz2). change (core (Fetch.asked P_seen d p s)) with (core s). pose proof (J_ask d p s Hd Hp H) as H1. destruct (P d k p (rinput (core s))) as [a|]; [|apply J_noviable; assumption].
    assert (H2 : J (move (set_err None) (Fetch.asked P_seen d p s))) by (apply J_err; exact H1). destruct (a =? e); [apply ok_next; [exact H2|reflexivity]|].
    apply ok_seq; [destruct (a =? 1); [apply IH; try assumption; [eexists; exact Hx1|reflexivity]|apply ok_next; [exact H2|reflexivity]]|]. intros s1 G1 G2. apply ok_seq; [apply IH; try assumption; eexists; exact Hx2|].
    intros s2 G3 G4. apply IH; try assumption; [eapply again_loop; eassumption|eapply set_again; [exact I|exact Ho0]|eapply calm_again; [exact I|exact Hk0]].
  - apply Hrest. pose proof (J_state m s H) as H1. destruct (j >=? p); [apply ok_next; assumption|]. assert (H2 : J (move (set_err (Some (Report FailedPredicate (here (core (move (set_state m) s))) (Level j)))) (move (set_state m) s))) by (apply J_err; exact H1).
    split; [exact H2|]. apply held_pend; [exact H2|]. intros r E. cbn in E. injection E as <-. reflexivity.
Qed.
End Kept.
