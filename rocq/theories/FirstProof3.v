(** The failing run: tokens that can be continued to a program are not failed at. *)
From Coq Require Import ZArith NArith Lia Bool.
From Verif Require Import Str Tokens Grammar Tree AtnData Atn AtnParser AtnParserTable AtnParserProof GoParser ParserCode PredictSpec GoParserTable GoParserProof Predict PredictTable PredictProof
  Recovery RecoveryTable RecoveryProof RecoveryCheck RecoveryProof2 RecoveryProof3 FirstTable FirstRun FirstProof FirstProof2.
Local Open Scope Z_scope.
Local Notation A := parser_atn.
Local Notation tr := (tr A).
Local Notation nrm := (nrm A).
Local Notation completes := (completes A).
Local Notation walk := (walk A).
Local Notation nrule q := (n_rule (node_at A q)).
Local Notation chk := (chk A firsts follows).
Local Notation P := adaptive_predict.
Local Notation pexec := (pexec A rule_functions adaptive_predict predict_at).
Local Notation pstmt := (pstmt A rule_functions adaptive_predict predict_at).
Local Opaque parser_atn decision_state firsts follows heights takes rule_functions adaptive_predict predict_at.

Definition past (rest : list tok) (r : pres) : Prop := match r with PDone l' => (length l' <= length rest)%nat | PFail n _ => (n <= length rest)%nat | PMore => True end.
Definition can (k : stack) (p q : Z) (v : list tok) : Prop := v <> [] /\ exists w, Forall word w /\ completes k p q (kinds v ++ w ++ [-1]).
Definition on (k : stack) (p q q' : Z) (rest : list tok) (r : pres) : Prop :=
  past rest r \/ nrule q' = nrule q /\ exists v, r = PDone (v ++ rest) /\ can k p q' v.
Lemma past_on k p q q' rest r : past rest r -> on k p q q' rest r. Proof. left. assumption. Qed.
Lemma past_run f k p c l rest : (length l <= length rest)%nat -> past rest (pexec f k p c l).
Proof. intros H. pose proof (pexec_le A rule_functions P predict_at f k p c l) as G. destruct (pexec f k p c l); cbn; lia. Qed.
Lemma past_then rest r g : past rest r -> (forall l, (length l <= length rest)%nat -> past rest (g l)) -> past rest (pthen r g).
Proof. destruct r as [l|n w|]; cbn [pthen]; auto. Qed.
Lemma on_then k p q m q' rest r g : on k p q m rest r -> (forall v, can k p m v -> nrule m = nrule q -> on k p m q' rest (g (v ++ rest))) -> (forall l, (length l <= length rest)%nat -> past rest (g l)) ->
  on k p q q' rest (pthen r g).
Proof.
  intros [H|(Hr & v & -> & H)] Hg Hp; [left; apply past_then; assumption|]. cbn [pthen]. destruct (Hg v H Hr) as [G|(Hr' & G)]; [left; exact G|right]. split; [congruence|exact G].
Qed.
Lemma on_from k p q q0 q' rest r : nrule q0 = nrule q -> on k p q0 q' rest r -> on k p q q' rest r.
Proof. intros Hr [H|(Hr' & H)]; [left; exact H|right]. split; [congruence|exact H]. Qed.
Lemma on_stay k p q v rest : can k p q v -> on k p q q rest (PDone (v ++ rest)). Proof. intros H. right. split; [reflexivity|]. exists v. auto. Qed.
Lemma can_nrm k p q v : can k p q v -> can k p (nrm q) v.
Proof. intros (H & w & Hw & C). split; [exact H|]. exists w. split; [exact Hw|]. apply (completes_nrm A firsts follows tables_closed). exact C. Qed.
Lemma can_sees k p q v rest b : all_ahead A firsts follows q b = true -> can k p q v -> b (pla (v ++ rest)) = true.
Proof.
  intros H (Hv & w & _ & C). destruct v as [|x v]; [congruence|]. cbn [kinds map app pla] in *. apply (completes_ahead A firsts follows parser_ok tables_closed) in C as (Hb & Ht).
  unfold all_ahead in H. rewrite forallb_forall in H. specialize (H _ Ht). fold (kind_of x) in *. rewrite Hb in H. exact H.
Qed.
Lemma can_one k p q t v : tr q = [t] -> can k p q v -> exists w, Forall word w /\ goes_on A k p q t (kinds v ++ w ++ [-1]).
Proof. intros E (_ & w & Hw & C). exists w. split; [exact Hw|]. exact (completes_one A firsts follows tables_closed _ _ _ _ _ E C). Qed.
Lemma can_two k p q a e v : tr q = [TEps a; TEps e] -> can k p q v -> can k p a v \/ can k p e v.
Proof. intros E (Hv & w & Hw & C). apply (completes_two A firsts follows tables_closed _ _ _ _ _ _ E) in C as [C|C]; [left|right]; (split; [exact Hv|]); exists w; auto. Qed.
Lemma can_set k p q l to v rest : tr q = [TSet false l to] -> can k p q v -> in_ranges l (pla (v ++ rest)) = true /\ In (pla (v ++ rest)) tokens /\ pla (v ++ rest) <> -1 /\ on k p q (nrm to) rest (PDone (tl (v ++ rest))).
Proof.
  intros Et H. pose proof H as (Hv & _). destruct (can_one _ _ _ _ _ Et H) as (w & Hw & _ & x & ts' & E & Hx & C). destruct v as [|y v]; [congruence|]. cbn [kinds map app pla tl] in *. fold (kinds v) in *. fold (kind_of y) in *. injection E as <- <-.
  split; [exact Hx|]. split; [eapply (range_tokens A parser_ok); [|exact Hx]; unfold GoParserTable.tr in Et; rewrite Et; left; reflexivity|]. split; [pose proof (kind_range (ty y)); unfold kind_of; lia|].
  destruct v as [|z v]; [left; cbn; lia|]. right. split.
  - rewrite rule_nrm. assert (Hin : In (TSet false l to) (tr q)) by (rewrite Et; left; reflexivity). pose proof (rule_next _ _ Hin) as G. cbn [same_rule] in G. apply Z.eqb_eq in G. exact G.
  - exists (z :: v). split; [reflexivity|]. apply can_nrm. split; [discriminate|]. exists w. auto.
Qed.
Theorem continued_is_matched : forall f g sy k p c v rest q q', chk g sy c q = Some q' -> 0 <= p <= 11 -> opened k (nrule q) -> can k p q v -> on k p q q' rest (pexec f k p c (v ++ rest)).
Proof.
  induction f as [|f IH]; intros g sy k p c v rest q q' Hc Hp Ho Hs; [left; exact I|].
  destruct g as [|g]; [discriminate Hc|]. destruct c as [|x c']; [cbn [GoParserTable.chk] in Hc; injection Hc as <-; apply on_stay; exact Hs|]. rewrite pexec_cons. cbn [GoParserTable.chk] in Hc.
  assert (NX : forall (b : bool) (m : Z) r, (if b then chk g None c' m else None) = Some q' -> b = true /\ (on k p q m rest r -> on k p q q' rest (pthen r (pexec f k p c')))).
  { intros b m r E. destruct b; [|discriminate E]. split; [reflexivity|]. intros Hm. eapply on_then; [exact Hm| |intros l Hl; apply past_run; exact Hl]. intros v' Hv Hrm. eapply IH; [exact E|exact Hp|rewrite Hrm; exact Ho|exact Hv]. }
  assert (EP : forall a r m, In (TEps a) (tr q) -> on k p (nrm a) m rest r -> on k p q m rest r).
  { intros a r m Hin. apply on_from. rewrite rule_nrm. apply eps_rule. exact Hin. }
  assert (OP : forall q a, opened k (nrule q) -> In (TEps a) (tr q) -> opened k (nrule (nrm a))).
  { intros q0 a H Hin. rewrite rule_nrm, (eps_rule _ _ Hin). exact H. }
  destruct x as [n t|n c|n r j|n|c b|c b|c b|cases err|d cases|d e b r|n j]; cbn [FirstRun.pstmt].
  - (* Match *) destruct (tr q) as [|[?|[|] s to|? ? ? ?|? ? ?|? ?] [|]] eqn:Et; try discriminate Hc. eapply NX in Hc as (Hb & Hm). apply Hm. clear Hm.
    rewrite !andb_true_iff, Z.eqb_eq, Z.leb_le, forallb_forall in Hb. destruct Hb as ((_ & Ht) & Hl). destruct (can_set _ _ _ _ _ _ rest Et Hs) as (Hx & Hin & _ & G).
    specialize (Hl _ Hin). rewrite Hx in Hl. apply eqb_prop in Hl. rewrite <- Hl. exact G.
  - (* MatchSet *) destruct (tr q) as [|[?|[|] s to|? ? ? ?|? ? ?|? ?] [|]] eqn:Et; try discriminate Hc. eapply NX in Hc as (Hb & Hm). apply Hm. clear Hm.
    rewrite !andb_true_iff, negb_true_iff, forallb_forall in Hb. destruct Hb as ((_ & Ht) & Hl). destruct (can_set _ _ _ _ _ _ rest Et Hs) as (Hx & Hin & _ & G).
    specialize (Hl _ Hin). rewrite Hx in Hl. apply eqb_prop in Hl. rewrite <- Hl. exact G.
  - (* Call *) destruct (tr q) as [|[?|? ? ?|st r' to k'|? ? ?|? ?] [|]] eqn:Et; try discriminate Hc. eapply NX in Hc as (Hb & Hm). apply Hm. clear Hm.
    rewrite !andb_true_iff, !Z.eqb_eq, !Z.ltb_lt, !Z.leb_le in Hb. destruct Hb as ((((((-> & <-) & <-) & Hr0) & Hr) & Hj0) & Hj1).
    destruct (call_facts _ _ _ _ _ Et) as (_ & _ & _ & _ & _ & Hrs & Hrt). pose proof (start_known _ _ _ _ _ Et) as Est.
    destruct (nth_error rule_functions (Z.to_nat r)) as [(en, body)|] eqn:Ef; [|exfalso; apply nth_error_None in Ef; assert (El : length rule_functions = 51%nat) by (vm_compute; reflexivity); lia].
    destruct (fun_known _ _ _ Ef Hr0) as (qs & Eq & H7 & Hrq). rewrite <- Est in Eq.
    assert (Ho' : opened ((q, p) :: k) (nrule (nrm st))) by (rewrite rule_nrm, Hrs; econstructor; [exact Et|exact Ho]).
    assert (Hin : can ((q, p) :: k) j st v).
    { pose proof Hs as (Hv & _). destruct (can_one _ _ _ _ _ Et Hs) as (w & Hw & ts1 & ts2 & stop & E & W & Hs7 & Hsr & C). split; [exact Hv|]. exists w. split; [exact Hw|]. apply completes_def. exists ts1, ts2, stop.
      split; [exact E|]. split; [exact W|]. split; [exact Hs7|]. cbn [after]. exists st, to, j. rewrite Hsr. split; [exact Et|exact C]. }
    apply can_nrm in Hin. pose proof (IH 40%nat None ((q, p) :: k) j body v rest _ _ Eq ltac:(lia) Ho' Hin) as [G|(_ & v' & G & Hv' & w' & Hw' & C')]; [left; exact G|].
    right. split; [rewrite rule_nrm; exact Hrt|]. exists v'. split; [exact G|]. apply can_nrm. split; [exact Hv'|]. exists w'. split; [exact Hw'|].
    apply completes_def in C' as (u1 & u2 & stop1 & E1 & Hw1 & H71 & Ha1). apply (walk_stop A firsts follows tables_closed _ _ _ _ H7) in Hw1 as (-> & ->).
    cbn [app after] in *. destruct Ha1 as (st1 & to1 & j1 & En & Hc1). unfold GoParserTable.tr in Et. rewrite Et in En. injection En as <- _ <- <-. rewrite E1. exact Hc1.
  - (* Sync *) destruct ((nrm n =? q) && all_ahead A firsts follows q (sync_ok A n)) eqn:Eb; [|discriminate Hc]. apply andb_true_iff in Eb as (_ & Eb).
    rewrite (can_sees _ _ _ _ rest _ Eb Hs). cbn [pthen]. eapply IH; [exact Hc|exact Hp|exact Ho|exact Hs].
  - (* If *) destruct (tr q) as [|[a|? ? ?|? ? ? ?|? ? ?|? ?] [|[e|? ? ?|? ? ? ?|? ? ?|? ?] [|]]] eqn:Et; try discriminate Hc. eapply NX in Hc as (Hb & Hm). apply Hm. clear Hm.
    rewrite !andb_true_iff in Hb. destruct Hb as ((Hb & Ha) & He). apply option_eqb_true in Hb.
    assert (I1 : In (TEps a) (tr q)) by (rewrite Et; left; reflexivity). assert (I2 : In (TEps e) (tr q)) by (rewrite Et; right; left; reflexivity). rewrite <- Et in EP.
    destruct (can_two _ _ _ _ _ _ Et Hs) as [G|G].
    + rewrite (can_sees _ _ _ _ rest _ Ha G). apply (EP _ _ _ I1). eapply IH; [exact Hb|exact Hp|eapply OP; eassumption|apply can_nrm; exact G].
    + apply (can_sees _ _ _ _ rest _ He) in G as G'. apply negb_true_iff in G'. rewrite G'. apply (EP _ _ _ I2). apply on_stay. apply can_nrm. exact G.
  - (* For *) destruct (tr q) as [|[a|? ? ?|? ? ? ?|? ? ?|? ?] [|[e|? ? ?|? ? ? ?|? ? ?|? ?] [|]]] eqn:Et; try discriminate Hc. eapply NX in Hc as (Hb & Hm). apply Hm. clear Hm.
    pose proof Hb as Hb0. rewrite !andb_true_iff in Hb. destruct Hb as ((Hb & Ha) & He). apply option_eqb_true in Hb.
    assert (I1 : In (TEps a) (tr q)) by (rewrite Et; left; reflexivity). assert (I2 : In (TEps e) (tr q)) by (rewrite Et; right; left; reflexivity). rewrite <- Et in EP.
    destruct (can_two _ _ _ _ _ _ Et Hs) as [G|G].
    + rewrite (can_sees _ _ _ _ rest _ Ha G). eapply (on_then _ _ _ q); [apply (EP _ _ _ I1); eapply IH; [exact Hb|exact Hp|eapply OP; eassumption|apply can_nrm; exact G]| |intros l Hl; apply past_run; exact Hl].
      intros v1 H1 _. eapply (IH (S g) None _ _ [For c b]); [|exact Hp|exact Ho|exact H1]. cbn [GoParserTable.chk]. rewrite Et, Hb0. destruct g; [discriminate Hb|reflexivity].
    + apply (can_sees _ _ _ _ rest _ He) in G as G'. apply negb_true_iff in G'. rewrite G'. apply (EP _ _ _ I2). apply on_stay. apply can_nrm. exact G.
  - (* Do *) destruct (chk g None b q) as [h|] eqn:Eh; [|discriminate Hc].
    destruct (tr h) as [|[a|? ? ?|? ? ? ?|? ? ?|? ?] [|[e|? ? ?|? ? ? ?|? ? ?|? ?] [|]]] eqn:Et; try discriminate Hc. eapply NX in Hc as (Hb & Hm). apply Hm. clear Hm.
    pose proof Hb as Hb0. rewrite !andb_true_iff, Z.eqb_eq in Hb. destruct Hb as ((Ha & Ha') & He).
    assert (I1 : In (TEps a) (tr h)) by (rewrite Et; left; reflexivity). assert (I2 : In (TEps e) (tr h)) by (rewrite Et; right; left; reflexivity).
    eapply on_then; [eapply IH; [exact Eh|exact Hp|exact Ho|exact Hs]| |].
    2: { intros l Hl. destruct (holds c (pla l)); [apply past_run; exact Hl|exact Hl]. }
    intros v1 H1 Hr1. destruct (can_two _ _ _ _ _ _ Et H1) as [G|G].
    + rewrite (can_sees _ _ _ _ rest _ Ha' G). apply (on_from _ _ _ (nrm a)); [rewrite rule_nrm; apply eps_rule; exact I1|]. rewrite Ha.
      eapply (IH (S g) None _ _ [Do c b]); [|exact Hp|exact Ho|rewrite <- Ha; apply can_nrm; exact G]. cbn [GoParserTable.chk]. rewrite Eh, Et, Hb0. destruct g; [discriminate Eh|reflexivity].
    + apply (can_sees _ _ _ _ rest _ He) in G as G'. apply negb_true_iff in G'. rewrite G'. apply (on_from _ _ _ (nrm e)); [rewrite rule_nrm; apply eps_rule; exact I2|]. apply on_stay. apply can_nrm. exact G.
  - (* Switch *) destruct (sw A firsts follows (chk g None) (tr q) cases) as [q1|] eqn:Esw; [|discriminate Hc]. eapply NX in Hc as (Hb & Hm). apply Hm. clear Hm.
    assert (Hall : Forall (fun t => exists a, t = TEps a) (tr q)) by (eapply sw_alts; exact Esw).
    assert (Hne : tr q <> []) by (intros E; rewrite E in Esw; destruct cases; discriminate Esw).
    pose proof Hs as (Hv & w & Hw & C). apply (completes_inv A firsts follows tables_closed) in C as (t & Hin & G); [|exact Hne]. rewrite Forall_forall in Hall. destruct (Hall _ Hin) as (a & ->). cbn [goes_on] in G.
    assert (Hca : can k p a v) by (split; [exact Hv|]; exists w; auto).
    assert (Hbit : N.testbit (ahead A firsts follows a) (bit (pla (v ++ rest))) = true /\ In (pla (v ++ rest)) tokens).
    { destruct v as [|y v]; [congruence|]. cbn [kinds map app pla] in *. apply (completes_ahead A firsts follows parser_ok tables_closed) in G. exact G. }
    destruct Hbit as (Hbit & Ht). destruct (sw_complete A firsts follows _ _ _ _ _ _ Esw Hin Hbit Ht) as (b & Hcb & Hck). rewrite Hcb. apply (EP _ _ _ Hin). eapply IH; [exact Hck|exact Hp|eapply OP; eassumption|apply can_nrm; exact Hca].
  - (* Choose *) destruct (ch A (chk g None) 1 (tr q) cases) as [q1|] eqn:Ech; [|discriminate Hc]. eapply NX in Hc as (Hb & Hm). apply Hm. clear Hm.
    rewrite andb_true_iff, Z.eqb_eq, zmem_in in Hb. destruct Hb as (Hb & Hd). subst q. pose proof Hs as (Hv & w & Hw & C).
    destruct (answer_takes d k p v rest w Hd Hp Ho Hv Hw C) as [(a & to & w' & Ep & Ha & Hn & Hw' & C')|(Ep & Hle)]; rewrite Ep; [|left; exact Hle]. apply nth_error_In in Hn as Hin.
    assert (Hlen : (Z.to_nat (a - 1) < length (tr (decision_state d)))%nat) by (apply nth_error_Some; unfold alternatives in Hn; unfold GoParserTable.tr; rewrite Hn; discriminate).
    destruct (ch_total A _ _ _ _ _ Ech a ltac:(lia)) as (to' & b & Hn' & Hab & Hck). unfold alternatives in Hn. unfold GoParserTable.tr in Hn'. rewrite Hn in Hn'. injection Hn' as <-. rewrite Hab.
    apply (EP _ _ _ Hin). eapply IH; [exact Hck|exact Hp|eapply OP; eassumption|]. apply can_nrm. split; [exact Hv|]. exists w'. auto.
  - (* Loop *) destruct (tr q) as [|[a|? ? ?|? ? ? ?|? ? ?|? ?] [|[x|? ? ?|? ? ? ?|? ? ?|? ?] [|]]] eqn:Et; try discriminate Hc. eapply NX in Hc as (Hb & Hm). apply Hm. clear Hm. rewrite <- Et in EP.
    pose proof Hb as Hb0. rewrite !andb_true_iff, !Z.eqb_eq, zmem_in in Hb. destruct Hb as (((Hd & Hk) & ->) & Hb). subst q. pose proof Hs as (Hv & w & Hw & C).
    destruct (answer_takes d k p v rest w Hk Hp Ho Hv Hw C) as [(i & to & w' & Ep & Hi & Hn & Hw' & C')|(Ep & Hle)]; rewrite Ep; [|left; exact Hle]. apply nth_error_In in Hn as Hin.
    assert (Hct : can k p to v) by (split; [exact Hv|]; exists w'; auto). apply can_nrm in Hct.
    unfold alternatives in Hn. fold (tr (decision_state d)) in Hn. rewrite Et in Hn.
    destruct (Z.eqb_spec i 2) as [->|Hi2].
    + cbn in Hn. injection Hn as <-. apply (EP _ _ _ Hin). apply on_stay. exact Hct.
    + assert (i = 1).
      { destruct (Z.to_nat (i - 1)) as [|[|m]] eqn:Em; [lia|lia|]. cbn in Hn. destruct m; discriminate Hn. }
      subst i. cbn in Hn. injection Hn as <-. cbn [Z.eqb Pos.eqb]. destruct (chk g None b (nrm a)) as [h|] eqn:Eh; [|discriminate Hb]. apply option_eqb_true in Hb.
      apply (EP _ _ _ Hin). eapply on_then; [eapply IH; [exact Eh|exact Hp|eapply OP; eassumption|exact Hct]| |].
      2: { intros l Hl. apply past_then; [apply past_run; exact Hl|]. intros l' Hl'. apply past_run. exact Hl'. }
      intros v2 H2 Hr2. rewrite rule_nrm, (eps_rule _ _ Hin) in Hr2. eapply on_then; [eapply IH; [exact Hb|exact Hp|rewrite Hr2; exact Ho|exact H2]| |intros l Hl; apply past_run; exact Hl]. intros v3 H3 Hr3.
      eapply (IH (S g) None _ _ [Loop d 2 b r]); [|exact Hp|exact Ho|exact H3]. cbn [GoParserTable.chk]. rewrite Et, Eh, Hb0. destruct g; [discriminate Eh|reflexivity].
  - (* Prec *) destruct (tr q) as [|[?|? ? ?|? ? ? ?|? ? ?|k' to] [|]] eqn:Et; try discriminate Hc. eapply NX in Hc as (Hb & Hm). apply Hm. clear Hm.
    rewrite !andb_true_iff, !Z.eqb_eq in Hb. destruct Hb as ((_ & <-) & Hr). assert (Hin : In (TPrec j to) (tr q)) by (rewrite Et; left; reflexivity).
    pose proof Hs as (Hv & _). destruct (can_one _ _ _ _ _ Et Hs) as (w & Hw & Hj & C). replace (j >=? p) with true by (symmetry; apply Z.geb_le; lia).
    right. pose proof (rule_next _ _ Hin) as Hrn. cbn [same_rule] in Hrn. apply Z.eqb_eq in Hrn. split; [rewrite rule_nrm; exact Hrn|]. exists v. split; [reflexivity|]. apply can_nrm. split; [exact Hv|]. exists w. auto.
Qed.

(** *** The whole call *)
Local Notation q0 := (nrm (start_of A 0)).
Lemma start_facts : nrule q0 = 0 /\ alive q0 = true. Proof. vm_compute. repeat split. Qed.
Lemma accepts_completes u : parser_accepts u <-> completes [] 0 q0 (kinds u ++ [-1]).
Proof.
  split.
  - intros (stop & Hw & H7 & H0). apply (completes_nrm A firsts follows tables_closed). apply completes_def. exists (kinds u ++ [-1]), [], stop. rewrite app_nil_r. cbn [after]. auto.
  - intros H. apply completes_from_nrm in H. apply completes_def in H as (ts1 & ts2 & stop & E & W & H7 & H0 & ->). rewrite app_nil_r in E. subst ts1. exists stop. auto.
Qed.
Lemma main_naming : Naming false main_code.
Proof. exists 40%nat. assert (G : naming 40 false main_code = true) by (vm_compute; reflexivity). exact G. Qed.
Lemma site_118 : names_well 118 = true /\ one_set 118 = true /\ nrm 118 = 118. Proof. vm_compute. repeat split. Qed.
Theorem fails_at f ts n why0 : pexec f [] 0 (main_code ++ [Match 118 (-1)]) ts = PFail n why0 ->
  (exists u r rest, ts = u ++ r /\ length r = n /\ parser_accepts (u ++ rest) /\ stuck [] 0 q0 u r why0) /\
  (forall u x r rest, ts = u ++ x :: r -> length (x :: r) = n -> ~ parser_accepts (u ++ x :: rest)).
Proof.
  intros H. destruct start_facts as (H0 & Ha). assert (Ho : opened [] (nrule q0)) by (rewrite H0; constructor). apply pexec_app in H. split.
  - pose proof (matched_continues f 40 None [] 0 false _ ts _ _ main_naming ltac:(discriminate) main_checked ltac:(discriminate) ltac:(split; [lia|reflexivity]) Ho (alive_live _ _ _ Ho Ha)) as G.
    assert (Fin : forall u r w, ts = u ++ r -> length r = n -> Forall word w -> completes [] 0 q0 (kinds u ++ w ++ [-1]) -> stuck [] 0 q0 u r why0 -> exists u r rest, ts = u ++ r /\ length r = n /\ parser_accepts (u ++ rest) /\ stuck [] 0 q0 u r why0).
    { intros u r w E Hn Hw C Hk. destruct (typed w Hw) as (wt & <-). exists u, r, wt. split; [exact E|]. split; [exact Hn|]. split; [|exact Hk]. apply accepts_completes. rewrite kinds_app, <- app_assoc. exact C. }
    destruct (pexec f [] 0 main_code ts) as [l|m y|]; [| |discriminate H].
    + destruct H as (f' & [H|H]); [|discriminate H]. destruct G as (u & E & (w & Hw & C) & _ & G). destruct f' as [|f']; [discriminate H|]. rewrite pexec_cons in H. cbn [FirstRun.pstmt] in H.
      destruct (pla l =? -1) eqn:El; cbn [pthen] in H; [destruct f'; discriminate H|]. injection H as Hn <-. eapply Fin; [exact E|exact Hn|exact Hw|apply G; exact C|]. destruct site_118 as (S1 & S2 & S3). split; [reflexivity|]. split; [exact S1|]. split; [split; [exact S2|]; unfold refuses; rewrite (proj1 tr_118); unfold in_ranges; cbn [existsb fst snd]; apply Z.eqb_neq in El; pose proof (pla_tokens l) as Hla; apply in_tokens in Hla; lia|].
      split; [rewrite (proj1 (proj2 tr_118)); constructor|]. split; [split; [lia|reflexivity]|]. rewrite S3. exact G.
    + injection H as -> ->. destruct G as (u & r & w & E & Hn & Hw & C & Hk). eapply Fin; eassumption.
  - intros u x r rest E Hn C. apply accepts_completes in C.
    assert (Hc : can [] 0 q0 (u ++ [x])).
    { split; [destruct u; discriminate|]. exists (kinds rest). split; [apply kinds_word|]. rewrite app_assoc, <- kinds_app, <- app_assoc. exact C. }
    pose proof (continued_is_matched f 40 None [] 0 _ (u ++ [x]) r _ _ main_checked ltac:(lia) Ho Hc) as G. rewrite <- app_assoc in G. cbn [app] in G. rewrite <- E in G. cbn [length] in Hn.
    destruct (pexec f [] 0 main_code ts) as [l|m y|]; [| |discriminate H].
    + destruct H as (f' & [H|H]); [|discriminate H]. destruct f' as [|f']; [discriminate H|]. rewrite pexec_cons in H. cbn [FirstRun.pstmt] in H.
      destruct (pla l =? -1) eqn:El; cbn [pthen] in H; [destruct f'; discriminate H|]. injection H as Hl _. destruct G as [G|(_ & v & _ & G)]; [cbn in G; lia|].
      destruct main_last as (Ht & _). destruct (can_set _ _ _ _ _ _ [] Ht G) as (Hx & _ & Hne & _). unfold in_ranges in Hx. cbn in Hx. rewrite orb_false_r, andb_true_iff, !Z.leb_le in Hx. lia.
    + injection H as -> _. destruct G as [G|(_ & v & G & _)]; [cbn in G; lia|discriminate G].
Qed.
