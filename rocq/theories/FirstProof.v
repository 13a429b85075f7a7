(** The failing run stops at the first token that no program goes on with. *)
From Coq Require Import ZArith NArith Lia Bool.
From Verif Require Import Str Tokens Grammar Tree AtnData Atn AtnParser AtnParserTable AtnParserProof GoParser ParserCode PredictSpec GoParserTable GoParserProof Predict PredictTable PredictProof
  Recovery RecoveryTable RecoveryProof RecoveryCheck RecoveryProof2 RecoveryProof3 FirstTable FirstRun.
Local Open Scope Z_scope.
Local Notation A := parser_atn.
Local Notation tr := (tr A).
Local Notation nrm := (nrm A).
Local Notation completes := (completes A).
Local Notation walk := (walk A).
Local Notation after := (after A).
Local Notation nrule q := (n_rule (node_at A q)).
Lemma tr_453 : tr 453 = [TEps 451; TEps 454]. Proof. exact (proj2 (proj2 (proj2 stop_101))). Qed.
Lemma tr_119 : tr 119 = [TEps 1]. Proof. vm_compute. reflexivity. Qed.
Lemma tr_118 : tr 118 = [TSet false [(-1, -1)] 119] /\ nrule 118 = 0 /\ tr 1 = [] /\ n_type (node_at A 1) = 7 /\ nrule 1 = 0. Proof. vm_compute. repeat split. Qed.
Local Opaque parser_atn decision_state firsts follows heights takes.

Definition word (t : Z) : Prop := 1 <= t <= 84.
Lemma in_words t : In t words <-> word t.
Proof.
  unfold words, word. rewrite in_map_iff. split; [intros (n & <- & H); apply in_seq in H; lia|]. intros H. exists (Z.to_nat t). split; [lia|]. apply in_seq. lia.
Qed.
Definition live (k : stack) (p q : Z) : Prop := exists w, Forall word w /\ completes k p q (w ++ [-1]).

(** *** The callers: each stack the parser can have *)
Inductive opened : stack -> Z -> Prop :=
| o_nil : opened [] 0
| o_cons k n p s r to j : tr n = [TRule s r to j] -> opened k (nrule n) -> opened ((n, p) :: k) r.
Lemma node_bound q t : In t (tr q) -> In (Z.to_nat q) (seq 0 (length (a_nodes A))) /\ tr (Z.of_nat (Z.to_nat q)) = tr q.
Proof.
  intros H. split.
  - apply in_seq. split; [lia|]. destruct (Nat.lt_ge_cases (Z.to_nat q) (length (a_nodes A))) as [L|L]; [lia|]. unfold GoParserTable.tr, node_at in H. rewrite nth_overflow in H by exact L. destruct H.
  - unfold GoParserTable.tr, node_at. rewrite Nat2Z.id. reflexivity.
Qed.
Lemma next_alive q t : In t (tr q) -> step_alive q t = true.
Proof.
  intros H. pose proof steps_alive as G. rewrite forallb_forall in G. destruct (node_bound q t H) as (Hb & He). specialize (G _ Hb). rewrite He, forallb_forall in G. specialize (G t H).
  destruct (Z.le_gt_cases 0 q) as [L|L]; [rewrite Z2Nat.id in G by exact L; exact G|]. replace (Z.of_nat (Z.to_nat q)) with 0 in G by lia. destruct t; try exact G. cbn [step_alive] in *.
  replace (q =? 451) with false by lia. replace (q =? 453) with false by lia. replace (q =? 119) with false by lia. exact G.
Qed.
Lemma rule_next q t : In t (tr q) -> same_rule A (node_at A q) t = true.
Proof. intros H. destruct (at_node A firsts follows tables_closed q ltac:(left; eauto)) as (_ & G & _). apply G. exact H. Qed.
Lemma rule_nrm q : nrule (nrm q) = nrule q.
Proof.
  unfold GoParserTable.nrm. generalize 20%nat. intros f. revert q. induction f as [|f IH]; intros q; cbn [nrm_fuel]; [reflexivity|].
  destruct (tr q) as [|[to|neg l to|s r to j|r a to|j to] [|]] eqn:E; try reflexivity; rewrite IH; [pose proof (rule_next q (TEps to)) as G|pose proof (rule_next q (TAction r a to)) as G];
    (rewrite E in G; specialize (G ltac:(left; reflexivity)); cbn [same_rule] in G; apply Z.eqb_eq in G; exact G).
Qed.

(** *** Words that finish a rule *)
Lemma height_neg q : q < 0 -> height heights q = height heights 0 /\ node_at A q = node_at A 0.
Proof. intros H. unfold height, node_at. replace (Z.to_nat q) with (Z.to_nat 0) by lia. auto. Qed.
Lemma ends_neg q : q < 0 -> ends_here q = ends_here 0.
Proof. intros H. unfold ends_here. rewrite (proj2 (height_neg q H)). replace (q =? 118) with false by lia. reflexivity. Qed.
Lemma height_step q : (0 < height heights q)%nat -> ends_here q = true \/ exists t, In t (tr q) /\ below heights (height heights q) t = true.
Proof.
  assert (G : forall q, 0 <= q -> (0 < height heights q)%nat -> ends_here q = true \/ exists t, In t (tr q) /\ below heights (height heights q) t = true).
  { clear q. intros q Hq Hh. pose proof heights_ok as G. rewrite forallb_forall in G. assert (Hin : In (Z.to_nat q) (seq 0 (length (a_nodes A)))).
    { apply in_seq. split; [lia|]. replace (length (a_nodes A)) with (length heights) by (vm_compute; reflexivity). destruct (Nat.lt_ge_cases (Z.to_nat q) (length heights)) as [L|L]; [lia|]. unfold height in Hh. rewrite nth_overflow in Hh by exact L. lia. }
    specialize (G _ Hin). unfold height_ok in G. rewrite Z2Nat.id in G by exact Hq. rewrite !orb_true_iff in G. destruct G as [[G|G]|G]; [apply Nat.eqb_eq in G; lia|auto|]. apply existsb_exists in G. auto. }
  intros Hh. destruct (Z.le_gt_cases 0 q) as [L|L]; [auto|]. rewrite ends_neg by exact L. destruct (height_neg q L) as (E1 & E2). rewrite E1 in *. unfold GoParserTable.tr. rewrite E2. apply G; [lia|exact Hh].
Qed.
Lemma finishes n : forall q p, (height heights q <= n)%nat -> alive q = true -> exists w e, Forall word w /\ walk p q w e /\ ends_here e = true.
Proof.
  induction n as [|n IH]; intros q p Hn Hq; unfold alive in Hq; apply Nat.ltb_lt in Hq; [lia|]. destruct (height_step q Hq) as [He|(t & Hin & Hb)]; [exists [], q; split; [constructor|]; split; [apply w_stay|exact He]|].
  assert (Hl : forall q', Nat.ltb 0 (height heights q') && Nat.ltb (height heights q') (height heights q) = true -> alive q' = true /\ (height heights q' <= n)%nat).
  { intros q' H. rewrite andb_true_iff, !Nat.ltb_lt in H. unfold alive. rewrite Nat.ltb_lt. lia. }
  destruct t as [to|neg l to|s r to j|r a to|j to]; cbn [below] in Hb; try discriminate Hb.
  - destruct (Hl _ Hb) as (H1 & H2). destruct (IH to p H2 H1) as (w & e & Hw & H & He). exists w, e. split; [exact Hw|]. split; [eapply w_eps; eassumption|exact He].
  - rewrite !andb_true_iff, negb_true_iff in Hb. destruct Hb as ((-> & Hx) & Hb). rewrite <- andb_true_iff in Hb. apply existsb_exists in Hx as (x & Hx & Hr). apply in_words in Hx.
    destruct (Hl _ Hb) as (H1 & H2). destruct (IH to p H2 H1) as (w & e & Hw & H & He). exists (x :: w), e. split; [constructor; assumption|]. split; [eapply w_token; eassumption|exact He].
  - apply andb_true_iff in Hb as (Hs & Hto). destruct (Hl _ Hs) as (H1 & H2), (Hl _ Hto) as (H3 & H4). destruct (IH s j H2 H1) as (w1 & e1 & Hw1 & W1 & He1), (IH to p H4 H3) as (w & e & Hw & W & He).
    pose proof (next_alive _ _ Hin) as Hst. cbn [step_alive] in Hst. rewrite !andb_true_iff, negb_true_iff, Z.eqb_neq, Z.eqb_eq in Hst. destruct Hst as (((_ & _) & Hr0) & Hr).
    pose proof (walk_rule A firsts follows tables_closed _ _ _ _ W1) as Hr1. exists (w1 ++ w), e. split; [apply Forall_app; auto|]. split; [|exact He].
    unfold ends_here in He1. rewrite orb_true_iff, andb_true_iff, !Z.eqb_eq in He1. destruct He1 as [->|(H7 & _)]; [destruct tr_118 as (_ & E & _); congruence|]. eapply w_rule; [exact Hin|exact W1|exact H7|congruence|exact W].
  - destruct (Hl _ Hb) as (H1 & H2). destruct (IH to p H2 H1) as (w & e & Hw & H & He). exists w, e. split; [exact Hw|]. split; [eapply w_action; eassumption|exact He].
Qed.
Lemma at_118 p : completes [] p 118 [-1].
Proof.
  destruct tr_118 as (E & _ & E1 & H7 & H0). apply (completes_step _ _ _ (TSet false [(-1, -1)] 119)); [rewrite E; left; reflexivity|]. split; [reflexivity|]. exists (-1), []. split; [reflexivity|]. split; [reflexivity|].
  apply (completes_step _ _ _ (TEps 1)); [rewrite tr_119; left; reflexivity|]. apply completes_def. exists [], [], 1. split; [reflexivity|]. split; [apply w_stay|]. split; [exact H7|]. cbn. auto.
Qed.
Lemma walks_on k p q w e ts : walk p q w e -> completes k p e ts -> completes k p q (w ++ ts).
Proof.
  intros Hw Hc. apply completes_def in Hc as (u1 & u2 & stop & -> & Hw2 & H). apply completes_def. exists (w ++ u1), u2, stop. rewrite app_assoc. split; [reflexivity|]. split; [|exact H]. clear H. revert u1 stop Hw2.
  induction Hw; intros; cbn [app]; [exact Hw2|eapply w_eps; eauto|eapply w_action; eauto|eapply w_token; eauto|eapply w_prec; eauto|rewrite <- app_assoc; eapply w_rule; eauto].
Qed.
(** Into a call, and back. *)
Lemma call_in k p q s r to j ts : tr q = [TRule s r to j] -> nrule s = r -> completes ((q, p) :: k) j s ts -> completes k p q ts.
Proof.
  intros Et Hr H. apply completes_def in H as (u1 & u2 & stop & -> & Hw & H7 & (s' & to' & j' & En & Hc)). unfold GoParserTable.tr in Et. rewrite Et in En. injection En as <- Er <- <-.
  eapply completes_step; [unfold GoParserTable.tr; rewrite Et; left; reflexivity|]. exists u1, u2, stop. auto.
Qed.
Lemma call_out k p q s r to j stop ts : tr q = [TRule s r to j] -> n_type (node_at A stop) = 7 -> nrule stop = r -> completes k p to ts -> completes ((q, p) :: k) j stop ts.
Proof.
  intros Et H7 Hr H. apply completes_def. exists [], ts, stop. split; [reflexivity|]. split; [apply w_stay|]. split; [exact H7|]. exists s, to, j. subst r. auto.
Qed.
Lemma call_facts q s r to j : tr q = [TRule s r to j] -> alive s = true /\ alive (nrm s) = true /\ alive to = true /\ alive (nrm to) = true /\ r <> 0 /\ nrule s = r /\ nrule to = nrule q.
Proof.
  intros Et. assert (Hin : In (TRule s r to j) (tr q)) by (rewrite Et; left; reflexivity). pose proof (next_alive _ _ Hin) as H. pose proof (rule_next _ _ Hin) as G. cbn [step_alive same_rule] in *.
  rewrite !andb_true_iff, negb_true_iff, Z.eqb_neq, Z.eqb_eq in H. apply Z.eqb_eq in G. tauto.
Qed.
Lemma alive_live : forall k p q, opened k (nrule q) -> alive q = true -> live k p q.
Proof.
  induction k as [|(n, p') k IH]; intros p q Ho Ha; destruct (finishes _ q p (le_n _) Ha) as (w & e & Hw & W & He); pose proof (walk_rule A firsts follows tables_closed _ _ _ _ W) as Hr;
    inversion Ho as [E1 E2|k0 n0 p0 s r to j Et Ho' E1 E2]; subst; unfold ends_here in He; rewrite orb_true_iff, andb_true_iff, negb_true_iff, !Z.eqb_eq, Z.eqb_neq in He.
  - destruct He as [->|(_ & He)]; [|congruence]. exists w. split; [exact Hw|]. eapply walks_on; [exact W|]. apply at_118.
  - destruct (call_facts _ _ _ _ _ Et) as (_ & _ & Hto & _ & H0 & _ & Hrt). destruct He as [->|(H7 & _)]; [destruct tr_118 as (_ & E & _); congruence|].
    destruct (IH p' to) as (w2 & Hw2 & C2); [rewrite Hrt; exact Ho'|exact Hto|]. exists (w ++ w2). split; [apply Forall_app; auto|]. rewrite <- app_assoc. eapply walks_on; [exact W|].
    apply completes_def. exists [], (w2 ++ [-1]), e. split; [reflexivity|]. split; [apply w_stay|]. split; [exact H7|]. cbn. exists s, to, j. rewrite Hr. auto.
Qed.
Definition live_at (k : stack) (p q t : Z) : Prop := exists w, Forall word w /\ completes k p q (t :: w ++ [-1]).
Local Transparent takes.
Lemma takes_live f : forall k p q t, takes f q t = true -> opened k (nrule q) -> live_at k p q t.
Proof.
  induction f as [|f IH]; intros k p q t H Ho; [discriminate H|]. cbn [takes] in H. destruct (Z.eqb_spec (n_type (node_at A q)) 7) as [H7|_].
  - rewrite andb_true_iff, negb_true_iff, Z.eqb_neq, forallb_forall in H. destruct H as (H0 & H). inversion Ho as [E1 E2|k0 n0 p0 s r to j Et Ho' E1 E2]; subst; [congruence|].
    destruct (call_facts _ _ _ _ _ Et) as (_ & _ & _ & _ & _ & _ & Hrt).
    assert (Hr : takes f to t = true).
    { assert (Hin : In (TRule s (nrule q) to j) (tr n0)) by (rewrite Et; left; reflexivity). apply (H (to, if prec_rule A [] (nrule q) && (j =? 0) then nrule q else -1)).
      pose proof (node_in _ _ Hin) as Hn. unfold returns. apply in_flat_map. exists (node_at A n0). split; [exact Hn|]. apply in_flat_map. eexists. split; [exact Hin|]. cbv iota. rewrite Z.eqb_refl. left. reflexivity. }
    destruct (IH k0 p0 to t Hr ltac:(rewrite Hrt; exact Ho')) as (w & Hw & C). exists w. split; [exact Hw|]. apply completes_def. exists [], (t :: w ++ [-1]), q.
    split; [reflexivity|]. split; [apply w_stay|]. split; [exact H7|]. cbn. exists s, to, j. auto.
  - apply existsb_exists in H as (e & Hin & H). pose proof (rule_next _ _ Hin) as Hrn. destruct e as [to|neg l to|s r to j|r a to|j to]; try discriminate H; cbn [same_rule] in Hrn; apply Z.eqb_eq in Hrn.
    + destruct (IH k p to t H ltac:(rewrite Hrn; exact Ho)) as (w & Hw & C). exists w. split; [exact Hw|]. apply (completes_step _ _ _ _ _ Hin). exact C.
    + rewrite !andb_true_iff, negb_true_iff in H. destruct H as ((-> & Hl) & Ha). destruct (alive_live k p to ltac:(rewrite Hrn; exact Ho) Ha) as (w & Hw & C). exists w. split; [exact Hw|].
      apply (completes_step _ _ _ _ _ Hin). split; [reflexivity|]. exists t, (w ++ [-1]). auto.
    + apply call_alone in Hin. destruct (call_facts _ _ _ _ _ Hin) as (_ & _ & _ & _ & _ & Hrs & _). destruct (IH ((q, p) :: k) j s t H) as (w & Hw & C); [rewrite Hrs; econstructor; [exact Hin|exact Ho]|].
      exists w. split; [exact Hw|]. eapply call_in; eassumption.
    + destruct (IH k p to t H ltac:(rewrite Hrn; exact Ho)) as (w & Hw & C). exists w. split; [exact Hw|]. apply (completes_step _ _ _ _ _ Hin). exact C.
Qed.
Local Opaque takes.

(** *** Tokens of given types *)
Lemma typed w : Forall word w -> exists ts, kinds ts = w.
Proof.
  induction 1 as [|t w Ht Hw (ts & IH)]; [exists []; reflexivity|].
  assert (G : forallb (fun t => existsb (fun k => Z.of_nat (tt_num k) =? t) all_tt) words = true) by (vm_compute; reflexivity). rewrite forallb_forall in G. specialize (G t (proj2 (in_words t) Ht)).
  apply existsb_exists in G as (k & _ & Hk). apply Z.eqb_eq in Hk. exists (Tok k [] :: ts). change (Z.of_nat (tt_num k) :: kinds ts = t :: w). rewrite IH, Hk. reflexivity.
Qed.
Lemma kinds_app u v : kinds (u ++ v) = kinds u ++ kinds v. Proof. apply map_app. Qed.
Lemma kinds_word ts : Forall word (kinds ts).
Proof. unfold kinds. rewrite Forall_map. apply Forall_forall. intros x _. exact (kind_range (ty x)). Qed.

(** *** What AdaptivePredict answers *)
Definition result (x : answer) : option Z := match x with Alt a => Some a | _ => None end.
Lemma predict_one d k p cs t u x : starts d p = Some cs -> astep d p cs t = inl x -> adaptive_predict d k p (t :: u) = result x.
Proof. intros Es Ex. unfold adaptive_predict, sim. fold (starts d p). rewrite Es. rewrite (run_one _ _ _ _ _ _ Ex). destruct x; reflexivity. Qed.
Lemma predict_two d k p cs t t2 u cs' x : starts d p = Some cs -> astep d p cs t = inr cs' -> t <> -1 -> astep d p cs' t2 = inl x -> adaptive_predict d k p (t :: t2 :: u) = result x.
Proof. intros Es Ex Ht E2. unfold adaptive_predict, sim. fold (starts d p). rewrite Es. rewrite (run_two _ _ _ _ _ _ _ _ Ex Ht E2). destruct x; reflexivity. Qed.
Lemma at_one d p cs t u x : starts d p = Some cs -> astep d p cs t = inl x -> predict_at d p (t :: u) = 0%nat.
Proof.
  intros Es Ex. unfold predict_at. unfold starts in Es. rewrite Es. cbn [looked]. unfold astep in Ex. rewrite Ex. destruct (reach _ _ _ _ _) as [[|]|]; reflexivity.
Qed.
Lemma at_two d p cs t t2 u cs' x : starts d p = Some cs -> astep d p cs t = inr cs' -> astep d p cs' t2 = inl x ->
  predict_at d p (t :: t2 :: u) = match reach A prec_states (decision_rule (decision_state d)) cs' t2 with Some [] => 1%nat | _ => 0%nat end.
Proof.
  intros Es Ex E2. unfold predict_at. unfold starts in Es. rewrite Es. cbn [looked]. unfold astep in Ex, E2. rewrite Ex, E2. reflexivity.
Qed.
Lemma taken_at d p : In d asked -> 0 <= p <= 11 -> exists cs, starts d p = Some cs /\ forall t, In t tokens ->
  match astep d p cs t with
  | inl _ => True
  | inr cs' => t <> -1 /\ takes 30 (decision_state d) t = true /\ (forall to, In (TEps to) (alternatives A d) -> takes 30 to t = true) /\
     forall t2, In t2 tokens -> exists x, astep d p cs' t2 = inl x /\ match x with Alt _ => True | NoViable => reach A prec_states (decision_rule (decision_state d)) cs' t2 = Some [] | Unmodelled => False end
  end.
Proof.
  intros Hd Hp. pose proof all_taken as G. rewrite forallb_forall in G. specialize (G d Hd). unfold first_taken in G. rewrite forallb_forall in G. specialize (G p (in_precs p Hp)).
  pose proof all_decided as D. rewrite forallb_forall in D. specialize (D d Hd). unfold decided in D. rewrite forallb_forall in D. specialize (D p (in_precs p Hp)).
  destruct (starts d p) as [cs|]; [|discriminate G]. exists cs. split; [reflexivity|]. intros t Ht. rewrite forallb_forall in G, D. specialize (G t Ht). specialize (D t Ht). destruct (astep d p cs t) as [x|cs']; [exact I|].
  rewrite !andb_true_iff, !forallb_forall in G. destruct G as ((G1 & G2) & G3). rewrite andb_true_iff, negb_true_iff, Z.eqb_neq in D. split; [exact (proj1 D)|]. split; [exact G1|]. split; [intros to Hto; exact (G2 _ Hto)|].
  intros t2 H2. specialize (G3 t2 H2). destruct (astep d p cs' t2) as [x|]; [|discriminate G3]. exists x. split; [reflexivity|]. destruct x; [exact I| |discriminate G3].
  destruct (reach _ _ _ _ _) as [[|]|]; [reflexivity|discriminate G3|discriminate G3].
Qed.
Lemma alternative_of d k p ts a : In d asked -> adaptive_predict d k p ts = Some a -> exists to, nth_error (alternatives A d) (Z.to_nat (a - 1)) = Some (TEps to) /\ 1 <= a.
Proof.
  intros Hd H. apply adaptive_predict_alternatives in H. destruct (nth_error (alternatives A d) (Z.to_nat (a - 1))) as [e|] eqn:E; [|apply nth_error_None in E; lia].
  assert (G : forallb (fun d => forallb (fun e => match e with TEps _ => true | _ => false end) (alternatives A d)) asked = true) by (vm_compute; reflexivity).
  rewrite forallb_forall in G. specialize (G d Hd). rewrite forallb_forall in G. apply nth_error_In in E as Hin. specialize (G e Hin). destruct e; try discriminate G. eexists. split; [reflexivity|lia].
Qed.
Lemma rule_alternative d to : In (TEps to) (alternatives A d) -> nrule to = nrule (decision_state d).
Proof. intros H. pose proof (rule_next _ _ H) as G. cbn [same_rule] in G. apply Z.eqb_eq in G. exact G. Qed.
(** The alternative answered can be completed. *)
Lemma answer_live d k p ts a to : In d asked -> 0 <= p <= 11 -> opened k (nrule (decision_state d)) -> adaptive_predict d k p (kinds ts ++ [-1]) = Some a ->
  nth_error (alternatives A d) (Z.to_nat (a - 1)) = Some (TEps to) -> live k p to.
Proof.
  intros Hd Hp Ho HP Hn. apply nth_error_In in Hn as Hin. pose proof (rule_alternative _ _ Hin) as Hr.
  destruct (input_split ts) as (t & u & Ei & Ht & _). rewrite Ei in HP.
  assert (Hc : In d [7; 10; 24] \/ d = 30 \/ d = 31) by (clear -Hd; unfold asked in Hd; cbn [In] in *; lia). destruct Hc as [Hc|Hc].
  - pose proof alts_alive_ok as G. rewrite forallb_forall in G. specialize (G d Hc). unfold alts_alive in G. rewrite forallb_forall in G. specialize (G _ Hin). cbn beta iota in G. apply andb_true_iff in G as (_ & G).
    apply alive_live; [rewrite Hr; exact Ho|exact G].
  - pose proof level_high_ok as G. unfold level_high in G. rewrite forallb_forall in G. specialize (G p (in_precs p Hp)). apply andb_true_iff in G as (G1 & G0).
    destruct state_31 as (S31 & S30 & A31 & A30). destruct alive_100 as (H100 & H453 & H454 & R453 & R451 & R100). destruct (finishes _ 100 0 (le_n _) H100) as (_ & _ & _).
    assert (Hopd : forall L, operand L = operand L) by reflexivity.
    assert (Hopr : forall L, exists e, Forall word e /\ operand L e).
    { intros L. destruct (finishes _ 100 (L + 1) (le_n _) H100) as (e & stop & He & W & Hend). pose proof (walk_rule A firsts follows tables_closed _ _ _ _ W) as Hrs. rewrite R100 in Hrs. exists e. split; [exact He|].
      exists stop. split; [exact W|]. unfold ends_here in Hend. rewrite orb_true_iff, andb_true_iff, !Z.eqb_eq in Hend. destruct Hend as [->|(H7 & _)]; [destruct tr_118 as (_ & E & _); rewrite E in Hrs; discriminate Hrs|]. auto. }
    destruct Hc as [->| ->].
    + (* 30 *) rewrite S30 in *. rewrite R451 in Ho. rewrite A30 in *. destruct (starts 30 p) as [cs|] eqn:Es; [|discriminate G0]. rewrite forallb_forall in G0. specialize (G0 t Ht).
      destruct (astep 30 p cs t) as [x|] eqn:Ex; [|discriminate G0]. rewrite (predict_one _ _ _ _ _ _ _ Es Ex) in HP. destruct x as [i| |]; try discriminate HP. injection HP as ->. rewrite Hn in G0.
      destruct (op_alt (TEps to)) as [(L, l)|] eqn:El; [|discriminate G0]. apply Z.geb_le in G0. destruct (op_known _ Hin) as (L' & l' & El' & Hl). rewrite El in El'. injection El' as <- <-.
      apply op_alt_spec in El as (a0 & b & c & d & Ea0 & Ea & Eb & Ec & Ed). injection Ea0 as <-.
      assert (Hb : In (TPrec L b) (tr to)) by (rewrite Ea; left; reflexivity). pose proof (next_alive _ _ Hb) as Hab. cbn [step_alive] in Hab. apply andb_true_iff in Hab as (_ & Hab).
      pose proof (rule_next _ _ Hb) as Hrb. cbn [same_rule] in Hrb. apply Z.eqb_eq in Hrb. destruct (alive_live k p b) as (w & Hw & C); [rewrite Hrb, Hr, R451; exact Ho|exact Hab|].
      exists w. split; [exact Hw|]. apply (completes_step _ _ _ _ _ Hb). split; [lia|exact C].
    + (* 31 *) rewrite S31 in *. rewrite R453 in Ho. rewrite A31 in *. destruct (starts 31 p) as [cs|] eqn:Es; [|discriminate G1]. rewrite forallb_forall in G1. specialize (G1 t Ht).
      destruct (astep 31 p cs t) as [x|] eqn:Ex; [|discriminate G1]. rewrite (predict_one _ _ _ _ _ _ _ Es Ex) in HP. destruct x as [i| |]; try discriminate HP. injection HP as ->.
      destruct (Z.eq_dec a 1) as [->|Ha].
      * cbn in Hn. injection Hn as <-. destruct (op_level t) as [L|] eqn:El; [|discriminate G1]. apply Z.geb_le in G1. destruct (Hopr L) as (e & He & Hop).
        destruct (alive_live k p 453) as (w & Hw & C); [rewrite R453; exact Ho|exact H453|]. assert (Htw : word t).
        { pose proof (op_build k p t L e _ El ltac:(lia) Hop C) as Hc. apply in_tokens in Ht. destruct (Z.eq_dec t (-1)) as [->|Hne].
          - exfalso. unfold op_level in El. revert El. clear. assert (E : op_level (-1) = None) by (vm_compute; reflexivity). unfold op_level in E. rewrite E. discriminate.
          - unfold word. destruct (Z.eq_dec t 0) as [->|]; [|lia]. exfalso. assert (E : op_level 0 = None) by (vm_compute; reflexivity). congruence. }
        exists (t :: e ++ w). split; [constructor; [exact Htw|]; apply Forall_app; auto|]. cbn [app]. rewrite <- app_assoc. eapply op_build; [exact El|lia|exact Hop|exact C].
      * assert (to = 454). { destruct Hin as [E|[E|[]]]; [|congruence]. injection E as <-. pose proof (adaptive_predict_alternatives 31 k p (t :: u) a) as B. rewrite (predict_one _ _ _ _ _ _ _ Es Ex) in B. specialize (B eq_refl). rewrite A31 in B. cbn [length] in B. assert (a = 2) by lia. subst a. cbn in Hn. discriminate Hn. }
        subst to. apply alive_live; [rewrite Hr, R453; exact Ho|exact H454].
Qed.
(** No answer: at the next token, or at the one after it and the next token can come. *)
Lemma no_answer d k p l : In d asked -> 0 <= p <= 11 -> opened k (nrule (decision_state d)) -> adaptive_predict d k p (kinds l ++ [-1]) = None ->
  predict_at d p (kinds l ++ [-1]) = 0%nat \/ exists x l', l = x :: l' /\ predict_at d p (kinds l ++ [-1]) = 1%nat /\ live_at k p (decision_state d) (kind_of x).
Proof.
  intros Hd Hp Ho HP. destruct (taken_at d p Hd Hp) as (cs & Es & G). destruct l as [|x l].
  - cbn [kinds map app] in *. specialize (G (-1) ltac:(apply in_tokens; lia)). destruct (astep d p cs (-1)) as [y|cs'] eqn:Ex; [left; eapply at_one; eassumption|]. destruct G as (G & _). congruence.
  - cbn [kinds map app] in *. fold (kinds l) in *. fold (kind_of x) in *. specialize (G (kind_of x) ltac:(apply in_tokens; pose proof (kind_range (ty x)); unfold kind_of; lia)).
    destruct (astep d p cs (kind_of x)) as [y|cs'] eqn:Ex; [left; eapply at_one; eassumption|]. destruct G as (Hne & G1 & _ & G2). right. exists x, l. split; [reflexivity|].
    destruct (input_split l) as (t2 & u2 & Ei & Ht2 & _). rewrite Ei in *. destruct (G2 t2 Ht2) as (y & Ey & Hy). rewrite (predict_two _ _ _ _ _ _ _ _ _ Es Ex Hne Ey) in HP. rewrite (at_two _ _ _ _ _ _ _ _ Es Ex Ey).
    destruct y as [a| |]; [discriminate HP| |destruct Hy]. rewrite Hy. split; [reflexivity|]. eapply takes_live; [exact G1|exact Ho].
Qed.
(** The tokens [v] can come: the alternative answered takes them, whatever comes after; or what comes after makes it fail. *)
Lemma answer_takes d k p v rest w : In d asked -> 0 <= p <= 11 -> opened k (nrule (decision_state d)) -> v <> [] -> Forall word w -> completes k p (decision_state d) (kinds v ++ w ++ [-1]) ->
  (exists a to w', adaptive_predict d k p (kinds (v ++ rest) ++ [-1]) = Some a /\ 1 <= a /\ nth_error (alternatives A d) (Z.to_nat (a - 1)) = Some (TEps to) /\ Forall word w' /\ completes k p to (kinds v ++ w' ++ [-1])) \/
  (adaptive_predict d k p (kinds (v ++ rest) ++ [-1]) = None /\ (length (v ++ rest) - predict_at d p (kinds (v ++ rest) ++ [-1]%Z) <= length rest)%nat).
Proof.
  intros Hd Hp Ho Hv Hw Hc. destruct (typed w Hw) as (wt & Ew). rewrite <- Ew, app_assoc, <- kinds_app in Hc.
  assert (Same : adaptive_predict d k p (kinds (v ++ rest) ++ [-1]) = adaptive_predict d k p (kinds (v ++ wt) ++ [-1]) ->
    exists a to w', adaptive_predict d k p (kinds (v ++ rest) ++ [-1]) = Some a /\ 1 <= a /\ nth_error (alternatives A d) (Z.to_nat (a - 1)) = Some (TEps to) /\ Forall word w' /\ completes k p to (kinds v ++ w' ++ [-1])).
  { intros E. destruct (adaptive_predict_reliable d k p (v ++ wt) Hd Hp Hc) as (a & to & H1 & H2 & H3 & H4). exists a, to, w. rewrite E. split; [exact H1|]. split; [exact H2|]. split; [exact H3|]. split; [exact Hw|].
    rewrite kinds_app, <- app_assoc, Ew in H4. exact H4. }
  destruct v as [|x v]; [congruence|]. destruct v as [|y v].
  2: { left. apply Same. apply two_decide; [exact Hd|exact Hp|reflexivity]. }
  destruct (taken_at d p Hd Hp) as (cs & Es & G). specialize (G (kind_of x) ltac:(apply in_tokens; pose proof (kind_range (ty x)); unfold kind_of; lia)).
  change (kinds ([x] ++ rest) ++ [-1]) with (kind_of x :: (kinds rest ++ [-1])) in *. change (kinds ([x] ++ wt) ++ [-1]) with (kind_of x :: (kinds wt ++ [-1])) in *.
  destruct (astep d p cs (kind_of x)) as [y|cs'] eqn:Ex.
  - left. apply Same. rewrite !(predict_one _ _ _ _ _ _ _ Es Ex). reflexivity.
  - destruct G as (Hne & G1 & G2 & G3). destruct (input_split rest) as (t2 & u2 & Ei & Ht2 & _). rewrite Ei in *. destruct (G3 t2 Ht2) as (y & Ey & Hy).
    destruct (adaptive_predict d k p (kind_of x :: t2 :: u2)) as [a|] eqn:HP.
    + left. destruct (alternative_of _ _ _ _ _ Hd HP) as (to & Hn & Ha). apply nth_error_In in Hn as Hin. destruct (takes_live 30 k p to (kind_of x) (G2 _ Hin)) as (w' & Hw' & C); [rewrite (rule_alternative _ _ Hin); exact Ho|].
      exists a, to, w'. split; [reflexivity|]. split; [exact Ha|]. split; [exact Hn|]. split; [exact Hw'|exact C].
    + right. split; [reflexivity|]. rewrite (at_two _ _ _ _ _ _ _ _ Es Ex Ey). rewrite (predict_two _ _ _ _ _ _ _ _ _ Es Ex Hne Ey) in HP. destruct y as [a| |]; [discriminate HP| |destruct Hy]. rewrite Hy. cbn. lia.
Qed.
