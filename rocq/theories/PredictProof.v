(** AdaptivePredict answers the decisions of this parser's rule functions rightly. *)
From Coq Require Import ZArith NArith Lia.
From Verif Require Import Str Tokens Atn AtnParser AtnParserTable AtnParserProof GoParser PredictSpec GoParserTable GoParserProof Predict PredictTable.
Local Open Scope Z_scope.
Local Notation A := parser_atn.
Local Notation tr := (tr A).
Local Notation nrm := (nrm A).
Local Notation ahead := (ahead A firsts follows).
Local Notation completes := (completes A).
Local Notation walk := (walk A).
Local Notation after := (after A).
Lemma state_31 : decision_state 31 = 453 /\ decision_state 30 = 451 /\ alternatives A 31 = [TEps 451; TEps 454] /\ alternatives A 30 = tr 451. Proof. vm_compute. auto. Qed.
Lemma tr_451 : tr 451 <> []. Proof. vm_compute. discriminate. Qed.
Lemma stop_101 : n_type (node_at A 101) = 7 /\ n_rule (node_at A 101) = 50 /\ tr 454 = [TEps 101] /\ tr 453 = [TEps 451; TEps 454]. Proof. vm_compute. auto. Qed.
Lemma trs : tr (decision_state 7) <> [] /\ tr (decision_state 10) <> [] /\ tr (decision_state 24) <> []. Proof. vm_compute. repeat split; discriminate. Qed.
Local Opaque parser_atn decision_state firsts follows.

(** *** Completions, built *)
Lemma completes_step k p q t ts : In t (tr q) -> goes_on A k p q t ts -> completes k p q ts.
Proof.
  intros Hin H. destruct t as [to|neg l to|s r to j|r a to|j to]; cbn [goes_on] in H.
  - apply completes_def in H as (u1 & u2 & stop & E & Hw & H7 & Ha). apply completes_def. exists u1, u2, stop. split; [exact E|]. split; [eapply w_eps; eassumption|auto].
  - destruct H as (-> & x & ts' & -> & Hx & H). apply completes_def in H as (u1 & u2 & stop & E & Hw & H7 & Ha). apply completes_def. exists (x :: u1), u2, stop.
    split; [cbn; congruence|]. split; [eapply w_token; eassumption|auto].
  - destruct H as (ts1 & ts2 & st & E & Hw1 & H71 & Hr & H). apply completes_def in H as (u1 & u2 & stop & E2 & Hw & H7 & Ha). apply completes_def. exists (ts1 ++ u1), u2, stop.
    split; [rewrite <- app_assoc; congruence|]. split; [eapply w_rule; eassumption|auto].
  - apply completes_def in H as (u1 & u2 & stop & E & Hw & H7 & Ha). apply completes_def. exists u1, u2, stop. split; [exact E|]. split; [eapply w_action; eassumption|auto].
  - destruct H as (Hj & H). apply completes_def in H as (u1 & u2 & stop & E & Hw & H7 & Ha). apply completes_def. exists u1, u2, stop. split; [exact E|]. split; [eapply w_prec; eassumption|auto].
Qed.
Lemma completes_from_nrm k p q ts : completes k p (nrm q) ts -> completes k p q ts.
Proof.
  unfold GoParserTable.nrm. generalize 20%nat. intros f. revert q. induction f as [|f IH]; intros q; cbn [nrm_fuel]; [auto|].
  destruct (tr q) as [|[to|neg l to|s r to j|r a to|j to] [|]] eqn:E; auto; intros H.
  - apply (completes_step _ _ _ (TEps to)); [rewrite E; left; reflexivity|]. apply IH. exact H.
  - apply (completes_step _ _ _ (TAction r a to)); [rewrite E; left; reflexivity|]. apply IH. exact H.
Qed.
Definition inv := completes_inv A firsts follows tables_closed.
Definition one := completes_one A firsts follows tables_closed.
Definition to_nrm := completes_nrm A firsts follows tables_closed.
Definition seen := completes_ahead A firsts follows parser_ok tables_closed.

(** *** The first token of a completion, and where the walk is after it *)
Section Move.
Variable R : list Z.
Hypothesis R_closed : closed_set R = true.
Lemma next_in q to : In q R -> In to (eps_next q) -> In to R.
Proof.
  intros Hq Ht. pose proof R_closed as G. unfold closed_set in G. rewrite forallb_forall in G. specialize (G _ Hq). rewrite forallb_forall in G. apply zmem_in. apply G. exact Ht.
Qed.
Lemma trans_in q t : In q R -> In t (tr q) -> match t with TEps to | TAction _ _ to | TPrec _ to => In to R | TRule s _ _ _ => In s R | TSet _ _ _ => True end.
Proof.
  intros Hq Ht. destruct t as [to|neg l to|s r to j|r a to|j to]; try exact I; apply (next_in q _ Hq); unfold eps_next; apply in_or_app; left; apply in_flat_map; eexists; (split; [exact Ht|left; reflexivity]).
Qed.
Lemma node_in q t : In t (tr q) -> In (node_at A q) (a_nodes A).
Proof.
  intros H. unfold GoParserTable.tr, node_at in *. destruct (Nat.lt_ge_cases (Z.to_nat q) (length (a_nodes A))) as [L|L]; [apply nth_In; exact L|].
  rewrite nth_overflow in H by exact L. destruct H.
Qed.
Lemma return_in q n s to j : In q R -> n_type (node_at A q) = 7 -> In (TRule s (n_rule (node_at A q)) to j) (tr n) -> In to R.
Proof.
  intros Hq H7 Hin. apply (next_in q _ Hq). unfold eps_next, is_stop. rewrite H7. apply in_or_app. right. cbn [Z.eqb Pos.eqb].
  pose proof (node_in _ _ Hin) as Hn. unfold returns. apply in_map_iff.
  exists (to, if prec_rule A [] (n_rule (node_at A q)) && (j =? 0) then n_rule (node_at A q) else -1). split; [reflexivity|].
  apply in_flat_map. exists (node_at A n). split; [exact Hn|]. apply in_flat_map. eexists. split; [exact Hin|]. cbv iota. rewrite Z.eqb_refl. left. reflexivity.
Qed.
Lemma call_alone q s r to j : In (TRule s r to j) (tr q) -> tr q = [TRule s r to j].
Proof.
  intros H. pose proof calls_alone_ok as G. unfold calls_alone in G. rewrite forallb_forall in G. specialize (G _ (node_in _ _ H)). fold (tr q) in G.
  destruct (tr q) as [|x [|y l]]; [destruct H|destruct H as [<-|[]]; reflexivity|]. rewrite forallb_forall in G. specialize (G _ H). discriminate.
Qed.
Definition moves (t : Z) (ts : list Z) : Prop := exists q1 l to k p, In q1 R /\ In (TSet false l to) (tr q1) /\ in_ranges l t = true /\ completes k p to ts.
Lemma walk_moves p q ts q' : walk p q ts q' -> In q R -> n_type (node_at A q') = 7 ->
  match ts with [] => In q' R | t :: ts1 => forall k ts2, after k q' ts2 -> moves t (ts1 ++ ts2) end.
Proof.
  induction 1 as [p q|p q to ts q' Hin H IH|p q r a to ts q' Hin H IH|p q l to t ts q' Hin Ht H IH|p q k to ts q' Hin Hk H IH
    |p q start r to k ts1 stop ts2 q' Hin H1 IH1 Hs1 Hs2 H2 IH2]; intros Hq H7; try exact Hq; try (apply IH; [exact (trans_in _ _ Hq Hin)|exact H7]).
  - intros k ts2 Ha. exists q, l, to, k, p. split; [exact Hq|]. split; [exact Hin|]. split; [exact Ht|]. apply completes_def. exists ts, ts2, q'. auto.
  - specialize (IH1 (trans_in _ _ Hq Hin) Hs1). subst r. destruct ts1 as [|t ts1]; cbn [app].
    + apply IH2; [|exact H7]. eapply return_in; [exact IH1|exact Hs1|exact Hin].
    + intros k0 u Ha. rewrite <- app_assoc. apply (IH1 ((q, p) :: k0)). cbn [GoParserProof.after]. exists start, to, k. split; [apply call_alone; exact Hin|].
      apply completes_def. exists ts2, u, q'. auto.
Qed.
Lemma completes_moves k : forall p q t ts, In q R -> completes k p q (t :: ts) -> moves t ts.
Proof.
  induction k as [|(n, p') k IH]; intros p q t ts Hq H; apply completes_def in H as (ts1 & ts2 & stop & E & Hw & H7 & Ha); pose proof (walk_moves _ _ _ _ Hw Hq H7) as G.
  - destruct ts1 as [|x ts1]; cbn [app] in E; [destruct Ha as (_ & ->); discriminate|]. injection E as <- ->. apply (G []). exact Ha.
  - destruct ts1 as [|x ts1]; cbn [app] in E; [|injection E as <- ->; apply (G ((n, p') :: k)); exact Ha]. subst ts2. destruct Ha as (s & to & j & En & Hc).
    eapply IH; [|exact Hc]. eapply return_in; [exact G|exact H7|]. unfold GoParserTable.tr. rewrite En. left. reflexivity.
Qed.
Lemma completes_second k p q t t2 ts : In q R -> completes k p q (t :: t2 :: ts) -> N.testbit (second R t) (bit t2) = true /\ In t2 tokens.
Proof.
  intros Hq H. apply completes_moves in H as (q1 & l & to & k1 & p1 & H1 & Hin & Ht & Hc); [|exact Hq]. apply seen in Hc as (Hb & H2). split; [|exact H2].
  assert (G : forall es m, In (TSet false l to) es \/ N.testbit m (bit t2) = true ->
    N.testbit (fold_right (fun e m => match e with TSet false l to => if in_ranges l t then N.lor (ahead to) m else m | _ => m end) m es) (bit t2) = true).
  { induction es as [|e es IH]; intros m Hm; cbn [fold_right]; [destruct Hm as [[]|Hm]; exact Hm|].
    destruct Hm as [[He|He]|Hm]; [subst e; rewrite Ht, N.lor_spec, Hb; reflexivity| |]; specialize (IH m ltac:(auto)); destruct e as [|[|] l0 to0| | |]; try exact IH; destruct (in_ranges l0 t); try exact IH; rewrite N.lor_spec, IH; apply orb_true_r. }
  clear Hq. unfold second. revert H1. generalize R as R0. intros R0. induction R0 as [|x l0 IH]; intros H1; [destruct H1|]. cbn [fold_right]. apply G. destruct H1 as [->|H1]; [left; exact Hin|right; exact (IH H1)].
Qed.
End Move.

(** *** The answer, from one or two tokens *)
Local Notation run d p := (run A prec_states (decision_rule (decision_state d)) p).
Lemma predicts d k p ts cs a : starts d p = Some cs -> run d p cs ts = Alt a -> adaptive_predict d k p ts = Some a.
Proof. intros E H. unfold adaptive_predict, sim. unfold starts in E. rewrite E, H. reflexivity. Qed.
Lemma run_one d p cs t ts a : astep d p cs t = inl a -> run d p cs (t :: ts) = a.
Proof. intros H. cbn [Predict.run]. unfold astep in H. rewrite H. reflexivity. Qed.
Lemma run_two d p cs t t2 ts cs' a : astep d p cs t = inr cs' -> t <> -1 -> astep d p cs' t2 = inl a -> run d p cs (t :: t2 :: ts) = a.
Proof. intros H Ht H2. cbn [Predict.run]. unfold astep in *. rewrite H, H2. replace (t =? -1) with false by lia. reflexivity. Qed.
Lemma answer_is_spec i a : answer_is i a = true -> a = Alt i.
Proof. destruct a; cbn; try discriminate. rewrite Z.eqb_eq. congruence. Qed.
Lemma in_precs p : 0 <= p <= 11 -> In p precs.
Proof. intros H. unfold precs. apply in_map_iff. exists (Z.to_nat p). split; [lia|]. apply in_seq. lia. Qed.
Lemma alts_ok_spec f l : forall i n t, alts_ok f i l = true -> nth_error l n = Some t -> exists to, t = TEps to /\ f (i + Z.of_nat n) to = true.
Proof.
  induction l as [|[to|neg s to|s r to j|r a to|j to] l IH]; intros i n t H Hn; try discriminate; [destruct n; discriminate|].
  cbn [alts_ok] in H. apply andb_true_iff in H as (H1 & H2). destruct n as [|n].
  - injection Hn as <-. exists to. rewrite Z.add_0_r. auto.
  - destruct (IH _ _ _ H2 Hn) as (to' & E & H). exists to'. replace (i + Z.of_nat (S n)) with (i + 1 + Z.of_nat n) by lia. auto.
Qed.

(** Inputs: the next token, and if it is not the end of file the one after it. *)
Lemma input_split ts : exists t u, kinds ts ++ [-1] = t :: u /\ In t tokens /\ (t <> -1 -> exists t2 u2, u = t2 :: u2 /\ In t2 tokens).
Proof.
  destruct ts as [|x ts].
  - exists (-1), []. split; [reflexivity|]. split; [apply in_tokens; lia|congruence].
  - exists (Z.of_nat (tt_num (ty x))), (kinds ts ++ [-1]). split; [reflexivity|]. pose proof (kind_range (ty x)). split; [apply in_tokens; lia|]. intros _.
    destruct ts as [|y ts]; [exists (-1), []|exists (Z.of_nat (tt_num (ty y))), (kinds ts ++ [-1])]; (split; [reflexivity|apply in_tokens]); [lia|]. pose proof (kind_range (ty y)). lia.
Qed.

Definition answered (d : Z) (k : stack) (p : Z) (ts : list Z) : Prop :=
  exists a to, adaptive_predict d k p ts = Some a /\ 1 <= a /\ nth_error (alternatives A d) (Z.to_nat (a - 1)) = Some (TEps to) /\ completes k p to ts.

Lemma two_tokens d k p ts : two_ok d = true -> tr (decision_state d) <> [] -> 0 <= p <= 11 ->
  completes k p (decision_state d) (kinds ts ++ [-1]) -> answered d k p (kinds ts ++ [-1]).
Proof.
  intros Hok Hne Hp Hc. unfold two_ok in Hok. rewrite forallb_forall in Hok. specialize (Hok p (in_precs p Hp)). destruct (starts d p) as [cs|] eqn:Es; [|discriminate].
  apply inv in Hc as (e & Hin & G); [|exact Hne]. apply In_nth_error in Hin as (n & Hn). destruct (alts_ok_spec _ _ _ _ _ Hok Hn) as (to & -> & Hf). clear Hok. cbn [goes_on] in G.
  set (R := grow 1000 [to] []) in *. cbv zeta in Hf. rewrite !andb_true_iff, negb_true_iff, forallb_forall in Hf. destruct Hf as (((HR & Hto) & Hf) & Hend). apply zmem_in in Hto.
  exists (1 + Z.of_nat n), to. split; [|split; [lia|]; split; [replace (Z.to_nat (1 + Z.of_nat n - 1)) with n by lia; exact Hn|exact G]].
  destruct (input_split ts) as (t & u & Ei & Ht & Hu). rewrite Ei in *. pose proof (seen _ _ _ _ _ G) as (Hb & _).
  assert (Hne1 : t <> -1) by (intros ->; congruence). destruct (Hu Hne1) as (t2 & u2 & -> & Ht2). clear Hu.
  destruct (completes_second R HR _ _ _ _ _ _ Hto G) as (Hs & _). specialize (Hf t Ht). destruct (N.eqb_spec (second R t) 0) as [E0|_]; [rewrite E0 in Hs; discriminate|].
  apply andb_true_iff in Hf as (_ & Hf). eapply predicts; [exact Es|]. destruct (astep d p cs t) as [x|cs'] eqn:Ex.
  - apply answer_is_spec in Hf. subst x. apply run_one. exact Ex.
  - rewrite forallb_forall in Hf. specialize (Hf t2 Ht2). rewrite Hs in Hf. cbn [negb orb] in Hf. destruct (astep d p cs' t2) as [x|] eqn:E2; [|discriminate].
    apply answer_is_spec in Hf. subst x. eapply run_two; eassumption.
Qed.

(** *** Operators *)
Lemma op_alt_spec e L l : op_alt e = Some (L, l) -> exists a b c d, e = TEps a /\ tr a = [TPrec L b] /\ tr b = [TSet false l c] /\ tr c = [TRule 100 50 d (L + 1)] /\ nrm d = 453.
Proof.
  unfold op_alt. destruct e as [a|? ? ?|? ? ? ?|? ? ?|? ?]; try discriminate. destruct (tr a) as [|[?|? ? ?|? ? ? ?|? ? ?|L0 b] [|]] eqn:Ea; try discriminate.
  destruct (tr b) as [|[?|[|] l0 c|? ? ? ?|? ? ?|? ?] [|]] eqn:Eb; try discriminate. destruct (tr c) as [|[?|? ? ?|s r d j|? ? ?|? ?] [|]] eqn:Ec; try discriminate.
  destruct (_ && _) eqn:E; [|discriminate]. intros H. injection H as -> ->. rewrite !andb_true_iff, !Z.eqb_eq in E. destruct E as (((-> & ->) & ->) & E). exists a, b, c, d. auto.
Qed.
Lemma op_known e : In e (tr 451) -> exists L l, op_alt e = Some (L, l) /\ forall t, In t tokens -> in_ranges l t = true -> op_level t = Some L.
Proof.
  intros H. pose proof ops_ok_ok as G. unfold ops_ok in G. rewrite forallb_forall in G. specialize (G e H). destruct (op_alt e) as [(L, l)|]; [|discriminate].
  exists L, l. split; [reflexivity|]. intros t Ht Hl. rewrite forallb_forall in G. specialize (G t Ht). rewrite Hl in G. apply option_eqb_true. exact G.
Qed.
Definition operand (L : Z) (e : list Z) : Prop := exists stop, walk (L + 1) 100 e stop /\ n_type (node_at A stop) = 7 /\ n_rule (node_at A stop) = 50.
Lemma op_inv k p t ts : completes k p 451 (t :: ts) ->
  exists L e ts', op_level t = Some L /\ L >= p /\ ts = e ++ ts' /\ operand L e /\ completes k p 453 ts'.
Proof.
  intros H. pose proof (seen _ _ _ _ _ H) as (_ & Ht). apply inv in H as (e & Hin & G); [|exact tr_451]. destruct (op_known e Hin) as (L & l & El & Hl).
  apply op_alt_spec in El as (a & b & c & d & -> & Ea & Eb & Ec & Ed). cbn [goes_on] in G. apply (one _ _ _ _ _ Ea) in G as (HL & G). apply (one _ _ _ _ _ Eb) in G as (_ & x & u & E & Hx & G).
  injection E as <- <-. apply (one _ _ _ _ _ Ec) in G as (u1 & u2 & stop & -> & Hw & H7 & Hr & G). exists L, u1, u2. split; [apply Hl; assumption|]. split; [exact HL|]. split; [reflexivity|].
  split; [exists stop; auto|]. apply to_nrm in G. rewrite Ed in G. exact G.
Qed.
Lemma level_alt t L : op_level t = Some L -> exists e l, In e (tr 451) /\ op_alt e = Some (L, l) /\ in_ranges l t = true.
Proof.
  unfold op_level. induction (tr 451) as [|e r IH]; cbn [op_level_in]; [discriminate|]. destruct (op_alt e) as [(L0, l)|] eqn:E; [|discriminate].
  destruct (in_ranges l t) eqn:Et.
  - intros H. injection H as ->. exists e, l. split; [left; reflexivity|auto].
  - intros H. destruct (IH H) as (e' & l' & Hin & H'). exists e', l'. split; [right; exact Hin|exact H'].
Qed.
Lemma op_build k p t L e ts : op_level t = Some L -> L >= p -> operand L e -> completes k p 453 ts -> completes k p 451 (t :: e ++ ts).
Proof.
  intros Ht HL (stop & Hw & H7 & Hr) Hc. apply level_alt in Ht as (x & l & Hin & Ex & Hl). apply op_alt_spec in Ex as (a & b & c & d & -> & Ea & Eb & Ec & Ed).
  apply (completes_step _ _ _ _ _ Hin). cbn [goes_on]. eapply completes_step; [rewrite Ea; left; reflexivity|]. split; [exact HL|].
  eapply completes_step; [rewrite Eb; left; reflexivity|]. split; [reflexivity|]. exists t, (e ++ ts). split; [reflexivity|]. split; [exact Hl|].
  eapply completes_step; [rewrite Ec; left; reflexivity|]. exists e, ts, stop. split; [reflexivity|]. split; [exact Hw|]. split; [exact H7|]. split; [exact Hr|].
  apply completes_from_nrm. rewrite Ed. exact Hc.
Qed.
Lemma at_stop k p ts : completes k p 101 ts <-> after k 101 ts.
Proof.
  destruct stop_101 as (H7 & _). rewrite completes_def. split.
  - intros (u1 & u2 & stop & E & Hw & _ & Ha). apply (walk_stop A firsts follows tables_closed) in Hw as (-> & ->); [|exact H7]. subst ts. exact Ha.
  - intros H. exists [], ts, 101. split; [reflexivity|]. split; [apply w_stay|]. auto.
Qed.
Lemma via_454 k p ts : completes k p 454 ts <-> completes k p 101 ts.
Proof.
  destruct stop_101 as (_ & _ & E & _). split; [apply (one _ _ _ _ _ E)|]. intros H. eapply completes_step; [rewrite E; left; reflexivity|]. exact H.
Qed.
(** An operator that follows a finished operand: it and its right operand can be taken here instead of further out. *)
Lemma take_here k : forall p t ts L, op_level t = Some L -> completes k p 101 (t :: ts) -> exists e ts', ts = e ++ ts' /\ operand L e /\ completes k p 101 ts'.
Proof.
  destruct stop_101 as (H7 & Hr & E4 & E3). induction k as [|(n, p') k IH]; intros p t ts L Ht H; apply at_stop in H; cbn [GoParserProof.after] in H; [destruct H as (_ & H); discriminate|].
  destruct H as (s & to & j & En & Hc). rewrite Hr in En.
  assert (Hin : In (TRule s 50 to j) (tr n)) by (unfold GoParserTable.tr; rewrite En; left; reflexivity).
  pose proof callers_ok_ok as G. unfold callers_ok in G. rewrite forallb_forall in G. specialize (G _ (node_in _ _ Hin)). rewrite forallb_forall in G. specialize (G _ Hin). cbn beta iota in G.
  apply orb_true_iff in G as [G|G].
  2:{ exfalso. apply seen in Hc as (Hb & Hk). rewrite forallb_forall in G. specialize (G t Hk). rewrite Ht, Hb in G. discriminate. }
  rewrite orb_true_iff, negb_true_iff, Z.eqb_eq in G. destruct G as [G|G]; [discriminate|].
  assert (X : exists e ts', ts = e ++ ts' /\ operand L e /\ completes k p' 453 ts').
  { apply to_nrm in Hc. rewrite G in Hc. apply (completes_two A firsts follows tables_closed _ _ _ _ _ _ E3) in Hc as [Hc|Hc].
    - apply op_inv in Hc as (L' & e & ts' & HL & _ & -> & Ho & Hc). rewrite Ht in HL. injection HL as <-. eauto.
    - apply via_454 in Hc. destruct (IH _ _ _ _ Ht Hc) as (e & ts' & -> & Ho & Hc'). exists e, ts'. split; [reflexivity|]. split; [exact Ho|].
      eapply completes_step; [rewrite E3; right; left; reflexivity|]. apply via_454. exact Hc'. }
  destruct X as (e & ts' & -> & Ho & Hc'). exists e, ts'. split; [reflexivity|]. split; [exact Ho|]. apply at_stop. cbn [GoParserProof.after]. exists s, to, j. rewrite Hr. split; [exact En|].
  apply completes_from_nrm. rewrite G. exact Hc'.
Qed.

Lemma loop_answered k p ts : 0 <= p <= 11 -> completes k p (decision_state 31) (kinds ts ++ [-1]) -> answered 31 k p (kinds ts ++ [-1]).
Proof.
  intros Hp Hc. destruct state_31 as (E31 & _ & E31' & _). rewrite E31 in Hc. destruct stop_101 as (_ & _ & E4 & E3). pose proof loop_ok_ok as G. unfold loop_ok in G. rewrite forallb_forall in G. specialize (G p (in_precs p Hp)).
  destruct (starts 31 p) as [cs|] eqn:Es; [|discriminate]. rewrite forallb_forall in G.
  destruct (input_split ts) as (t & u & Ei & Ht & _). rewrite Ei in *. specialize (G t Ht).
  assert (A2 : completes k p 454 (t :: u) -> (match astep 31 p cs t with inl x => answer_is 2 x | inr _ => false end : bool) = true -> answered 31 k p (t :: u)).
  { intros H Ha. destruct (astep 31 p cs t) as [x|] eqn:Ex; [|discriminate]. apply answer_is_spec in Ha. subst x. exists 2, 454. split; [eapply predicts; [exact Es|apply run_one; exact Ex]|].
    split; [lia|]. split; [rewrite E31'; reflexivity|exact H]. }
  assert (N2 : (negb (N.testbit (ahead 454) (bit t)) || match astep 31 p cs t with inl x => answer_is 2 x | inr _ => false end : bool) = true -> completes k p 454 (t :: u) -> answered 31 k p (t :: u)).
  { intros Hn H. apply A2; [exact H|]. apply seen in H as (Hb & _). rewrite Hb in Hn. exact Hn. }
  apply (completes_two A firsts follows tables_closed _ _ _ _ _ _ E3) in Hc as [Hc|Hc].
  - apply op_inv in Hc as Hi. destruct Hi as (L & e & ts' & HL & Hle & _). rewrite HL in G. destruct (Z.geb_spec L p) as [Hg|Hg]; [|lia].
    destruct (astep 31 p cs t) as [x|] eqn:Ex; [|discriminate]. apply answer_is_spec in G. subst x. exists 1, 451. split; [eapply predicts; [exact Es|apply run_one; exact Ex]|].
    split; [lia|]. split; [rewrite E31'; reflexivity|exact Hc].
  - destruct (op_level t) as [L|] eqn:HL; [|exact (N2 G Hc)]. destruct (Z.geb_spec L p) as [Hg|Hg]; [|exact (N2 G Hc)].
    destruct (astep 31 p cs t) as [x|] eqn:Ex; [|discriminate]. apply answer_is_spec in G. subst x. exists 1, 451. split; [eapply predicts; [exact Es|apply run_one; exact Ex]|].
    split; [lia|]. split; [rewrite E31'; reflexivity|]. apply via_454 in Hc. destruct (take_here _ _ _ _ _ HL Hc) as (e & ts' & -> & Ho & Hc'). eapply op_build; [exact HL|lia|exact Ho|].
    eapply completes_step; [rewrite E3; right; left; reflexivity|]. apply via_454. exact Hc'.
Qed.
Lemma operator_answered k p ts : 0 <= p <= 11 -> completes k p (decision_state 30) (kinds ts ++ [-1]) -> answered 30 k p (kinds ts ++ [-1]).
Proof.
  intros Hp Hc. destruct state_31 as (_ & E30 & _ & E30'). rewrite E30 in Hc. pose proof operator_ok_ok as G. unfold operator_ok in G. rewrite forallb_forall in G. specialize (G p (in_precs p Hp)).
  destruct (starts 30 p) as [cs|] eqn:Es; [|discriminate]. apply inv in Hc as (e & Hin & Hc); [|exact tr_451]. apply In_nth_error in Hin as (n & Hn).
  destruct (alts_ok_spec _ _ _ _ _ G Hn) as (to & -> & Hf). clear G. cbn [goes_on] in Hc. destruct (op_alt (TEps to)) as [(L, l)|] eqn:Eo; [|discriminate].
  exists (1 + Z.of_nat n), to. split; [|split; [lia|]; split; [rewrite E30'; replace (Z.to_nat (1 + Z.of_nat n - 1)) with n by lia; exact Hn|exact Hc]].
  destruct (input_split ts) as (t & u & Ei & Ht & _). rewrite Ei in *.
  apply op_alt_spec in Eo as (a & b & c & d & E & Ea & Eb & _). injection E as ->. apply (one _ _ _ _ _ Ea) in Hc as (HL & Hc). apply (one _ _ _ _ _ Eb) in Hc as (_ & x & v & E & Hx & _). injection E as <- <-.
  replace (L >=? p) with true in Hf by (symmetry; apply Z.geb_le; lia). cbn [negb orb] in Hf. rewrite forallb_forall in Hf. specialize (Hf t Ht). rewrite Hx in Hf. cbn [negb orb] in Hf.
  destruct (astep 30 p cs t) as [y|] eqn:Ex; [|discriminate]. apply answer_is_spec in Hf. subst y. eapply predicts; [exact Es|]. apply run_one. exact Ex.
Qed.

Theorem adaptive_predict_reliable : reliable A adaptive_predict.
Proof.
  intros d k p ts Hd Hp Hc. destruct trs as (T1 & T2 & T3). destruct Hd as [<-|[<-|[<-|[<-|[<-|[]]]]]].
  - apply two_tokens; [exact two_ok_7|exact T1|exact Hp|exact Hc].
  - apply two_tokens; [exact two_ok_10|exact T2|exact Hp|exact Hc].
  - apply two_tokens; [exact two_ok_24|exact T3|exact Hp|exact Hc].
  - apply operator_answered; assumption.
  - apply loop_answered; assumption.
Qed.

(** *** The parts not modelled are never reached *)
Theorem never_unmodelled d p ts : In d asked -> 0 <= p <= 11 ->
  sim A prec_states (decision_rule (decision_state d)) p (decision_state d) (kinds ts ++ [-1]) <> Unmodelled.
Proof.
  intros Hd Hp. pose proof all_decided as G. rewrite forallb_forall in G. specialize (G d Hd). unfold decided in G. rewrite forallb_forall in G. specialize (G p (in_precs p Hp)).
  unfold sim. fold (starts d p). destruct (starts d p) as [cs|]; [|discriminate]. rewrite forallb_forall in G.
  destruct (input_split ts) as (t & u & -> & Ht & Hu). specialize (G t Ht). destruct (astep d p cs t) as [x|cs'] eqn:Ex.
  - rewrite (run_one _ _ _ _ _ _ Ex). destruct x; discriminate.
  - rewrite andb_true_iff, negb_true_iff, Z.eqb_neq, forallb_forall in G. destruct G as (Hne & G). destruct (Hu Hne) as (t2 & u2 & -> & Ht2). specialize (G t2 Ht2).
    destruct (astep d p cs' t2) as [x|] eqn:E2; [|discriminate]. rewrite (run_two _ _ _ _ _ _ _ _ Ex Hne E2). destruct x; discriminate.
Qed.

(** *** Two tokens decide *)
Theorem two_decide d k k' p ts ts' : In d asked -> 0 <= p <= 11 -> firstn 2 (kinds ts ++ [-1]) = firstn 2 (kinds ts' ++ [-1]) ->
  adaptive_predict d k p (kinds ts ++ [-1]) = adaptive_predict d k' p (kinds ts' ++ [-1]).
Proof.
  intros Hd Hp He. pose proof all_decided as G. rewrite forallb_forall in G. specialize (G d Hd). unfold decided in G. rewrite forallb_forall in G. specialize (G p (in_precs p Hp)).
  unfold adaptive_predict, sim. fold (starts d p). destruct (starts d p) as [cs|]; [|discriminate G]. rewrite forallb_forall in G.
  destruct (input_split ts) as (t & u & Ei & Ht & Hu), (input_split ts') as (t' & u' & Ei' & _ & Hu'). rewrite Ei, Ei' in *. cbn [firstn] in He. injection He as <- He.
  specialize (G t Ht). destruct (astep d p cs t) as [x|cs'] eqn:Ex.
  - rewrite !(run_one _ _ _ _ _ _ Ex). reflexivity.
  - rewrite andb_true_iff, negb_true_iff, Z.eqb_neq, forallb_forall in G. destruct G as (Hne & G). destruct (Hu Hne) as (t2 & u2 & -> & Ht2), (Hu' Hne) as (t2' & u2' & -> & _). specialize (G t2 Ht2).
    injection He as <-. destruct (astep d p cs' t2) as [x|] eqn:E2; [|discriminate G]. rewrite !(run_two _ _ _ _ _ _ _ _ Ex Hne E2). reflexivity.
Qed.
Theorem loop_by_op_level k p t u L : In t tokens -> op_level t = Some L -> 0 <= p <= 11 -> adaptive_predict 31 k p (t :: u) = Some (if p <=? L then 1 else 2).
Proof.
  intros Ht HL Hp. pose proof level_ok_ok as G. unfold level_ok in G. rewrite forallb_forall in G. specialize (G p (in_precs p Hp)). destruct (starts 31 p) as [cs|] eqn:Es; [|discriminate G].
  rewrite forallb_forall in G. specialize (G t Ht). rewrite HL in G. destruct (astep 31 p cs t) as [x|] eqn:Ex; [|discriminate G]. apply answer_is_spec in G. subst x.
  eapply predicts; [exact Es|]. apply run_one. exact Ex.
Qed.

(** *** Only alternatives of the decision are answered *)
Section Alts.
Variable B : atn.
Variable ps : list Z.
Variable dr : option Z.
Variable n : Z.
Definition fine_alt (c : config) : Prop := 1 <= c_alt c <= n.
Definition fine_alts : list config -> Prop := Forall fine_alt.
Lemma add_alts c l : fine_alt c -> fine_alts l -> fine_alts (add_config c l).
Proof.
  intros Hc. induction 1 as [|e l He Hl IH]; cbn [add_config]; [repeat constructor; apply Hc|]. destruct (_ && _); [|constructor; assumption].
  constructor; [exact He|exact Hl].
Qed.
Lemma adds_alts l : forall acc, fine_alts l -> fine_alts acc -> fine_alts (fold_left (fun l c => add_config c l) l acc).
Proof. induction l as [|c l IH]; intros acc Hl Ha; [exact Ha|]. inversion Hl; subst. cbn [fold_left]. apply IH; [assumption|]. apply add_alts; assumption. Qed.
Lemma filter_alts f l : fine_alts l -> fine_alts (filter f l).
Proof. unfold fine_alts. rewrite !Forall_forall. intros H c Hc. apply filter_In in Hc as (Hc & _). exact (H c Hc). Qed.
Lemma fold_opt_alts {T} (f : cset -> T -> option cset) l : (forall s x s', fine_alts (snd s) -> f s x = Some s' -> fine_alts (snd s')) ->
  forall s s', fine_alts (snd s) -> fold_opt f l s = Some s' -> fine_alts (snd s').
Proof.
  intros Hf. induction l as [|x l IH]; intros s s' Hs H; cbn [fold_opt] in H; [injection H as <-; exact Hs|]. destruct (f s x) as [s1|] eqn:E; [|discriminate].
  eapply IH; [|exact H]. eapply Hf; eassumption.
Qed.
Lemma clos_alts f : forall c collect depth eofeps s s', fine_alt c -> fine_alts (snd s) -> clos B ps dr f c collect depth eofeps s = Some s' -> fine_alts (snd s').
Proof.
  induction f as [|f IH]; intros c collect depth eofeps s s' Hc Hs H; [discriminate|]. cbn [clos] in H. destruct (is_stop B (c_state c)).
  - destruct (c_ctx c) as [|l].
    + eapply fold_opt_alts; [|exact (if eps_only B ps (c_state c) as b return fine_alts (snd (if b then s else (fst s, add_config c (snd s)))) then Hs else add_alts _ _ Hc Hs)|exact H].
      intros s0 x s1 H0 H1. cbv beta zeta in H1. destruct (existsb _ _); [injection H1 as <-; exact H0|]. eapply IH in H1; [exact H1|exact Hc|exact H0].
    + eapply fold_opt_alts; [|exact Hs|exact H]. intros s0 x s1 H0 H1. eapply IH; [|exact H0|exact H1]. exact Hc.
  - destruct (_ && _); [discriminate|].
    eapply fold_opt_alts; [|exact (if eps_only B ps (c_state c) as b return fine_alts (snd (if b then s else (fst s, add_config c (snd s)))) then Hs else add_alts _ _ Hc Hs)|exact H].
    intros s0 t s1 H0 H1. destruct t as [to|neg l to|st r to j|r a to|j to]; try (eapply IH; [|exact H0|exact H1]; exact Hc).
    cbv beta iota zeta in H1. match type of H1 with (if ?b then _ else _) = _ => destruct b end; [|injection H1 as <-; exact H0]. destruct (existsb _ _); [injection H1 as <-; exact H0|]. eapply IH in H1; [exact H1|exact Hc|exact H0].
Qed.
Lemma closure_alts c collect eofeps l l' : fine_alt c -> fine_alts l -> closure B ps dr c collect eofeps l = Some l' -> fine_alts l'.
Proof.
  intros Hc Hl. unfold closure. generalize 1000%nat. intros f H. destruct (clos _ _ _ _ _ _ _ _ _) as [s|] eqn:E; [|discriminate]. injection H as <-. eapply clos_alts; [exact Hc| |exact E]. exact Hl.
Qed.
Local Opaque closure.
Lemma start_alts l : forall i cs cs', 1 <= i -> i + Z.of_nat (length l) <= n + 1 -> fine_alts cs -> start_from B ps dr i l cs = Some cs' -> fine_alts cs'.
Proof.
  induction l as [|t l IH]; intros i cs cs' Hi Hn Hc H; cbn [start_from] in H; [injection H as <-; exact Hc|]. cbn [length] in Hn. destruct (closure _ _ _ _ _ _ _) as [c1|] eqn:E; [|discriminate].
  eapply (IH (i + 1)); [lia|lia| |exact H]. eapply closure_alts; [|exact Hc|exact E]. unfold fine_alt. cbn. lia.
Qed.
Lemma filtered_alts p l : fine_alts l -> fine_alts (filtered p l).
Proof.
  intros H. unfold filtered. apply adds_alts; [|constructor]. apply Forall_app. split; [|apply filter_alts; exact H].
  apply Forall_map. apply (filter_alts (fun c => (c_alt c =? 1) && holds_prec p c)) in H. eapply Forall_impl; [|exact H]. intros c Hc. exact Hc.
Qed.
Lemma reach_alts cs t r : fine_alts cs -> reach B ps dr cs t = Some r -> fine_alts r.
Proof.
  intros H Hr. unfold reach in Hr.
  match type of Hr with context [fold_left (fun l c => add_config c l) ?m []] => set (moved := m) in Hr; assert (Hm : fine_alts moved) end.
  { unfold moved, fine_alts. rewrite Forall_forall. intros c Hc. apply in_flat_map in Hc as (c0 & H0 & Hc). destruct (is_stop B (c_state c0)); [destruct Hc|]. apply in_flat_map in Hc as (e & _ & Hc).
    destruct e; try destruct Hc. destruct (xorb _ _); [|destruct Hc]. destruct Hc as [<-|[]]. unfold fine_alt. cbn. exact (proj1 (Forall_forall _ _) H _ H0). }
  apply (fun G => adds_alts _ [] G (Forall_nil _)) in Hm. cbv zeta in Hr. revert Hr. set (inter := fold_left _ moved []) in *. intros Hr.
  assert (Hs : fine_alts (if t =? -1 then filter (fun c => is_stop B (c_state c)) cs else [])) by (destruct (t =? -1); [apply filter_alts; exact H|constructor]).
  match type of Hr with match ?x with _ => _ end = _ => destruct x as [r1|] eqn:E1; [|discriminate] end. injection Hr as <-.
  assert (H1 : fine_alts r1).
  { match type of E1 with (if ?b then _ else _) = _ => destruct b end; [injection E1 as <-; exact Hm|]. assert (Hn : fine_alts []) by constructor. revert Hn E1. generalize (@nil config) as acc. clear -Hm.
    induction Hm as [|c l Hc Hl IH]; intros acc Ha E; cbn [fold_opt] in E; [injection E as <-; exact Ha|]. destruct (closure _ _ _ _ _ _ _) as [a1|] eqn:Ec; [|discriminate].
    eapply IH; [|exact E]. eapply closure_alts; [exact Hc|exact Ha|exact Ec]. }
  apply adds_alts; [exact Hs|]. destruct (t =? -1); [apply filter_alts|]; exact H1.
Qed.
Lemma finished_alts cs a : fine_alts cs -> finished_alt B cs = Some a -> 1 <= a <= n.
Proof.
  intros H E. unfold finished_alt in E.
  match type of E with match filter ?f _ with _ => _ end = _ => apply (filter_alts f) in H; revert E; generalize dependent (filter f cs) end.
  intros l Hl E. destruct l as [|c l]; [discriminate|]. injection E as <-. inversion Hl as [|? ? Hc Hr]; subst. unfold fine_alt in Hc. revert Hc. generalize (c_alt c) as m.
  induction Hr as [|x r Hx Hr IH]; intros m Hm; [exact Hm|]. cbn [fold_left]. inversion Hl; subst. apply IH; [constructor; assumption|]. unfold fine_alt in Hx. lia.
Qed.
Lemma unique_alts cs a : fine_alts cs -> unique_alt cs = Some a -> 1 <= a <= n.
Proof. intros H E. destruct cs as [|c r]; [discriminate|]. cbn in E. destruct (forallb _ _); [|discriminate]. injection E as <-. inversion H; assumption. Qed.
Lemma step_alts p cs t : fine_alts cs -> match step B ps dr p cs t with inl (Alt a) => 1 <= a <= n | inl _ => True | inr cs' => fine_alts cs' end.
Proof.
  intros H. unfold step. destruct (reach B ps dr cs t) as [r|] eqn:E; [|exact I]. apply reach_alts in E; [|exact H]. destruct r as [|c r].
  - unfold on_error. destruct (finished_alt B (filter (holds_prec p) cs)) as [a|] eqn:Ef; [eapply finished_alts; [|exact Ef]; apply filter_alts; exact H|].
    destruct (finished_alt B (filter (fun c => negb (holds_prec p c)) cs)) as [a|] eqn:Eg; [eapply finished_alts; [|exact Eg]; apply filter_alts; exact H|exact I].
  - destruct (unique_alt (c :: r)) as [a|] eqn:Eu; [|destruct (sll_conflict B (c :: r)); [exact I|exact E]].
    destruct (existsb _ _); [|exact I]. eapply unique_alts; eassumption.
Qed.
Lemma run_alts p ts : forall cs a, fine_alts cs -> Predict.run B ps dr p cs ts = Alt a -> 1 <= a <= n.
Proof.
  induction ts as [|t ts IH]; intros cs a H E; cbn [Predict.run] in E; [discriminate|]. pose proof (step_alts p cs t H) as G. destruct (step B ps dr p cs t) as [x|cs'].
  - subst x. exact G.
  - destruct (t =? -1); [discriminate|]. eapply IH; eassumption.
Qed.
End Alts.
Theorem adaptive_predict_alternatives : answers_alternatives A adaptive_predict.
Proof.
  intros d k p ts a. unfold adaptive_predict, sim, start_set, alternatives. set (q := decision_state d). set (dr := decision_rule q).
  destruct (start_from A prec_states dr 1 (n_trans (node_at A q)) []) as [cs|] eqn:E; [|discriminate].
  apply (start_alts A prec_states dr (Z.of_nat (length (n_trans (node_at A q))))) in E; [|lia|lia|constructor].
  destruct (Predict.run _ _ _ _ _ _) as [x| |] eqn:Er; try discriminate. intros H. injection H as ->. eapply run_alts; [|exact Er]. destruct dr; [apply filtered_alts|]; exact E.
Qed.

(** *** A search for completions, for the examples *)
Definition may (q : Z) (ts : list Z) : bool := match ts with t :: _ => N.testbit (ahead q) (bit t) | [] => true end.
Fixpoint can (f : nat) (k : stack) (p q : Z) (ts : list Z) : bool :=
  match f with
  | O => false
  | S f =>
      if may q ts then
      if (fix any l := match l with [] => false | t :: l' => if
        match t with
        | TEps to | TAction _ _ to => can f k p to ts
        | TSet neg l to => match ts with x :: ts' => if negb neg && in_ranges l x then can f k p to ts' else false | [] => false end
        | TPrec j to => if j >=? p then can f k p to ts else false
        | TRule s r to j => can f ((q, p) :: k) j s ts
        end then true else any l' end) (tr q) then true
      else if n_type (node_at A q) =? 7 then
          match k with
          | [] => (n_rule (node_at A q) =? 0) && match ts with [] => true | _ => false end
          | (n, p') :: k' => match tr n with [TRule _ r to _] => if r =? n_rule (node_at A q) then can f k' p' to ts else false | _ => false end
          end else false else false
  end.
Lemma can_sound f : forall k p q ts, can f k p q ts = true -> completes k p q ts.
Proof.
  induction f as [|f IH]; intros k p q ts H; [discriminate H|]. cbn [can] in H. destruct (may q ts); [|discriminate H].
  match type of H with (if ?g (tr q) then _ else _) = _ => destruct (g (tr q)) eqn:Eg end.
  - clear H. assert (G : exists t, In t (tr q) /\ match t with
        | TEps to | TAction _ _ to => can f k p to ts = true
        | TSet neg l to => match ts with x :: ts' => negb neg && in_ranges l x = true /\ can f k p to ts' = true | [] => False end
        | TPrec j to => j >= p /\ can f k p to ts = true
        | TRule s r to j => can f ((q, p) :: k) j s ts = true end).
    { revert Eg. generalize (tr q). intros l. induction l as [|t l IHl]; intros Eg; [discriminate Eg|].
      match type of Eg with (if ?b then _ else _) = _ => destruct b eqn:Eb end.
      - exists t. split; [left; reflexivity|]. destruct t as [to|neg s to|s r to j|r a to|j to]; try exact Eb.
        + destruct ts as [|x ts']; [discriminate Eb|]. destruct (negb neg && in_ranges s x); [auto|discriminate Eb].
        + destruct (Z.geb_spec j p); [split; [lia|exact Eb]|discriminate Eb].
      - destruct (IHl Eg) as (t' & Hin & H'). exists t'. split; [right; exact Hin|exact H']. }
    destruct G as (t & Hin & H). destruct t as [to|neg l to|s r to j|r a to|j to].
    + eapply completes_step; [exact Hin|]. apply IH. exact H.
    + destruct ts as [|x ts']; [destruct H|]. rewrite andb_true_iff, negb_true_iff in H. destruct H as ((-> & Hx) & H). eapply completes_step; [exact Hin|]. split; [reflexivity|]. exists x, ts'. auto.
    + apply IH in H. apply completes_def in H as (u1 & u2 & stop & -> & Hw & H7 & (s' & to' & j' & En & Hc)).
      assert (E : [TRule s r to j] = [TRule s' (n_rule (node_at A stop)) to' j']) by (rewrite <- En; symmetry; apply call_alone; exact Hin).
      injection E as <- -> <- <-. eapply completes_step; [exact Hin|]. exists u1, u2, stop. auto.
    + eapply completes_step; [exact Hin|]. apply IH. exact H.
    + destruct H as (Hj & H). eapply completes_step; [exact Hin|]. split; [exact Hj|]. apply IH. exact H.
  - destruct (Z.eqb_spec (n_type (node_at A q)) 7) as [H7|]; [|discriminate H]. apply completes_def. exists [], ts, q. split; [reflexivity|]. split; [apply w_stay|]. split; [exact H7|].
    destruct k as [|(n, p') k']; cbn [GoParserProof.after].
    + rewrite andb_true_iff, Z.eqb_eq in H. destruct H as (H0 & H). split; [exact H0|]. destruct ts; [reflexivity|discriminate H].
    + destruct (tr n) as [|[to|neg l to|s r to j|r a to|j to] [|]] eqn:En; try discriminate H. destruct (Z.eqb_spec r (n_rule (node_at A q))) as [<-|]; [|discriminate H]. exists s, to, j. split; [exact En|]. apply IH. exact H.
Qed.
