(** The walks through the parser ATN are the derivations of Grammar.v. *)
From Coq Require Import ZArith.
From Verif Require Import Grammar Cst Parser ExprProof Regex RegexProof Lexer Atn AtnLexer AtnLexerTable AtnParser AtnParserTable.
Local Open Scope Z_scope.

(** *** One rule *)
Lemma re_syms_matches al r s : matches r s -> re_syms al r = true -> Forall (fun a => In a al) s.
Proof.
  induction 1 as [|cs c Hc|a b u v H1 IH1 H2 IH2|a b u H1 IH1|a b u H1 IH1|a|a u v H1 IH1 H2 IH2]; cbn [re_syms]; rewrite ?andb_true_iff; intros Hs.
  - constructor.
  - destruct cs as [[|[x y] [|]]|]; try discriminate. apply andb_true_iff in Hs as [E Hs]. apply N.eqb_eq in E. subst y. apply inN_spec in Hs.
    cbn in Hc. rewrite orb_false_r in Hc. unfold in_range in Hc; cbn in Hc. apply andb_true_iff in Hc as [Ha Hb]. apply N.leb_le in Ha, Hb.
    replace c with x by lia. constructor; [exact Hs|constructor].
  - apply Forall_app. split; [apply IH1|apply IH2]; apply Hs.
  - apply IH1, Hs.
  - apply IH1, Hs.
  - constructor.
  - apply Forall_app. split; [apply IH1|apply IH2]; exact Hs.
Qed.

Section Rule.
Variable A : atn.
Variable al : list N.
Variable stop : Z.
Variable T : list sentry.
Hypothesis HT : forallb (sgood A al stop T) T = true.

Lemma closed_walk S q q' : closed A S = true -> In q S -> eps_walk A q q' -> In q' S.
Proof.
  intros Hc Hq H. induction H as [|q to q' Hin H IH]; [exact Hq|]. apply IH. unfold closed in Hc. rewrite forallb_forall in Hc.
  specialize (Hc _ Hq). rewrite forallb_forall in Hc. apply zmem_in. apply Hc. apply in_flat_map. exists (None, to). split; [exact Hin|left; reflexivity].
Qed.
Lemma sym_walk_nil q ws q' : sym_walk A q ws q' -> ws = [] -> eps_walk A q q'.
Proof. induction 1 as [|q to ws q' Hin H IH|]; intros E; [constructor|econstructor; [exact Hin|exact (IH E)]|discriminate]. Qed.
Lemma sym_walk_cons q w q' : sym_walk A q w q' -> forall a ws, w = a :: ws ->
  exists q1 to, eps_walk A q q1 /\ In (Some a, to) (edges A q1) /\ sym_walk A to ws q'.
Proof.
  induction 1 as [|q to w q' Hin H IH|q b to w q' Hin H IH]; intros a ws E; [discriminate| |].
  - destruct (IH _ _ E) as (q1 & t1 & H1 & H2 & H3). exists q1, t1. split; [econstructor; eassumption|auto].
  - injection E as -> ->. exists q, to. split; [constructor|auto].
Qed.

Lemma rule_table ws : forall e, In e T -> ((exists q, In q (fst e) /\ sym_walk A q ws stop) <-> matches (snd e) ws).
Proof.
  induction ws as [|a ws IH]; intros e He; pose proof HT as G; rewrite forallb_forall in G; specialize (G _ He);
    unfold sgood in G; rewrite !andb_true_iff in G; destruct G as ((((G1 & G2) & G3) & G4) & G5).
  - rewrite <- nullable_correct. apply Bool.eqb_prop in G2. rewrite <- G2, zmem_in. split.
    + intros (q & Hq & H). exact (closed_walk _ _ _ G1 Hq (sym_walk_nil _ _ _ H eq_refl)).
    + intros H. exists stop. split; [exact H|constructor].
  - rewrite forallb_forall in G5.
    assert (Hal : In a al -> ((exists q, In q (fst e) /\ sym_walk A q (a :: ws) stop) <-> matches (snd e) (a :: ws))).
    { intros Ha. specialize (G5 _ Ha). cbn zeta in G5. apply andb_true_iff in G5 as [G5 G6]. rewrite forallb_forall in G6.
      rewrite <- deriv_correct, <- norm_correct.
      assert (HN : (exists q, In q (fst (snext A a e)) /\ sym_walk A q ws stop) <-> matches (snd (snext A a e)) ws).
      { apply orb_true_iff in G5 as [G5|G5]; [|apply IH, smem_in, G5]. destruct (snext A a e) as [[|x l] r]; [|discriminate].
        destruct r; try discriminate. cbn. split; [intros (q & [] & _)|intros H; inversion H]. }
      rewrite <- (snext_re A), <- HN. split.
      - intros (q & Hq & H). destruct (sym_walk_cons _ _ _ H _ _ eq_refl) as (q1 & to & H1 & H2 & H3).
        pose proof (closed_walk _ _ _ G1 Hq H1) as Hq1. exists to. split; [|exact H3]. specialize (G6 _ Hq1). rewrite forallb_forall in G6.
        apply zmem_in. apply G6. apply in_flat_map. exists (Some a, to). split; [exact H2|]. unfold sym_to; cbn. rewrite N.eqb_refl. left; reflexivity.
      - intros (q & Hq & H). rewrite snext_states in Hq. apply sstep_from in Hq as (q1 & q0 & Hq1 & Hin & Hw).
        exists q1. split; [exact Hq1|]. eapply sw_sym; [exact Hin|]. exact (eps_sym _ _ _ _ _ Hw H). }
    split.
    + intros H. apply Hal; [|exact H]. destruct H as (q & Hq & H). destruct (sym_walk_cons _ _ _ H _ _ eq_refl) as (q1 & to & H1 & H2 & _).
      pose proof (closed_walk _ _ _ G1 Hq H1) as Hq1. rewrite forallb_forall in G4. specialize (G4 _ Hq1). rewrite forallb_forall in G4.
      specialize (G4 _ H2). exact (inN_spec _ _ G4).
    + intros H. apply Hal; [|exact H]. pose proof (re_syms_matches al _ _ H G3) as HF. inversion HF; assumption.
Qed.
End Rule.

Lemma rule_walk A r ws : rule_checked A r = true -> (sym_walk A (start_of A r) ws (stop_of A r) <-> matches (re_of (prule_at r)) ws).
Proof.
  unfold rule_checked. cbn zeta. generalize (sexplore A (rule_syms A r) table_limit [rule_init A r] []). intros T. rewrite !andb_true_iff. intros [[H0 H1] H2].
  pose proof (rule_table A _ _ T H2 ws (rule_init A r) (smem_in _ _ H1)) as HR. rewrite rule_init_re, norm_correct in HR.
  rewrite <- HR. apply zmem_in in H0. split.
  - intros H. exists (start_of A r). auto.
  - intros (q & Hq & H). apply rule_init_from in Hq as Hw. exact (eps_sym _ _ _ _ _ Hw H).
Qed.

(** *** Facts of the ATN checked by computation *)
Definition trans_ok (A : atn) (t : trans) : bool :=
  match t with
  | TEps _ | TAction _ _ _ => true
  | TSet neg l _ => negb neg && forallb (fun r => (-1 <=? fst r) && (snd r <=? 84)) l
  | TPrec k _ => (0 <=? k) && (k <? 100)
  | TRule s r _ k => (s =? start_of A r) && (0 <=? r) && (r <? 51) && (0 <=? k) && (k <? 100)
  end.
Definition stop_ok (A : atn) (q : Z) : bool :=
  negb (n_type (node_at A q) =? 7) || ((q =? stop_of A (n_rule (node_at A q))) && (0 <=? n_rule (node_at A q)) && (n_rule (node_at A q) <? 51)).
Definition stops_there (A : atn) (r : Z) : bool := (n_type (node_at A (stop_of A r)) =? 7) && (n_rule (node_at A (stop_of A r)) =? r).
Definition atn_ok (A : atn) : bool :=
  forallb (fun n => forallb (trans_ok A) (n_trans n)) (a_nodes A)
  && forallb (fun i => stop_ok A (Z.of_nat i)) (seq 0 (length (a_nodes A)))
  && negb (n_type (node_at A 0) =? 7) && forallb (fun i => stops_there A (Z.of_nat i)) (seq 0 51).

Section Walks.
Variable A : atn.
Hypothesis A_ok : atn_ok A = true.
Hypothesis checked : forall r, 0 <= r < 51 -> rule_checked A r = true.

Lemma trans_ok_at q t : In t (n_trans (node_at A q)) -> trans_ok A t = true.
Proof.
  intros H. pose proof A_ok as G. unfold atn_ok in G. rewrite !andb_true_iff in G. destruct G as (((G & _) & _) & _).
  rewrite forallb_forall in G. unfold node_at in H.
  destruct (nth_in_or_default (Z.to_nat q) (a_nodes A) (Node 0 (-1) false [])) as [Hin|E]; [|rewrite E in H; destruct H].
  specialize (G _ Hin). rewrite forallb_forall in G. exact (G _ H).
Qed.
Lemma stop_unique q : n_type (node_at A q) = 7 ->
  q = stop_of A (n_rule (node_at A q)) /\ 0 <= n_rule (node_at A q) < 51.
Proof.
  intros H. pose proof A_ok as G. unfold atn_ok in G. rewrite !andb_true_iff in G. destruct G as (((_ & G) & G0) & _).
  assert (Hq : 0 <= q).
  { destruct (Z.le_gt_cases 0 q) as [Hq|Hq]; [exact Hq|]. exfalso. unfold node_at in H. replace (Z.to_nat q) with (Z.to_nat 0) in H by lia.
    change (nth (Z.to_nat 0) (a_nodes A) _) with (node_at A 0) in H. rewrite H in G0. discriminate. }
  rewrite forallb_forall in G. specialize (G (Z.to_nat q)). rewrite Z2Nat.id in G by exact Hq.
  assert (Hin : In (Z.to_nat q) (seq 0 (length (a_nodes A)))).
  { apply in_seq. destruct (Nat.lt_ge_cases (Z.to_nat q) (length (a_nodes A))) as [Hl|Hl]; [lia|].
    unfold node_at in H. rewrite nth_overflow in H by exact Hl. discriminate. }
  specialize (G Hin). unfold stop_ok in G. rewrite H in G. cbn [negb Z.eqb Pos.eqb orb] in G. rewrite !andb_true_iff, Z.eqb_eq, Z.leb_le, Z.ltb_lt in G.
  tauto.
Qed.
Lemma stop_at r : 0 <= r < 51 -> n_type (node_at A (stop_of A r)) = 7 /\ n_rule (node_at A (stop_of A r)) = r.
Proof.
  intros H. pose proof A_ok as G. unfold atn_ok in G. rewrite !andb_true_iff in G. destruct G as (_ & G).
  rewrite forallb_forall in G. specialize (G (Z.to_nat r)). rewrite Z2Nat.id in G by lia. unfold stops_there in G.
  rewrite andb_true_iff, !Z.eqb_eq in G. apply G. apply in_seq. lia.
Qed.

(** *** Rules calling rules *)
Inductive pderives : Z -> pe -> list Z -> Prop :=
| pd_nil p : pderives p PNil []
| pd_t p k : pderives p (PT k) [k]
| pd_r p r k ts : pderives k (prule_at r) ts -> pderives p (PR r k) ts
| pd_p p k : k >= p -> pderives p (PP k) []
| pd_seq p a b u v : pderives p a u -> pderives p b v -> pderives p (PSeq a b) (u ++ v)
| pd_or1 p a b u : pderives p a u -> pderives p (POr a b) u
| pd_or2 p a b u : pderives p b u -> pderives p (POr a b) u
| pd_many0 p a : pderives p (PMany a) []
| pd_many1 p a u v : pderives p a u -> pderives p (PMany a) v -> pderives p (PMany a) (u ++ v).

(** A sequence of symbols stands for tokens; [C r k ts] is what a call stands for. *)
Inductive expand (C : Z -> Z -> list Z -> Prop) (p : Z) : list N -> list Z -> Prop :=
| x_nil : expand C p [] []
| x_t t ws ts : -1 <= t <= 84 -> expand C p ws ts -> expand C p (sym_t t :: ws) (t :: ts)
| x_p k ws ts : 0 <= k < 100 -> k >= p -> expand C p ws ts -> expand C p (sym_p k :: ws) ts
| x_r r k ws ts1 ts2 : 0 <= r < 51 -> 0 <= k < 100 -> C r k ts1 -> expand C p ws ts2 -> expand C p (sym_r r k :: ws) (ts1 ++ ts2).
Lemma expand_app C p ws1 : forall ws2 ts1 ts2, expand C p ws1 ts1 -> expand C p ws2 ts2 -> expand C p (ws1 ++ ws2) (ts1 ++ ts2).
Proof.
  intros ws2 ts1 ts2 H1 H2. induction H1; cbn [app]; [exact H2|constructor; assumption|constructor; assumption|].
  rewrite <- app_assoc. constructor; assumption.
Qed.
Lemma expand_split C p ws1 : forall ws2 ts, expand C p (ws1 ++ ws2) ts -> exists ts1 ts2, ts = ts1 ++ ts2 /\ expand C p ws1 ts1 /\ expand C p ws2 ts2.
Proof.
  induction ws1 as [|a ws1 IH]; intros ws2 ts H; cbn [app] in H.
  - exists [], ts. split; [reflexivity|]. split; [constructor|exact H].
  - inversion H as [|t ws ts0 Hr H0|k ws ts0 Hr Hk H0|r k ws t1 t2 Hr Hk HC H0]; subst.
    + apply IH in H0 as (u & v & -> & Hu & Hv). exists (t :: u), v. split; [reflexivity|]. split; [constructor; assumption|exact Hv].
    + apply IH in H0 as (u & v & -> & Hu & Hv). exists u, v. split; [reflexivity|]. split; [constructor; assumption|exact Hv].
    + apply IH in H0 as (u & v & -> & Hu & Hv). exists (t1 ++ u), v. split; [rewrite app_assoc; reflexivity|]. split; [constructor; assumption|exact Hv].
Qed.
Lemma expand_nil C p ts : expand C p [] ts -> ts = []. Proof. intros H; inversion H; reflexivity. Qed.
Lemma expand_t C p t ws ts : -1 <= t <= 84 -> expand C p (sym_t t :: ws) ts -> exists ts', ts = t :: ts' /\ expand C p ws ts'.
Proof.
  intros Ht H. inversion H as [|t' ws0 ts0 Hr H0 E|k ws0 ts0 Hr Hk H0 E|r k ws0 t1 t2 Hr Hk HC H0 E]; subst; unfold sym_t, sym_p, sym_r in E; try lia.
  replace t with t' by lia. eauto.
Qed.
Lemma expand_p C p k ws ts : 0 <= k < 100 -> expand C p (sym_p k :: ws) ts -> k >= p /\ expand C p ws ts.
Proof.
  intros Ht H. inversion H as [|t' ws0 ts0 Hr H0 E|k' ws0 ts0 Hr Hk H0 E|r k' ws0 t1 t2 Hr Hk HC H0 E]; subst; unfold sym_t, sym_p, sym_r in E; try lia.
  replace k with k' by lia. auto.
Qed.
Lemma expand_r C p r k ws ts : 0 <= r < 51 -> 0 <= k < 100 -> expand C p (sym_r r k :: ws) ts ->
  exists t1 t2, ts = t1 ++ t2 /\ C r k t1 /\ expand C p ws t2.
Proof.
  intros Hr0 Hk0 H. inversion H as [|t' ws0 ts0 Hr H0 E|k' ws0 ts0 Hr Hk H0 E|r' k' ws0 t1 t2 Hr Hk HC H0 E]; subst; unfold sym_t, sym_p, sym_r in E; try lia.
  assert (r = r' /\ k = k') as [-> ->] by lia. eauto.
Qed.

Fixpoint pe_ok (e : pe) : bool :=
  match e with
  | PNil => true | PT k => (-1 <=? k) && (k <=? 84)
  | PR r k => (0 <=? r) && (r <? 51) && (0 <=? k) && (k <? 100)
  | PP k => (0 <=? k) && (k <? 100)
  | PSeq a b | POr a b => pe_ok a && pe_ok b
  | PMany a => pe_ok a
  end.
Lemma prule_ok r : 0 <= r < 51 -> pe_ok (prule_at r) = true.
Proof.
  intros H. assert (G : forallb (fun i => pe_ok (prule_at (Z.of_nat i))) (seq 0 51) = true) by (vm_compute; reflexivity).
  rewrite forallb_forall in G. specialize (G (Z.to_nat r)). rewrite Z2Nat.id in G by lia. apply G. apply in_seq. lia.
Qed.

Lemma matches_star a s : matches (Star a) s -> exists l, s = concat l /\ Forall (matches a) l.
Proof.
  intros H. remember (Star a) as r eqn:E. induction H as [| | | | |b|b u v H1 IH1 H2 IH2]; try discriminate; injection E as ->.
  - exists []. split; [reflexivity|constructor].
  - destruct (IH2 eq_refl) as (l & -> & Hl). exists (u :: l). split; [reflexivity|]. constructor; assumption.
Qed.

Lemma compose p e : forall ws ts, pe_ok e = true -> matches (re_of e) ws -> expand (fun r k ts => pderives k (prule_at r) ts) p ws ts -> pderives p e ts.
Proof.
  induction e as [|k|r k|k|a IHa b IHb|a IHa b IHb|a IHa]; intros ws ts Hok H Hx; cbn [pe_ok re_of] in *;
    rewrite ?andb_true_iff, ?Z.leb_le, ?Z.ltb_lt in Hok.
  - apply matches_eps in H. subst ws. apply expand_nil in Hx. subst ts. constructor.
  - apply matches_ch in H. subst ws. apply expand_t in Hx as (ts' & -> & Hx); [|lia]. apply expand_nil in Hx. subst ts'. constructor.
  - apply matches_ch in H. subst ws. apply expand_r in Hx as (t1 & t2 & -> & HC & Hx); [|lia|lia]. apply expand_nil in Hx. subst t2.
    rewrite app_nil_r. constructor. exact HC.
  - apply matches_ch in H. subst ws. apply expand_p in Hx as (Hk & Hx); [|lia]. apply expand_nil in Hx. subst ts. constructor. exact Hk.
  - apply matches_cat in H as (u & v & -> & Hu & Hv). apply expand_split in Hx as (t1 & t2 & -> & Hx1 & Hx2).
    constructor; [eapply IHa|eapply IHb]; try eassumption; apply Hok.
  - apply matches_alt in H as [H|H]; [apply pd_or1; eapply IHa|apply pd_or2; eapply IHb]; try eassumption; apply Hok.
  - apply matches_star in H as (l & -> & Hl). revert ts Hx. induction Hl as [|u l Hu Hl IH]; intros ts Hx.
    + apply expand_nil in Hx. subst ts. constructor.
    + cbn [concat] in Hx. apply expand_split in Hx as (t1 & t2 & -> & Hx1 & Hx2). apply pd_many1; [eapply IHa; eassumption|apply IH; exact Hx2].
Qed.

Lemma in_tokens t : In t tokens <-> -1 <= t <= 84.
Proof.
  unfold tokens. rewrite in_map_iff. split.
  - intros (i & <- & Hi). apply in_seq in Hi. lia.
  - intros H. exists (Z.to_nat (t + 1)). split; [lia|]. apply in_seq. lia.
Qed.
Lemma in_edges q t e : In t (n_trans (node_at A q)) -> In e (edges_of t) -> In e (edges A q).
Proof. intros H1 H2. unfold edges. apply in_flat_map. eauto. Qed.

Lemma walk_sym p q ts q' : walk A p q ts q' ->
  exists ws, sym_walk A q ws q' /\ expand (fun r k ts => pderives k (prule_at r) ts) p ws ts.
Proof.
  induction 1 as [p q|p q to ts q' Hin H IH|p q r a to ts q' Hin H IH|p q l to t ts q' Hin Ht H IH|p q k to ts q' Hin Hk H IH
    |p q start r to k ts1 stop ts2 q' Hin H1 IH1 Hs1 Hs2 H2 IH2].
  - exists []. split; constructor.
  - destruct IH as (ws & H1 & H2). exists ws. split; [|exact H2]. eapply sw_eps; [|exact H1]. eapply in_edges; [exact Hin|left; reflexivity].
  - destruct IH as (ws & H1 & H2). exists ws. split; [|exact H2]. eapply sw_eps; [|exact H1]. eapply in_edges; [exact Hin|left; reflexivity].
  - destruct IH as (ws & H1 & H2). pose proof (trans_ok_at _ _ Hin) as G. cbn in G. rewrite forallb_forall in G.
    assert (Hr : -1 <= t <= 84).
    { pose proof Ht as Ht'. apply existsb_exists in Ht' as (r & Hr & Hb). specialize (G _ Hr). rewrite !andb_true_iff, !Z.leb_le in *. lia. }
    exists (sym_t t :: ws). split; [|constructor; assumption]. eapply sw_sym; [|exact H1]. eapply in_edges; [exact Hin|].
    cbn [edges_of]. apply in_map_iff. exists t. split; [reflexivity|]. apply filter_In. split; [apply in_tokens; exact Hr|exact Ht].
  - destruct IH as (ws & H1 & H2). pose proof (trans_ok_at _ _ Hin) as G. cbn in G. rewrite andb_true_iff, Z.leb_le, Z.ltb_lt in G.
    exists (sym_p k :: ws). split; [|constructor; [lia|exact Hk|exact H2]]. eapply sw_sym; [|exact H1]. eapply in_edges; [exact Hin|left; reflexivity].
  - destruct IH1 as (ws1 & S1 & X1), IH2 as (ws2 & S2 & X2). pose proof (trans_ok_at _ _ Hin) as G. cbn in G.
    rewrite !andb_true_iff, Z.eqb_eq, !Z.leb_le, !Z.ltb_lt in G. destruct G as ((((-> & G1) & G2) & G3) & G4).
    apply stop_unique in Hs1 as [Hs1 _]. rewrite Hs2 in Hs1. subst stop.
    apply (rule_walk A r ws1 (checked r ltac:(lia))) in S1.
    exists (sym_r r k :: ws2). split.
    + eapply sw_sym; [|exact S2]. eapply in_edges; [exact Hin|left; reflexivity].
    + constructor; [lia|lia| |exact X2]. eapply compose; [apply prule_ok; lia|exact S1|exact X1].
Qed.

Lemma sym_walk_walk q ws q' : sym_walk A q ws q' -> forall p ts,
  expand (fun r k ts => walk A k (start_of A r) ts (stop_of A r)) p ws ts -> walk A p q ts q'.
Proof.
  induction 1 as [q|q to ws q' Hin H IH|q a to ws q' Hin H IH]; intros p ts Hx.
  - apply expand_nil in Hx. subst ts. constructor.
  - unfold edges in Hin. apply in_flat_map in Hin as (t & Ht & Hin). destruct t as [to'|neg l to'|s r to' k|r a to'|k to']; cbn [edges_of] in Hin.
    + destruct Hin as [E|[]]. injection E as ->. eapply w_eps; [exact Ht|auto].
    + destruct neg; [destruct Hin|]. apply in_map_iff in Hin as (t & E & _). discriminate.
    + destruct Hin as [E|[]]. discriminate.
    + destruct Hin as [E|[]]. injection E as ->. eapply w_action; [exact Ht|auto].
    + destruct Hin as [E|[]]. discriminate.
  - unfold edges in Hin. apply in_flat_map in Hin as (t & Ht & Hin). pose proof (trans_ok_at _ _ Ht) as G.
    destruct t as [to'|neg l to'|s r to' k|r b to'|k to']; cbn [edges_of] in Hin; cbn [trans_ok] in G.
    + destruct Hin as [E|[]]. discriminate.
    + destruct neg; [destruct Hin|]. apply in_map_iff in Hin as (t & E & Hf). injection E as <- <-. apply filter_In in Hf as [Hf1 Hf2].
      apply in_tokens in Hf1. apply expand_t in Hx as (ts' & -> & Hx); [|exact Hf1]. eapply w_token; [exact Ht|exact Hf2|auto].
    + destruct Hin as [E|[]]. injection E as <- ->. rewrite !andb_true_iff, Z.eqb_eq, !Z.leb_le, !Z.ltb_lt in G.
      destruct G as ((((-> & G1) & G2) & G3) & G4). apply expand_r in Hx as (t1 & t2 & -> & HC & Hx); [|lia|lia].
      destruct (stop_at r ltac:(lia)) as [Hs1 Hs2]. eapply w_rule; [exact Ht|exact HC|exact Hs1|exact Hs2|auto].
    + destruct Hin as [E|[]]. discriminate.
    + destruct Hin as [E|[]]. injection E as <- ->. rewrite andb_true_iff, Z.leb_le, Z.ltb_lt in G.
      apply expand_p in Hx as [Hk Hx]; [|lia]. eapply w_prec; [exact Ht|exact Hk|auto].
Qed.

Lemma pderives_sym p e ts : pderives p e ts -> pe_ok e = true ->
  exists ws, matches (re_of e) ws /\ expand (fun r k ts => walk A k (start_of A r) ts (stop_of A r)) p ws ts.
Proof.
  induction 1 as [p|p k|p r k ts H IH|p k Hk|p a b u v H1 IH1 H2 IH2|p a b u H1 IH1|p a b u H1 IH1|p a|p a u v H1 IH1 H2 IH2];
    cbn [pe_ok re_of]; rewrite ?andb_true_iff, ?Z.leb_le, ?Z.ltb_lt; intros Hok.
  - exists []. split; constructor.
  - exists [sym_t k]. split; [apply matches_ch; reflexivity|]. constructor; [lia|constructor].
  - destruct (IH (prule_ok r ltac:(lia))) as (ws & Hm & Hx). exists [sym_r r k]. split; [apply matches_ch; reflexivity|].
    rewrite <- (app_nil_r ts). constructor; [lia|lia| |constructor].
    apply (rule_walk A r ws (checked r ltac:(lia))) in Hm. exact (sym_walk_walk _ _ _ Hm _ _ Hx).
  - exists [sym_p k]. split; [apply matches_ch; reflexivity|]. constructor; [lia|exact Hk|constructor].
  - destruct IH1 as (w1 & M1 & X1); [apply Hok|]. destruct IH2 as (w2 & M2 & X2); [apply Hok|].
    exists (w1 ++ w2). split; [constructor; assumption|apply expand_app; assumption].
  - destruct IH1 as (w1 & M1 & X1); [apply Hok|]. exists w1. split; [apply m_altl; exact M1|exact X1].
  - destruct IH1 as (w1 & M1 & X1); [apply Hok|]. exists w1. split; [apply m_altr; exact M1|exact X1].
  - exists []. split; constructor.
  - destruct IH1 as (w1 & M1 & X1); [exact Hok|]. destruct IH2 as (w2 & M2 & X2); [exact Hok|].
    exists (w1 ++ w2). split; [apply m_star1; assumption|apply expand_app; assumption].
Qed.

Theorem accepts_pderives zs : accepts A zs <-> pderives 0 (prule_at 0) zs.
Proof.
  unfold accepts. split.
  - intros (stop & Hw & Hs1 & Hs2). apply walk_sym in Hw as (ws & Hw & Hx). apply stop_unique in Hs1 as [Hs1 _]. rewrite Hs2 in Hs1. subst stop.
    apply (rule_walk A 0 ws (checked 0 ltac:(lia))) in Hw. eapply compose; [apply (prule_ok 0); lia|exact Hw|exact Hx].
  - intros H. destruct (pderives_sym _ _ _ H (prule_ok 0 ltac:(lia))) as (ws & Hm & Hx). exists (stop_of A 0).
    split; [|exact (stop_at 0 ltac:(lia))].
    apply (rule_walk A 0 ws (checked 0 ltac:(lia))) in Hm. exact (sym_walk_walk _ _ _ Hm _ _ Hx).
Qed.

End Walks.

Lemma parser_ok : atn_ok parser_atn = true. Proof. vm_compute. reflexivity. Qed.
Lemma all_checked : forallb (fun i => rule_checked parser_atn (Z.of_nat i)) (seq 0 51) = true.
Proof. vm_cast_no_check (eq_refl true). Qed.
Lemma checked r : 0 <= r < 51 -> rule_checked parser_atn r = true.
Proof.
  intros H. pose proof all_checked as G. rewrite forallb_forall in G. specialize (G (Z.to_nat r)). rewrite Z2Nat.id in G by lia. apply G.
  apply in_seq. lia.
Qed.


Theorem parser_accepts_pderives zs : accepts parser_atn zs <-> pderives 0 (prule_at 0) zs.
Proof. exact (accepts_pderives parser_atn parser_ok checked zs). Qed.

(** *** Precedences add and remove nothing *)
Lemma kinds_app u v : kinds (u ++ v) = kinds u ++ kinds v. Proof. apply map_app. Qed.
Lemma kinds_split ts u v : u ++ v = kinds ts -> exists a b, ts = a ++ b /\ u = kinds a /\ v = kinds b.
Proof. intros H. unfold kinds in H. symmetry in H. apply map_eq_app in H as (a & b & -> & <- & <-). exists a, b. auto. Qed.
Lemma tz_inj a b : tz a = tz b -> a = b.
Proof. unfold tz. intros H. apply tt_eqb_eq. unfold tt_eqb. apply Nat.eqb_eq. lia. Qed.

(** Precedences erased. *)
Fixpoint den (e : pe) (ts : list tok) : Prop :=
  match e with
  | PNil => ts = []
  | PT k => exists x, ts = [x] /\ tz (ty x) = k
  | PR r _ => exists n, nt_num n = r /\ derives (R n) ts
  | PP _ => ts = []
  | PSeq a b => exists u v, ts = u ++ v /\ den a u /\ den b v
  | POr a b => den a ts \/ den b ts
  | PMany a => exists l, ts = concat l /\ Forall (den a) l
  end.
Lemma nt_num_inj a b : nt_num a = nt_num b -> a = b.
Proof. intros H. pose proof (nth_all_nt a) as H1. rewrite H, nth_all_nt in H1. congruence. Qed.
Lemma den_ebnf e : forall ts, den (pe_of e) ts <-> derives e ts.
Proof.
  induction e as [|t|n|a IHa b IHb|a IHa b IHb|a IHa]; intros ts; cbn [pe_of den].
  - symmetry. apply der_nothing.
  - rewrite der_t. split; intros (x & -> & H); exists x; split; auto; [apply tz_inj; exact H|f_equal; exact H].
  - split; [intros (m & H & Hd)|intros H; eauto]. assert (m = n); [|congruence].
    pose proof (nth_all_nt m) as H1. rewrite H, nth_all_nt in H1. congruence.
  - rewrite der_seq. split; intros (u & v & -> & H1 & H2); exists u, v; (split; [reflexivity|]); split; try (apply IHa; exact H1); apply IHb; exact H2.
  - rewrite der_or, IHa, IHb. reflexivity.
  - rewrite der_many. split; intros (l & -> & Hl); exists l; (split; [reflexivity|]); eapply Forall_impl; try exact Hl; intros x; apply IHa.
Qed.

Lemma den_one l ts : l <> [] -> (den (toks l) ts <-> exists x, ts = [x] /\ tmem (ty x) l = true).
Proof. intros Hn. unfold toks. rewrite den_ebnf. apply der_one_of. exact Hn. Qed.
Lemma den_call k ts : den (call k) ts <-> E ts.
Proof. unfold E. split; [intros (n & Hn & H)|intros H; exists fn_arg_expr; auto]. assert (n = fn_arg_expr); [|congruence].
  apply nt_num_inj. exact Hn. Qed.
Lemma den_op ts : den op_rule ts -> derives (Seq (one_of binops) (R fn_arg_expr)) ts.
Proof.
  assert (HL : forall k l k', l <> [] -> (forall t, tmem t l = true -> tmem t binops = true) -> den (op_level k l k') ts ->
    derives (Seq (one_of binops) (R fn_arg_expr)) ts).
  { intros k l k' Hn Hl. unfold op_level. cbn [den]. intros (u & v & -> & -> & (u1 & v1 & -> & H1 & H2)). cbn [app].
    apply den_one in H1 as (x & -> & Hx); [|exact Hn]. apply (den_call k') in H2. constructor; [|exact H2]. apply der_one_of; [discriminate|]. eauto. }
  unfold op_rule. cbn [den]. intros H. decompose [or] H; clear H; (eapply HL; [|  |eassumption]; [discriminate|]); intros t; destruct t; vm_compute; auto.
Qed.
Lemma den_expr ts : den expr_rule ts -> E ts.
Proof.
  unfold expr_rule. cbn [den]. intros (u & v & -> & Hu & (l & -> & Hl)). unfold E. constructor. cbn [rule]. constructor.
  - apply den_ebnf. exact Hu.    (* [den] forgets the precedences *)
  - apply der_many. exists l. split; [reflexivity|]. eapply Forall_impl; [|exact Hl]. intros z Hz. apply den_op. exact Hz.
Qed.
Lemma den_prule n ts : den (prule n) ts -> derives (R n) ts.
Proof.
  intros H. destruct n; try (constructor; apply den_ebnf; exact H); [|exact (den_expr _ H)].
  exfalso. cbn [prule den] in H. destruct H as (u & v & _ & _ & (x & _ & Hx)). unfold tz in Hx. lia.
Qed.
Lemma prule_at_some r zs p : pderives p (prule_at r) zs -> (exists n, nt_num n = r) \/ zs = [-2].
Proof.
  intros H. unfold prule_at in H. destruct ((0 <=? r) && (r <? 51)) eqn:E; [|right; inversion H; reflexivity].
  destruct (nth_error all_nt (Z.to_nat r)) as [n|] eqn:En; [|right; inversion H; reflexivity]. left. exists n.
  rewrite andb_true_iff, Z.leb_le, Z.ltb_lt in E. pose proof (nt_num_range n).
  assert (H1 : Z.to_nat (nt_num n) = Z.to_nat r).
  { apply (proj1 (NoDup_nth_error all_nt)).
    - repeat (constructor; [cbn [In]; intros HI; decompose [or] HI; try discriminate; assumption|]). constructor.
    - apply nth_error_Some. rewrite nth_all_nt. discriminate.
    - rewrite nth_all_nt, En. reflexivity. }
  lia.
Qed.
Lemma pderives_den p e zs : pderives p e zs -> forall ts, zs = kinds ts -> den e ts.
Proof.
  induction 1 as [p|p k|p r k zs H IH|p k Hk|p a b u v H1 IH1 H2 IH2|p a b u H1 IH1|p a b u H1 IH1|p a|p a u v H1 IH1 H2 IH2]; intros ts E; cbn [den].
  - destruct ts; [reflexivity|discriminate].
  - destruct ts as [|x [|]]; try discriminate. cbn in E. injection E as ->. exists x. auto.
  - destruct (prule_at_some _ _ _ H) as [[n Hn]| ->].
    + exists n. split; [exact Hn|]. apply den_prule. subst r. rewrite prule_at_num in IH. apply IH. exact E.
    + exfalso. destruct ts as [|x [|]]; try discriminate. cbn in E. injection E as E. lia.
  - destruct ts; [reflexivity|discriminate].
  - apply kinds_split in E as (a' & b' & -> & -> & ->). exists a', b'. auto.
  - left; auto.
  - right; auto.
  - destruct ts; [|discriminate]. exists []. split; [reflexivity|constructor].
  - apply kinds_split in E as (a' & b' & -> & -> & ->). destruct (IH2 _ eq_refl) as (l & -> & Hl). exists (a' :: l).
    split; [reflexivity|]. constructor; auto.
Qed.

(** The other way: the precedence climbing of Parser.v finds the walk. *)
Lemma pd_call q p zs : pderives p expr_rule zs -> pderives q (call p) zs.
Proof. intros H. constructor. exact H. Qed.
Lemma pd_toks p l x : tmem (ty x) l = true -> pderives p (toks l) [tz (ty x)].
Proof.
  unfold toks. induction l as [|t l IH]; [discriminate|]. unfold tmem; cbn [existsb]. rewrite orb_true_iff. intros H.
  destruct l as [|t' l].
  - destruct H as [H|H]; [|discriminate]. apply tt_eqb_eq in H. subst t. constructor.
  - change (one_of (t :: t' :: l)) with (Or (T t) (one_of (t' :: l))). cbn [pe_of]. destruct H as [H|H].
    + apply tt_eqb_eq in H. subst t. apply pd_or1. constructor.
    + apply pd_or2. apply IH. exact H.
Qed.
Lemma pd_level p k l k' x zs : tmem (ty x) l = true -> k >= p -> pderives k' expr_rule zs -> pderives p (op_level k l k') (tz (ty x) :: zs).
Proof.
  intros Hx Hk Hz. unfold op_level. change (tz (ty x) :: zs) with ([] ++ [tz (ty x)] ++ zs). constructor; [constructor; exact Hk|].
  constructor; [apply pd_toks; exact Hx|apply pd_call; exact Hz].
Qed.
Lemma pd_op p x q rp zs : bin_prec (ty x) = Some (q, rp) -> Z.of_nat q >= p -> pderives (Z.of_nat rp) expr_rule zs ->
  pderives p op_rule (tz (ty x) :: zs).
Proof.
  intros Hb Hq Hz. unfold bin_prec in Hb. unfold op_rule.
  repeat match type of Hb with (if ?b then _ else _) = _ => let E := fresh "E" in destruct b eqn:E end; try discriminate Hb;
    injection Hb as <- <-.
  - apply pd_or1. apply pd_level; assumption.
  - apply pd_or2, pd_or1. apply pd_level; assumption.
  - apply pd_or2, pd_or2, pd_or1. apply pd_level; assumption.
  - apply pd_or2, pd_or2, pd_or2, pd_or1. apply pd_level; assumption.
  - apply pd_or2, pd_or2, pd_or2, pd_or2, pd_or1. apply pd_level; assumption.
  - apply pd_or2, pd_or2, pd_or2, pd_or2, pd_or2, pd_or1. apply pd_level; assumption.
  - apply pd_or2, pd_or2, pd_or2, pd_or2, pd_or2, pd_or2, pd_or1. apply pd_level; assumption.
  - apply pd_or2, pd_or2, pd_or2, pd_or2, pd_or2, pd_or2, pd_or2. apply pd_level; assumption.
Qed.
Definition args_rule : pe := PSeq (call 0) (PMany (PSeq (PT (tz COMMA)) (call 0))).

Lemma pd_token p n x t : prule n = PT (tz t) -> ty x = t -> pderives p (PR (nt_num n) 0) [tz (ty x)].
Proof. intros Hn <-. constructor. rewrite prule_at_num, Hn. constructor. Qed.
Lemma pd_atom p x : tmem (ty x) [UNSIGNED_NUMBER_LITERAL; STRING_LITERAL; PARAM_OR_VAR; BLOCK_VAR_OR_ANNOTATION] = true -> pderives p prim_rule [tz (ty x)].
Proof.
  intros H. unfold prim_rule. unfold tmem in H; cbn [existsb] in H. rewrite !orb_true_iff, !tt_eqb_eq in H. destruct H as [H|[H|[H|[H|H]]]]; [| | | |discriminate].
  - apply pd_or1. constructor. change (prule_at 13) with (toks [UNSIGNED_NUMBER_LITERAL; STRING_LITERAL]). apply pd_toks. rewrite H. reflexivity.
  - apply pd_or1. constructor. change (prule_at 13) with (toks [UNSIGNED_NUMBER_LITERAL; STRING_LITERAL]). apply pd_toks. rewrite H. reflexivity.
  - apply pd_or2, pd_or1. apply (pd_token p variable x PARAM_OR_VAR); [reflexivity|exact H].
  - apply pd_or2, pd_or2, pd_or1. apply (pd_token p block_var x BLOCK_VAR_OR_ANNOTATION); [reflexivity|exact H].
Qed.
Lemma pd_paren p x e z : ty x = L_PAREN -> pderives 0 expr_rule e -> ty z = R_PAREN -> pderives p prim_rule (tz (ty x) :: e ++ [tz (ty z)]).
Proof.
  intros Hx He Hz. rewrite Hx, Hz. unfold prim_rule. apply pd_or2, pd_or2, pd_or2, pd_or1.
  change (tz L_PAREN :: e ++ [tz R_PAREN]) with ([tz L_PAREN] ++ e ++ [tz R_PAREN]). constructor; [constructor|]. constructor; [apply pd_call; exact He|constructor].
Qed.
Lemma pd_un p x e : tmem (ty x) [PLUS; MINUS; TILDE] = true -> pderives 11 expr_rule e -> pderives p prim_rule (tz (ty x) :: e).
Proof.
  intros Hx He. unfold prim_rule. apply pd_or2, pd_or2, pd_or2, pd_or2, pd_or1. change (tz (ty x) :: e) with ([tz (ty x)] ++ e).
  constructor; [apply pd_toks; exact Hx|apply pd_call; exact He].
Qed.
Lemma pd_not p x e : ty x = NOT_ -> pderives 4 expr_rule e -> pderives p prim_rule (tz (ty x) :: e).
Proof.
  intros Hx He. rewrite Hx. unfold prim_rule. apply pd_or2, pd_or2, pd_or2, pd_or2, pd_or2, pd_or1. change (tz NOT_ :: e) with ([tz NOT_] ++ e).
  constructor; [constructor|apply pd_call; exact He].
Qed.
Lemma pd_fn p x y a z : ty x = IDENTIFIER -> ty y = L_PAREN -> ty z = R_PAREN ->
  pderives p (POr (POr args_rule (PT (tz STAR))) PNil) a -> pderives p prim_rule (tz (ty x) :: tz (ty y) :: a ++ [tz (ty z)]).
Proof.
  intros Hx Hy Hz Ha. rewrite Hy, Hz. unfold prim_rule. apply pd_or2, pd_or2, pd_or2, pd_or2, pd_or2, pd_or2.
  change (tz (ty x) :: tz L_PAREN :: a ++ [tz R_PAREN]) with ([tz (ty x)] ++ [tz L_PAREN] ++ a ++ [tz R_PAREN]).
  constructor; [apply (pd_token p sfn_name x IDENTIFIER); [reflexivity|exact Hx]|]. constructor; [constructor|]. constructor; [exact Ha|constructor].
Qed.

Lemma pd_seq_inv p a b zs : pderives p (PSeq a b) zs -> exists u v, zs = u ++ v /\ pderives p a u /\ pderives p b v.
Proof. intros H. inversion H; subst; eauto. Qed.
Lemma ex_pderives f : forall m ts r, ex f m ts = Some r ->
  exists c, ts = c ++ r /\ match m with
    | MExpr p => pderives (Z.of_nat p) expr_rule (kinds c)
    | MLoop p => pderives (Z.of_nat p) (PMany op_rule) (kinds c)
    | MArgs => forall q, pderives q args_rule (kinds c) end.
Proof.
  induction f as [|f IH]; intros m ts r H; [discriminate|]. cbn [ex] in H. destruct m as [p|p|].
  - destruct ts as [|x ts]; [discriminate|].
    assert (HF : forall pr ts', x :: ts = pr ++ ts' -> pderives (Z.of_nat p) prim_rule (kinds pr) -> ex f (MLoop p) ts' = Some r ->
                 exists c, x :: ts = c ++ r /\ pderives (Z.of_nat p) expr_rule (kinds c)).
    { intros pr ts' E0 Hp Hl. apply IH in Hl as (o & -> & Ho). exists (pr ++ o). rewrite E0, app_assoc. split; [reflexivity|].
      rewrite kinds_app. constructor; assumption. }
    destruct (tmem (ty x) [UNSIGNED_NUMBER_LITERAL; STRING_LITERAL; PARAM_OR_VAR; BLOCK_VAR_OR_ANNOTATION]) eqn:E1.
    { apply (HF [x] ts); auto. apply pd_atom; exact E1. }
    destruct (tt_eqb (ty x) L_PAREN) eqn:E2.
    { apply tt_eqb_eq in E2. destruct (ex f (MExpr 0) ts) as [r1|] eqn:E3; [|discriminate].
      destruct (expect R_PAREN r1) as [[s r2]|] eqn:E4; [|discriminate].
      apply expect_some in E4 as (z & -> & Hz & _). apply IH in E3 as (e & -> & He).
      apply (HF (x :: e ++ [z]) r2); auto.
      - cbn. rewrite <- app_assoc. reflexivity.
      - change (kinds (x :: e ++ [z])) with (tz (ty x) :: kinds (e ++ [z])). rewrite kinds_app. apply pd_paren; assumption. }
    destruct (tmem (ty x) [PLUS; MINUS; TILDE]) eqn:E3.
    { destruct (ex f (MExpr 11) ts) as [r1|] eqn:E4; [|discriminate]. apply IH in E4 as (e & -> & He).
      apply (HF (x :: e) r1); auto. apply pd_un; assumption. }
    destruct (tt_eqb (ty x) NOT_) eqn:E4.
    { apply tt_eqb_eq in E4. destruct (ex f (MExpr 4) ts) as [r1|] eqn:E5; [|discriminate]. apply IH in E5 as (e & -> & He).
      apply (HF (x :: e) r1); auto. apply pd_not; assumption. }
    destruct (tt_eqb (ty x) IDENTIFIER) eqn:E5; [|discriminate]. apply tt_eqb_eq in E5.
    destruct (expect L_PAREN ts) as [[s r1]|] eqn:E6; [|discriminate]. apply expect_some in E6 as (y & -> & Hy & _).
    destruct (la [R_PAREN] r1) eqn:E7.
    { destruct (expect R_PAREN r1) as [[s2 r2]|] eqn:E8; [|discriminate]. apply expect_some in E8 as (z & -> & Hz & _).
      apply (HF [x; y; z] r2); auto. apply (pd_fn _ x y [] z); auto. apply pd_or2. constructor. }
    destruct (la [STAR] r1) eqn:E8.
    { apply la_true in E8 as (st & r2 & -> & Hst). cbn [tl] in H. apply tmem1 in Hst.
      destruct (expect R_PAREN r2) as [[s2 r3]|] eqn:E9; [|discriminate]. apply expect_some in E9 as (z & -> & Hz & _).
      apply (HF [x; y; st; z] r3); auto. apply (pd_fn _ x y [tz (ty st)] z); auto. apply pd_or1, pd_or2. rewrite Hst. constructor. }
    destruct (ex f MArgs r1) as [r2|] eqn:E9; [|discriminate]. apply IH in E9 as (a & -> & Ha).
    destruct (expect R_PAREN r2) as [[s2 r3]|] eqn:E10; [|discriminate]. apply expect_some in E10 as (z & -> & Hz & _).
    apply (HF (x :: y :: a ++ [z]) r3); auto.
    + cbn. rewrite <- app_assoc. reflexivity.
    + change (kinds (x :: y :: a ++ [z])) with (tz (ty x) :: tz (ty y) :: kinds (a ++ [z])). rewrite kinds_app. apply pd_fn; auto.
      apply pd_or1, pd_or1. apply Ha.
  - destruct ts as [|x ts]; [injection H as <-; exists []; split; [reflexivity|constructor]|].
    destruct (bin_prec (ty x)) as [[q rp]|] eqn:Eb; [|injection H as <-; exists []; split; [reflexivity|constructor]].
    destruct (Nat.leb p q) eqn:Epq; [|injection H as <-; exists []; split; [reflexivity|constructor]].
    destruct (ex f (MExpr rp) ts) as [r1|] eqn:E1; [|discriminate]. apply IH in E1 as (e & -> & He).
    apply IH in H as (o & -> & Ho). exists (x :: e ++ o). split; [cbn; rewrite app_assoc; reflexivity|].
    apply Nat.leb_le in Epq. change (kinds (x :: e ++ o)) with (tz (ty x) :: kinds (e ++ o)). rewrite kinds_app.
    change (tz (ty x) :: kinds e ++ kinds o) with ((tz (ty x) :: kinds e) ++ kinds o). apply pd_many1; [|exact Ho].
    eapply pd_op; [exact Eb|lia|exact He].
  - destruct (ex f (MExpr 0) ts) as [r1|] eqn:E1; [|discriminate]. apply IH in E1 as (e & -> & He).
    destruct (la [COMMA] r1) eqn:E2.
    + apply la_true in E2 as (x & r2 & -> & Hx). apply tmem1 in Hx. cbn [tl] in H. apply IH in H as (a & -> & Ha).
      exists (e ++ x :: a). rewrite <- app_assoc. split; [reflexivity|]. intros q. rewrite kinds_app. constructor; [apply pd_call; exact He|].
      specialize (Ha q). apply pd_seq_inv in Ha as (u & v & E4 & H1 & H2).
      change (kinds (x :: a)) with (tz (ty x) :: kinds a). rewrite E4, Hx. change (tz COMMA :: u ++ v) with (([tz COMMA] ++ u) ++ v).
      apply pd_many1; [|exact H2]. constructor; [constructor|exact H1].
    + injection H as <-. exists e. split; [reflexivity|]. intros q. rewrite <- (app_nil_r (kinds e)). constructor; [apply pd_call; exact He|constructor].
Qed.
Lemma E_pderives q ts : E ts -> pderives q (call 0) (kinds ts).
Proof.
  intros H. apply pd_call. destruct (ex_complete (length ts)) as [HE _].
  destruct (HE ts 0%nat [] (2 * length ts)%nat) as (c2 & H1 & H2 & _); auto; [reflexivity|].
  destruct H2 as [->|(x & e & k & rp & _ & _ & H2 & _)]; [|lia]. rewrite app_nil_r in H1. apply ex_pderives in H1 as (c & -> & Hc).
  rewrite app_nil_r. exact Hc.
Qed.

(** source_unit is called by no rule. *)
Fixpoint no_su (e : ebnf) : bool :=
  match e with
  | Nothing | T _ => true | R n => match n with source_unit => false | _ => true end
  | Seq a b | Or a b => no_su a && no_su b | Many a => no_su a
  end.
Lemma rules_no_su n : no_su (rule n) = true. Proof. destruct n; reflexivity. Qed.
Lemma derives_pderives e ts : derives e ts -> no_su e = true -> forall p, pderives p (pe_of e) (kinds ts).
Proof.
  induction 1 as [|t x Hx|n us Hr IHr|a b u v H1 IH1 H2 IH2|a b u H1 IH1|a b u H1 IH1|a|a u v H1 IH1 H2 IH2]; cbn [no_su pe_of];
    rewrite ?andb_true_iff; intros Hs p.
  - constructor.
  - cbn. rewrite Hx. constructor.
  - pose proof (IHr (rules_no_su n)) as IH. destruct n; try discriminate Hs;
      try (match goal with |- pderives _ (PR (nt_num ?m) 0) _ => constructor; rewrite (prule_at_num m); apply IH end).
    apply (E_pderives p). constructor. exact Hr.
  - rewrite kinds_app. constructor; [apply IH1|apply IH2]; apply Hs.
  - apply pd_or1, IH1, Hs.
  - apply pd_or2, IH1, Hs.
  - constructor.
  - rewrite kinds_app. apply pd_many1; [apply IH1|apply IH2]; exact Hs.
Qed.

Theorem parser_accepts_iff ts : parser_accepts ts <-> program ts.
Proof.
  unfold parser_accepts, program. rewrite parser_accepts_pderives. change (prule_at 0) with (PSeq (pe_of (rule source_unit)) (PT (-1))). split.
  - intros H. apply pd_seq_inv in H as (u & v & E2 & H1 & H2). inversion H2; subst. apply app_inj_tail in E2 as [<- _].
    constructor. apply den_ebnf. exact (pderives_den _ _ _ H1 _ eq_refl).
  - intros H. apply der_r in H. constructor; [|constructor]. apply derives_pderives; [exact H|reflexivity].
Qed.
