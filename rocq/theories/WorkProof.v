(** The number of statements executed is linear in what is gained. *)
From Coq Require Import ZArith Lia.
From Verif Require Import Str Tokens Grammar Tree AtnData Atn AtnParser AtnParserTable AtnParserProof GoParser ParserCode PredictSpec GoParserTable GoParserProof Predict PredictTable PredictProof Recovery RecoveryTable RecoveryProof Work WorkTable.
Local Open Scope Z_scope.

Section Count.
Variable A : atn.
Variable funs : list (Z * list code).
Variable P : predictor.
Variable P_at : forall (d p : Z) (input : list Z), nat.
Variable S : strategy.
Local Notation rexec := (rexec A funs P P_at S).
Local Notation rstmt := (rstmt A funs P P_at S).
Local Notation wexec := (wexec A funs P P_at S).
(** One statement with its count *)
Definition wstmt (f : nat) (k : stack) (p : Z) (x : code) (s : rst) : counted :=
      match x with
      | Match n t =>
          let s := set_state n s in
          free (seq_out (if la1 s =? t then Next (advance (report_match s)) else recover_inline S k s) check)
      | MatchSet n c =>
          let s := set_state n s in
          free (if holds c (la1 s) then Next (advance (report_match s)) else recover_inline S k s)
      | Call n r j =>
          match nth_error funs (Z.to_nat r) with
          | Some (start, body) =>
              let b := wexec f ((n, p) :: k) j body (set_state start (set_state n s)) in
              more (snd b) (free (leave S ((n, p) :: k) (fst b) (fun s' => Next (if r =? 50 then s' else set_state n s'))))
          | None => free Panic
          end
      | Sync n => free (seq_out (sync A S k (set_state n s)) check)
      | If c b => if holds c (la1 s) then wexec f k p b s else free (Next s)
      | For c b => if holds c (la1 s) then cseq (wexec f k p b s) (wexec f k p [For c b]) else free (Next s)
      | Do c b => cseq (wexec f k p b s) (fun s' => if holds c (la1 s') then wexec f k p [Do c b] s' else free (Next s'))
      | Switch cases e =>
          match case_of (la1 s) cases with
          | Some b => wexec f k p b s
          | None => free (if e then Exit (set_err (Some (Report NoViableAlt (here s) (Since (here s)))) s) else Next s)
          end
      | Choose d cases =>
          match P d k p (rinput s) with
          | Some a => let s := set_err None s in match alt_of a cases with Some b => wexec f k p b s | None => free (Next s) end
          | None => free (Exit (no_viable P_at d p s))
          end
      | Loop d e b r =>
          match P d k p (rinput s) with
          | Some a => let s := set_err None s in
              if a =? e then free (Next s)
              else cseq (if a =? 1 then wexec f k p b s else free (Next s)) (fun s' => cseq (wexec f k p r s') (wexec f k p [Loop d e b r]))
          | None => free (Exit (no_viable P_at d p s))
          end
      | Prec n j =>
          let s := set_state n s in
          free (if j >=? p then Next s else Exit (set_err (Some (Report FailedPredicate (here s) (Level j))) s))
      end.
Lemma wexec_cons f k p x c s : wexec (Datatypes.S f) k p (x :: c) s = cseq (more 1 (wstmt f k p x s)) (wexec f k p c).
Proof. destruct x; reflexivity. Qed.
(** Counting changes nothing. *)
Lemma fst_seq r g r' g' : fst r = r' -> (forall s, fst (g s) = g' s) -> fst (cseq r g) = seq_out r' g'.
Proof. intros <- H. unfold cseq, more. destruct r as ([s|s| |], n); cbn; auto. Qed.
Lemma wstmt_is f : (forall k p c s, fst (wexec f k p c s) = rexec f k p c s) -> forall k p x s, fst (wstmt f k p x s) = rstmt f k p x s.
Proof.
  intros IH k p x s. destruct x as [n t|n c|n r j|n|c b|c b|c b|cases e|d cases|d e b r|n j]; cbn [wstmt RecoveryProof.rstmt]; cbv zeta; try reflexivity.
  - destruct (nth_error funs (Z.to_nat r)) as [(start, body)|]; [|reflexivity]. cbn [more free fst]. rewrite IH. reflexivity.
  - destruct (holds c (la1 s)); [apply IH|reflexivity].
  - destruct (holds c (la1 s)); [apply fst_seq; auto|reflexivity].
  - apply fst_seq; [apply IH|]. intros s'. destruct (holds c (la1 s')); [apply IH|reflexivity].
  - destruct (case_of (la1 s) cases); [apply IH|reflexivity].
  - destruct (P d k p (rinput s)) as [a|]; [|reflexivity]. destruct (alt_of a cases); [apply IH|reflexivity].
  - destruct (P d k p (rinput s)) as [a|]; [|reflexivity]. destruct (a =? e); [reflexivity|]. apply fst_seq; [destruct (a =? 1); [apply IH|reflexivity]|]. intros s'. apply fst_seq; auto.
Qed.
Lemma wexec_is f : forall k p c s, fst (wexec f k p c s) = rexec f k p c s.
Proof.
  induction f as [|f IH]; intros k p c s; [reflexivity|]. destruct c as [|x c]; [reflexivity|]. rewrite wexec_cons, rexec_cons. apply fst_seq; [|intros s'; apply IH]. cbn [more fst]. apply wstmt_is. exact IH.
Qed.
End Count.

(** *** The bound *)
Local Opaque shallow most deep.
Section Bound.
Variable A : atn.
Variable P : predictor.
Variable P_at : forall (d p : Z) (input : list Z), nat.
Variable S : strategy.
Hypothesis P_known : of_table P.
Local Notation rexec := (rexec A rule_functions P P_at S).
Local Notation rstmt := (rstmt A rule_functions P P_at S).
Local Notation wexec := (wexec A rule_functions P P_at S).
Local Notation wstmt := (wstmt A rule_functions P P_at S).
Local Notation pass := (pass rule_functions).
Local Notation quiet := (quiet rule_functions).
Local Notation light := (light rule_functions).
Local Notation Good := Good.
Definition Light (c : list code) : Prop := exists f, light f c = true.

Lemma light_quick c : Light c -> forall t, In t tokens -> (exists b, pass shallow c t = Some b) /\ (quiet shallow c t <= most)%nat.
Proof.
  intros (f & H) t Ht. destruct f as [|f]; [discriminate H|]. cbn [WorkTable.light] in H. apply andb_true_iff in H as (H & _). unfold quick in H. rewrite forallb_forall in H. specialize (H t Ht). apply andb_true_iff in H as (H & Hq).
  apply Nat.leb_le in Hq. split; [|exact Hq]. destruct (pass shallow c t) as [b|]; [eauto|discriminate H].
Qed.
Lemma light_cons x c : Light (x :: c) -> exists f, light f c = true /\ RecoveryTable.good rule_functions 60 [x] = true /\ match x with
      | If _ b => light f b = true
      | For c b => light f b = true /\ quick rule_functions [For c b] = true
      | Do c b => light f b = true /\ quick rule_functions [Do c b] = true
      | Switch cases _ => forallb (fun x => light f (snd x)) cases = true
      | Choose d cases => forallb (fun x => light f (snd x)) cases = true
      | Loop d e b r => light f b = true /\ light f r = true /\ quick rule_functions [Loop d e b r] = true
      | _ => True
      end.
Proof.
  intros (f & H). destruct f as [|f]; [discriminate H|]. cbn [WorkTable.light] in H. apply andb_true_iff in H as (_ & H). apply andb_true_iff in H as (H & Hc). apply andb_true_iff in H as (H & Hg). exists f. split; [exact Hc|]. split; [exact Hg|].
  destruct x; try exact I; try exact H; rewrite !andb_true_iff in H; tauto.
Qed.
Lemma light_one f b : light f b = true -> light f [] = true.
Proof. destruct f as [|f]; [discriminate 1|]. intros _. Transparent shallow most. vm_compute. reflexivity. Qed.
Opaque shallow most.
Lemma more_one x f b : light f b = true -> match x with
      | For c b' => b' = b /\ quick rule_functions [For c b'] = true
      | Do c b' => b' = b /\ quick rule_functions [Do c b'] = true
      | Loop d e b' r => b' = b /\ light f r = true /\ quick rule_functions [Loop d e b' r] = true
      | _ => False
      end -> RecoveryTable.good rule_functions 60 [x] = true -> Light [x].
Proof.
  intros Hb Hx Hg. exists (Datatypes.S f). cbn [WorkTable.light]. rewrite Hg, (light_one _ _ Hb). destruct x; try contradiction Hx; [destruct Hx as (-> & Hq)|destruct Hx as (-> & Hq)|destruct Hx as (-> & Hr & Hq); rewrite Hr]; rewrite Hq, Hb; reflexivity.
Qed.
Lemma case_light f t cases b : forallb (fun x => light f (snd x)) cases = true -> case_of t cases = Some b -> Light b.
Proof.
  induction cases as [|(ts, b0) l IH]; cbn; [discriminate|]. rewrite andb_true_iff. intros (H & Hl). destruct (zmem t ts); [intros E; injection E as ->; exists f; exact H|auto].
Qed.
Lemma alt_light f a cases b : forallb (fun x => light f (snd x)) cases = true -> alt_of a cases = Some b -> Light b.
Proof.
  induction cases as [|(i, b0) l IH]; cbn; [discriminate|]. rewrite andb_true_iff. intros (H & Hl). destruct (a =? i); [intros E; injection E as ->; exists f; exact H|auto].
Qed.
Lemma fun_light r start body : nth_error rule_functions (Z.to_nat r) = Some (start, body) -> Light body.
Proof. intros H. apply nth_error_In in H. pose proof all_light as G. rewrite forallb_forall in G. specialize (G _ H). eexists. exact G. Qed.

(** What is known of every run *)
Lemma run_fine_at f k p c s F b : Good c -> prec_ok p -> in_univ s -> pass F c (la1 s) = Some b -> rexec f k p c s <> More -> fine b s (rexec f k p c s).
Proof.
  intros Hg Hp Hu Hb Hf. destruct (below_fine A P P_at S P_known (meas s)) with (F := F) (c := c) (s := s) (k := k) (p := p) (b := b) as (f0 & H); auto.
  - intros s1 _ c1 k1 p1 Hg1 Hp1 Hu1. apply run_ends; assumption.
  - rewrite (fuel_one A rule_functions P P_at S f f0 k p c s _ _ eq_refl eq_refl Hf (fine_more _ _ _ H)). exact H.
Qed.

(** What counts as gained: a measure of the states for which [ok] holds at the end. *)
Variable ok : rst -> Prop.
Variable mu : rst -> nat.
Hypothesis ok_le : forall f k p c s, match rexec f k p c s with Next s' | Exit s' => ok s' -> ok s | _ => True end.
Hypothesis ok_stmt : forall f k p x s, match rstmt f k p x s with Next s' | Exit s' => ok s' -> ok s | _ => True end.
Hypothesis ok_leave : forall k s s', error_exit S k s = Some s' -> ok s' -> ok s.
Hypothesis ok_same : forall a b, last a = last b -> ok a -> ok b.
Hypothesis mu_lt : forall s' s, ok s' -> ok s -> lt s' s -> (mu s' < mu s)%nat.
Hypothesis mu_same : forall s' s, ok s' -> ok s -> same s' s -> mu s' = mu s.
Hypothesis mu_set : forall s' s, toks s' = toks s -> last s' = last s -> lstates s' = lstates s -> mu s' = mu s.

Lemma stmt_fine_at f k p x s F b : Good [x] -> prec_ok p -> in_univ s -> pass F [x] (la1 s) = Some b -> rstmt f k p x s <> More -> fine b s (rstmt f k p x s).
Proof.
  intros Hg Hp Hu Hb Hr. pose proof (stmt_more A rule_functions P P_at S f (Datatypes.S f) k p x s _ ltac:(lia) eq_refl Hr) as E.
  assert (G : rexec (Datatypes.S (Datatypes.S f)) k p [x] s = rstmt f k p x s). { rewrite rexec_cons, E. destruct (rstmt f k p x s); reflexivity. }
  rewrite <- G. eapply run_fine_at; try eassumption. rewrite G. exact Hr.
Qed.

(** *** Arithmetic *)
Definition V : nat := (3 * most)%nat.
Definition K : nat := (V * shallow)%nat.
Definition Cst (F g : nat) : nat := match g with O => O | Datatypes.S g' => (V * F + K * g')%nat end.
Definition Dst (F g : nat) : nat := match g with O => O | Datatypes.S g' => (V * F + 2 * most + K * g')%nat end.
Local Open Scope nat_scope.
Lemma C_D F g : Cst F g <= Dst F g. Proof. destruct g; cbn [Cst Dst]; lia. Qed.
Lemma C_K g : Cst shallow g <= K * g. Proof. destruct g; cbn [Cst]; [lia|]. unfold K at 2. unfold K at 1. lia. Qed.
Lemma D_mono F g g' : g <= g' -> Dst F g <= Dst F g'.
Proof. destruct g, g'; cbn [Dst]; intros; try lia. assert (K * g <= K * g') by (apply Nat.mul_le_mono_l; lia). lia. Qed.
Lemma C_S F g : Cst F g <= Cst (Datatypes.S F) g. Proof. destruct g; cbn [Cst]; lia. Qed.
Lemma D_S F g : Dst F g <= Cst (Datatypes.S F) g. Proof. destruct g; cbn [Cst Dst]; [lia|]. unfold V at 2. unfold V at 1. lia. Qed.
Lemma C_two F g1 g2 : 0 < g1 -> Cst F g1 + most + Cst shallow g2 <= Dst F (g1 + g2).
Proof. intros H. destruct g1; [lia|]. pose proof (C_K g2). cbn [Cst Dst plus]. rewrite Nat.mul_add_distr_l. lia. Qed.
Lemma C_three F g1 g2 g3 : 0 < g1 -> Cst F g1 + (most + Cst shallow g2) + (most + Cst shallow g3) <= Dst F (g1 + g2 + g3).
Proof. intros H. destruct g1; [lia|]. pose proof (C_K g2). pose proof (C_K g3). cbn [Cst Dst plus]. rewrite !Nat.mul_add_distr_l. lia. Qed.
Lemma D_then F g1 g2 : 0 < g1 -> Dst F g1 + most + Cst shallow g2 <= Cst (Datatypes.S F) (g1 + g2).
Proof. intros H. destruct g1; [lia|]. pose proof (C_K g2). cbn [Cst Dst plus]. rewrite Nat.mul_add_distr_l. unfold V at 2. unfold V at 1. lia. Qed.

Definition bounded (n q : nat) (C : nat -> nat) (s : rst) (r : outcome) : Prop :=
  match r with Next s' | Exit s' => ok s' -> n <= q + C (mu s - mu s') | _ => True end.
Lemma went b s s' : ok s' -> ok s -> fine b s (Next s') -> mu s' < mu s \/ same s' s /\ mu s' = mu s /\ b = true.
Proof. intros H' H ([G|(G & Hb)] & _); [left; apply mu_lt; assumption|right; auto]. Qed.
Lemma went_le b s r : ok s -> fine b s r -> match r with Next s' | Exit s' => ok s' -> mu s' <= mu s | _ => True end.
Proof.
  intros H. destruct r as [s'|s'| |]; cbn [fine]; auto; intros G Hs'; [destruct G as ([G|(G & _)] & _)|destruct G as ([G|G] & _)]; try (apply Nat.lt_le_incl, mu_lt; assumption); rewrite (mu_same s' s); auto.
Qed.

Lemma snd_seq r g : snd (cseq r g) = snd r + match fst r with Next s => snd (g s) | _ => 0 end.
Proof. unfold cseq, more. destruct (fst r); cbn; lia. Qed.
Lemma rewound f k p c s : fst (wexec f k p c s) = rexec f k p c s. Proof. apply wexec_is. Qed.
Lemma bounded_more n q C s r : (r <> More -> bounded n q C s r) -> bounded n q C s r.
Proof. intros H. destruct r; try exact I; apply H; discriminate. Qed.
Lemma bounded_zero q C s r : bounded 0 q C s r. Proof. destruct r; cbn; auto; intros; lia. Qed.
Lemma bounded_weaken n n' q q' C C' s r : n' <= n -> q <= q' -> (forall g, C g <= C' g) -> bounded n q C s r -> bounded n' q' C' s r.
Proof. intros Hn Hq HC. destruct r as [s'|s'| |]; cbn; auto; intros H Hs'; specialize (H Hs'); specialize (HC (mu s - mu s')); lia. Qed.
Lemma bounded_from n q C s0 s r : mu s0 = mu s -> bounded n q C s0 r -> bounded n q C s r.
Proof. intros E. unfold bounded. rewrite E. auto. Qed.

Definition claim (f : nat) : Prop := forall F c s k p b, Good c -> Light c -> prec_ok p -> in_univ s -> pass F c (la1 s) = Some b ->
  bounded (snd (wexec f k p c s)) (quiet F c (la1 s)) (Cst F) s (rexec f k p c s).
Definition fresh_claim (f : nat) : Prop := forall c s k p, Good c -> Light c -> prec_ok p -> in_univ s ->
  bounded (snd (wexec f k p c s)) most (Cst shallow) s (rexec f k p c s) /\ (rexec f k p c s <> More -> fine true s (rexec f k p c s)).
Lemma fresh f : claim f -> fresh_claim f.
Proof.
  intros H c s k p Hg Hl Hp Hu. destruct (light_quick c Hl (la1 s) (in_la s)) as ((b & Hb) & Hq). split; [eapply bounded_weaken; [apply Nat.le_refl|exact Hq|reflexivity|]; eapply H; eassumption|].
  intros Hn. eapply fine_weaken; [|eapply run_fine_at; eassumption]. auto.
Qed.
(** A gain, then anything *)
Lemma then_fresh f F q n1 b s r1 k p c :  claim f -> Good c -> Light c -> prec_ok p ->
  bounded n1 q (Cst F) s r1 -> (r1 <> More -> fine b s r1) -> (forall s1, r1 = Next s1 -> ok s1 -> mu s1 < mu s) -> (forall s1, r1 = Next s1 -> ok s1 -> ok s) ->
  bounded (n1 + match r1 with Next s1 => snd (wexec f k p c s1) | _ => 0 end) q (Dst F) s (seq_out r1 (rexec f k p c)).
Proof.
  intros Hf Hg Hl Hp H1 Hfine Hlt Hok. destruct r1 as [s1|s1| |]; cbn [seq_out]; try exact I.
  - assert (Hu : in_univ s1) by (apply Hfine; discriminate). destruct (fresh f Hf c s1 k p Hg Hl Hp Hu) as (H2 & H2'). apply bounded_more. intros Hn. specialize (H2' Hn). pose proof (ok_le f k p c s1) as Hback.
    assert (G : forall s2, ok s2 -> ok s1 -> snd (wexec f k p c s1) <= most + Cst shallow (mu s1 - mu s2) -> mu s2 <= mu s1 -> n1 + snd (wexec f k p c s1) <= q + Dst F (mu s - mu s2)).
    { intros s2 Ho2 Ho1 B2 L2. specialize (H1 Ho1). specialize (Hlt s1 eq_refl Ho1). pose proof (C_two F (mu s - mu s1) (mu s1 - mu s2) ltac:(lia)) as T. replace (mu s - mu s1 + (mu s1 - mu s2)) with (mu s - mu s2) in T by lia. lia. }
    destruct (rexec f k p c s1) as [s2|s2| |] eqn:E; try exact I; intros Ho2; (apply G; [exact Ho2|auto|auto|apply (went_le true s1 _ (Hback Ho2) H2' Ho2)]).
  - intros Ho. specialize (H1 Ho). pose proof (C_D F (mu s - mu s1)). lia.
Qed.

Lemma pass_nil F t : pass F [] t <> Some false. Proof. destruct F; discriminate. Qed.
Lemma max_in l x : In x l -> x <= maxl l.
Proof. induction l as [|y l IH]; intros []; cbn [maxl fold_right]; [subst; lia|]. specialize (IH H). unfold maxl in IH. lia. Qed.
Lemma err_same s : same (set_err None s) s. Proof. apply same_of; reflexivity. Qed.
Lemma main f : claim f.
Proof.
  induction f as [|f IH]; intros F c s k p b Hg Hl Hp Hu Hpass; [exact I|]. destruct c as [|x c]; [apply bounded_zero|]. destruct F as [|F]; [discriminate Hpass|].
  rewrite wexec_cons, rexec_cons, snd_seq. cbn [more fst snd]. rewrite (wstmt_is _ _ _ _ _ f (fun k p c s => rewound f k p c s)).
  destruct (light_cons x c Hl) as (fl & Hlc & Hgx & Hlx). destruct (good_cons P_at x c Hg) as (fg & Hgc & Hx). cbn [RecoveryTable.pass] in Hpass.
  match type of Hpass with match ?m with _ => _ end = _ => destruct m as [bx|] eqn:Ex; [|discriminate Hpass] end.
  (* what is known of the statement *)
  assert (Hf : rstmt f k p x s <> More -> fine bx s (rstmt f k p x s)).
  { intros Hn. destruct bx.
    - destruct (good_pass [x] ltac:(exists 60; exact Hgx) (la1 s) (in_la s)) as (b' & Hb'). eapply fine_weaken; [|eapply stmt_fine_at; try eassumption; exists 60; exact Hgx]. auto.
    - apply (stmt_fine_at f k p x s (Datatypes.S F) false); try assumption; [exists 60; exact Hgx|]. cbn [RecoveryTable.pass]. rewrite Ex. reflexivity. }
  assert (Hq : forall q, (match pass (Datatypes.S F) [x] (la1 s) with Some false => 0 | _ => q end) = if bx then q else 0).
  { intros q. cbn [RecoveryTable.pass]. rewrite Ex. destruct bx; [|reflexivity]. pose proof (pass_nil F (la1 s)). destruct (pass F [] (la1 s)) as [[|]|]; congruence. }
  assert (Hst : exists qx, quiet (Datatypes.S F) (x :: c) (la1 s) = Datatypes.S (qx + if bx then quiet F c (la1 s) else 0) /\ bounded (snd (wstmt f k p x s)) qx (Dst F) s (rstmt f k p x s)).
  { clear Hpass Hf. cbn [WorkTable.quiet]. rewrite Hq. clear Hq. eexists. split; [reflexivity|].
    assert (IH' : forall c b, Good c -> Light c -> pass F c (la1 s) = Some b -> bounded (snd (wexec f k p c s)) (quiet F c (la1 s)) (Dst F) s (rexec f k p c s)).
    { intros c1 b1 G1 L1 P1. eapply bounded_weaken; [apply Nat.le_refl|apply Nat.le_refl|apply C_D|]. eapply IH; eassumption. }
    destruct x as [n t|n c0|n r j|n|c0 b0|c0 b0|c0 b0|cases e|d cases|d e b0 r|n j]; cbv beta iota in Ex, Hx, Hlx; cbn [WorkProof.wstmt RecoveryProof.rstmt]; cbv zeta; try apply bounded_zero.
    - rewrite !andb_true_iff in Hx. destruct Hx as (((Hn & Hj1) & Hj2) & _). destruct (nth_error rule_functions (Z.to_nat r)) as [(start, body)|] eqn:Ef; [|discriminate Ex].
      destruct (fun_good _ _ _ Ef) as (Hs0 & Hgb). pose proof (fun_light _ _ _ Ef) as Hlb. destruct (pass F body (la1 s)) as [bb|] eqn:Eb; [|discriminate Ex]. cbn [more free fst snd]. rewrite Nat.add_0_r.
      set (s0 := set_state start (set_state n s)). assert (Hu0 : in_univ s0) by exact (in_states_univ start (set_state n s) Hs0). assert (Hj : prec_ok j) by (unfold prec_ok; lia).
      pose proof (IH F body s0 ((n, p) :: k) j bb Hgb Hlb Hj Hu0 Eb) as B. pose proof (run_fine_at f ((n, p) :: k) j body s0 F bb Hgb Hj Hu0 Eb) as Fb. pose proof (ok_le f ((n, p) :: k) j body s0) as Ho0.
      assert (E0 : mu s0 = mu s) by (apply mu_set; reflexivity). change (la1 s0) with (la1 s) in B.
      assert (G : forall s1 s2, in_univ s1 -> error_exit S ((n, p) :: k) s1 = Some s2 -> (ok s1 -> mu s1 <= mu s) -> (ok s1 -> snd (wexec f ((n, p) :: k) j body s0) <= quiet F body (la1 s) + Cst F (mu s0 - mu s1)) ->
        bounded (snd (wexec f ((n, p) :: k) j body s0)) (quiet F body (la1 s)) (Dst F) s (Next (if (r =? 50)%Z then s2 else set_state n s2))).
      { intros s1 s2 Hu1 E2 L1 B1 Ho. assert (Ho2 : ok s2) by (destruct (r =? 50)%Z; [exact Ho|apply (ok_same _ s2) in Ho; [exact Ho|reflexivity]]). assert (Ho1 : ok s1) by (eapply ok_leave; eassumption).
        assert (E3 : mu (if (r =? 50)%Z then s2 else set_state n s2) = mu s2) by (destruct (r =? 50)%Z; [reflexivity|apply mu_set; reflexivity]). rewrite E3.
        assert (L2 : mu s2 <= mu s1). { apply error_exit_gains in E2 as ([K0|K0] & _); [apply Nat.lt_le_incl, mu_lt; assumption|rewrite (mu_same s2 s1); auto|exact Hu1]. }
        specialize (B1 Ho1). specialize (L1 Ho1). rewrite E0 in B1. pose proof (C_D F (mu s - mu s1)). pose proof (D_mono F (mu s - mu s1) (mu s - mu s2) ltac:(lia)). lia. }
      destruct (rexec f ((n, p) :: k) j body s0) as [s1|s1| |] eqn:E1; cbn [leave]; try exact I.
      + specialize (Fb ltac:(discriminate)). destruct (error_exit S ((n, p) :: k) s1) as [s2|] eqn:E2; [|exact I]. eapply G; [apply Fb|exact E2| |exact B]. intros Ho1. rewrite <- E0. apply (went_le bb s0 _ (Ho0 Ho1) Fb Ho1).
      + specialize (Fb ltac:(discriminate)). destruct (error_exit S ((n, p) :: k) s1) as [s2|] eqn:E2; [|exact I]. eapply G; [apply Fb|exact E2| |exact B]. intros Ho1. rewrite <- E0. apply (went_le bb s0 _ (Ho0 Ho1) Fb Ho1).
    - destruct (holds c0 (la1 s)); [|apply bounded_zero]. eapply IH'; [exists fg; exact Hx|exists fl; exact Hlx|exact Ex].
    - destruct (holds c0 (la1 s)); [|apply bounded_zero]. destruct (pass F b0 (la1 s)) as [[|]|] eqn:Eb; try discriminate Ex. destruct Hx as (Hgb & Hps). destruct Hlx as (Hlb & Hqs).
      rewrite snd_seq, rewound. apply (then_fresh f F _ _ false); [exact IH|exists 60; exact Hgx|eapply more_one; [exact Hlb|split; [reflexivity|exact Hqs]|exact Hgx]|exact Hp|eapply IH; try eassumption; [exists fg; exact Hgb|exists fl; exact Hlb]| | |].
      + intros Hn. eapply run_fine_at; try eassumption. exists fg. exact Hgb.
      + intros s1 E1 Ho1. pose proof (ok_le f k p b0 s) as Ho. assert (Hfb : fine false s (rexec f k p b0 s)) by (eapply run_fine_at; try eassumption; [exists fg; exact Hgb|rewrite E1; discriminate]). rewrite E1 in Ho, Hfb.
        destruct (went false s s1 Ho1 (Ho Ho1) Hfb) as [G|(_ & _ & G)]; [exact G|discriminate G].
      + intros s1 E1. pose proof (ok_le f k p b0 s) as Ho. rewrite E1 in Ho. exact Ho.
    - destruct Hx as (Hgb & Hps). destruct Hlx as (Hlb & Hqs). destruct (pass F b0 (la1 s)) as [bb|] eqn:Eb; [|discriminate Ex]. rewrite snd_seq, rewound.
      assert (Gb : Good b0) by (exists fg; exact Hgb). assert (Lb : Light b0) by (exists fl; exact Hlb). assert (Ga : Good [Do c0 b0]) by (exists 60; exact Hgx). assert (La : Light [Do c0 b0]) by (eapply more_one; [exact Hlb|split; [reflexivity|exact Hqs]|exact Hgx]).
      pose proof (IH F b0 s k p bb Gb Lb Hp Hu Eb) as B. pose proof (run_fine_at f k p b0 s F bb Gb Hp Hu Eb) as Fb. pose proof (ok_le f k p b0 s) as Ho. destruct (rexec f k p b0 s) as [s1|s1| |]; cbn [seq_out]; try exact I.
      + specialize (Fb ltac:(discriminate)). assert (Hu1 : in_univ s1) by apply Fb. destruct (holds c0 (la1 s1)) eqn:Eh.
        * apply bounded_more. intros Hn. pose proof (ok_le f k p [Do c0 b0] s1) as Hb1. destruct (fresh f IH [Do c0 b0] s1 k p Ga La Hp Hu1) as (H2 & H2'). specialize (H2' Hn).
          assert (G : forall s2, ok s2 -> ok s1 -> mu s2 <= mu s1 -> snd (wexec f k p [Do c0 b0] s1) <= most + Cst shallow (mu s1 - mu s2) -> snd (wexec f k p b0 s) + snd (wexec f k p [Do c0 b0] s1) <= quiet F b0 (la1 s) + Dst F (mu s - mu s2)).
          { intros s2 Ho2 Ho1 L2 B2. specialize (B Ho1). destruct (went bb s s1 Ho1 (Ho Ho1) Fb) as [L1|(Hs & _ & ->)]; [|rewrite (same_la _ _ Hs) in Eh; rewrite Eh in Ex; discriminate Ex].
            pose proof (C_two F (mu s - mu s1) (mu s1 - mu s2) ltac:(lia)) as T. replace (mu s - mu s1 + (mu s1 - mu s2)) with (mu s - mu s2) in T by lia. lia. }
          destruct (rexec f k p [Do c0 b0] s1) as [s2|s2| |] eqn:E2; try exact I; intros Ho2; (apply G; [exact Ho2|auto|apply (went_le true s1 _ (Hb1 Ho2) H2' Ho2)|auto]).
        * cbn [free snd bounded]. intros Ho1. specialize (B Ho1). pose proof (C_D F (mu s - mu s1)). lia.
      + intros Ho1. specialize (B Ho1). pose proof (C_D F (mu s - mu s1)). lia.
    - destruct (case_of (la1 s) cases) as [b0|] eqn:Ec; [|apply bounded_zero]. eapply IH'; [eapply case_good; eassumption|eapply case_light; eassumption|exact Ex].
    - destruct Hx as (Hd & Hx). destruct (P_known d k p (toks s) Hd Hp) as (l & El & Hin). fold (rinput s) in El, Hin. rewrite hd_la in El. rewrite El in Ex |- *. destruct (join_in _ _ _ _ Ex Hin) as (ba & Ea & _).
      destruct (P d k p (rinput s)) as [a|]; [|apply bounded_zero]. destruct (alt_of a cases) as [b0|] eqn:Eal; [|apply bounded_zero].
      apply (bounded_from _ _ _ (set_err None s)); [apply mu_set; reflexivity|]. eapply bounded_weaken; [apply Nat.le_refl| |apply C_D|eapply (IH F b0 (set_err None s)); [eapply alt_good; eassumption|eapply alt_light; eassumption|exact Hp|exact Hu|exact Ea]].
      apply max_in. apply in_map_iff. exists (Some a). rewrite Eal. split; [reflexivity|exact Hin].
    - destruct Hx as (Hd & Hgb & Hgr & Hps). destruct Hlx as (Hlb & Hlr & Hqs). destruct (P_known d k p (toks s) Hd Hp) as (l & El & Hin). fold (rinput s) in El, Hin. rewrite hd_la in El. rewrite El in Ex |- *. destruct (join_in _ _ _ _ Ex Hin) as (ba & Ea & _).
      destruct (P d k p (rinput s)) as [a|]; [|apply bounded_zero]. destruct (a =? e)%Z eqn:Ee; [apply bounded_zero|].
      eapply bounded_weaken with (q := (if (a =? 1)%Z then quiet F b0 (la1 s) else 0) + quiet F r (la1 s)) (n := _) (C := Dst F); [apply Nat.le_refl| |reflexivity|].
      { apply max_in. apply in_map_iff. exists (Some a). rewrite Ee. split; [reflexivity|exact Hin]. }
      apply (bounded_from _ _ _ (set_err None s)); [apply mu_set; reflexivity|]. set (s0 := set_err None s) in *. assert (Hu0 : in_univ s0) by exact Hu. change (la1 s) with (la1 s0) in Ea |- *.
      assert (Gb : Good b0) by (exists fg; exact Hgb). assert (Lb : Light b0) by (exists fl; exact Hlb). assert (Gr : Good r) by (exists fg; exact Hgr). assert (Lr : Light r) by (exists fl; exact Hlr). assert (Ga : Good [Loop d e b0 r]) by (exists 60; exact Hgx). assert (La : Light [Loop d e b0 r]) by (eapply more_one; [exact Hlb|split; [reflexivity|split; [exact Hlr|exact Hqs]]|exact Hgx]).
      clearbody s0. clear Hin El Ex Hu s IH' Hgx Hlb Hlr Hqs Hps Hgb Hgr Ee. rename s0 into s.
      (* from [r] on, with nothing gained before *)
      assert (Gr0 : forall bb s1, bb = false -> in_univ s1 -> pass F r (la1 s1) = Some bb -> bounded (snd (wexec f k p r s1) + match rexec f k p r s1 with Next s2 => snd (wexec f k p [Loop d e b0 r] s2) | _ => 0 end) (quiet F r (la1 s1)) (Dst F) s1 (seq_out (rexec f k p r s1) (rexec f k p [Loop d e b0 r]))).
      { intros bb s1 -> Hu1 Er. apply (then_fresh f F _ _ false); [exact IH|exact Ga|exact La|exact Hp|eapply IH; eassumption| | |].
        - intros Hn. eapply run_fine_at; eassumption.
        - intros s2 E1 Ho1. pose proof (ok_le f k p r s1) as Ho. assert (Hfb : fine false s1 (rexec f k p r s1)) by (eapply run_fine_at; try eassumption; rewrite E1; discriminate). rewrite E1 in Ho, Hfb. destruct (went false s1 s2 Ho1 (Ho Ho1) Hfb) as [G|(_ & _ & G)]; [exact G|discriminate G].
        - intros s2 E1. pose proof (ok_le f k p r s1) as Ho. rewrite E1 in Ho. exact Ho. }
      rewrite snd_seq. destruct (a =? 1)%Z eqn:E1.
      + rewrite rewound. destruct (pass F b0 (la1 s)) as [bb|] eqn:Eb; [|discriminate Ea].
        pose proof (IH F b0 s k p bb Gb Lb Hp Hu0 Eb) as B. pose proof (run_fine_at f k p b0 s F bb Gb Hp Hu0 Eb) as Fb. pose proof (ok_le f k p b0 s) as Ho. destruct (rexec f k p b0 s) as [s1|s1| |]; cbn [seq_out]; try exact I.
        2: { intros Ho1. specialize (B Ho1). pose proof (C_D F (mu s - mu s1)). lia. }
        specialize (Fb ltac:(discriminate)). assert (Hu1 : in_univ s1) by apply Fb. rewrite snd_seq, rewound.
        pose proof (ok_le f k p r s1) as Hor. destruct (fresh f IH r s1 k p Gr Lr Hp Hu1) as (H2 & H2').
        assert (Same : forall s3, ok s3 -> ok s1 -> same s1 s -> mu s1 = mu s -> bb = true -> rexec f k p r s1 <> More -> seq_out (rexec f k p r s1) (rexec f k p [Loop d e b0 r]) = Next s3 \/ seq_out (rexec f k p r s1) (rexec f k p [Loop d e b0 r]) = Exit s3 ->
          snd (wexec f k p b0 s) + (snd (wexec f k p r s1) + match rexec f k p r s1 with Next s2 => snd (wexec f k p [Loop d e b0 r] s2) | _ => 0 end) <= quiet F b0 (la1 s) + quiet F r (la1 s) + Dst F (mu s - mu s3)).
        { intros s3 Ho3 Ho1 Hs Em -> _ Hout. destruct (pass F r (la1 s)) as [[|]|] eqn:Er; try discriminate Ea. specialize (Gr0 false s1 eq_refl Hu1). rewrite (same_la _ _ Hs) in Gr0. specialize (Gr0 Er). specialize (B Ho1). rewrite Em, Nat.sub_diag in B. cbn [Cst] in B.
          unfold bounded in Gr0. rewrite Em in Gr0. destruct Hout as [Hout|Hout]; rewrite Hout in Gr0; specialize (Gr0 Ho3); lia. }
        destruct (rexec f k p r s1) as [s2|s2| |] eqn:E2; cbn [seq_out] in Same |- *; try exact I.
        * specialize (H2' ltac:(discriminate)). assert (Hu2 : in_univ s2) by apply H2'. destruct (fresh f IH [Loop d e b0 r] s2 k p Ga La Hp Hu2) as (H3 & H3'). pose proof (ok_le f k p [Loop d e b0 r] s2) as Hol. apply bounded_more. intros Hn. specialize (H3' Hn).
          assert (G : forall s3, ok s3 -> ok s2 -> mu s3 <= mu s2 -> snd (wexec f k p [Loop d e b0 r] s2) <= most + Cst shallow (mu s2 - mu s3) -> rexec f k p [Loop d e b0 r] s2 = Next s3 \/ rexec f k p [Loop d e b0 r] s2 = Exit s3 ->
            snd (wexec f k p b0 s) + (snd (wexec f k p r s1) + snd (wexec f k p [Loop d e b0 r] s2)) <= quiet F b0 (la1 s) + quiet F r (la1 s) + Dst F (mu s - mu s3)).
          { intros s3 Ho3 Ho2 L3 B3 Eo. pose proof (Hor Ho2) as Ho1. destruct (went bb s s1 Ho1 (Ho Ho1) Fb) as [L1|(Hs & Em & Eb')]; [|apply (Same s3 Ho3 Ho1 Hs Em Eb'); [discriminate|exact Eo]].
            specialize (B Ho1). specialize (H2 Ho2). pose proof (went_le true s1 _ Ho1 H2' Ho2) as L2. cbn beta in L2.
            pose proof (C_three F (mu s - mu s1) (mu s1 - mu s2) (mu s2 - mu s3) ltac:(lia)) as T. replace (mu s - mu s1 + (mu s1 - mu s2) + (mu s2 - mu s3)) with (mu s - mu s3) in T by lia. lia. }
          destruct (rexec f k p [Loop d e b0 r] s2) as [s3|s3| |] eqn:E3; try exact I; intros Ho3; (apply G; [exact Ho3|exact (Hol Ho3)|exact (went_le true s2 _ (Hol Ho3) H3' Ho3)|exact (H3 Ho3)|auto]).
        * intros Ho2. pose proof (Hor Ho2) as Ho1. destruct (went bb s s1 Ho1 (Ho Ho1) Fb) as [L1|(Hs & Em & Eb')]; [|apply (Same s2 Ho2 Ho1 Hs Em Eb'); [discriminate|auto]].
          specialize (B Ho1). specialize (H2 Ho2). specialize (H2' ltac:(discriminate)). pose proof (went_le true s1 _ Ho1 H2' Ho2) as L2. cbn beta in L2.
          pose proof (C_two F (mu s - mu s1) (mu s1 - mu s2) ltac:(lia)) as T. replace (mu s - mu s1 + (mu s1 - mu s2)) with (mu s - mu s2) in T by lia. lia.
      + cbn [free fst snd seq_out plus]. rewrite snd_seq, rewound. destruct (pass F r (la1 s)) as [[|]|] eqn:Er; try discriminate Ea. exact (Gr0 false s eq_refl Hu0 Er). }
  destruct Hst as (qx & -> & Hst). pose proof (ok_stmt f k p x s) as Hok. destruct (rstmt f k p x s) as [s1|s1| |] eqn:Er; cbn [seq_out]; try exact I.
  - specialize (Hf ltac:(discriminate)). pose proof (ok_le f k p c s1) as Hok1. assert (Hu1 : in_univ s1) by apply Hf. assert (Gc : Good c) by (exists fg; exact Hgc). assert (Lc : Light c) by (exists fl; exact Hlc).
    destruct (fresh f IH c s1 k p Gc Lc Hp Hu1) as (H2 & H2').
    assert (G : forall s2, ok s2 -> ok s1 -> rexec f k p c s1 = Next s2 \/ rexec f k p c s1 = Exit s2 -> 1 + snd (wstmt f k p x s) + snd (wexec f k p c s1) <= Datatypes.S (qx + (if bx then quiet F c (la1 s) else 0)) + Cst (Datatypes.S F) (mu s - mu s2)).
    { intros s2 Ho2 Ho1 E2. assert (L2 : mu s2 <= mu s1). { assert (Hn : rexec f k p c s1 <> More) by (destruct E2 as [->| ->]; discriminate). specialize (H2' Hn). pose proof (went_le true s1 _ Ho1 H2') as W. destruct E2 as [E2|E2]; rewrite E2 in W; exact (W Ho2). }
      specialize (Hst Ho1). destruct (went bx s s1 Ho1 (Hok Ho1) Hf) as [L1|(Hs & Em & ->)].
      - assert (B2 : snd (wexec f k p c s1) <= most + Cst shallow (mu s1 - mu s2)) by (destruct E2 as [E2|E2]; rewrite E2 in H2; exact (H2 Ho2)).
        pose proof (D_then F (mu s - mu s1) (mu s1 - mu s2) ltac:(lia)) as T. replace (mu s - mu s1 + (mu s1 - mu s2)) with (mu s - mu s2) in T by lia. lia.
      - pose proof (IH F c s1 k p b Gc Lc Hp Hu1) as B. rewrite (same_la _ _ Hs) in B. specialize (B Hpass). rewrite Em in Hst. rewrite Nat.sub_diag in Hst. cbn [Dst] in Hst.
        assert (B2 : snd (wexec f k p c s1) <= quiet F c (la1 s) + Cst F (mu s1 - mu s2)) by (destruct E2 as [E2|E2]; rewrite E2 in B; exact (B Ho2)). rewrite Em in B2. pose proof (C_S F (mu s - mu s2)). lia. }
    destruct (rexec f k p c s1) as [s2|s2| |] eqn:E2; try exact I; intros Ho2; apply G; auto.
  - intros Ho1. specialize (Hst Ho1). pose proof (D_S F (mu s - mu s1)). cbn [bounded]. lia.
Qed.
End Bound.
