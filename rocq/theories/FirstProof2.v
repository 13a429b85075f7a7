(** The failing run: what it has matched can be continued to a program, and with the token it fails at it cannot. *)
From Coq Require Import ZArith NArith Lia Bool.
From Verif Require Import Str Tokens Grammar Tree AtnData Atn AtnParser AtnParserTable AtnParserProof GoParser ParserCode PredictSpec GoParserTable GoParserProof Predict PredictTable PredictProof
  Recovery RecoveryTable RecoveryProof RecoveryCheck RecoveryProof2 RecoveryProof3 FirstTable FirstRun FirstProof.
Local Open Scope Z_scope.
Local Notation A := parser_atn.
Local Notation tr := (tr A).
Local Notation nrm := (nrm A).
Local Notation completes := (completes A).
Local Notation walk := (walk A).
Local Notation nrule q := (n_rule (node_at A q)).
Local Notation chk := (chk A firsts follows).
Local Notation P := adaptive_predict.
Local Notation pexec := (pexec A rule_functions adaptive_predict predict_at).
Local Notation pstmt := (pstmt A rule_functions adaptive_predict predict_at).
Local Opaque parser_atn decision_state firsts follows heights takes rule_functions adaptive_predict predict_at.

(** *** Which states come next *)
Lemma opened_0 k r : opened k r -> r = 0 -> k = [].
Proof. intros H E. destruct H as [|k n p s r to j Et H]; [reflexivity|]. destruct (call_facts _ _ _ _ _ Et) as (_ & _ & _ & _ & H0 & _). congruence. Qed.
Lemma rule_119 : nrule 119 = 0.
Proof. destruct tr_118 as (E & E0 & _). pose proof (rule_next 118 (TSet false [(-1, -1)] 119)) as G. rewrite E in G. specialize (G ltac:(left; reflexivity)). cbn [same_rule] in G. apply Z.eqb_eq in G. congruence. Qed.
Lemma not_119 k p : opened k (nrule 119) -> ~ live k p 119.
Proof.
  intros Ho (w & _ & C). rewrite rule_119 in Ho. apply opened_0 in Ho; [|reflexivity]. subst k. destruct tr_118 as (_ & _ & _ & H7 & _). apply (one _ _ _ _ _ tr_119) in C. cbn [goes_on] in C.
  apply completes_def in C as (u1 & u2 & stop & E & W & _ & Ha). apply (walk_stop A firsts follows tables_closed) in W as (-> & ->); [|exact H7]. destruct Ha as (_ & ->). cbn in E. destruct w; discriminate E.
Qed.
Lemma to_live k p q : opened k (nrule q) -> alive (nrm q) = true -> live k p (nrm q).
Proof. intros Ho Ha. apply alive_live; [rewrite rule_nrm; exact Ho|exact Ha]. Qed.
Lemma eps_rule q a : In (TEps a) (tr q) -> nrule a = nrule q.
Proof. intros H. apply rule_next in H. cbn [same_rule] in H. apply Z.eqb_eq in H. exact H. Qed.
Lemma eps_live k p q a : In (TEps a) (tr q) -> opened k (nrule q) -> live k p q -> q <> 451 -> (q = 453 -> a <> 451) -> live k p (nrm a).
Proof.
  intros Hin Ho Hl H1 H3. apply to_live; [rewrite (eps_rule _ _ Hin); exact Ho|]. pose proof (next_alive _ _ Hin) as G. cbn [step_alive] in G. rewrite !orb_true_iff, !andb_true_iff, !Z.eqb_eq in G.
  destruct G as [[[(G & _)|G]|(G & G')]|G]; [exact G|congruence|destruct (H3 G G')|]. subst q. destruct (not_119 k p Ho Hl).
Qed.
Lemma parted q a e c : tr q = [TEps a; TEps e] -> all_ahead A firsts follows a (holds c) = true -> all_ahead A firsts follows e (fun t => negb (holds c t)) = true -> q <> 451 /\ q <> 453.
Proof.
  intros Et Ha He. split; intros ->.
  - pose proof operators_many as G. rewrite Et in G. discriminate G.
  - rewrite tr_453 in Et. injection Et as <- <-. pose proof both_ok as G. unfold both in G. apply existsb_exists in G as (t & Ht & G). apply andb_true_iff in G as (G1 & G2). unfold all_ahead in *. rewrite forallb_forall in Ha, He.
    specialize (Ha t Ht). specialize (He t Ht). rewrite G1 in Ha. rewrite G2 in He. cbn in Ha, He. rewrite Ha in He. discriminate He.
Qed.
Lemma pla_tokens l : In (pla l) tokens. Proof. apply in_tokens. unfold pla, kind_of. destruct l as [|x l]; [lia|]. pose proof (kind_range (ty x)). lia. Qed.
Lemma pla_word l : pla l <> -1 -> exists x l', l = x :: l' /\ pla l = kind_of x /\ tl l = l' /\ word (kind_of x).
Proof. intros H. destruct l as [|x l]; [cbn in H; congruence|]. exists x, l. repeat split; pose proof (kind_range (ty x)); unfold kind_of; lia. Qed.
Lemma set_live k p q l to x : In (TSet false l to) (tr q) -> in_ranges l x = true -> word x -> opened k (nrule q) -> live k p (nrm to).
Proof.
  intros Hin Hx Hw Ho. pose proof (rule_next _ _ Hin) as G. cbn [same_rule] in G. apply Z.eqb_eq in G. apply to_live; [rewrite G; exact Ho|]. pose proof (next_alive _ _ Hin) as K. cbn [step_alive] in K.
  rewrite orb_true_iff, andb_true_iff, negb_true_iff in K. destruct K as [(K & _)|K]; [exact K|]. assert (K' : existsb (in_ranges l) words = true) by (apply existsb_exists; exists x; split; [apply in_words; exact Hw|exact Hx]). congruence.
Qed.

(** *** Where a failing run stands *)
Definition Naming (b : bool) (c : list code) : Prop := exists f, naming f b c = true.
Lemma naming_cons b x c : Naming b (x :: c) -> Naming false c /\ match x with
  | Match n _ | MatchSet n _ => names_well n = true /\ one_set n = true
  | Sync n => names_well n = true \/ b = true /\ n = 451
  | If _ b | For _ b | Do _ b => Naming false b
  | Switch cases _ => forall t b, case_of t cases = Some b -> Naming false b
  | Choose _ cases => forall a b, alt_of a cases = Some b -> Naming false b
  | Loop d _ b r => Naming (d =? 31) b /\ Naming false r
  | _ => True
  end.
Proof.
  intros (f & H). destruct f as [|f]; [discriminate H|]. cbn [naming] in H. apply andb_true_iff in H as (H & Hc). split; [exists f; exact Hc|].
  destruct x as [n t|n c0|n r j|n|c0 b0|c0 b0|c0 b0|cases e|d cases|d e b0 r|n j]; try exact I; try (exists f; exact H).
  - apply andb_true_iff. exact H.
  - apply andb_true_iff. exact H.
  - rewrite orb_true_iff, andb_true_iff, Z.eqb_eq in H. exact H.
  - intros t b0. revert H. clear Hc. induction cases as [|(ts, b1) l IH]; cbn; [discriminate|]. rewrite andb_true_iff. intros (H & Hl). destruct (zmem t ts); [intros E; injection E as ->; exists f; exact H|auto].
  - intros a b0. revert H. clear Hc. induction cases as [|(i, b1) l IH]; cbn; [discriminate|]. rewrite andb_true_iff. intros (H & Hl). destruct (a =? i); [intros E; injection E as ->; exists f; exact H|auto].
  - apply andb_true_iff in H as (H1 & H2). split; eexists; eassumption.
Qed.
Lemma naming_again b x c : match x with For _ _ | Do _ _ | Loop _ _ _ _ => True | _ => False end -> Naming b (x :: c) -> Naming false [x].
Proof.
  intros Hx (f & H). destruct f as [|f]; [discriminate H|]. exists (S f). cbn [naming] in *. apply andb_true_iff in H as (H & Hc).
  assert (Hn : naming f false [] = true) by (destruct f; [discriminate Hc|reflexivity]). rewrite Hn, andb_true_r.
  destruct x; try (exfalso; exact Hx); exact H.
Qed.
Lemma naming_fun r start body : nth_error rule_functions (Z.to_nat r) = Some (start, body) -> Naming false body.
Proof. intros H. exists 40%nat. pose proof all_naming as G. rewrite forallb_forall in G. apply (G (start, body)). eapply nth_error_In. exact H. Qed.
Lemma awaited_451 t : In t tokens -> op_level t <> None -> sync_ok A 451 t = true.
Proof. intros Ht Ho. pose proof operators_awaited as G. rewrite forallb_forall in G. specialize (G t Ht). destruct (op_level t); [exact G|congruence]. Qed.
(** In front of the tokens [r], [u] has been matched from [q] in [k]: what goes on from the state of the failure, goes on from [q]. *)
Fixpoint levels (k : stack) (p : Z) : Prop :=
  match k with [] => p = 0 | (n, p') :: k' => (exists s r to, tr n = [TRule s r to p]) /\ levels k' p' end.
Definition within (k : stack) (p : Z) : Prop := 0 <= p <= 11 /\ levels k p.
Definition refuses (m la : Z) : bool := match tr m with [TSet _ s _] => negb (in_ranges s la) | _ => false end.
Definition back (k : stack) (p q : Z) (u : list tok) (k' : stack) (p' m : Z) : Prop := opened k' (nrule m) /\ within k' p' /\ forall ts, completes k' p' (nrm m) ts -> completes k p q (kinds u ++ ts).
Definition stuck (k : stack) (p q : Z) (u r : list tok) (w : why) : Prop :=
  match w with
  | AtToken k' p' m la => la = pla r /\ names_well m = true /\ (one_set m = true /\ refuses m la = true) /\ back k p q u k' p' m
  | AtSet k' p' m la => la = pla r /\ names_well m = true /\ (one_set m = true /\ refuses m la = true) /\ back k p q u k' p' m
  | AtSync k' p' m la => la = pla r /\ names_well m = true /\ sync_ok A m la = false /\ back k p q u k' p' m
  | NoAlternative n => (length r <= n <= S (length r))%nat
  | Denied => False
  end.
Lemma stuck_map k p q k1 p1 q1 u u1 r w : (forall ts, completes k p q (kinds u ++ ts) -> completes k1 p1 q1 (kinds u1 ++ ts)) -> stuck k p q u r w -> stuck k1 p1 q1 u1 r w.
Proof. intros H. destruct w; cbn; try tauto; unfold back; intros (E & Hn & Hs & Ho & Hp & G); repeat (split; [assumption|]); intros ts Hts; apply H, G, Hts. Qed.
Lemma back_here k p m q : nrm m = q -> opened k (nrule q) -> within k p -> back k p q [] k p m.
Proof. intros <- Ho Hp. split; [rewrite rule_nrm in Ho; exact Ho|]. split; [exact Hp|]. intros ts H. exact H. Qed.
Lemma set_refused m q s to la b : nrm m = q -> one_set m = true -> tr q = [TSet false s to] -> Bool.eqb (in_ranges s la) b = true -> b = false -> refuses m la = true.
Proof.
  intros Hq Ho Et Hb ->. unfold one_set in Ho. destruct (tr m) as [|[?|[|] s' to'|? ? ? ?|? ? ?|? ?] [|]] eqn:Em; try discriminate Ho.
  assert (E : nrm m = m) by (unfold GoParserTable.nrm; cbn [nrm_fuel]; rewrite Em; reflexivity). rewrite <- Hq, E, Em in Et. injection Et as -> ->. unfold refuses. rewrite Em. apply eqb_prop in Hb. rewrite Hb. reflexivity.
Qed.

(** *** What has been matched can be continued *)
Definition good (k : stack) (p q q' : Z) (l : list tok) (r : pres) : Prop :=
  match r with
  | PDone l' => exists u, l = u ++ l' /\ live k p q' /\ nrule q' = nrule q /\ forall ts, completes k p q' ts -> completes k p q (kinds u ++ ts)
  | PFail n y => exists u r w, l = u ++ r /\ length r = n /\ Forall word w /\ completes k p q (kinds u ++ w ++ [-1]) /\ stuck k p q u r y
  | PMore => True
  end.
Lemma good_then k p q m q' l r g : good k p q m l r -> (forall l', live k p m -> nrule m = nrule q -> good k p m q' l' (g l')) -> good k p q q' l (pthen r g).
Proof.
  intros H Hg. destruct r as [l1|n y|]; cbn [pthen]; [|exact H|exact I]. destruct H as (u & -> & Hl & Hr & H). specialize (Hg l1 Hl Hr). destruct (g l1) as [l2|n y|]; [| |exact I].
  - destruct Hg as (u2 & -> & Hl2 & Hr2 & H2). exists (u ++ u2). split; [apply app_assoc|]. split; [exact Hl2|]. split; [congruence|]. intros ts Hts. rewrite kinds_app, <- app_assoc. apply H, H2, Hts.
  - destruct Hg as (u2 & r & w & -> & Hn & Hw & H2 & Hk). exists (u ++ u2), r, w. split; [apply app_assoc|]. split; [exact Hn|]. split; [exact Hw|]. split; [rewrite kinds_app, <- app_assoc; apply H, H2|].
    eapply stuck_map; [|exact Hk]. intros ts Hts. rewrite kinds_app, <- app_assoc. apply H, Hts.
Qed.
Lemma good_back k p q q0 q' l r : nrule q0 = nrule q -> (forall ts, completes k p q0 ts -> completes k p q ts) -> good k p q0 q' l r -> good k p q q' l r.
Proof.
  intros Hr Hb H. destruct r as [l1|n y|]; [| |exact I].
  - destruct H as (u & E & Hl & Hr1 & H). exists u. split; [exact E|]. split; [exact Hl|]. split; [congruence|]. intros ts Hts. apply Hb, H, Hts.
  - destruct H as (u & r & w & E & Hn & Hw & H & Hk). exists u, r, w. split; [exact E|]. split; [exact Hn|]. split; [exact Hw|]. split; [apply Hb, H|]. eapply stuck_map; [|exact Hk]. intros ts Hts. apply Hb, Hts.
Qed.
Lemma good_eps k p q a q' l r : In (TEps a) (tr q) -> good k p (nrm a) q' l r -> good k p q q' l r.
Proof.
  intros Hin. apply good_back; [rewrite rule_nrm; apply eps_rule; exact Hin|]. intros ts H. apply (completes_step _ _ _ _ _ Hin). apply completes_from_nrm. exact H.
Qed.
Lemma good_stay k p q l : live k p q -> good k p q q l (PDone l). Proof. intros H. exists []. split; [reflexivity|]. split; [exact H|]. split; [reflexivity|]. intros ts Hts. exact Hts. Qed.
Lemma good_fail k p q q' l y : live k p q -> stuck k p q [] l y -> good k p q q' l (PFail (length l) y).
Proof. intros (w & Hw & C) Hk. exists [], l, w. split; [reflexivity|]. split; [reflexivity|]. split; [exact Hw|]. split; [exact C|exact Hk]. Qed.
Lemma good_none k p d q' l : In d asked -> 0 <= p <= 11 -> opened k (nrule (decision_state d)) -> live k p (decision_state d) -> P d k p (kinds l ++ [-1]) = None ->
  good k p (decision_state d) q' l (PFail (length l - predict_at d p (kinds l ++ [-1])) (NoAlternative (length l))).
Proof.
  intros Hd Hp Ho Hl HP. destruct (no_answer d k p l Hd Hp Ho HP) as [E|(x & l' & -> & E & (w & Hw & C))]; rewrite E.
  - rewrite Nat.sub_0_r. apply good_fail; [exact Hl|cbn; lia].
  - exists [x], l', w. split; [reflexivity|]. split; [cbn; lia|]. split; [exact Hw|]. split; [exact C|cbn; lia].
Qed.
Lemma good_set k p q l s to : tr q = [TSet false s to] -> pla l <> -1 -> in_ranges s (pla l) = true -> opened k (nrule q) -> good k p q (nrm to) l (PDone (tl l)).
Proof.
  intros Et Hne Hx Ho. apply pla_word in Hne as (x & l' & -> & Ex & -> & Hw). rewrite Ex in Hx. assert (Hin : In (TSet false s to) (tr q)) by (rewrite Et; left; reflexivity). exists [x]. split; [reflexivity|].
  split; [eapply set_live; eassumption|]. split; [rewrite rule_nrm; pose proof (rule_next _ _ Hin) as G; cbn [same_rule] in G; apply Z.eqb_eq in G; exact G|].
  intros ts Hts. apply (completes_step _ _ _ _ _ Hin). split; [reflexivity|]. exists (kind_of x), ts. split; [reflexivity|]. split; [exact Hx|]. apply completes_from_nrm. exact Hts.
Qed.
Lemma start_known q s r to j : tr q = [TRule s r to j] -> s = start_of A r.
Proof.
  intros Et. assert (Hin : In (TRule s r to j) (n_trans (node_at A q))) by (unfold GoParserTable.tr in Et; rewrite Et; left; reflexivity).
  apply (trans_ok_at A parser_ok) in Hin. cbn [trans_ok] in Hin. rewrite !andb_true_iff, Z.eqb_eq in Hin. tauto.
Qed.
Lemma fun_known r start body : nth_error rule_functions (Z.to_nat r) = Some (start, body) -> 0 < r -> exists qs, chk 40 None body (nrm (start_of A r)) = Some qs /\ n_type (node_at A qs) = 7 /\ nrule qs = r.
Proof.
  intros Ef Hr. pose proof (checked_funs _ _ Ef ltac:(lia)) as Hok. unfold fun_ok in Hok. cbn [fst snd] in Hok. rewrite Z2Nat.id in Hok by lia. apply andb_true_iff in Hok as (_ & Hok).
  destruct (GoParserTable.chk A firsts follows 40 None body (nrm (start_of A r))) as [qs|] eqn:Eq; [|discriminate Hok]. rewrite andb_true_iff, !Z.eqb_eq in Hok. exists qs. tauto.
Qed.
Lemma answer_op k p l : 0 <= p <= 11 -> P 31 k p (kinds l ++ [-1]) = Some 1 -> sync_ok A 451 (pla l) = true.
Proof.
  intros Hp HP. apply awaited_451; [apply pla_tokens|]. pose proof level_high_ok as G. unfold level_high in G. rewrite forallb_forall in G. specialize (G p (in_precs p Hp)). apply andb_true_iff in G as (G1 & _).
  destruct (starts 31 p) as [cs|] eqn:Es; [|discriminate G1]. rewrite forallb_forall in G1. specialize (G1 _ (pla_tokens l)).
  assert (Ei : kinds l ++ [-1] = pla l :: tl (kinds l ++ [-1])) by (destruct l; reflexivity). rewrite Ei in HP.
  destruct (astep 31 p cs (pla l)) as [x|] eqn:Ex; [|discriminate G1]. rewrite (predict_one _ _ _ _ _ _ _ Es Ex) in HP. destruct x as [i| |]; try discriminate HP. injection HP as ->.
  destruct (op_level (pla l)); [discriminate|discriminate G1].
Qed.
Theorem matched_continues : forall f g sy k p b c l q q', Naming b c -> (b = true -> sync_ok A 451 (pla l) = true) -> chk g sy c q = Some q' -> (forall n, sy = Some n -> sync_ok A n (pla l) = true) -> within k p -> opened k (nrule q) -> live k p q ->
  good k p q q' l (pexec f k p c l).
Proof.
  induction f as [|f IH]; intros g sy k p b' c l q q' Ny Hb' Hc Hsy Hp Ho Hl; [exact I|].
  destruct g as [|g]; [discriminate Hc|]. destruct c as [|x c']; [cbn [GoParserTable.chk] in Hc; injection Hc as <-; apply good_stay; exact Hl|]. rewrite pexec_cons. cbn [GoParserTable.chk] in Hc.
  pose proof (naming_cons _ _ _ Ny) as (Ny' & Nx).
  assert (NX : forall (b : bool) (m : Z) r, (if b then chk g None c' m else None) = Some q' -> b = true /\ (good k p q m l r -> good k p q q' l (pthen r (pexec f k p c')))).
  { intros b m r E. destruct b; [|discriminate E]. split; [reflexivity|]. intros Hm. eapply good_then; [exact Hm|]. intros l' Hlm Hrm. eapply IH; [exact Ny'|discriminate|exact E|discriminate|exact Hp|rewrite Hrm; exact Ho|exact Hlm]. }
  destruct x as [n t|n c|n r j|n|c b|c b|c b|cases err|d cases|d e b r|n j]; cbn [FirstRun.pstmt].
  - (* Match *) destruct (tr q) as [|[?|[|] s to|? ? ? ?|? ? ?|? ?] [|]] eqn:Et; try discriminate Hc. eapply NX in Hc as (Hb & Hm). apply Hm. clear Hm.
    rewrite !andb_true_iff, Z.eqb_eq, Z.leb_le, forallb_forall in Hb. destruct Hb as ((Hq & Ht) & Hs). destruct (Z.eqb_spec (pla l) t) as [El|El]; [|apply good_fail; [exact Hl|split; [reflexivity|]; split; [tauto|]; split; [split; [tauto|]; eapply (set_refused _ _ _ _ _ (pla l =? t)); [exact Hq|tauto|exact Et|apply Hs, pla_tokens|apply Z.eqb_neq; exact El]|apply back_here; assumption]]].
    apply (good_set _ _ _ _ s); [exact Et|lia| |exact Ho]. specialize (Hs _ (pla_tokens l)). rewrite El, Z.eqb_refl in Hs. rewrite El. apply eqb_prop. exact Hs.
  - (* MatchSet *) destruct (tr q) as [|[?|[|] s to|? ? ? ?|? ? ?|? ?] [|]] eqn:Et; try discriminate Hc. eapply NX in Hc as (Hb & Hm). apply Hm. clear Hm.
    rewrite !andb_true_iff, negb_true_iff, forallb_forall in Hb. destruct Hb as ((Hq & Ht) & Hs). rewrite Z.eqb_eq in Hq. destruct (holds c (pla l)) eqn:El; [|apply good_fail; [exact Hl|split; [reflexivity|]; split; [tauto|]; split; [split; [tauto|]; eapply (set_refused _ _ _ _ _ (holds c (pla l))); [exact Hq|tauto|exact Et|apply Hs, pla_tokens|exact El]|apply back_here; assumption]]].
    apply (good_set _ _ _ _ s); [exact Et|congruence| |exact Ho]. specialize (Hs _ (pla_tokens l)). rewrite El in Hs. apply eqb_prop. exact Hs.
  - (* Call *) destruct (tr q) as [|[?|? ? ?|st r' to k'|? ? ?|? ?] [|]] eqn:Et; try discriminate Hc. eapply NX in Hc as (Hb & Hm). apply Hm. clear Hm.
    rewrite !andb_true_iff, !Z.eqb_eq, !Z.ltb_lt, !Z.leb_le in Hb. destruct Hb as ((((((-> & <-) & <-) & Hr0) & Hr) & Hj0) & Hj1).
    destruct (call_facts _ _ _ _ _ Et) as (Hs1 & Hs2 & Ht1 & Ht2 & _ & Hrs & Hrt). pose proof (start_known _ _ _ _ _ Et) as Est.
    destruct (nth_error rule_functions (Z.to_nat r)) as [(en, body)|] eqn:Ef; [|exfalso; apply nth_error_None in Ef; assert (El : length rule_functions = 51%nat) by (vm_compute; reflexivity); lia].
    destruct (fun_known _ _ _ Ef Hr0) as (qs & Eq & H7 & Hrq). rewrite <- Est in Eq.
    assert (Ho' : opened ((q, p) :: k) (nrule (nrm st))) by (rewrite rule_nrm, Hrs; econstructor; [exact Et|exact Ho]).
    assert (Hv : within ((q, p) :: k) j) by (split; [lia|]; split; [eauto|exact (proj2 Hp)]).
    pose proof (IH 40%nat None ((q, p) :: k) j false body l _ _ (naming_fun _ _ _ Ef) ltac:(discriminate) Eq ltac:(discriminate) Hv Ho' (alive_live _ _ _ Ho' Hs2)) as G.
    destruct (pexec f ((q, p) :: k) j body l) as [l1|m y|]; [| |exact I].
    + destruct G as (u & E & _ & _ & G). exists u. split; [exact E|]. split; [apply to_live; [rewrite Hrt; exact Ho|exact Ht2]|]. split; [rewrite rule_nrm; exact Hrt|]. intros ts Hts.
      eapply call_in; [exact Et|exact Hrs|]. apply completes_from_nrm. apply G. eapply call_out; [exact Et|exact H7|exact Hrq|]. apply completes_from_nrm. exact Hts.
    + destruct G as (u & r0 & w & E & Hn & Hw & G & Hk). exists u, r0, w. split; [exact E|]. split; [exact Hn|]. split; [exact Hw|]. split; [eapply call_in; [exact Et|exact Hrs|]; apply completes_from_nrm; exact G|].
      eapply stuck_map; [|exact Hk]. intros ts Hts. eapply call_in; [exact Et|exact Hrs|]. apply completes_from_nrm. exact Hts.
  - (* Sync *) destruct ((nrm n =? q) && all_ahead A firsts follows q (sync_ok A n)) eqn:Eb; [|discriminate Hc].
    apply andb_true_iff in Eb as (Eb & _). apply Z.eqb_eq in Eb.
    destruct (sync_ok A n (pla l)) eqn:Es; [|destruct Nx as [Nx|(Hx & ->)]; [apply good_fail; [exact Hl|split; [reflexivity|]; split; [exact Nx|]; split; [exact Es|]; apply back_here; assumption]|rewrite (Hb' Hx) in Es; discriminate Es]].
    cbn [pthen]. eapply IH; [exact Ny'|discriminate|exact Hc| |exact Hp|exact Ho|exact Hl]. intros n' En. injection En as <-. exact Es.
  - (* If *) destruct (tr q) as [|[a|? ? ?|? ? ? ?|? ? ?|? ?] [|[e|? ? ?|? ? ? ?|? ? ?|? ?] [|]]] eqn:Et; try discriminate Hc. eapply NX in Hc as (Hb & Hm). apply Hm. clear Hm.
    rewrite !andb_true_iff in Hb. destruct Hb as ((Hb & Ha) & He). apply option_eqb_true in Hb. destruct (parted _ _ _ _ Et Ha He) as (N1 & N3).
    assert (I1 : In (TEps a) (tr q)) by (rewrite Et; left; reflexivity). assert (I2 : In (TEps e) (tr q)) by (rewrite Et; right; left; reflexivity).
    destruct (holds c (pla l)).
    + apply (good_eps _ _ _ _ _ _ _ I1). eapply IH; [exact Nx|discriminate|exact Hb|discriminate|exact Hp|rewrite rule_nrm, (eps_rule _ _ I1); exact Ho|]. eapply eps_live; [exact I1|exact Ho|exact Hl|exact N1|congruence].
    + apply (good_eps _ _ _ _ _ _ _ I2). apply good_stay. eapply eps_live; [exact I2|exact Ho|exact Hl|exact N1|congruence].
  - (* For *) destruct (tr q) as [|[a|? ? ?|? ? ? ?|? ? ?|? ?] [|[e|? ? ?|? ? ? ?|? ? ?|? ?] [|]]] eqn:Et; try discriminate Hc. eapply NX in Hc as (Hb & Hm). apply Hm. clear Hm. pose proof Hb as Hb0.
    rewrite !andb_true_iff in Hb. destruct Hb as ((Hb & Ha) & He). apply option_eqb_true in Hb. destruct (parted _ _ _ _ Et Ha He) as (N1 & N3).
    assert (I1 : In (TEps a) (tr q)) by (rewrite Et; left; reflexivity). assert (I2 : In (TEps e) (tr q)) by (rewrite Et; right; left; reflexivity).
    destruct (holds c (pla l)).
    + apply (good_then _ _ _ q).
      * apply (good_eps _ _ _ _ _ _ _ I1). eapply IH; [exact Nx|discriminate|exact Hb|discriminate|exact Hp|rewrite rule_nrm, (eps_rule _ _ I1); exact Ho|]. eapply eps_live; [exact I1|exact Ho|exact Hl|exact N1|congruence].
      * intros l' _ _. eapply (IH (S g) None _ _ false [For c b]); [eapply naming_again; [exact I|exact Ny]|discriminate| |discriminate|exact Hp|exact Ho|exact Hl]. cbn [GoParserTable.chk]. rewrite Et, Hb0. destruct g; [discriminate Hb|reflexivity].
    + apply (good_eps _ _ _ _ _ _ _ I2). apply good_stay. eapply eps_live; [exact I2|exact Ho|exact Hl|exact N1|congruence].
  - (* Do *) destruct (chk g None b q) as [h|] eqn:Eh; [|discriminate Hc].
    destruct (tr h) as [|[a|? ? ?|? ? ? ?|? ? ?|? ?] [|[e|? ? ?|? ? ? ?|? ? ?|? ?] [|]]] eqn:Et; try discriminate Hc. eapply NX in Hc as (Hb & Hm). apply Hm. clear Hm.
    pose proof Hb as Hb0. rewrite !andb_true_iff, Z.eqb_eq in Hb. destruct Hb as ((Ha & Ha') & He). destruct (parted _ _ _ _ Et Ha' He) as (N1 & N3).
    assert (I1 : In (TEps a) (tr h)) by (rewrite Et; left; reflexivity). assert (I2 : In (TEps e) (tr h)) by (rewrite Et; right; left; reflexivity).
    eapply good_then; [eapply IH; [exact Nx|discriminate|exact Eh|discriminate|exact Hp|exact Ho|exact Hl]|]. intros l2 Hl2 Hr2. rewrite <- Hr2 in Ho.
    destruct (holds c (pla l2)).
    + apply (good_eps _ _ _ _ _ _ _ I1). rewrite Ha. eapply (IH (S g) None _ _ false [Do c b]); [eapply naming_again; [exact I|exact Ny]|discriminate| |discriminate|exact Hp|rewrite <- Hr2; exact Ho|exact Hl].
      cbn [GoParserTable.chk]. rewrite Eh, Et, Hb0. destruct g; [discriminate Eh|reflexivity].
    + apply (good_eps _ _ _ _ _ _ _ I2). apply good_stay. eapply eps_live; [exact I2|exact Ho|exact Hl2|exact N1|congruence].
  - (* Switch *) destruct (sw A firsts follows (chk g None) (tr q) cases) as [q1|] eqn:Esw; [|discriminate Hc]. eapply NX in Hc as (Hb & Hm). apply Hm. clear Hm. apply andb_true_iff in Hb as (Hz & Hb). apply negb_true_iff in Hz.
    destruct (case_of (pla l) cases) as [b|] eqn:Ec.
    + destruct (sw_case A firsts follows _ _ _ _ _ _ Esw Ec) as (a & Hin & Hck). apply (good_eps _ _ _ _ _ _ _ Hin). eapply IH; [exact (Nx _ _ Ec)|discriminate|exact Hck|discriminate|exact Hp|rewrite rule_nrm, (eps_rule _ _ Hin); exact Ho|].
      cbn [zmem existsb] in Hz. rewrite !orb_false_iff, !Z.eqb_neq in Hz. eapply eps_live; [exact Hin|exact Ho|exact Hl|tauto|tauto].
    + destruct err; [apply good_fail; [exact Hl|cbn; lia]|]. cbn [orb] in Hb. destruct sy as [n|]; [|discriminate Hb]. rewrite forallb_forall in Hb. specialize (Hb _ (pla_tokens l)).
      rewrite (Hsy n eq_refl), Ec in Hb. discriminate Hb.
  - (* Choose *) destruct (ch A (chk g None) 1 (tr q) cases) as [q1|] eqn:Ech; [|discriminate Hc]. eapply NX in Hc as (Hb & Hm). apply Hm. clear Hm.
    rewrite andb_true_iff, Z.eqb_eq, zmem_in in Hb. destruct Hb as (Hb & Hd). subst q. destruct (P d k p (kinds l ++ [-1])) as [a|] eqn:Ep; [|apply good_none; [assumption|exact (proj1 Hp)|assumption..]].
    destruct (alternative_of _ _ _ _ _ Hd Ep) as (to & Hn & Ha). apply nth_error_In in Hn as Hin. pose proof (answer_live _ _ _ _ _ _ Hd (proj1 Hp) Ho Ep Hn) as Hlt.
    assert (Hlen : (Z.to_nat (a - 1) < length (tr (decision_state d)))%nat) by (apply nth_error_Some; unfold alternatives in Hn; unfold GoParserTable.tr; rewrite Hn; discriminate).
    destruct (ch_total A _ _ _ _ _ Ech a ltac:(lia)) as (to' & b & Hn' & Hab & Hck). unfold alternatives in Hn. unfold GoParserTable.tr in Hn'. rewrite Hn in Hn'. injection Hn' as <-. rewrite Hab.
    apply (good_eps _ _ _ _ _ _ _ Hin). eapply IH; [exact (Nx _ _ Hab)|discriminate|exact Hck|discriminate|exact Hp|rewrite rule_nrm, (eps_rule _ _ Hin); exact Ho|]. destruct Hlt as (w & Hw & C). exists w. split; [exact Hw|]. apply to_nrm. exact C.
  - (* Loop *) destruct (tr q) as [|[a|? ? ?|? ? ? ?|? ? ?|? ?] [|[x|? ? ?|? ? ? ?|? ? ?|? ?] [|]]] eqn:Et; try discriminate Hc. eapply NX in Hc as (Hb & Hm). apply Hm. clear Hm.
    pose proof Hb as Hb0. rewrite !andb_true_iff, !Z.eqb_eq, zmem_in in Hb. destruct Hb as (((Hd & Hk) & ->) & Hb). subst q.
    destruct (P d k p (kinds l ++ [-1])) as [i|] eqn:Ep; [|apply good_none; [assumption|exact (proj1 Hp)|assumption..]].
    destruct (alternative_of _ _ _ _ _ Hk Ep) as (to & Hn & Hi). apply nth_error_In in Hn as Hin. pose proof (answer_live _ _ _ _ _ _ Hk (proj1 Hp) Ho Ep Hn) as Hlt. destruct Hlt as (w & Hw & C). apply to_nrm in C.
    unfold alternatives in Hn. fold (tr (decision_state d)) in Hn. rewrite Et in Hn.
    destruct (Z.eqb_spec i 2) as [->|Hi2].
    + cbn in Hn. injection Hn as <-. apply (good_eps _ _ _ _ _ _ _ Hin). apply good_stay. exists w. auto.
    + assert (i = 1).
      { destruct (Z.to_nat (i - 1)) as [|[|m]] eqn:Em; [lia|lia|]. cbn in Hn. destruct m; discriminate Hn. }
      subst i. cbn in Hn. injection Hn as <-. cbn [Z.eqb Pos.eqb]. destruct (chk g None b (nrm a)) as [h|] eqn:Eh; [|discriminate Hb]. apply option_eqb_true in Hb.
      assert (Hop : (d =? 31) = true -> sync_ok A 451 (pla l) = true) by (intros Hd; apply Z.eqb_eq in Hd; subst d; eapply answer_op; [exact (proj1 Hp)|eassumption]).
      apply (good_eps _ _ _ _ _ _ _ Hin). eapply good_then; [eapply IH; [exact (proj1 Nx)|exact Hop|exact Eh|discriminate|exact Hp|rewrite rule_nrm, (eps_rule _ _ Hin); exact Ho|exists w; auto]|]. intros l2 Hl2 Hr2.
      rewrite rule_nrm, (eps_rule _ _ Hin) in Hr2. eapply good_then; [eapply IH; [exact (proj2 Nx)|discriminate|exact Hb|discriminate|exact Hp|rewrite Hr2; exact Ho|exact Hl2]|]. intros l3 Hl3 Hr3.
      eapply (IH (S g) None _ _ false [Loop d 2 b r]); [eapply naming_again; [exact I|exact Ny]|discriminate| |discriminate|exact Hp|exact Ho|exact Hl3]. cbn [GoParserTable.chk]. rewrite Et, Eh, Hb0. destruct g; [discriminate Eh|reflexivity].
  - (* Prec *) destruct (tr q) as [|[?|? ? ?|? ? ? ?|? ? ?|k' to] [|]] eqn:Et; try discriminate Hc. eapply NX in Hc as (Hb & Hm). apply Hm. clear Hm.
    rewrite !andb_true_iff, !Z.eqb_eq in Hb. destruct Hb as ((_ & <-) & Hr). assert (Hin : In (TPrec j to) (tr q)) by (rewrite Et; left; reflexivity).
    pose proof Hl as (w & Hw & C). apply (one _ _ _ _ _ Et) in C as (Hj & C). replace (j >=? p) with true by (symmetry; apply Z.geb_le; lia).
    exists []. split; [reflexivity|]. pose proof (rule_next _ _ Hin) as Hrn. cbn [same_rule] in Hrn. apply Z.eqb_eq in Hrn. pose proof (next_alive _ _ Hin) as Ha. cbn [step_alive] in Ha. apply andb_true_iff in Ha as (Ha & _).
    split; [apply to_live; [rewrite Hrn; exact Ho|exact Ha]|]. split; [rewrite rule_nrm; exact Hrn|]. intros ts Hts. apply (completes_step _ _ _ _ _ Hin). split; [exact Hj|]. apply completes_from_nrm. exact Hts.
Qed.
