(** The rule functions follow the ATN: what they build, that they do not refuse what can be completed, that they end. *)
From Coq Require Import ZArith NArith Lia Bool.
From Verif Require Import Str Grammar Tree Atn AtnParser AtnParserTable AtnParserProof AtnTree AtnTreeProof GoParser ParserCode PredictSpec GoParserTable.
Local Open Scope Z_scope.

Lemma kind_range x : 1 <= Z.of_nat (tt_num x) <= 84. Proof. destruct x; cbn; lia. Qed.
Lemma la_tokens s : In (la s) tokens.
Proof. apply in_tokens. unfold la. destruct (rest s) as [|x l]; [lia|]. pose proof (kind_range (ty x)). lia. Qed.
Lemma option_eqb_true a b : option_eqb a (Some b) = true -> a = Some b.
Proof. destruct a; cbn; [intros H; apply Z.eqb_eq in H; congruence|discriminate]. Qed.

Section Sound.
Variable A : atn.
Variables (F W : list N).
Variable funs : list (Z * list code).
Variable P : predictor.
Notation tr := (tr A).
Notation nrm := (nrm A).
Notation chk := (chk A F W).
Notation exec := (exec A funs P).

Lemma builds_app p q acc ts q' acc' : builds A p q acc ts q' acc' -> forall ts2 q2 acc2, builds A p q' acc' ts2 q2 acc2 -> builds A p q acc (ts ++ ts2) q2 acc2.
Proof.
  induction 1; intros ts3 q3 acc3 HH; cbn [app]; [exact HH|eapply bu_eps; eauto|eapply bu_action; eauto|eapply bu_token; eauto|eapply bu_prec; eauto|].
  rewrite <- app_assoc. eapply bu_rule; eauto.
Qed.
Lemma nrm_builds p q acc : builds A p q acc [] (nrm q) acc.
Proof.
  unfold GoParserTable.nrm. generalize 20%nat. intros f. revert q. induction f as [|f IH]; intros q; cbn [nrm_fuel]; [constructor|].
  assert (G : forall t, tr q = [t] -> In t (n_trans (node_at A q))) by (intros t E; unfold GoParserTable.tr in E; rewrite E; left; reflexivity).
  destruct (tr q) as [|[to|neg l to|s r to k|r a to|k to] [|]]; try constructor.
  - eapply bu_eps; [apply G; reflexivity|apply IH].
  - eapply bu_action; [apply G; reflexivity|apply IH].
Qed.
Lemma builds_nrm p q acc ts q' acc' : builds A p q acc ts q' acc' -> builds A p q acc ts (nrm q') acc'.
Proof. intros H. rewrite <- (app_nil_r ts). eapply builds_app; [exact H|apply nrm_builds]. Qed.
Lemma nrm_from p q acc ts q' acc' : builds A p (nrm q) acc ts q' acc' -> builds A p q acc ts q' acc'.
Proof. intros H. change ts with ([] ++ ts). eapply builds_app; [apply nrm_builds|exact H]. Qed.

(** The functions other than rule 0's pass the check. *)
Hypothesis funs_ok : forall i f, nth_error funs i = Some f -> (0 < i)%nat -> fun_ok A F W (Z.of_nat i) f = true.
Hypothesis A_ok : atn_ok A = true.
Hypothesis answers : answers_alternatives A P.

Definition moved (p q : Z) (s : pst) (q' : Z) (s' : pst) : Prop :=
  exists u, rest s = u ++ rest s' /\ builds A p q (kids s) (map Some u) q' (kids s').
Lemma moved_refl p q s : moved p q s q s. Proof. exists []. split; [reflexivity|constructor]. Qed.
Lemma moved_trans p q s q1 s1 q2 s2 : moved p q s q1 s1 -> moved p q1 s1 q2 s2 -> moved p q s q2 s2.
Proof. intros (u & Hu & Hb) (v & Hv & Hc). exists (u ++ v). rewrite Hu, Hv, app_assoc, map_app. split; [reflexivity|]. eapply builds_app; eassumption. Qed.
Lemma moved_eps p q s to q' s' : In (TEps to) (tr q) -> moved p (nrm to) s q' s' -> moved p q s q' s'.
Proof. intros Hin (u & Hu & Hb). exists u. split; [exact Hu|]. eapply bu_eps; [exact Hin|]. apply nrm_from. exact Hb. Qed.
Lemma moved_exit p q s to : In (TEps to) (tr q) -> moved p q s (nrm to) s.
Proof. intros Hin. eapply moved_eps; [exact Hin|apply moved_refl]. Qed.

Lemma sw_case ck cases : forall alts q' t b, sw A F W ck alts cases = Some q' -> case_of t cases = Some b -> exists a, In (TEps a) alts /\ ck b (nrm a) = Some q'.
Proof.
  induction cases as [|(ts, b0) cases IH]; intros alts q' t b; [discriminate|]. cbn [case_of].
  destruct alts as [|[a|? ? ?|? ? ? ?|? ? ?|? ?] alts]; cbn [sw]; try discriminate.
  destruct (_ && _); [|discriminate]. destruct (ck b0 (nrm a)) as [q1|] eqn:E; [|discriminate].
  intros H Hc. assert (Hq : q1 = q') by (destruct alts, cases; try destruct (option_eqb _ _); congruence). subst q1.
  destruct (zmem t ts).
  - injection Hc as <-. exists a. split; [left; reflexivity|exact E].
  - destruct alts as [|a2 alts].
    { destruct cases; [discriminate Hc|]. cbn in H. discriminate. }
    cbv zeta in H. match type of H with (if ?b then _ else _) = _ => destruct b eqn:Eo end; [|discriminate]. apply option_eqb_true in Eo.
    destruct (IH _ _ _ _ Eo Hc) as (a' & Hin & Hck). exists a'. split; [right; exact Hin|exact Hck].
Qed.
Lemma ch_case ck cases : forall i alts q' t b, ch A ck i alts cases = Some q' -> alt_of t cases = Some b -> exists a, In (TEps a) alts /\ ck b (nrm a) = Some q'.
Proof.
  induction cases as [|(j, b0) cases IH]; intros i alts q' t b; [discriminate|]. cbn [alt_of].
  destruct alts as [|[a|? ? ?|? ? ? ?|? ? ?|? ?] alts]; cbn [ch]; try discriminate.
  destruct (i =? j); [|discriminate]. destruct (ck b0 (nrm a)) as [q1|] eqn:E; [|discriminate].
  intros H Hc. assert (Hq : q1 = q') by (destruct alts, cases; try destruct (option_eqb _ _); congruence). subst q1.
  destruct (t =? j).
  - injection Hc as <-. exists a. split; [left; reflexivity|exact E].
  - destruct alts as [|a2 alts].
    { destruct cases; [discriminate Hc|]. cbn in H. discriminate. }
    match type of H with (if ?b then _ else _) = _ => destruct b eqn:Eo end; [|discriminate]. apply option_eqb_true in Eo.
    destruct (IH _ _ _ _ _ Eo Hc) as (a' & Hin & Hck). exists a'. split; [right; exact Hin|exact Hck].
Qed.
(** Alternatives are numbered from 1. *)
Lemma ch_total ck cases : forall i alts q', ch A ck i alts cases = Some q' ->
  forall a, i <= a < i + Z.of_nat (length alts) -> exists to b, nth_error alts (Z.to_nat (a - i)) = Some (TEps to) /\ alt_of a cases = Some b /\ ck b (nrm to) = Some q'.
Proof.
  induction cases as [|(j, b0) cases IH]; intros i alts q'.
  { destruct alts as [|[] ?]; discriminate. }
  destruct alts as [|[a0|? ? ?|? ? ? ?|? ? ?|? ?] alts]; cbn [ch]; try discriminate.
  destruct (i =? j) eqn:Ej; [|discriminate]. apply Z.eqb_eq in Ej. subst j. destruct (ck b0 (nrm a0)) as [q1|] eqn:E; [|discriminate].
  intros H a Ha. assert (Hq : q1 = q') by (destruct alts, cases; try destruct (option_eqb _ _); congruence). subst q1.
  cbn [alt_of]. destruct (Z.eq_dec a i) as [->|Hne].
  - rewrite Z.eqb_refl, Z.sub_diag. exists a0, b0. auto.
  - replace (a =? i) with false by (symmetry; apply Z.eqb_neq; exact Hne). cbn [length] in Ha.
    replace (Z.to_nat (a - i)) with (S (Z.to_nat (a - (i + 1)))) by lia. cbn [nth_error].
    apply (IH (i + 1) alts q'); [|lia]. destruct alts as [|a2 alts]; [cbn [length] in Ha; lia|].
    cbv zeta in H. match type of H with (if ?b then _ else _) = _ => destruct b eqn:Eo end; [|discriminate]. apply option_eqb_true in Eo. exact Eo.
Qed.

Lemma one_in q t : tr q = [t] -> In t (n_trans (node_at A q)). Proof. unfold GoParserTable.tr. intros ->. left. reflexivity. Qed.

Lemma andthen_done r k s : andthen r k = Done s -> exists s1, r = Done s1 /\ k s1 = Done s.
Proof. destruct r; cbn; [eauto|discriminate|discriminate]. Qed.
Lemma token_moved p q s l to t x : tr q = [TSet false l to] -> rest s = x :: t -> in_ranges l (Z.of_nat (tt_num (ty x))) = true -> moved p q s (nrm to) (consume s).
Proof.
  intros E Er Hx. exists [x]. unfold consume. rewrite Er. cbn [rest kids map app]. split; [reflexivity|]. apply builds_nrm.
  eapply bu_token; [apply one_in; exact E|exact Hx|constructor].
Qed.

Lemma exec_sound f : forall g sy k p c s q q' s', chk g sy c q = Some q' -> (forall n, sy = Some n -> sync_ok A n (la s) = true) ->
  exec f k p c s = Done s' -> moved p q s q' s'.
Proof.
  induction f as [|f IH]; intros g sy k p c s q q' s' Hc Hsy H; [discriminate|].
  destruct g as [|g]; [discriminate Hc|]. destruct c as [|x c']; cbn [GoParserTable.chk GoParser.exec] in Hc, H.
  { injection Hc as <-. injection H as <-. apply moved_refl. }
  apply andthen_done in H as (s1 & H1 & H2).
  assert (NX : forall (b : bool) (m : Z), (if b then chk g None c' m else None) = Some q' -> b = true /\ (moved p q s m s1 -> moved p q s q' s')).
  { intros b m E. destruct b; [|discriminate]. split; [reflexivity|]. intros Hm. eapply moved_trans; [exact Hm|]. eapply IH; [exact E|discriminate|exact H2]. }
  destruct x as [n t|n c|n r j|n|c b|c b|c b|cases err|d cases|d e b r|n j].
  - (* Match *) destruct (tr q) as [|[?|[|] l to|? ? ? ?|? ? ?|? ?] [|]] eqn:Et; try discriminate. apply (NX _ _) in Hc as (Hb & Hm). apply Hm. clear Hm.
    rewrite !andb_true_iff, Z.eqb_eq, Z.leb_le, forallb_forall in Hb. destruct Hb as ((Hn & Ht) & Hl).
    destruct (Z.eqb_spec (la s) t) as [El|]; [|discriminate]. injection H1 as <-.
    unfold la in El. destruct (rest s) as [|y ys] eqn:Er; [subst t; lia|].
    eapply token_moved; [exact Et|exact Er|]. rewrite El. specialize (Hl t). rewrite Z.eqb_refl in Hl. apply eqb_prop, Hl.
    rewrite <- El. apply in_tokens. pose proof (kind_range (ty y)). lia.
  - (* MatchSet *) destruct (tr q) as [|[?|[|] l to|? ? ? ?|? ? ?|? ?] [|]] eqn:Et; try discriminate. apply (NX _ _) in Hc as (Hb & Hm). apply Hm. clear Hm.
    rewrite !andb_true_iff, negb_true_iff, forallb_forall in Hb. destruct Hb as ((Hn & Ht) & Hl).
    destruct (holds c (la s)) eqn:Eh; [|discriminate]. injection H1 as <-. specialize (Hl _ (la_tokens s)). rewrite Eh in Hl. apply eqb_prop in Hl.
    unfold la in Hl, Eh. destruct (rest s) as [|y ys] eqn:Er; [congruence|]. eapply token_moved; eassumption.
  - (* Call *) destruct (tr q) as [|[?|? ? ?|st r' to k'|? ? ?|? ?] [|]] eqn:Et; try discriminate. apply (NX _ _) in Hc as (Hb & Hm). apply Hm. clear Hm.
    rewrite !andb_true_iff, !Z.eqb_eq, !Z.ltb_lt, !Z.leb_le in Hb. destruct Hb as ((((((Hn & <-) & <-) & Hr0) & Hr) & _) & _).
    destruct (nth_error funs (Z.to_nat r)) as [(en, body)|] eqn:Ef; [|discriminate]. apply andthen_done in H1 as (s2 & H1 & H3). injection H3 as <-.
    pose proof (funs_ok _ _ Ef ltac:(lia)) as Hok. unfold fun_ok in Hok. cbn [fst snd] in Hok. rewrite Z2Nat.id in Hok by lia. apply andb_true_iff in Hok as (_ & Hok).
    destruct (GoParserTable.chk A F W 40 None body (nrm (start_of A r))) as [qs|] eqn:Eq; [|discriminate]. rewrite andb_true_iff, !Z.eqb_eq in Hok. destruct Hok as (Hty & Hru).
    destruct (IH _ _ _ _ _ _ _ _ _ Eq ltac:(discriminate) H1) as (u & Hu & Hb). cbn [rest kids] in Hu, Hb.
    exists u. cbn [rest kids]. split; [exact Hu|]. rewrite <- (app_nil_r (map Some u)). eapply bu_rule; [apply one_in; exact Et| |exact Hty|exact Hru|apply nrm_builds].
    pose proof (one_in _ _ Et) as Hin. apply nrm_from in Hb.
    apply (trans_ok_at A A_ok) in Hin. cbn [trans_ok] in Hin. rewrite !andb_true_iff, Z.eqb_eq in Hin. destruct Hin as ((((-> & _) & _) & _) & _). exact Hb.
  - (* Sync *) destruct ((nrm n =? q) && all_ahead A F W q (sync_ok A n)) eqn:Eb; [|discriminate].
    destruct (sync_ok A n (la s)) eqn:Es; [|discriminate]. injection H1 as <-. eapply IH; [exact Hc| |exact H2]. intros n' En. injection En as <-. exact Es.
  - (* If *) destruct (tr q) as [|[a|? ? ?|? ? ? ?|? ? ?|? ?] [|[e|? ? ?|? ? ? ?|? ? ?|? ?] [|]]] eqn:Et; try discriminate. apply (NX _ _) in Hc as (Hb & Hm). apply Hm. clear Hm.
    rewrite !andb_true_iff in Hb. destruct Hb as ((Hb & _) & _). apply option_eqb_true in Hb.
    destruct (holds c (la s)).
    + eapply moved_eps; [rewrite Et; left; reflexivity|]. eapply IH; [exact Hb|discriminate|exact H1].
    + injection H1 as <-. apply moved_exit. rewrite Et. right; left; reflexivity.
  - (* For *) destruct (tr q) as [|[a|? ? ?|? ? ? ?|? ? ?|? ?] [|[e|? ? ?|? ? ? ?|? ? ?|? ?] [|]]] eqn:Et; try discriminate. apply (NX _ _) in Hc as (Hb & Hm). apply Hm. clear Hm.
    pose proof Hb as Hb0. rewrite !andb_true_iff in Hb. destruct Hb as ((Hb & _) & _). apply option_eqb_true in Hb.
    destruct (holds c (la s)).
    + apply andthen_done in H1 as (s2 & H1 & H3). apply (moved_trans _ _ _ q s2).
      * eapply moved_eps; [rewrite Et; left; reflexivity|]. eapply IH; [exact Hb|discriminate|exact H1].
      * eapply (IH (S g) None _ _ [For c b]); [|discriminate|exact H3]. cbn [GoParserTable.chk]. rewrite Et, Hb0.
        destruct g; [discriminate Hb|reflexivity].
    + injection H1 as <-. apply moved_exit. rewrite Et. right; left; reflexivity.
  - (* Do *) destruct (chk g None b q) as [h|] eqn:Eh; [|discriminate].
    destruct (tr h) as [|[a|? ? ?|? ? ? ?|? ? ?|? ?] [|[e|? ? ?|? ? ? ?|? ? ?|? ?] [|]]] eqn:Et; try discriminate. apply (NX _ _) in Hc as (Hb & Hm). apply Hm. clear Hm.
    pose proof Hb as Hb0. rewrite !andb_true_iff, Z.eqb_eq in Hb. destruct Hb as ((Ha & _) & _).
    apply andthen_done in H1 as (s2 & H1 & H3). apply (moved_trans _ _ _ h s2).
    { eapply IH; [exact Eh|discriminate|exact H1]. }
    destruct (holds c (la s2)).
    + eapply moved_eps; [rewrite Et; left; reflexivity|]. rewrite Ha.
      eapply (IH (S g) None _ _ [Do c b]); [|discriminate|exact H3]. cbn [GoParserTable.chk]. rewrite Eh, Et, Hb0.
      destruct g; [discriminate Eh|reflexivity].
    + injection H3 as <-. apply moved_exit. rewrite Et. right; left; reflexivity.
  - (* Switch *) destruct (sw A F W (chk g None) (tr q) cases) as [q1|] eqn:Esw; [|discriminate]. apply (NX _ _) in Hc as (Hb & Hm). apply Hm. clear Hm.
    destruct (case_of (la s) cases) as [b|] eqn:Ec.
    + destruct (sw_case _ _ _ _ _ _ Esw Ec) as (a & Hin & Hck). eapply moved_eps; [exact Hin|]. eapply IH; [exact Hck|discriminate|exact H1].
    + destruct err; [discriminate|]. apply andb_true_iff in Hb as (_ & Hb). cbn [orb] in Hb. destruct sy as [n|]; [|discriminate]. rewrite forallb_forall in Hb. specialize (Hb _ (la_tokens s)).
      rewrite (Hsy n eq_refl), Ec in Hb. discriminate.
  - (* Choose *) destruct (ch A (chk g None) 1 (tr q) cases) as [q1|] eqn:Ech; [|discriminate]. apply (NX _ _) in Hc as (Hb & Hm). apply Hm. clear Hm.
    rewrite andb_true_iff, Z.eqb_eq in Hb. destruct Hb as (Hb & _). destruct (P d k p (input_of s)) as [a|] eqn:Ep; [|discriminate].
    apply answers in Ep. unfold alternatives in Ep. rewrite Hb in Ep.
    destruct (ch_total _ _ _ _ _ Ech a ltac:(unfold GoParserTable.tr; lia)) as (to & b & Hn & Ha & Hck). rewrite Ha in H1.
    apply nth_error_In in Hn. eapply moved_eps; [exact Hn|]. eapply IH; [exact Hck|discriminate|exact H1].
  - (* Loop *) destruct (tr q) as [|[a|? ? ?|? ? ? ?|? ? ?|? ?] [|[x|? ? ?|? ? ? ?|? ? ?|? ?] [|]]] eqn:Et; try discriminate. apply (NX _ _) in Hc as (Hb & Hm). apply Hm. clear Hm.
    pose proof Hb as Hb0. rewrite !andb_true_iff, !Z.eqb_eq in Hb. destruct Hb as (((Hd & _) & ->) & Hb).
    destruct (P d k p (input_of s)) as [i|] eqn:Ep; [|discriminate].
    apply answers in Ep. unfold alternatives in Ep. rewrite Hd in Ep. fold (tr q) in Ep. rewrite Et in Ep. cbn in Ep.
    destruct (Z.eqb_spec i 2) as [->|Hi].
    + injection H1 as <-. apply moved_exit. rewrite Et. right; left; reflexivity.
    + replace (i =? 1) with true in H1 by (symmetry; apply Z.eqb_eq; lia).
      apply andthen_done in H1 as (s2 & H1 & H3). apply andthen_done in H3 as (s3 & H3 & H4).
      destruct (chk g None b (nrm a)) as [h|] eqn:Eh; [|discriminate]. apply option_eqb_true in Hb.
      apply (moved_trans _ _ _ q s3).
      * eapply moved_eps; [rewrite Et; left; reflexivity|]. apply (moved_trans _ _ _ h s2); [eapply IH; [exact Eh|discriminate|exact H1]|eapply IH; [exact Hb|discriminate|exact H3]].
      * eapply (IH (S g) None _ _ [Loop d 2 b r]); [|discriminate|exact H4]. cbn [GoParserTable.chk]. rewrite Et, Eh, Hb0.
        destruct g; [discriminate Eh|reflexivity].
  - (* Prec *) destruct (tr q) as [|[?|? ? ?|? ? ? ?|? ? ?|k' to] [|]] eqn:Et; try discriminate. apply (NX _ _) in Hc as (Hb & Hm). apply Hm. clear Hm.
    rewrite !andb_true_iff, !Z.eqb_eq in Hb. destruct Hb as ((_ & <-) & Hr).
    destruct (Z.geb_spec j p) as [Hj|]; [|discriminate]. injection H1 as <-. exists []. cbn [rest kids]. split; [reflexivity|].
    eapply bu_prec; [apply one_in; exact Et|lia|]. rewrite Hr. apply nrm_builds.
Qed.
End Sound.

(** *** FIRST and FOLLOW *)
Section Complete.
Variable A : atn.
Variables (F W : list N).
Variable funs : list (Z * list code).
Variable P : predictor.
Notation tr := (tr A).
Notation nrm := (nrm A).
Notation chk := (chk A F W).
Notation exec := (exec A funs P).
Hypothesis A_ok : atn_ok A = true.
Hypothesis closed : forallb (node_closed A F W) (seq 0 (length (a_nodes A))) = true.

Lemma at_node q : (exists t, In t (tr q)) \/ n_type (node_at A q) = 7 ->
  sub (first_step F (node_at A q)) (first F q) = true /\
  (forall t, In t (tr q) -> same_rule A (node_at A q) t = true /\ match t with TRule s r _ _ => sub (follow_of F W (node_at A q) r) (follow W r) = true /\ n_rule (node_at A s) = r | _ => True end) /\
  (n_type (node_at A q) = 7 -> tr q = []).
Proof.
  intros H. assert (Hin : In (Z.to_nat q) (seq 0 (length (a_nodes A)))).
  { apply in_seq. split; [lia|]. destruct (Nat.lt_ge_cases (Z.to_nat q) (length (a_nodes A))) as [Hl|Hl]; [lia|]. exfalso.
    unfold GoParserTable.tr, node_at in H. rewrite nth_overflow in H by exact Hl. cbn in H. destruct H as [(t & [])|H]; discriminate. }
  pose proof closed as G. rewrite forallb_forall in G. specialize (G _ Hin). unfold node_closed in G.
  assert (E : node_at A (Z.of_nat (Z.to_nat q)) = node_at A q) by (unfold node_at; rewrite Nat2Z.id; reflexivity).
  assert (E' : first F (Z.of_nat (Z.to_nat q)) = first F q) by (unfold first; rewrite Nat2Z.id; reflexivity).
  rewrite E, E', !andb_true_iff, !forallb_forall in G. destruct G as (((G1 & G2) & G3) & G4). split; [exact G1|]. split.
  - intros t Ht. split; [apply G2; exact Ht|]. specialize (G3 t Ht). destruct t; try exact I. rewrite andb_true_iff, Z.eqb_eq in G3. exact G3.
  - intros E7. rewrite E7 in G4. cbn in G4. unfold GoParserTable.tr. destruct (n_trans (node_at A q)); [reflexivity|discriminate].
Qed.
Lemma stop_no_trans q : n_type (node_at A q) = 7 -> tr q = []. Proof. intros H. apply at_node; [right; exact H|exact H]. Qed.

Lemma sub_bit a b i : sub a b = true -> N.testbit a i = true -> N.testbit b i = true.
Proof. unfold sub. rewrite N.eqb_eq. intros <- H. rewrite N.lor_spec, H. reflexivity. Qed.
Definition shows (m : N) (ts : list Z) : Prop := match ts with [] => may_end m = true | t :: _ => N.testbit m (bit t) = true /\ In t tokens end.
Lemma shows_sub a b ts : sub a b = true -> shows a ts -> shows b ts.
Proof. intros H. destruct ts; cbn; unfold may_end; [apply sub_bit; exact H|]. intros (G & Ht). split; [|exact Ht]. eapply sub_bit; eassumption. Qed.
Lemma sub_fold (f : trans -> N) l m t : In t l -> sub (f t) (fold_right (fun t m => N.lor (f t) m) m l) = true.
Proof.
  induction l as [|x l IH]; intros H; [destruct H|]. cbn [fold_right]. unfold sub. rewrite N.eqb_eq. destruct H as [->|H].
  - rewrite N.lor_assoc, N.lor_diag. reflexivity.
  - specialize (IH H). unfold sub in IH. rewrite N.eqb_eq in IH. rewrite (N.lor_comm (f x)), N.lor_assoc, IH. reflexivity.
Qed.
Lemma sub_trans a b c : sub a b = true -> sub b c = true -> sub a c = true.
Proof. unfold sub. rewrite !N.eqb_eq. intros <- <-. rewrite !N.lor_assoc, N.lor_diag. reflexivity. Qed.
Lemma first_trans q t : In t (tr q) -> sub (first_of F t) (first F q) = true.
Proof.
  intros H. destruct (at_node q ltac:(left; eauto)) as (G & _). eapply sub_trans; [|exact G]. unfold first_step. apply sub_fold. exact H.
Qed.
Lemma bit_inj a b : In a tokens -> In b tokens -> bit a = bit b -> a = b.
Proof. rewrite !in_tokens. unfold bit. lia. Qed.
Lemma set_bits_spec l t : In t tokens -> in_ranges l t = true -> N.testbit (set_bits l) (bit t) = true.
Proof.
  unfold set_bits. intros Hin Hl. induction tokens as [|x ts IH]; [destruct Hin|]. cbn [fold_right]. destruct Hin as [->|Hin].
  - rewrite Hl. apply N.setbit_eq.
  - destruct (in_ranges l x); [|exact (IH Hin)]. rewrite N.setbit_eqb, (IH Hin), orb_true_r. reflexivity.
Qed.
Lemma range_tokens q l to t : In (TSet false l to) (n_trans (node_at A q)) -> in_ranges l t = true -> In t tokens.
Proof.
  intros H Ht. apply (trans_ok_at A A_ok) in H. cbn [trans_ok] in H. rewrite andb_true_iff, forallb_forall in H. destruct H as (_ & H).
  unfold in_ranges in Ht. apply existsb_exists in Ht as (r & Hr & Ht). specialize (H r Hr). rewrite andb_true_iff, !Z.leb_le in *. apply in_tokens. lia.
Qed.
Lemma bit_100 t : In t tokens -> bit t <> 100%N. Proof. rewrite in_tokens. unfold bit. lia. Qed.
Lemma no_end_bit m t : In t tokens -> N.testbit (no_end m) (bit t) = N.testbit m (bit t).
Proof. intros H. unfold no_end. rewrite N.clearbit_eqb. replace (100 =? bit t)%N with false by (symmetry; apply N.eqb_neq; intros E; apply (bit_100 t H); congruence). apply andb_true_r. Qed.

Lemma walk_first p q ts q' : walk A p q ts q' -> n_type (node_at A q') = 7 -> shows (first F q) ts.
Proof.
  induction 1 as [p q|p q to ts q' Hin H IH|p q r a to ts q' Hin H IH|p q l to t ts q' Hin Ht H IH|p q k to ts q' Hin Hk H IH
    |p q start r to k ts1 stop ts2 q' Hin H1 IH1 Hs1 Hs2 H2 IH2]; intros H7.
  - cbn. destruct (at_node q ltac:(right; exact H7)) as (G & _ & E). eapply sub_bit; [exact G|]. unfold first_step. specialize (E H7). unfold GoParserTable.tr in E. rewrite E, H7.
    reflexivity.
  - eapply shows_sub; [apply (first_trans q (TEps to) Hin)|exact (IH H7)].
  - eapply shows_sub; [apply (first_trans q (TAction r a to) Hin)|exact (IH H7)].
  - assert (Hk : In t tokens) by (eapply range_tokens; eassumption). split; [|exact Hk].
    eapply sub_bit; [apply (first_trans q _ Hin)|]. cbn [first_of]. apply set_bits_spec; assumption.
  - eapply shows_sub; [apply (first_trans q (TPrec k to) Hin)|exact (IH H7)].
  - specialize (IH1 Hs1). specialize (IH2 H7). eapply shows_sub; [apply (first_trans q _ Hin)|]. cbn [first_of].
    destruct ts1 as [|t ts1]; cbn [app shows] in *.
    + rewrite IH1. destruct ts2 as [|t ts2]; cbn [shows] in *; unfold may_end in *; rewrite N.lor_spec.
      * rewrite IH2. apply orb_true_r.
      * destruct IH2 as (I1 & I2). rewrite I1, orb_true_r. auto.
    + destruct IH1 as (I1 & I2). rewrite N.lor_spec, no_end_bit, I1 by exact I2. auto.
Qed.
Lemma walk_rule p q ts q' : walk A p q ts q' -> n_rule (node_at A q') = n_rule (node_at A q).
Proof.
  assert (G : forall q t, In t (n_trans (node_at A q)) -> same_rule A (node_at A q) t = true).
  { intros q0 t Ht. destruct (at_node q0 ltac:(left; exists t; exact Ht)) as (_ & G & _). apply G. exact Ht. }
  induction 1 as [p q|p q to ts q' Hin H IH|p q r a to ts q' Hin H IH|p q l to t ts q' Hin Ht H IH|p q k to ts q' Hin Hk H IH
    |p q start r to k ts1 stop ts2 q' Hin H1 IH1 Hs1 Hs2 H2 IH2]; [reflexivity|..]; apply G in Hin; cbn [same_rule] in Hin; rewrite Z.eqb_eq in Hin; congruence.
Qed.

(** *** Steps of completions *)
Definition after (k : stack) (stop : Z) (ts2 : list Z) : Prop :=
  match k with
  | [] => n_rule (node_at A stop) = 0 /\ ts2 = []
  | (n, p') :: k' => exists start to j, n_trans (node_at A n) = [TRule start (n_rule (node_at A stop)) to j] /\ completes A k' p' to ts2
  end.
Lemma completes_def k p q ts : completes A k p q ts <-> exists ts1 ts2 stop, ts = ts1 ++ ts2 /\ walk A p q ts1 stop /\ n_type (node_at A stop) = 7 /\ after k stop ts2.
Proof. destruct k as [|(n, p') k]; reflexivity. Qed.

Lemma completes_ahead k : forall p q t ts, completes A k p q (t :: ts) -> N.testbit (ahead A F W q) (bit t) = true /\ In t tokens.
Proof.
  induction k as [|(n, p') k IH]; intros p q t ts H; apply completes_def in H as (ts1 & ts2 & stop & E & Hw & H7 & Ha); cbn [after] in Ha.
  - destruct Ha as (_ & ->). rewrite app_nil_r in E. subst ts1. apply walk_first in Hw as (Hb & Ht); [|exact H7]. unfold ahead. rewrite N.lor_spec, Hb. auto.
  - destruct Ha as (st & to & j & En & Hc). pose proof (walk_rule _ _ _ _ Hw) as Hr. pose proof (walk_first _ _ _ _ Hw H7) as Hf.
    unfold ahead. rewrite N.lor_spec. destruct ts1 as [|t1 ts1]; cbn [app shows] in *.
    + rewrite Hf, <- Hr. subst ts2. destruct (IH _ _ _ _ Hc) as (Hb & Ht). split; [|exact Ht]. apply orb_true_iff. right.
      assert (Hin : In (TRule st (n_rule (node_at A stop)) to j) (tr n)) by (unfold GoParserTable.tr; rewrite En; left; reflexivity).
      destruct (at_node n ltac:(left; eauto)) as (_ & G & _). destruct (G _ Hin) as (Gs & Gf & _). cbn [same_rule] in Gs. rewrite Z.eqb_eq in Gs.
      eapply sub_bit; [exact Gf|]. unfold follow_of. rewrite En. cbn [fold_right]. rewrite Z.eqb_refl, !N.lor_spec, no_end_bit by exact Ht.
      unfold ahead in Hb. rewrite N.lor_spec in Hb. rewrite Gs in Hb. rewrite Hb. reflexivity.
    + injection E as <- _. destruct Hf as (Hb & Ht). rewrite Hb. auto.
Qed.
Lemma all_ahead_la a b k p s : all_ahead A F W a b = true -> completes A k p a (input_of s) -> b (la s) = true.
Proof.
  intros H Hc. unfold all_ahead in H. rewrite forallb_forall in H.
  assert (E : exists ts, input_of s = la s :: ts) by (unfold input_of, la; destruct (rest s); cbn; eauto).
  destruct E as (ts & E). rewrite E in Hc. apply completes_ahead in Hc as (Hb & Ht). specialize (H _ Ht). rewrite Hb in H. exact H.
Qed.

Definition goes_on (k : stack) (p q : Z) (t : trans) (ts : list Z) : Prop :=
  match t with
  | TEps to | TAction _ _ to => completes A k p to ts
  | TSet neg l to => neg = false /\ exists x ts', ts = x :: ts' /\ in_ranges l x = true /\ completes A k p to ts'
  | TPrec j to => j >= p /\ completes A k p to ts
  | TRule s r to j => exists ts1 ts2 stop, ts = ts1 ++ ts2 /\ walk A j s ts1 stop /\ n_type (node_at A stop) = 7 /\ n_rule (node_at A stop) = r /\ completes A k p to ts2
  end.
Lemma completes_inv k p q ts : completes A k p q ts -> tr q <> [] -> exists t, In t (tr q) /\ goes_on k p q t ts.
Proof.
  rewrite completes_def. intros (ts1 & ts2 & stop & E & Hw & H7 & Ha) Hne.
  subst ts. inversion Hw as [p0 q0 Ep Eq|p0 q0 to ts q1 Hin H Ep|p0 q0 r a to ts q1 Hin H Ep|p0 q0 l to t ts q1 Hin Ht H Ep|p0 q0 j to ts q1 Hin Hj H Ep
    |p0 q0 start r to j u1 stop0 u2 q1 Hin H1 Hs1 Hs2 H2 Ep]; subst.
  - exfalso. apply Hne, stop_no_trans. exact H7.
  - exists (TEps to). split; [exact Hin|]. apply completes_def. exists ts1, ts2, stop. auto.
  - exists (TAction r a to). split; [exact Hin|]. apply completes_def. exists ts1, ts2, stop. auto.
  - exists (TSet false l to). split; [exact Hin|]. split; [reflexivity|]. exists t, (ts ++ ts2). split; [reflexivity|]. split; [exact Ht|].
    apply completes_def. exists ts, ts2, stop. auto.
  - exists (TPrec j to). split; [exact Hin|]. split; [exact Hj|]. apply completes_def. exists ts1, ts2, stop. auto.
  - exists (TRule start (n_rule (node_at A stop0)) to j). split; [exact Hin|]. exists u1, (u2 ++ ts2), stop0. rewrite app_assoc. split; [reflexivity|]. split; [exact H1|]. split; [exact Hs1|]. split; [reflexivity|].
    apply completes_def. exists u2, ts2, stop. auto.
Qed.
Lemma completes_one k p q t ts : tr q = [t] -> completes A k p q ts -> goes_on k p q t ts.
Proof. intros E H. apply completes_inv in H as (t' & Hin & G); [|rewrite E; discriminate]. rewrite E in Hin. destruct Hin as [->|[]]. exact G. Qed.
Lemma completes_nrm k p q ts : completes A k p q ts -> completes A k p (nrm q) ts.
Proof.
  unfold GoParserTable.nrm. generalize 20%nat. intros f. revert q. induction f as [|f IH]; intros q H; cbn [nrm_fuel]; [exact H|].
  destruct (tr q) as [|[to|neg l to|s r to j|r a to|j to] [|]] eqn:E; try exact H; apply IH; apply (completes_one _ _ _ _ _ E H).
Qed.
Lemma completes_two k p q a e ts : tr q = [TEps a; TEps e] -> completes A k p q ts -> completes A k p a ts \/ completes A k p e ts.
Proof. intros E H. apply completes_inv in H as (t & Hin & G); [|rewrite E; discriminate]. rewrite E in Hin. destruct Hin as [<-|[<-|[]]]; auto. Qed.
Lemma walk_stop p q ts q' : n_type (node_at A q) = 7 -> walk A p q ts q' -> ts = [] /\ q' = q.
Proof. intros H7 Hw. pose proof (stop_no_trans _ H7) as E. unfold GoParserTable.tr in E. inversion Hw; subst; auto; rewrite E in *; contradiction. Qed.

Lemma sw_complete ck cases : forall alts q' a t, sw A F W ck alts cases = Some q' -> In (TEps a) alts ->
  N.testbit (ahead A F W a) (bit t) = true -> In t tokens -> exists b, case_of t cases = Some b /\ ck b (nrm a) = Some q'.
Proof.
  induction cases as [|(ts, b0) cases IH]; intros alts q' a t; [destruct alts as [|[] ?]; discriminate|].
  destruct alts as [|[a0|? ? ?|? ? ? ?|? ? ?|? ?] alts]; cbn [sw case_of]; try discriminate.
  destruct (_ && _) eqn:Eb; [|discriminate]. destruct (ck b0 (nrm a0)) as [q1|] eqn:E; [|discriminate].
  rewrite andb_true_iff, forallb_forall in Eb. destruct Eb as (Eb & Eo).
  intros H Hin Hb Ht. assert (Hq : q1 = q') by (destruct alts, cases; try destruct (option_eqb _ _); congruence). subst q1.
  assert (Ha : forall a' f, all_ahead A F W a' f = true -> N.testbit (ahead A F W a') (bit t) = true -> f t = true).
  { intros a' f G G'. unfold all_ahead in G. rewrite forallb_forall in G. specialize (G t Ht). rewrite G' in G. exact G. }
  destruct Hin as [Ea|Hin].
  - injection Ea as <-. rewrite (Ha _ _ Eb Hb). eauto.
  - pose proof (Eo _ Hin) as Eo'. cbn beta iota in Eo'. apply (Ha _ _ Eo') in Hb as Hz. apply negb_true_iff in Hz. rewrite Hz.
    destruct alts as [|a2 alts]; [destruct Hin|]. match type of H with (if ?b then _ else _) = _ => destruct b eqn:Eq end; [|discriminate]. apply option_eqb_true in Eq.
    exact (IH _ _ _ _ Eq Hin Hb Ht).
Qed.

Lemma sw_alts ck cases : forall alts q', sw A F W ck alts cases = Some q' -> Forall (fun t => exists a, t = TEps a) alts.
Proof.
  induction cases as [|(ts, b0) cases IH]; intros alts q'; [destruct alts as [|[] ?]; discriminate|].
  destruct alts as [|[a0|? ? ?|? ? ? ?|? ? ?|? ?] alts]; cbn [sw]; try discriminate.
  destruct (_ && _) eqn:Eb; [|discriminate]. rewrite andb_true_iff, forallb_forall in Eb. destruct Eb as (_ & Eo). intros _.
  constructor; [eauto|]. apply Forall_forall. intros t Ht. specialize (Eo t Ht). destruct t; try discriminate. eauto.
Qed.

Hypothesis funs_ok : forall i f, nth_error funs i = Some f -> (0 < i)%nat -> fun_ok A F W (Z.of_nat i) f = true.
Hypothesis funs_all : length funs = 51%nat.
Hypothesis P_reliable : reliable A P.

Definition fine (k : stack) (p q : Z) (r : result) : Prop :=
  match r with Done s => completes A k p q (input_of s) | Failed => False | Unfinished => True end.
Lemma fine_andthen k0 p0 k p q r f q' : fine k0 p0 q r -> (forall s, completes A k0 p0 q (input_of s) -> fine k p q' (f s)) -> fine k p q' (andthen r f).
Proof. destruct r; cbn; auto. Qed.
Lemma input_consume s t ts : input_of s = t :: ts -> t <> -1 -> la s = t /\ input_of (consume s) = ts.
Proof. unfold input_of, la, consume. destruct (rest s) as [|x l]; cbn; intros E H; [injection E as <- <-; congruence|]. injection E as <- <-. auto. Qed.

Lemma exec_complete f : forall g sy k p c s q q', chk g sy c q = Some q' -> 0 <= p <= 11 -> completes A k p q (input_of s) -> fine k p q' (exec f k p c s).
Proof.
  induction f as [|f IH]; intros g sy k p c s q q' Hc Hp Hs; [exact I|].
  destruct g as [|g]; [discriminate Hc|]. destruct c as [|x c']; cbn [GoParserTable.chk GoParser.exec] in Hc |- *.
  { injection Hc as <-. exact Hs. }
  assert (NX : forall (b : bool) (m : Z) r, (if b then chk g None c' m else None) = Some q' -> b = true /\ (fine k p m r -> fine k p q' (andthen r (exec f k p c')))).
  { intros b m r E. destruct b; [|discriminate]. split; [reflexivity|]. intros Hm. eapply fine_andthen; [exact Hm|]. intros s1 H1. eapply IH; [exact E|exact Hp|exact H1]. }
  destruct x as [n t|n c|n r j|n|c b|c b|c b|cases err|d cases|d e b r|n j].
  - (* Match *) destruct (tr q) as [|[?|[|] l to|? ? ? ?|? ? ?|? ?] [|]] eqn:Et; try discriminate. apply (NX _ _ (if la s =? t then Done (consume s) else Failed)) in Hc as (Hb & Hm). apply Hm. clear Hm.
    rewrite !andb_true_iff, Z.eqb_eq, Z.leb_le, forallb_forall in Hb. destruct Hb as ((Hn & Ht) & Hl).
    destruct (completes_one _ _ _ _ _ Et Hs) as (_ & x & ts' & E & Hx & Hto).
    assert (Hx' : x = t). { specialize (Hl x). rewrite Hx in Hl. apply Z.eqb_eq. symmetry. apply eqb_prop. apply Hl. eapply range_tokens; [|exact Hx]. unfold GoParserTable.tr in Et. rewrite Et. left; reflexivity. }
    subst x. destruct (input_consume _ _ _ E ltac:(lia)) as (-> & E'). rewrite Z.eqb_refl. cbn [fine]. rewrite E'. apply completes_nrm. exact Hto.
  - (* MatchSet *) destruct (tr q) as [|[?|[|] l to|? ? ? ?|? ? ?|? ?] [|]] eqn:Et; try discriminate. apply (NX _ _ (if holds c (la s) then Done (consume s) else Failed)) in Hc as (Hb & Hm). apply Hm. clear Hm.
    rewrite !andb_true_iff, negb_true_iff, forallb_forall in Hb. destruct Hb as ((Hn & Ht) & Hl).
    destruct (completes_one _ _ _ _ _ Et Hs) as (_ & x & ts' & E & Hx & Hto).
    assert (Hx' : holds c x = true). { specialize (Hl x). rewrite Hx in Hl. symmetry. apply eqb_prop. apply Hl. eapply range_tokens; [|exact Hx]. unfold GoParserTable.tr in Et. rewrite Et. left; reflexivity. }
    destruct (input_consume _ _ _ E ltac:(congruence)) as (-> & E'). rewrite Hx'. cbn [fine]. rewrite E'. apply completes_nrm. exact Hto.
  - (* Call *) destruct (tr q) as [|[?|? ? ?|st r' to k'|? ? ?|? ?] [|]] eqn:Et; try discriminate. eapply NX in Hc as (Hb & Hm). apply Hm. clear Hm.
    rewrite !andb_true_iff, !Z.eqb_eq, !Z.ltb_lt, !Z.leb_le in Hb. destruct Hb as ((((((-> & <-) & <-) & Hr0) & Hr) & Hj0) & Hj1).
    destruct (nth_error funs (Z.to_nat r)) as [(en, body)|] eqn:Ef; [|apply nth_error_None in Ef; lia].
    pose proof (funs_ok _ _ Ef ltac:(lia)) as Hok. unfold fun_ok in Hok. cbn [fst snd] in Hok. rewrite Z2Nat.id in Hok by lia. apply andb_true_iff in Hok as (_ & Hok).
    destruct (GoParserTable.chk A F W 40 None body (nrm (start_of A r))) as [qs|] eqn:Eq; [|discriminate]. rewrite andb_true_iff, !Z.eqb_eq in Hok. destruct Hok as (Hty & Hru).
    destruct (completes_one _ _ _ _ _ Et Hs) as (ts1 & ts2 & stop & E & Hw & H7 & Hru' & Hto).
    assert (Hst : st = start_of A r).
    { assert (Hin : In (TRule st r to j) (n_trans (node_at A q))) by (unfold GoParserTable.tr in Et; rewrite Et; left; reflexivity).
      apply (trans_ok_at A A_ok) in Hin. cbn [trans_ok] in Hin. rewrite !andb_true_iff, Z.eqb_eq in Hin. tauto. }
    subst st. eapply fine_andthen.
    + eapply (IH 40%nat None ((q, p) :: k) j body (St (rest s) [])); [exact Eq|lia|]. apply completes_nrm. apply completes_def. exists ts1, ts2, stop.
      split; [exact E|]. split; [exact Hw|]. split; [exact H7|]. cbn [after]. exists (start_of A r), to, j. rewrite Hru'. split; [exact Et|exact Hto].
    + intros s1 H1. cbn [fine]. apply completes_def in H1 as (u1 & u2 & stop1 & E1 & Hw1 & H71 & Ha1). apply (walk_stop _ _ _ _ Hty) in Hw1 as (-> & ->).
      cbn [app after] in *. destruct Ha1 as (st1 & to1 & j1 & En & Hc1). unfold GoParserTable.tr in Et. rewrite Et in En. injection En as <- _ <- <-.
      apply completes_nrm. unfold input_of at 1. cbn [rest]. unfold input_of in E1. rewrite E1. exact Hc1.
  - (* Sync *) destruct ((nrm n =? q) && all_ahead A F W q (sync_ok A n)) eqn:Eb; [|discriminate]. apply andb_true_iff in Eb as (_ & Eb).
    rewrite (all_ahead_la _ _ _ _ _ Eb Hs). cbn [andthen]. eapply IH; [exact Hc|exact Hp|exact Hs].
  - (* If *) destruct (tr q) as [|[a|? ? ?|? ? ? ?|? ? ?|? ?] [|[e|? ? ?|? ? ? ?|? ? ?|? ?] [|]]] eqn:Et; try discriminate. eapply NX in Hc as (Hb & Hm). apply Hm. clear Hm.
    rewrite !andb_true_iff in Hb. destruct Hb as ((Hb & Ha) & He). apply option_eqb_true in Hb.
    destruct (completes_two _ _ _ _ _ _ Et Hs) as [G|G].
    + rewrite (all_ahead_la _ _ _ _ _ Ha G). eapply IH; [exact Hb|exact Hp|apply completes_nrm; exact G].
    + apply (all_ahead_la _ _ _ _ _ He) in G as G'. apply negb_true_iff in G'. rewrite G'. cbn [fine]. apply completes_nrm. exact G.
  - (* For *) destruct (tr q) as [|[a|? ? ?|? ? ? ?|? ? ?|? ?] [|[e|? ? ?|? ? ? ?|? ? ?|? ?] [|]]] eqn:Et; try discriminate. eapply NX in Hc as (Hb & Hm). apply Hm. clear Hm.
    pose proof Hb as Hb0. rewrite !andb_true_iff in Hb. destruct Hb as ((Hb & Ha) & He). apply option_eqb_true in Hb.
    destruct (completes_two _ _ _ _ _ _ Et Hs) as [G|G].
    + rewrite (all_ahead_la _ _ _ _ _ Ha G). eapply fine_andthen; [eapply IH; [exact Hb|exact Hp|apply completes_nrm; exact G]|]. intros s1 H1.
      eapply (IH (S g) None _ _ [For c b]); [|exact Hp|exact H1]. cbn [GoParserTable.chk]. rewrite Et, Hb0. destruct g; [discriminate Hb|reflexivity].
    + apply (all_ahead_la _ _ _ _ _ He) in G as G'. apply negb_true_iff in G'. rewrite G'. cbn [fine]. apply completes_nrm. exact G.
  - (* Do *) destruct (chk g None b q) as [h|] eqn:Eh; [|discriminate].
    destruct (tr h) as [|[a|? ? ?|? ? ? ?|? ? ?|? ?] [|[e|? ? ?|? ? ? ?|? ? ?|? ?] [|]]] eqn:Et; try discriminate. eapply NX in Hc as (Hb & Hm). apply Hm. clear Hm.
    pose proof Hb as Hb0. rewrite !andb_true_iff, Z.eqb_eq in Hb. destruct Hb as ((Ha & Ha') & He).
    eapply fine_andthen; [eapply IH; [exact Eh|exact Hp|exact Hs]|]. intros s2 H2.
    destruct (completes_two _ _ _ _ _ _ Et H2) as [G|G].
    + rewrite (all_ahead_la _ _ _ _ _ Ha' G).
      eapply (IH (S g) None _ _ [Do c b]); [|exact Hp|rewrite <- Ha; apply completes_nrm; exact G]. cbn [GoParserTable.chk]. rewrite Ha, Eh, Et, Hb0. destruct g; [discriminate Eh|reflexivity].
    + apply (all_ahead_la _ _ _ _ _ He) in G as G'. apply negb_true_iff in G'. rewrite G'. cbn [fine]. apply completes_nrm. exact G.
  - (* Switch *) destruct (sw A F W (chk g None) (tr q) cases) as [q1|] eqn:Esw; [|discriminate]. eapply NX in Hc as (Hb & Hm). apply Hm. clear Hm.
    assert (Hall : Forall (fun t => exists a, t = TEps a) (tr q)) by (eapply sw_alts; exact Esw).
    assert (Hne : tr q <> []) by (intros E; rewrite E in Esw; destruct cases; discriminate).
    apply completes_inv in Hs as (t & Hin & G); [|exact Hne]. rewrite Forall_forall in Hall. destruct (Hall _ Hin) as (a & ->). cbn in G.
    assert (E : exists ts, input_of s = la s :: ts) by (unfold input_of, la; destruct (rest s); cbn; eauto).
    destruct E as (ts & E). pose proof G as G'. rewrite E in G'. apply completes_ahead in G' as (Hbit & Ht).
    destruct (sw_complete _ _ _ _ _ _ Esw Hin Hbit Ht) as (b & Hcb & Hck). rewrite Hcb. eapply IH; [exact Hck|exact Hp|apply completes_nrm; exact G].
  - (* Choose *) destruct (ch A (chk g None) 1 (tr q) cases) as [q1|] eqn:Ech; [|discriminate]. eapply NX in Hc as (Hb & Hm). apply Hm. clear Hm.
    rewrite andb_true_iff, Z.eqb_eq, zmem_in in Hb. destruct Hb as (Hb & Hd). rewrite <- Hb in Hs. destruct (P_reliable d k p (rest s) Hd Hp Hs) as (a & to & Ha0 & Ha & Hn & Hto). fold (input_of s) in Ha0, Hto. rewrite Ha0. unfold alternatives in Hn. rewrite Hb in Hn.
    assert (Hlt : (Z.to_nat (a - 1) < length (tr q))%nat) by (apply nth_error_Some; unfold GoParserTable.tr; rewrite Hn; discriminate).
    destruct (ch_total _ _ _ _ _ _ Ech a ltac:(lia)) as (to' & b & Hn' & Hab & Hck). unfold GoParserTable.tr in Hn'. rewrite Hn in Hn'. injection Hn' as <-. rewrite Hab.
    eapply IH; [exact Hck|exact Hp|apply completes_nrm; exact Hto].
  - (* Loop *) destruct (tr q) as [|[a|? ? ?|? ? ? ?|? ? ?|? ?] [|[x|? ? ?|? ? ? ?|? ? ?|? ?] [|]]] eqn:Et; try discriminate. eapply NX in Hc as (Hb & Hm). apply Hm. clear Hm.
    pose proof Hb as Hb0. rewrite !andb_true_iff, !Z.eqb_eq, zmem_in in Hb. destruct Hb as (((Hd & Hk) & ->) & Hb).
    rewrite <- Hd in Hs. destruct (P_reliable d k p (rest s) Hk Hp Hs) as (i & to & Hi0 & Hi & Hn & Hto). fold (input_of s) in Hi0, Hto. rewrite Hi0. unfold alternatives in Hn. rewrite Hd in Hn. fold (tr q) in Hn. rewrite Et in Hn.
    destruct (Z.eqb_spec i 2) as [->|Hi2].
    + cbn in Hn. injection Hn as <-. cbn [fine]. apply completes_nrm. exact Hto.
    + assert (i = 1).
      { destruct (Z.to_nat (i - 1)) as [|[|m]] eqn:Em; [lia|lia|]. cbn in Hn. destruct m; discriminate. }
      subst i. cbn in Hn. injection Hn as <-. cbn [Z.eqb Pos.eqb]. destruct (chk g None b (nrm a)) as [h|] eqn:Eh; [|discriminate]. apply option_eqb_true in Hb.
      eapply fine_andthen; [eapply IH; [exact Eh|exact Hp|apply completes_nrm; exact Hto]|]. intros s2 H2.
      eapply fine_andthen; [eapply IH; [exact Hb|exact Hp|exact H2]|]. intros s3 H3.
      eapply (IH (S g) None _ _ [Loop d 2 b r]); [|exact Hp|exact H3]. cbn [GoParserTable.chk]. rewrite Et, Eh, Hb0. destruct g; [discriminate Eh|reflexivity].
  - (* Prec *) destruct (tr q) as [|[?|? ? ?|? ? ? ?|? ? ?|k' to] [|]] eqn:Et; try discriminate. eapply NX in Hc as (Hb & Hm). apply Hm. clear Hm.
    rewrite !andb_true_iff, !Z.eqb_eq in Hb. destruct Hb as ((_ & <-) & Hr).
    destruct (completes_one _ _ _ _ _ Et Hs) as (Hj & Hto). replace (j >=? p) with true by (symmetry; apply Z.geb_le; lia). cbn [fine]. unfold input_of. cbn [rest]. apply completes_nrm. exact Hto.
Qed.
End Complete.

(** *** Fuel *)
Section Ends.
Variable A : atn.
Variables (F W : list N).
Variable funs : list (Z * list code).
Variable P : predictor.
Variables (E : list bool) (rk : list nat) (D : nat).
Notation exec := (exec A funs P).
Notation eats := (eats A E).
Notation ends_ok := (ends_ok A E rk).

Definition upto (r r' : result) : Prop := r = Unfinished \/ r' = r.
Lemma upto_refl r : upto r r. Proof. right. reflexivity. Qed.
Lemma upto_andthen r r' f f' : upto r r' -> (forall s, upto (f s) (f' s)) -> upto (andthen r f) (andthen r' f').
Proof. intros Hr H. destruct Hr as [Hr|Hr]; subst; [left; reflexivity|]. destruct r; cbn; [apply H|apply upto_refl|apply upto_refl]. Qed.
(** One statement. *)
Definition stm (f : nat) (k : stack) (p : Z) (x : code) (s : pst) : result :=
  match x with
  | Match _ t => if la s =? t then Done (consume s) else Failed
  | MatchSet _ c => if holds c (la s) then Done (consume s) else Failed
  | Call n r j =>
      match nth_error funs (Z.to_nat r) with
      | Some (_, body) => andthen (exec f ((n, p) :: k) j body (St (rest s) []))
          (fun s' => Done (St (rest s') (kids s ++ [Tree.Node (rule_at r) (kids s')])))
      | None => Failed
      end
  | Sync n => if sync_ok A n (la s) then Done s else Failed
  | If c b => if holds c (la s) then exec f k p b s else Done s
  | For c b => if holds c (la s) then andthen (exec f k p b s) (exec f k p [For c b]) else Done s
  | Do c b => andthen (exec f k p b s) (fun s' => if holds c (la s') then exec f k p [Do c b] s' else Done s')
  | Switch cases err => match case_of (la s) cases with Some b => exec f k p b s | None => if err then Failed else Done s end
  | Choose d cases =>
      match P d k p (input_of s) with
      | Some a => match alt_of a cases with Some b => exec f k p b s | None => Done s end
      | None => Failed
      end
  | Loop d e b r =>
      match P d k p (input_of s) with
      | Some a => if a =? e then Done s
          else andthen (if a =? 1 then exec f k p b s else Done s) (fun s' => andthen (exec f k p r s') (exec f k p [Loop d e b r]))
      | None => Failed
      end
  | Prec _ j => if j >=? p then Done (St (rest s) [Tree.Node fn_arg_expr (kids s)]) else Failed
  end.
Lemma exec_cons f k p x c s : exec (S f) k p (x :: c) s = andthen (stm f k p x s) (exec f k p c). Proof. reflexivity. Qed.
Lemma stm_upto f f' : (forall k p c s, upto (exec f k p c s) (exec f' k p c s)) -> forall k p x s, upto (stm f k p x s) (stm f' k p x s).
Proof.
  intros IH k p x s. destruct x as [n t|n c|n r j|n|c b|c b|c b|cases err|d cases|d e b r|n j]; cbn [stm]; try apply upto_refl.
  - destruct (nth_error funs (Z.to_nat r)) as [(en, body)|]; [|apply upto_refl]. apply upto_andthen; [apply IH|intros; apply upto_refl].
  - destruct (holds c (la s)); [apply IH|apply upto_refl].
  - destruct (holds c (la s)); [|apply upto_refl]. apply upto_andthen; [apply IH|intros; apply IH].
  - apply upto_andthen; [apply IH|]. intros s'. destruct (holds c (la s')); [apply IH|apply upto_refl].
  - destruct (case_of (la s) cases); [apply IH|apply upto_refl].
  - destruct (P d k p (input_of s)); [|apply upto_refl]. destruct (alt_of z cases); [apply IH|apply upto_refl].
  - destruct (P d k p (input_of s)); [|apply upto_refl]. destruct (z =? e); [apply upto_refl|]. apply upto_andthen; [destruct (z =? 1); [apply IH|apply upto_refl]|].
    intros s'. apply upto_andthen; [apply IH|intros; apply IH].
Qed.
Lemma exec_more f : forall k p c s, upto (exec f k p c s) (exec (S f) k p c s).
Proof.
  induction f as [|f IH]; intros k p c s; [left; reflexivity|]. destruct c as [|x c']; [apply upto_refl|].
  rewrite !exec_cons. apply upto_andthen; [apply stm_upto; exact IH|intros s'; apply IH].
Qed.
Lemma exec_mono f f' k p c s : (f <= f')%nat -> upto (exec f k p c s) (exec f' k p c s).
Proof.
  induction 1 as [|f' H IH]; [apply upto_refl|]. destruct IH as [IH|IH]; [left; exact IH|]. destruct (exec_more f' k p c s) as [G|G]; [left|right]; congruence.
Qed.
Lemma exec_agree f f' k p c s : exec f k p c s <> Unfinished -> exec f' k p c s <> Unfinished -> exec f k p c s = exec f' k p c s.
Proof.
  intros H H'. destruct (Nat.le_ge_cases f f') as [L|L]; destruct (exec_mono _ _ k p c s L) as [G|G]; congruence.
Qed.

Definition ends (k : stack) (p : Z) (c : list code) (s : pst) : Prop := exists f, exec f k p c s <> Unfinished.

Lemma exec_app f k p a b : forall s r, exec f k p (a ++ b) s = r -> r <> Unfinished ->
  (exec f k p a s = Failed /\ r = Failed) \/ exists s1 f1, exec f k p a s = Done s1 /\ exec f1 k p b s1 = r.
Proof.
  revert f. induction a as [|x a IH]; intros f s r H Hr; cbn [app] in H.
  { right. destruct f as [|f]; [cbn in H; congruence|]. exists s, (S f). split; [reflexivity|exact H]. }
  destruct f as [|f]; [cbn in H; congruence|]. rewrite exec_cons in *. destruct (stm f k p x s) as [s0| |] eqn:Ex; cbn [andthen] in *; [|left; auto|congruence].
  exact (IH f s0 r H Hr).
Qed.

(** *** Consumption *)
Hypothesis answers : answers_alternatives A P.
Hypothesis funs_ends : forall i f, nth_error funs i = Some f -> (0 < i)%nat -> fun_ends A E rk D (Z.of_nat i) (snd f) = true.
Hypothesis funs_all : length funs = 51%nat.
Hypothesis E_0 : nth 0 E false = false.
Definition len (s : pst) : nat := length (rest s).
Lemma negb_or b c : negb b || c = true -> b = true -> c = true. Proof. intros H ->. exact H. Qed.
Lemma consume_len s : (len (consume s) <= len s)%nat. Proof. unfold len, consume. destruct (rest s); cbn; lia. Qed.
Lemma consume_eats s : la s <> -1 -> (len (consume s) < len s)%nat. Proof. unfold len, consume, la. destruct (rest s); cbn; [congruence|lia]. Qed.
Lemma alt_in a cases b : alt_of a cases = Some b -> exists i, In (i, b) cases.
Proof. induction cases as [|(i, b0) l IH]; cbn; [discriminate|]. destruct (a =? i); [intros H; injection H as ->; eauto|]. intros H. destruct (IH H) as (j & Hj). eauto. Qed.
Lemma case_in a cases b : case_of a cases = Some b -> exists i, In (i, b) cases.
Proof. induction cases as [|(i, b0) l IH]; cbn; [discriminate|]. destruct (zmem a i); [intros H; injection H as ->; eauto|]. intros H. destruct (IH H) as (j & Hj). eauto. Qed.

Lemma exec_len f : forall k p c s s', exec f k p c s = Done s' -> (len s' <= len s)%nat /\ forall g, eats g c = true -> (len s' < len s)%nat.
Proof.
  induction f as [|f IH]; intros k p c s s' H; [discriminate|]. destruct c as [|x c']; cbn [GoParser.exec] in H.
  { injection H as <-. split; [lia|]. intros [|g]; discriminate. }
  apply andthen_done in H as (s1 & H1 & H2). apply IH in H2 as (L2 & G2).
  assert (B : (len s1 <= len s)%nat /\ forall g, eats (S g) [x] = true -> (len s1 < len s)%nat).
  { destruct x as [n t|n c|n r j|n|c b|c b|c b|cases err|d cases|d e b r|n j].
    - destruct (Z.eqb_spec (la s) t) as [El|]; [|discriminate]. injection H1 as <-. split; [apply consume_len|].
      intros g Hg. cbn [GoParserTable.eats] in Hg. replace (eats g []) with false in Hg by (destruct g; reflexivity). rewrite orb_false_r, Z.leb_le in Hg. apply consume_eats. lia.
    - destruct (holds c (la s)) eqn:Eh; [|discriminate]. injection H1 as <-. split; [apply consume_len|].
      intros g Hg. cbn [GoParserTable.eats] in Hg. replace (eats g []) with false in Hg by (destruct g; reflexivity). rewrite orb_false_r, negb_true_iff in Hg. apply consume_eats. congruence.
    - destruct (nth_error funs (Z.to_nat r)) as [(en, body)|] eqn:Ef; [|discriminate]. apply andthen_done in H1 as (s2 & H1 & H3). injection H3 as <-.
      apply IH in H1 as (L1 & G1). split; [exact L1|].
      intros g Hg. cbn [GoParserTable.eats] in Hg. replace (eats g []) with false in Hg by (destruct g; reflexivity). rewrite orb_false_r in Hg.
      apply (G1 D). assert (0 < Z.to_nat r)%nat by (destruct (Z.to_nat r); [congruence|lia]).
      pose proof (funs_ends _ _ Ef ltac:(assumption)) as Ho. unfold fun_ends in Ho. apply andb_true_iff in Ho as (_ & Ho). rewrite Nat2Z.id in Ho. exact (negb_or _ _ Ho Hg).
    - destruct (sync_ok A n (la s)); [|discriminate]. injection H1 as <-. split; [lia|]. intros g Hg. cbn in Hg. destruct g; discriminate.
    - split; [|intros g Hg; cbn in Hg; destruct g; discriminate]. destruct (holds c (la s)); [apply IH in H1; lia|injection H1 as <-; lia].
    - split; [|intros g Hg; cbn in Hg; destruct g; discriminate]. destruct (holds c (la s)); [|injection H1 as <-; lia].
      apply andthen_done in H1 as (s2 & H1 & H3). apply IH in H1, H3. lia.
    - apply andthen_done in H1 as (s2 & H1 & H3). apply IH in H1 as (L1 & G1).
      assert (L3 : (len s1 <= len s2)%nat) by (destruct (holds c (la s2)); [apply IH in H3; lia|injection H3 as <-; lia]). split; [lia|].
      intros g Hg. cbn [GoParserTable.eats] in Hg. replace (eats g []) with false in Hg by (destruct g; reflexivity). rewrite orb_false_r in Hg. apply G1 in Hg. lia.
    - destruct (case_of (la s) cases) as [b|] eqn:Ec.
      + apply IH in H1 as (L1 & G1). split; [exact L1|]. intros g Hg. cbn [GoParserTable.eats] in Hg. replace (eats g []) with false in Hg by (destruct g; reflexivity).
        rewrite orb_false_r, andb_true_iff, forallb_forall in Hg. apply case_in in Ec as (i & Hi). apply (G1 g). apply (proj2 Hg (i, b) Hi).
      + destruct err; [discriminate|]. injection H1 as <-. split; [lia|]. intros g Hg. cbn in Hg. destruct g; discriminate.
    - destruct (P d k p (input_of s)) as [a|] eqn:Ep; [|discriminate]. destruct (alt_of a cases) as [b|] eqn:Ea.
      + apply IH in H1 as (L1 & G1). split; [exact L1|]. intros g Hg. cbn [GoParserTable.eats] in Hg. replace (eats g []) with false in Hg by (destruct g; reflexivity).
        rewrite orb_false_r, andb_true_iff, !forallb_forall in Hg. apply alt_in in Ea as (i & Hi). apply (G1 g). apply (proj1 Hg (i, b) Hi).
      + injection H1 as <-. split; [lia|]. intros g Hg. cbn [GoParserTable.eats] in Hg. replace (eats g []) with false in Hg by (destruct g; reflexivity).
        rewrite orb_false_r, andb_true_iff, !forallb_forall in Hg. destruct Hg as (_ & Hg). apply answers in Ep. unfold alternatives in Ep.
        specialize (Hg (Z.to_nat a)). rewrite in_seq, Z2Nat.id, Ea in Hg by lia. specialize (Hg ltac:(lia)). discriminate.
    - split; [|intros g Hg; cbn in Hg; destruct g; discriminate]. destruct (P d k p (input_of s)) as [a|]; [|discriminate]. destruct (a =? e); [injection H1 as <-; lia|].
      apply andthen_done in H1 as (s2 & H1 & H3). apply andthen_done in H3 as (s3 & H3 & H4). apply IH in H3, H4. destruct (a =? 1); [apply IH in H1; lia|injection H1 as <-; lia].
    - split; [|intros g Hg; cbn in Hg; destruct g; discriminate]. destruct (j >=? p); [|discriminate]. injection H1 as <-. unfold len. cbn. lia. }
  destruct B as (L1 & G1). split; [lia|]. intros [|g] Hg; [discriminate|].
  assert (Hor : eats (S g) [x] = true \/ eats g c' = true).
  { cbn [GoParserTable.eats] in Hg |- *. replace (eats g []) with false by (destruct g; reflexivity). rewrite orb_false_r. apply orb_true_iff in Hg. exact Hg. }
  destruct Hor as [Hor|Hor]; [apply G1 in Hor|apply G2 in Hor]; lia.
Qed.

(** *** Every run ends *)
Definition stm_ends (k : stack) (p : Z) (x : code) (s : pst) : Prop := exists f, stm f k p x s <> Unfinished.
Lemma stm_mono f f' k p x s : (f <= f')%nat -> stm f k p x s <> Unfinished -> stm f' k p x s = stm f k p x s.
Proof. intros L H. destruct (stm_upto f f' (fun k p c s => exec_mono f f' k p c s L) k p x s) as [G|G]; [contradiction|exact G]. Qed.
Lemma exec_keeps f f' k p c s : (f <= f')%nat -> exec f k p c s <> Unfinished -> exec f' k p c s = exec f k p c s.
Proof. intros L H. destruct (exec_mono f f' k p c s L) as [G|G]; [contradiction|exact G]. Qed.
Lemma ends_cons k p x c s : stm_ends k p x s -> (forall f s1, stm f k p x s = Done s1 -> ends k p c s1) -> ends k p (x :: c) s.
Proof.
  intros (f & H) Hc. destruct (stm f k p x s) as [s1| |] eqn:Ex; [|exists (S f); rewrite exec_cons, Ex; discriminate|congruence].
  destruct (Hc _ _ Ex) as (g & Hg). exists (S (Nat.max f g)). rewrite exec_cons. rewrite (stm_mono f); [|lia|congruence]. rewrite Ex. cbn [andthen].
  rewrite (exec_keeps g); [exact Hg|lia|exact Hg].
Qed.
(** Runs made of runs. *)
Lemma ends_then k p c s (m : nat -> pst -> result) :
  ends k p c s -> (forall f f' s1, (f <= f')%nat -> m f s1 <> Unfinished -> m f' s1 = m f s1) ->
  (forall f s1, exec f k p c s = Done s1 -> exists g, m g s1 <> Unfinished) -> exists f, andthen (exec f k p c s) (m f) <> Unfinished.
Proof.
  intros (f & H) Hm Hc. destruct (exec f k p c s) as [s1| |] eqn:Ex; [|exists f; rewrite Ex; discriminate|congruence].
  destruct (Hc _ _ Ex) as (g & Hg). exists (Nat.max f g). rewrite (exec_keeps f); [|lia|congruence]. rewrite Ex. cbn [andthen]. rewrite (Hm g); [exact Hg|lia|exact Hg].
Qed.
Lemma done_keeps (s : pst) : exists g : nat, (fun _ : nat => Done s) g <> Unfinished. Proof. exists 0%nat. discriminate. Qed.

Definition small (L : nat) (eaten : bool) (s : pst) : Prop := if eaten then (len s < L)%nat else (len s <= L)%nat.
Lemma small_le L e s s' : (len s' <= len s)%nat -> small L e s -> small L e s'. Proof. destruct e; cbn; lia. Qed.
Lemma small_or L e b s : small L e s \/ (b = true /\ (len s < L)%nat) -> (b = true -> (len s < L)%nat) -> small L (e || b) s.
Proof. destruct e, b; cbn; intros H G; try tauto; try (specialize (G eq_refl)); lia. Qed.

Lemma all_end L : forall R g eaten c, ends_ok g R eaten c = true -> forall k p s, small L eaten s -> ends k p c s.
Proof.
  induction L as [L IHL] using (well_founded_induction Wf_nat.lt_wf). intros R. induction R as [R IHR] using (well_founded_induction Wf_nat.lt_wf).
  induction g as [|g IHg]; intros eaten c Ho k p s Hs; [discriminate|].
  destruct c as [|x c']; [exists 1%nat; discriminate|]. cbn [GoParserTable.ends_ok] in Ho. apply andb_true_iff in Ho as (Hx & Hc').
  apply ends_cons.
  2:{ intros f s1 H1. eapply IHg; [exact Hc'|].
      assert (G : exec (S f) k p [x] s = Done s1 \/ exec (S f) k p [x] s = Unfinished).
      { rewrite exec_cons, H1. cbn [andthen]. destruct f; cbn; auto. }
      assert (G' : exec (S (S f)) k p [x] s = Done s1).
      { rewrite exec_cons. rewrite (stm_mono f); [|lia|congruence]. rewrite H1. reflexivity. }
      apply exec_len in G' as (L1 & G1). destruct (eaten || eats g [x]) eqn:Ee; [|destruct eaten; [discriminate|]; cbn in *; lia].
      cbn [small]. destruct eaten; [cbn in Hs; lia|]. cbn [orb small] in *. apply G1 in Ee. lia. }
  destruct x as [n t|n c|n r j|n|c b|c b|c b|cases err|d cases|d e b r|n j].
  - exists 0%nat. cbn. destruct (la s =? t); discriminate.
  - exists 0%nat. cbn. destruct (holds c (la s)); discriminate.
  - rewrite !andb_true_iff, !Z.ltb_lt in Hx. destruct Hx as ((Hx & Hr0) & Hr). unfold stm_ends. cbn [stm].
    destruct (nth_error funs (Z.to_nat r)) as [(en, body)|] eqn:Ef; [|apply nth_error_None in Ef; lia].
    pose proof (funs_ends _ _ Ef ltac:(lia)) as Hok. unfold fun_ends in Hok. cbn [snd] in Hok. rewrite Z2Nat.id in Hok by lia. apply andb_true_iff in Hok as (Hok & _).
    apply (ends_then ((n, p) :: k) j body _ (fun _ s' => _)); [|reflexivity|intros; exists 0%nat; discriminate].
    assert (Hb : (len s < L)%nat \/ (len s <= L /\ rank rk r < R)%nat).
    { destruct eaten; cbn in Hs; [left; exact Hs|]. right. split; [exact Hs|]. cbn in Hx. apply Nat.ltb_lt. exact Hx. }
    destruct Hb as [Hb|(Hb & Hrk)].
    + apply (IHL _ Hb (rank rk r) D false body Hok). cbn. unfold len. cbn. lia.
    + apply (IHR _ Hrk D false body Hok). exact Hb.
  - exists 0%nat. cbn. destruct (sync_ok A n (la s)); discriminate.
  - unfold stm_ends. cbn [stm]. destruct (holds c (la s)); [exact (IHg _ _ Hx k p s Hs)|exists 0%nat; discriminate].
  - (* For *) apply andb_true_iff in Hx as (Hx & He).
    assert (G : forall m s, (len s < m)%nat -> small L eaten s -> stm_ends k p (For c b) s).
    { induction m as [|m IHm]; intros s0 Hm Hs0; [lia|]. unfold stm_ends. cbn [stm]. destruct (holds c (la s0)); [|exists 0%nat; discriminate].
      apply (ends_then k p b s0 (fun f => exec f k p [For c b])); [exact (IHg _ _ Hx k p s0 Hs0)|intros; apply exec_keeps; assumption|].
      intros f s1 H1. apply exec_len in H1 as (L1 & G1). apply G1 in He. apply ends_cons; [|intros; exists 1%nat; discriminate].
      apply IHm; [lia|]. eapply small_le; [|exact Hs0]. lia. }
    apply (G (S (len s))); [lia|exact Hs].
  - (* Do *) apply andb_true_iff in Hx as (Hx & He).
    assert (G : forall m s, (len s < m)%nat -> small L eaten s -> stm_ends k p (Do c b) s).
    { induction m as [|m IHm]; intros s0 Hm Hs0; [lia|]. unfold stm_ends. cbn [stm].
      apply (ends_then k p b s0 (fun f s' => if holds c (la s') then exec f k p [Do c b] s' else Done s')); [exact (IHg _ _ Hx k p s0 Hs0)| |].
      - intros f f' s1 Lf. destruct (holds c (la s1)); [apply exec_keeps; exact Lf|reflexivity].
      - intros f s1 H1. apply exec_len in H1 as (L1 & G1). apply G1 in He. destruct (holds c (la s1)); [|exists 0%nat; discriminate].
        apply ends_cons; [|intros; exists 1%nat; discriminate]. apply IHm; [lia|]. eapply small_le; [|exact Hs0]. lia. }
    apply (G (S (len s))); [lia|exact Hs].
  - unfold stm_ends. cbn [stm]. destruct (case_of (la s) cases) as [b|] eqn:Ec; [|exists 0%nat; destruct err; discriminate].
    apply case_in in Ec as (i & Hi). rewrite forallb_forall in Hx. exact (IHg _ _ (Hx _ Hi) k p s Hs).
  - unfold stm_ends. cbn [stm]. destruct (P d k p (input_of s)) as [a|]; [|exists 0%nat; discriminate].
    destruct (alt_of a cases) as [b|] eqn:Ec; [|exists 0%nat; discriminate].
    apply alt_in in Ec as (i & Hi). rewrite forallb_forall in Hx. exact (IHg _ _ (Hx _ Hi) k p s Hs).
  - (* Loop *) rewrite !andb_true_iff, Z.eqb_eq, Nat.eqb_eq in Hx. destruct Hx as ((((Hx & Hr) & He) & ->) & Hd).
    assert (G : forall m s, (len s < m)%nat -> small L eaten s -> stm_ends k p (Loop d 2 b r) s).
    { induction m as [|m IHm]; intros s0 Hm Hs0; [lia|]. unfold stm_ends. cbn [stm]. destruct (P d k p (input_of s0)) as [a|] eqn:Ep; [|exists 0%nat; discriminate].
      apply answers in Ep. unfold alternatives in Ep. rewrite Hd in Ep. destruct (Z.eqb_spec a 2) as [|Ha]; [exists 0%nat; discriminate|].
      replace (a =? 1) with true by (symmetry; apply Z.eqb_eq; lia).
      apply (ends_then k p b s0 (fun f s' => andthen (exec f k p r s') (exec f k p [Loop d 2 b r]))); [exact (IHg _ _ Hx k p s0 Hs0)| |].
      - intros f f' s1 Lf Hn. destruct (exec f k p r s1) as [s2| |] eqn:Er.
        + rewrite (exec_keeps f f' k p r s1 Lf), Er by congruence. cbn [andthen] in *. apply exec_keeps; assumption.
        + rewrite (exec_keeps f f' k p r s1 Lf), Er by congruence. reflexivity.
        + cbn in Hn. congruence.
      - intros f s1 H1. apply exec_len in H1 as (L1 & G1). apply G1 in He.
        apply (ends_then k p r s1 (fun f => exec f k p [Loop d 2 b r])).
        + eapply IHg; [exact Hr|]. cbn. destruct eaten; cbn in Hs0; lia.
        + intros; apply exec_keeps; assumption.
        + intros f' s2 H2. apply exec_len in H2 as (L2 & _). apply ends_cons; [|intros; exists 1%nat; discriminate].
          apply IHm; [lia|]. eapply small_le; [|exact Hs0]. lia. }
    apply (G (S (len s))); [lia|exact Hs].
  - exists 0%nat. cbn. destruct (j >=? p); discriminate.
Qed.
End Ends.

(** *** p.Source_unit() *)
Section Main.
Variable P : predictor.
Notation exec := (exec parser_atn rule_functions P).
Lemma checked_funs i f : nth_error rule_functions i = Some f -> (0 < i)%nat -> fun_ok parser_atn firsts follows (Z.of_nat i) f = true.
Proof.
  intros H Hi. pose proof code_ok as G. unfold code_checked in G. apply andb_true_iff in G as (G & Hl). apply Nat.eqb_eq in Hl. rewrite forallb_forall in G.
  assert (i < 51)%nat by (rewrite <- Hl; apply nth_error_Some; congruence). specialize (G i ltac:(apply in_seq; lia)). rewrite H in G. exact G.
Qed.
Lemma ending_funs i f : nth_error rule_functions i = Some f -> (0 < i)%nat -> fun_ends parser_atn eaters ranks 40 (Z.of_nat i) (snd f) = true.
Proof.
  intros H Hi. pose proof functions_end as G. rewrite forallb_forall in G.
  assert (i < 51)%nat by (change 51%nat with (length rule_functions); apply nth_error_Some; congruence). specialize (G i ltac:(apply in_seq; lia)). rewrite H in G. exact G.
Qed.
Definition body0 : list code := main_code ++ [Match 118 (-1)].
Lemma source_unit_is f ts : source_unit_fun parser_atn rule_functions P f ts =
  match exec f [] 0 body0 (St ts []) with Done s => Some (Some (Tree.Node (rule_at 0) (kids s))) | Failed => Some None | Unfinished => None end.
Proof. reflexivity. Qed.

Theorem source_unit_sound f ts t : answers_alternatives parser_atn P -> source_unit_fun parser_atn rule_functions P f ts = Some (Some t) -> parser_builds ts t.
Proof.
  intros HP. rewrite source_unit_is. destruct (exec f [] 0 body0 (St ts [])) as [s| |] eqn:Ex; try discriminate. intros H. injection H as <-.
  apply exec_app in Ex as [(_ & Ex)|(s1 & f1 & E1 & E2)]; [discriminate| |discriminate].
  apply (exec_sound parser_atn firsts follows rule_functions P checked_funs parser_ok HP f 40 None _ _ _ _ _ _ _ main_checked ltac:(discriminate)) in E1 as (u & Hu & Hb).
  destruct f1 as [|f1]; [discriminate|]. rewrite exec_cons in E2. cbn [stm] in E2. destruct (Z.eqb_spec (la s1) (-1)) as [El|]; [|discriminate].
  assert (Es : s = consume s1) by (destruct f1; cbn in E2; congruence). subst s.
  assert (Er : rest s1 = []) by (unfold la in El; destruct (rest s1) as [|x l]; [reflexivity|pose proof (kind_range (ty x)); lia]).
  rewrite Er, app_nil_r in Hu. cbn [rest kids] in Hu, Hb. subst u.
  destruct main_last as (Ht & Hn & H7 & H0). exists 1, (kids (consume s1)). split; [|auto].
  eapply builds_app; [apply nrm_from; exact Hb|]. change (map Some []) with (@nil (option tok)). eapply bu_token.
  - rewrite Ht. left. reflexivity.
  - reflexivity.
  - unfold consume. rewrite Er. cbn [kids leaf_of]. rewrite <- Hn. apply nrm_builds.
Qed.

Theorem source_unit_complete f ts : reliable parser_atn P -> parser_accepts ts -> source_unit_fun parser_atn rule_functions P f ts <> Some None.
Proof.
  intros HP (stop & Hw & H7 & H0). rewrite source_unit_is. destruct (exec f [] 0 body0 (St ts [])) as [s| |] eqn:Ex; try discriminate. intros _.
  assert (C : completes parser_atn [] 0 (nrm parser_atn (start_of parser_atn 0)) (input_of (St ts []))).
  { apply (completes_nrm parser_atn firsts follows tables_closed). apply completes_def. exists (input_of (St ts [])), [], stop. rewrite app_nil_r. cbn [after]. auto. }
  assert (G := exec_complete parser_atn firsts follows rule_functions P parser_ok tables_closed checked_funs eq_refl HP).
  apply exec_app in Ex as [(Ex & _)|(s1 & f1 & E1 & E2)]; [| |discriminate].
  - specialize (G f 40%nat None [] 0 _ _ _ _ main_checked ltac:(lia) C). rewrite Ex in G. exact G.
  - specialize (G f 40%nat None [] 0 _ _ _ _ main_checked ltac:(lia) C). rewrite E1 in G. cbn [fine] in G.
    destruct main_last as (Ht & _). apply (completes_one parser_atn firsts follows tables_closed _ _ _ _ _ Ht) in G as (_ & x & ts' & Ei & Hx & _).
    destruct f1 as [|f1]; [discriminate|]. rewrite exec_cons in E2. cbn [stm] in E2.
    assert (El : la s1 = -1).
    { unfold in_ranges in Hx. cbn in Hx. rewrite orb_false_r, andb_true_iff, !Z.leb_le in Hx. unfold input_of, la in *. destruct (rest s1) as [|y l]; [reflexivity|].
      cbn in Ei. injection Ei as <- _. pose proof (kind_range (ty y)). lia. }
    rewrite El in E2. cbn in E2. destruct f1; discriminate.
Qed.

Theorem source_unit_ends ts : answers_alternatives parser_atn P -> exists f, source_unit_fun parser_atn rule_functions P f ts <> None.
Proof.
  intros HP. assert (G := all_end parser_atn rule_functions P eaters ranks 40 HP ending_funs eq_refl eq_refl).
  specialize (G (length ts) _ _ _ _ main_ends [] 0 (St ts []) (le_n _)). destruct G as (f & Hf). exists f. rewrite source_unit_is. fold body0 in Hf.
  destruct (exec f [] 0 body0 (St ts [])); congruence.
Qed.
Theorem source_unit_once f f' ts r r' : source_unit_fun parser_atn rule_functions P f ts = Some r -> source_unit_fun parser_atn rule_functions P f' ts = Some r' -> r = r'.
Proof.
  rewrite !source_unit_is. intros H H'. assert (E : exec f [] 0 body0 (St ts []) = exec f' [] 0 body0 (St ts [])).
  { apply exec_agree; [destruct (exec f [] 0 body0 (St ts []))|destruct (exec f' [] 0 body0 (St ts []))]; congruence. }
  rewrite E in H. congruence.
Qed.
End Main.
