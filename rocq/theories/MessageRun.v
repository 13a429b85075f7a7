(** Every report can be put into words: the tokens expected are at least one, each with a name.  And no precedence test fails:
    AdaptivePredict has asked the predicates. *)
From Coq Require Import ZArith Lia Bool.
From Verif Require Import Str Grammar AtnData Atn AtnParser AtnParserTable GoParser ParserCode PredictSpec GoParserTable GoParserProof Predict PredictTable PredictProof Recovery RecoveryTable RecoveryProof RecoveryCheck RecoveryProof2 FirstTable FirstRun FirstProof FirstProof2 PlaceRun.
Local Open Scope Z_scope.
Local Notation A := parser_atn.
Local Notation D := (default_strategy A).

(** The end of file, or a type of token. *)
Definition nameable (t : Z) : bool := (t =? -1) || (1 <=? t) && (t <=? 84).
Definition names_some (q : Z) : bool := match next_tokens A q with [] => false | l => forallb (fun t => (t =? -2) || nameable t) l end.
Definition worded (x : code) : bool :=
  match x with
  | Match n _ | MatchSet n _ | Sync n => names_some n
  | Call n _ j => match follow_state A n with Some q => names_some q | None => false end && (0 <=? j) && (j <=? 11)
  | _ => true
  end.
Lemma all_worded : forallb (fun e : Z * list code => every worded false 40 false (snd e)) rule_functions = true. Proof. vm_compute. reflexivity. Qed.
(** The precedence tests: one at the start of each case of decision 30, with the level of that alternative. *)
Definition level_is (i L : Z) : bool := match nth_error (tr A 451) (Z.to_nat (i - 1)) with Some e => match op_alt e with Some (L', _) => L =? L' | None => false end | None => false end.
Fixpoint tests (f : nat) (c : list code) : bool :=
  match f, c with
  | O, _ => false
  | S _, [] => true
  | S f, x :: c' =>
      match x with
      | If _ b | For _ b | Do _ b => tests f b
      | Switch cases _ => forallb (fun x => tests f (snd x)) cases
      | Choose d cases => forallb (fun x => match snd x with Prec _ L :: b => (d =? 30) && level_is (fst x) L && tests f b | b => tests f b end) cases
      | Loop _ _ b r => tests f b && tests f r
      | Prec _ _ => false
      | _ => true
      end && tests f c'
  end.
Lemma all_tests : forallb (fun e : Z * list code => tests 40 (snd e)) rule_functions = true. Proof. vm_compute. reflexivity. Qed.
Local Opaque parser_atn next_tokens rule_functions adaptive_predict predict_at.
Definition Tests (c : list code) : Prop := exists f, tests f c = true.
(** After the prediction [a] at level [p]. *)
Definition Tested (p : Z) (c : list code) : Prop := match c with Prec _ L :: b => L >= p /\ Tests b | _ => Tests c end.
Lemma tests_cons x c : Tests (x :: c) -> Tests c /\ match x with
  | If _ b | For _ b | Do _ b => Tests b
  | Switch cases _ => forall t b, case_of t cases = Some b -> Tests b
  | Choose d cases => forall a b, alt_of a cases = Some b -> match b with Prec _ L :: b' => d = 30 /\ level_is a L = true /\ Tests b' | _ => Tests b end
  | Loop _ _ b r => Tests b /\ Tests r
  | Prec _ _ => False
  | _ => True
  end.
Proof.
  intros (f & H). destruct f as [|f]; [discriminate H|]. cbn [tests] in H. apply andb_true_iff in H as (H & Hc). split; [exists f; exact Hc|].
  destruct x as [n t|n c0|n r j|n|c0 b0|c0 b0|c0 b0|cases e|d cases|d e b0 r|n j]; try exact I; try (exists f; exact H).
  - intros t b0. revert H. clear Hc. induction cases as [|(ts, b1) l IH]; cbn [case_of forallb snd]; [discriminate|]. rewrite andb_true_iff. intros (H & Hl). destruct (zmem t ts); [intros E; injection E as ->; exists f; exact H|auto].
  - intros a b0. revert H. clear Hc. induction cases as [|(i, b1) l IH]; cbn [alt_of forallb fst snd]; [discriminate|]. rewrite andb_true_iff. intros (H & Hl). destruct (Z.eqb_spec a i) as [Ea|_]; [|exact (IH Hl)]. intros E. injection E as ->. subst i.
    destruct b0 as [|[] b0]; try (exists f; exact H).
    rewrite !andb_true_iff, Z.eqb_eq in H. destruct H as ((H1 & H2) & H3). split; [exact H1|]. split; [exact H2|exists f; exact H3].
  - apply andb_true_iff in H as (H1 & H2). split; eexists; eassumption.
  - discriminate H.
Qed.
Lemma tests_again x c : match x with For _ _ | Do _ _ | Loop _ _ _ _ => True | _ => False end -> Tests (x :: c) -> Tests [x].
Proof.
  intros Hx (f & H). destruct f as [|f]; [discriminate H|]. exists (S f). cbn [tests] in *. apply andb_true_iff in H as (H & Hc).
  assert (Hn : tests f [] = true) by (destruct f; [discriminate Hc|reflexivity]). rewrite Hn, andb_true_r. destruct x; try (exfalso; exact Hx); exact H.
Qed.
Lemma tests_fun r start body : nth_error rule_functions r = Some (start, body) -> Tests body.
Proof. intros H. exists 40%nat. pose proof all_tests as G. rewrite forallb_forall in G. apply (G (start, body)). eapply nth_error_In. exact H. Qed.
Lemma tests_tested p c : Tests c -> Tested p c.
Proof. intros H. destruct c as [|x c]; [exact H|]. destruct x; try exact H. destruct (tests_cons _ _ H) as (_ & []). Qed.
Lemma answered k p l a L : 0 <= p <= 11 -> adaptive_predict 30 k p (kinds l ++ [-1]) = Some a -> level_is a L = true -> L >= p.
Proof.
  intros Hp HP HL. pose proof level_high_ok as G. unfold level_high in G. rewrite forallb_forall in G. specialize (G p (in_precs p Hp)). apply andb_true_iff in G as (_ & G).
  destruct (starts 30 p) as [cs|] eqn:Es; [|discriminate G]. rewrite forallb_forall in G. specialize (G _ (pla_tokens l)).
  assert (Ei : kinds l ++ [-1] = pla l :: tl (kinds l ++ [-1])) by (destruct l; reflexivity). rewrite Ei in HP.
  destruct (astep 30 p cs (pla l)) as [x|] eqn:Ex; [|discriminate G]. rewrite (predict_one _ _ _ _ _ _ _ Es Ex) in HP. destruct x as [i| |]; try discriminate HP. injection HP as ->.
  unfold level_is in HL. destruct (nth_error (tr A 451) (Z.to_nat (a - 1))) as [e|]; [|discriminate G]. destruct (op_alt e) as [(L', l')|]; [|discriminate G]. apply Z.eqb_eq in HL. subst L'. apply Z.geb_le in G. lia.
Qed.

Definition wording_ok (n : nat) (r : report) : Prop :=
  match r_kind r, r_detail r with
  | (Unwanted | Missing | Mismatch), Expecting l => l <> [] /\ Forall (fun t => nameable t = true) l
  | NoViableAlt, Since m => (r_left r <= m <= n)%nat
  | _, _ => False
  end.
Definition framed (k : stack) : Prop := Forall (fun e => match follow_state A (fst e) with Some q => names_some q = true | None => False end) k.
Lemma names_some_spec q : names_some q = true -> next_tokens A q <> [] /\ Forall (fun t => t = -2 \/ nameable t = true) (next_tokens A q).
Proof.
  unfold names_some. destruct (next_tokens A q) as [|t l]; [discriminate|]. intros H. split; [discriminate|]. rewrite forallb_forall in H. apply Forall_forall. intros x Hx. specialize (H x Hx). rewrite orb_true_iff, Z.eqb_eq in H. exact H.
Qed.
Lemma removed l : Forall (fun t => t = -2 \/ nameable t = true) l -> Forall (fun t => nameable t = true) (zremove (-2) l).
Proof. intros H. apply Forall_forall. intros t Ht. apply filter_In in Ht as (Ht & Hn). rewrite Forall_forall in H. destruct (H t Ht) as [->|G]; [discriminate Hn|exact G]. Qed.
Lemma kept_list l : zmem (-2) l = false -> Forall (fun t => t = -2 \/ nameable t = true) l -> Forall (fun t => nameable t = true) l.
Proof. intros Hz H. apply Forall_forall. intros t Ht. rewrite Forall_forall in H. destruct (H t Ht) as [->|G]; [|exact G]. exfalso. apply zmem_in in Ht. congruence. Qed.
Lemma expected_words k : framed k -> forall l e, l <> [] -> Forall (fun t => t = -2 \/ nameable t = true) l -> expected_around A k l = Some e -> e <> [] /\ Forall (fun t => nameable t = true) e.
Proof.
  induction 1 as [|(n, p) k Hn Hk IH]; intros l e Hl Hf He; cbn [expected_around] in He; destruct (zmem (-2) l) eqn:Hz.
  - injection He as <-. split; [discriminate|]. constructor; [reflexivity|apply removed; exact Hf].
  - injection He as <-. split; [exact Hl|apply kept_list; assumption].
  - cbn [fst] in Hn. destruct (follow_state A n) as [q|]; [|discriminate He]. destruct (names_some_spec q Hn) as (H1 & H2). destruct (expected_around A k (next_tokens A q)) as [e'|] eqn:Ee; [|discriminate He]. injection He as <-.
    destruct (IH _ _ H1 H2 Ee) as (G1 & G2). split; [intros E; apply app_eq_nil in E; tauto|]. apply Forall_app. split; [apply removed; exact Hf|exact G2].
  - injection He as <-. split; [exact Hl|apply kept_list; assumption].
Qed.
Section Run.
Local Notation P := adaptive_predict.
Local Notation P_at := predict_at.
Variable n : nat.
Definition fits (s : rst) : Prop := (length (toks s) <= n)%nat /\ (forall r, err s = Some r -> wording_ok n r) /\ Forall (wording_ok n) (reports s).
Definition out_fits (o : outcome) : Prop := match o with Next s | Exit s => fits s | _ => True end.
Lemma fits_seq o g : out_fits o -> (forall s, fits s -> out_fits (g s)) -> out_fits (seq_out o g). Proof. destruct o; cbn; auto. Qed.
Lemma fits_check s : fits s -> out_fits (check s). Proof. intros H. unfold check. destruct (err s); exact H. Qed.
Lemma fits_state q s : fits s -> fits (set_state q s). Proof. exact (fun H => H). Qed.
Lemma fits_match s : fits s -> fits (report_match s). Proof. exact (fun H => H). Qed.
Lemma fits_advance s : fits s -> fits (advance s).
Proof. intros (H & H2). split; [cbn; pose proof (tl_le (toks s)); lia|exact H2]. Qed.
Lemma fits_err r s : wording_ok n r -> fits s -> fits (set_err (Some r) s).
Proof. intros L (H & H1 & H2). split; [exact H|]. split; [|exact H2]. intros r' E. injection E as <-. exact L. Qed.
Lemma fits_noerr s : fits s -> fits (set_err None s).
Proof. intros (H & H1 & H2). split; [exact H|]. split; [|exact H2]. intros r E. discriminate E. Qed.
Lemma fits_tell r s : wording_ok n r -> fits s -> fits (tell r s).
Proof. intros L (H & H1 & H2). unfold tell. destruct (mode s); [split; auto|]. split; [exact H|]. split; [exact H1|]. apply Forall_app. auto. Qed.
Lemma fits_until set s : fits s -> fits (consume_until set s).
Proof. intros (H & H2). split; [cbn; pose proof (drop_le set (toks s)); lia|exact H2]. Qed.
Lemma fits_expected k s e : framed k -> names_some (cur s) = true -> expected D k (cur s) = Some e -> e <> [] /\ Forall (fun t => nameable t = true) e.
Proof. intros Hk Hn He. destruct (names_some_spec _ Hn) as (H1 & H2). eapply expected_words; eassumption. Qed.
Lemma fits_delete k s : framed k -> names_some (cur s) = true -> fits s -> match delete_one D k s with Some (Some s') => fits s' | _ => True end.
Proof.
  intros Hk Hn H. unfold delete_one. destruct (expected D k (cur s)) as [e|] eqn:Ee; [|exact I]. destruct (zmem (la2 s) e); [|exact I].
  apply fits_match, fits_advance, fits_tell; [|exact H]. eapply fits_expected; eassumption.
Qed.
Lemma fits_awaited k s kd : framed k -> names_some (cur s) = true -> delete_one D k s = Some None -> kd = Missing \/ kd = Mismatch -> wording_ok n (Report kd (here s) (awaited D k s)).
Proof.
  intros Hk Hn Hd Hkd. unfold delete_one in Hd. unfold awaited. destruct (expected D k (cur s)) as [e|] eqn:Ee; [|discriminate Hd]. pose proof (fits_expected k s e Hk Hn Ee) as G. destruct Hkd as [->| ->]; exact G.
Qed.
Lemma fits_inline k s : framed k -> names_some (cur s) = true -> fits s -> out_fits (recover_inline D k s).
Proof.
  intros Hk Hn H. unfold recover_inline. pose proof (fits_delete k s Hk Hn H) as G. destruct (delete_one D k s) as [[s'|]|] eqn:Ed; [apply fits_advance; exact G| |exact I].
  destruct (insertion D k (cur s)) as [l|]; [|exact I]. cbn [out_fits]. destruct (zmem (la1 s) l); [apply fits_tell; [apply fits_awaited; auto|exact H]|apply fits_err; [apply fits_awaited; auto|exact H]].
Qed.
Lemma fits_sync k s : framed k -> names_some (cur s) = true -> fits s -> out_fits (sync A D k s).
Proof.
  intros Hk Hn H. unfold sync. destruct (mode s || sync_ok A (cur s) (la1 s)); [exact H|]. match goal with |- context [if ?b then _ else _] => destruct b end.
  - pose proof (fits_delete k s Hk Hn H) as G. destruct (delete_one D k s) as [[s'|]|] eqn:Ed; [exact G| |exact I]. cbn [out_fits]. apply fits_err; [apply fits_awaited; auto|exact H].
  - destruct (expected D k (cur s)) as [e|] eqn:Ee; [|exact I]. destruct (recovery D k) as [r|]; [|exact I]. cbn [out_fits]; apply fits_until; apply fits_tell; [eapply fits_expected; eassumption|exact H].
Qed.
Lemma fits_exit k s : fits s -> match error_exit D k s with Some s' => fits s' | None => True end.
Proof.
  intros H. unfold error_exit. destruct (err s) as [r|] eqn:E; [|exact H]. assert (H' : fits (tell r s)) by (apply fits_tell; [exact (proj1 (proj2 H) r E)|exact H]). unfold recover.
  destruct (recovery D k) as [l|]; [|exact I]. apply fits_noerr, fits_until. destruct (is_last (tell r s) && zmem (cur (tell r s)) (lstates (tell r s))); [apply (fits_advance _ H')|exact H'].
Qed.
Lemma fits_leave k o g : out_fits o -> (forall s, fits s -> out_fits (g s)) -> out_fits (leave D k o g).
Proof. intros H Hg. destruct o as [s|s| |]; cbn [leave]; try exact I; pose proof (fits_exit k s H) as G; (destruct (error_exit D k s); [apply Hg; exact G|exact I]). Qed.
Lemma fits_noviable d p s : fits s -> fits (no_viable P_at d p s).
Proof. intros H. unfold no_viable. apply fits_err; [|exact H]. cbn. unfold here. destruct H as (H & _). lia. Qed.
Lemma fits_run : forall f k p b c s, framed k -> 0 <= p <= 11 -> Every worded false b c -> Tested p c -> fits s -> out_fits (rexec A rule_functions P P_at D f k p c s).
Proof.
  induction f as [|f IH]; intros k p b c s Hk Hp Hc Ht H; [exact I|]. destruct c as [|x c]; [exact H|]. pose proof Hc as Hall. rewrite rexec_cons. apply every_cons in Hc as (Hc & Hx).
  assert (Hc' : Tests c). { destruct x; try exact (proj1 (tests_cons _ _ Ht)). exact (proj2 Ht). }
  apply fits_seq; [|intros; eapply IH; try eassumption; apply tests_tested; exact Hc']. clear Hc.
  assert (TT : forall x, match x with For _ _ | Do _ _ | Loop _ _ _ _ => True | _ => False end -> Tested p (x :: c) -> Tested p [x]) by (intros y Hy Hty; apply tests_tested; eapply tests_again; [exact Hy|]; destruct y; try destruct Hy; exact Hty).
  destruct x as [q t|q c0|q r j|q|c0 b0|c0 b0|c0 b0|cases e|d cases|d e b0 r|q j]; cbn [rstmt]; try (pose proof (proj2 (tests_cons _ _ Ht)) as Hy; cbv iota beta in Hy).
  - cbv zeta. apply fits_seq; [|intros; apply fits_check; assumption]. destruct (_ =? _); [apply fits_advance, fits_match, fits_state; exact H|apply fits_inline; [exact Hk|exact Hx|exact H]].
  - cbv zeta. destruct (holds _ _); [apply fits_advance, fits_match, fits_state; exact H|apply fits_inline; [exact Hk|exact Hx|exact H]].
  - cbn [worded] in Hx. rewrite !andb_true_iff, !Z.leb_le in Hx. destruct Hx as ((Hx & Hj0) & Hj1).
    destruct (nth_error rule_functions (Z.to_nat r)) as [(st, body)|] eqn:Ef; [|exact I]. apply fits_leave.
    + eapply IH; [constructor; [cbn [fst]; destruct (follow_state A q); [exact Hx|discriminate Hx]|exact Hk]|lia|eapply all_every; [exact all_worded|exact Ef]|apply tests_tested; eapply tests_fun; exact Ef|exact H].
    + intros s' H'. destruct (r =? 50); exact H'.
  - apply fits_seq; [apply fits_sync; [exact Hk|exact Hx|exact H]|intros; apply fits_check; assumption].
  - destruct (holds _ _); [eapply IH; try eassumption; apply tests_tested; exact Hy|exact H].
  - destruct (holds _ _); [|exact H]. apply fits_seq; [eapply IH; try eassumption; apply tests_tested; exact Hy|]. intros s' Hs. apply (IH k p false); [exact Hk|exact Hp| |apply TT; [exact I|exact Ht]|exact Hs]. eapply every_again; [exact I|exact Hall].
  - apply fits_seq; [eapply IH; try eassumption; apply tests_tested; exact Hy|]. intros s' H'. destruct (holds _ _); [|exact H']. apply (IH k p false); [exact Hk|exact Hp| |apply TT; [exact I|exact Ht]|exact H']. eapply every_again; [exact I|exact Hall].
  - destruct (case_of _ _) as [b1|] eqn:Ec; [eapply IH; try eassumption; [eauto|apply tests_tested; eapply Hy; exact Ec]|]. destruct e; [apply fits_err; [|exact H]|exact H]. cbn. unfold here. destruct H as (H & _). lia.
  - destruct Hx as (_ & Hx). destruct (P d k p (rinput s)) as [a|] eqn:EP; [|apply fits_noviable; exact H]. cbv zeta. destruct (alt_of _ _) as [b1|] eqn:Ea; [|apply fits_noerr; exact H].
    eapply IH; try eassumption; [eauto| |apply fits_noerr; exact H]. specialize (Hy _ _ Ea). destruct b1 as [|[] b1]; try exact Hy. destruct Hy as (-> & HL & Hy). split; [|exact Hy]. eapply answered; [exact Hp|exact EP|exact HL].
  - destruct Hx as (_ & Hb & Hr & _). destruct Hy as (Hy1 & Hy2). destruct (P d k p (rinput s)) as [a|]; [|apply fits_noviable; exact H]. cbv zeta. pose proof (fits_noerr s H) as H'. destruct (a =? e); [exact H'|].
    apply fits_seq; [destruct (a =? 1); [eapply IH; try eassumption; apply tests_tested; exact Hy1|exact H']|].
    intros s1 H1. apply fits_seq; [eapply IH; try eassumption; apply tests_tested; exact Hy2|]. intros s2 H2. apply (IH k p true); [exact Hk|exact Hp| |apply TT; [exact I|exact Ht]|exact H2]. eapply every_again; [reflexivity|exact Hall].
  - cbv zeta. cbn [Tested] in Ht. replace (j >=? p) with true by (symmetry; apply Z.geb_le; lia). exact H.
Qed.
End Run.
Lemma reports_worded f ts rs : recovering_run A rule_functions adaptive_predict predict_at D f ts = Ended rs -> Forall (wording_ok (length ts)) rs.
Proof.
  unfold recovering_run. destruct rule_functions as [|(start, body) fs] eqn:E; [discriminate|]. rewrite <- E.
  assert (G : fits (length ts) (start_state start ts)). { split; [reflexivity|]. split; [discriminate|constructor]. }
  assert (Hb : Every worded false false body) by (apply (all_every worded false all_worded 0 start body); rewrite E; reflexivity).
  assert (Ht : Tests body) by (apply (tests_fun 0 start body); rewrite E; reflexivity).
  pose proof (fits_run (length ts) f [] 0 false body _ (Forall_nil _) ltac:(lia) Hb (tests_tested 0 _ Ht) G) as H. pose proof (fits_leave (length ts) [] _ Next H (fun s Hs => Hs)) as H'.
  destruct (leave D [] (rexec A rule_functions adaptive_predict predict_at D f [] 0 body (start_state start ts)) Next) as [s|s| |]; intros E'; try discriminate E'; injection E' as <-; apply H'.
Qed.
