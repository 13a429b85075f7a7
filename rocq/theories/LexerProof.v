(** The lexer of Lexer.v computes exactly the tokens specified in LexSpec.v. *)
From Verif Require Import Regex RegexProof LexRules LexSpec LexShape Lexer.
From Coq Require Import Sorting.Sorted.

Definition ltt (p q : tt * re) : Prop := (tt_num (fst p) < tt_num (fst q))%nat.

(** [rs] is what is left of the rules after reading [w]. *)
Definition Res (w : str) (rs : list (tt * re)) : Prop :=
  StronglySorted ltt rs /\
  forall k u, (exists r, In (k, r) rs /\ matches r u) <-> token_shape k (w ++ u).

Lemma all_tt_complete t : In t all_tt.
Proof. eapply nth_error_In. apply tt_num_nth. Qed.

Lemma Res_init : Res [] lex_rules.
Proof.
  split.
  - unfold lex_rules, all_tt. cbn [map]. unfold rule_of. 
    repeat (apply SSorted_cons || apply SSorted_nil || apply Forall_cons || apply Forall_nil); unfold ltt; cbn [fst tt_num]; lia.
  - intros k u. cbn [app]. rewrite <- rule_shape. unfold lex_rules. split.
    + intros (r & Hin & Hm). apply in_map_iff in Hin as (t & E & _). injection E as -> <-. exact Hm.
    + intros Hm. exists (rule_of k). split; [|exact Hm]. apply in_map_iff. exists k. split; [reflexivity|apply all_tt_complete].
Qed.

Lemma SS_map_filter (f : tt * re -> tt * re) (p : tt * re -> bool) l :
  (forall x, fst (f x) = fst x) -> StronglySorted ltt l -> StronglySorted ltt (filter p (map f l)).
Proof.
  intros Hf. induction l as [|x l IH]; intros H; cbn [map filter]; [constructor|].
  inversion H as [|y l' Hs Hall]; subst.
  assert (HF : Forall (ltt (f x)) (filter p (map f l))).
  { apply Forall_forall. intros y Hy. apply filter_In in Hy as [Hy _]. apply in_map_iff in Hy as (z & <- & Hz).
    rewrite Forall_forall in Hall. specialize (Hall z Hz). unfold ltt in *. rewrite !Hf. exact Hall. }
  destruct (p (f x)); [constructor|]; auto.
Qed.

Lemma Res_step w c rs : Res w rs -> Res (w ++ [c]) (step c rs).
Proof.
  intros [Hs HR]. split.
  - apply SS_map_filter; [reflexivity|exact Hs].
  - intros k u. rewrite <- app_assoc. cbn [app]. rewrite <- HR. unfold step. split.
    + intros (r & Hin & Hm). apply filter_In in Hin as [Hin _]. apply in_map_iff in Hin as ([k' r'] & E & Hin).
      cbn in E. injection E as -> <-. exists r'. split; [exact Hin|]. apply deriv_correct. exact Hm.
    + intros (r & Hin & Hm). exists (deriv c r). apply deriv_correct in Hm. split; [|exact Hm].
      apply filter_In. split.
      * apply in_map_iff. exists (k, r). auto.
      * cbn. destruct (deriv c r); try reflexivity. inversion Hm.
Qed.

Definition firstk (k : tt) (w : str) : Prop :=
  token_shape k w /\ forall k', token_shape k' w -> (tt_num k <= tt_num k')%nat.

Lemma first_nullable_some w rs k : Res w rs -> first_nullable rs = Some k -> firstk k w.
Proof.
  intros [Hs HR]. unfold first_nullable. destruct (find _ rs) as [p|] eqn:E; [|discriminate].
  intros H. injection H as <-.
  assert (HI : In p rs /\ nullable (snd p) = true) by (apply find_some in E; exact E).
  destruct HI as [Hin Hn]. destruct p as [k r]. cbn in *. apply nullable_correct in Hn. split.
  - rewrite <- (app_nil_r w). apply HR. eauto.
  - intros k' Hk'. rewrite <- (app_nil_r w) in Hk'. apply HR in Hk' as (r' & Hin' & Hm').
    apply nullable_correct in Hm'. clear HR Hn.
    induction Hs as [|x l Hsl IH HF]; [discriminate|]. cbn [find] in E.
    destruct (nullable (snd x)) eqn:Ex.
    + injection E as ->. destruct Hin' as [Hx|Hin']; [injection Hx as <- <-; lia|].
      rewrite Forall_forall in HF. specialize (HF _ Hin'). unfold ltt in HF. cbn in HF. lia.
    + destruct Hin' as [->|Hin']; [cbn in Ex; congruence|].
      destruct Hin as [->|Hin].
      * apply find_some in E. cbn in *. destruct E as [_ E]. congruence.
      * auto.
Qed.

Lemma first_nullable_none w rs k : Res w rs -> first_nullable rs = None -> ~ token_shape k w.
Proof.
  intros [_ HR]. unfold first_nullable. destruct (find _ rs) as [p|] eqn:E; [discriminate|]. intros _ Hk.
  rewrite <- (app_nil_r w) in Hk. apply HR in Hk as (r & Hin & Hm). apply nullable_correct in Hm.
  pose proof (find_none _ _ E _ Hin) as H. cbn in H. congruence.
Qed.

Lemma munch_cases s : forall w rs best, Res w rs ->
  (exists v r k, s = v ++ r /\ firstk k (w ++ v)
     /\ (forall k' v' r', s = v' ++ r' -> token_shape k' (w ++ v') -> (length v' <= length v)%nat)
     /\ munch rs s (length w) best = Some (k, length (w ++ v)))
  \/ ((forall k' v' r', s = v' ++ r' -> ~ token_shape k' (w ++ v')) /\ munch rs s (length w) best = best).
Proof.
  induction s as [|c s IH]; intros w rs best HR.
  - cbn [munch]. destruct (first_nullable rs) as [k|] eqn:E.
    + left. exists [], [], k. rewrite !app_nil_r. split; [reflexivity|]. split; [|split; [|reflexivity]].
      * apply (first_nullable_some w rs); assumption.
      * intros k' v' r' H _. symmetry in H. apply app_eq_nil in H as [-> _]. cbn; lia.
    + right. split; [|reflexivity]. intros k' v' r' H. symmetry in H. apply app_eq_nil in H as [-> _].
      rewrite app_nil_r. eapply first_nullable_none; eauto.
  - cbn [munch].
    set (best' := match first_nullable rs with Some k => Some (k, length w) | None => best end).
    assert (Hrest : (forall k' v' r', s = v' ++ r' -> ~ token_shape k' (w ++ c :: v')) ->
       (exists v r k, c :: s = v ++ r /\ firstk k (w ++ v)
          /\ (forall k' v' r', c :: s = v' ++ r' -> token_shape k' (w ++ v') -> (length v' <= length v)%nat)
          /\ best' = Some (k, length (w ++ v)))
       \/ ((forall k' v' r', c :: s = v' ++ r' -> ~ token_shape k' (w ++ v')) /\ best' = best)).
    { intros Hno. unfold best'. destruct (first_nullable rs) as [k|] eqn:E.
      - left. exists [], (c :: s), k. rewrite !app_nil_r. split; [reflexivity|]. split; [|split; [|reflexivity]].
        + apply (first_nullable_some w rs); assumption.
        + intros k' v' r' H Hk. destruct v' as [|x v']; [cbn; lia|]. injection H as <- H.
          exfalso. exact (Hno _ _ _ H Hk).
      - right. split; [|reflexivity]. intros k' v' r' H. destruct v' as [|x v'].
        + rewrite app_nil_r. eapply first_nullable_none; eauto.
        + injection H as <- H. eauto. }
    pose proof (Res_step w c rs HR) as HR'.
    destruct (step c rs) as [|p rs'] eqn:Es.
    + apply Hrest. intros k' v' r' _ Hk. destruct HR' as [_ HR'].
      replace (w ++ c :: v') with ((w ++ [c]) ++ v') in Hk by (rewrite <- app_assoc; reflexivity).
      apply HR' in Hk as (r & [] & _).
    + replace (S (length w)) with (length (w ++ [c])) by (rewrite app_length; cbn; lia).
      destruct (IH (w ++ [c]) (p :: rs') best' HR') as [(v & r & k & -> & Hf & Hmax & Heq)|[Hno Heq]].
      * left. exists (c :: v), r, k. rewrite <- app_assoc in Hf, Heq. cbn [app] in Hf, Heq.
        split; [reflexivity|]. split; [exact Hf|]. split; [|exact Heq].
        intros k' v' r' H Hk. destruct v' as [|x v']; [cbn; lia|]. injection H as <- H.
        cbn. apply le_n_S. eapply Hmax; [exact H|]. rewrite <- app_assoc. exact Hk.
      * rewrite Heq. apply Hrest. intros k' v' r' H Hk. apply (Hno k' _ _ H). rewrite <- app_assoc. exact Hk.
Qed.

Lemma next_token_spec s t rest :
  first_token s t rest <-> next_token s = Some (ty t, length (tx t)) /\ s = tx t ++ rest.
Proof.
  unfold next_token. destruct (munch_cases s [] lex_rules None Res_init) as [(v & r & k & Hs & Hf & Hmax & Heq)|[Hno Heq]];
    cbn [length app] in *; rewrite Heq; clear Heq.
  - split.
    + intros (E & Hne & Hsh & Hl & Hk).
      assert (length (tx t) = length v) as Hlen.
      { apply Nat.le_antisymm; [eapply Hmax; eauto|]. eapply Hl; [exact Hs|apply Hf]. }
      assert (tx t = v) as Ev.
      { rewrite E in Hs. rewrite <- (firstn_app_l (tx t) rest), Hs, Hlen. apply firstn_app_l. }
      split; [|exact E]. rewrite Hlen. f_equal. f_equal.
      assert (tt_num k = tt_num (ty t)) as Hn.
      { apply Nat.le_antisymm.
        - apply Hf. rewrite <- Ev. exact Hsh.
        - apply Hk. rewrite Ev. apply Hf. }
      apply tt_eqb_eq. unfold tt_eqb. apply Nat.eqb_eq. exact Hn.
    + intros [H E]. injection H as Hk Hlen.
      assert (tx t = v) as Ev.
      { rewrite E in Hs. rewrite <- (firstn_app_l (tx t) rest), Hs, <- Hlen. apply firstn_app_l. }
      unfold first_token. rewrite Ev, <- Hk in *. destruct Hf as [Hf1 Hf2].
      split; [exact E|]. split; [eapply shape_nonempty; exact Hf1|]. split; [exact Hf1|]. split; [|exact Hf2].
      intros k' u r' Hu Hk'. eapply Hmax; eauto.
  - split; [|intros [H _]; discriminate].
    intros (E & Hne & Hsh & _). exfalso. exact (Hno _ _ _ E Hsh).
Qed.

Lemma next_token_none s : next_token s = None <-> forall k u r, s = u ++ r -> ~ token_shape k u.
Proof.
  unfold next_token. destruct (munch_cases s [] lex_rules None Res_init) as [(v & r & k & Hs & Hf & Hmax & Heq)|[Hno Heq]];
    cbn [length app] in *; rewrite Heq; clear Heq; split; auto; try discriminate.
  intros H. exfalso. exact (H _ _ _ Hs (proj1 Hf)).
Qed.

Lemma next_token_some s k n : next_token s = Some (k, n) ->
  exists u rest, s = u ++ rest /\ length u = n /\ (n <> 0)%nat /\ first_token s (Tok k u) rest.
Proof.
  intros H. pose proof H as H0. unfold next_token in H.
  destruct (munch_cases s [] lex_rules None Res_init) as [(v & r & k' & Hs & Hf & Hmax & Heq)|[Hno Heq]];
    cbn [length app] in *; rewrite H in Heq; [|discriminate]. injection Heq as -> ->.
  exists v, r. destruct Hf as [Hf1 Hf2]. split; [exact Hs|]. split; [reflexivity|]. split.
  - intros Hn. apply length_zero_iff_nil in Hn. subst v. exact (shape_nonempty _ _ Hf1 eq_refl).
  - unfold first_token; cbn [ty tx].
    split; [exact Hs|]. split; [eapply shape_nonempty; exact Hf1|]. split; [exact Hf1|]. split; [|exact Hf2].
    intros k'' u r' Hu Hk. eapply Hmax; eauto.
Qed.

Lemma lex_fuel_spec fuel s : (length s <= fuel)%nat -> forall ts, lex_fuel fuel s = Some ts <-> tokens_of s ts.
Proof.
  revert s. induction fuel as [|f IH]; intros s Hlen ts.
  - destruct s; [|cbn in Hlen; lia]. cbn [lex_fuel]. split.
    + intros H; injection H as <-; constructor.
    + intros H; inversion H as [|s t rest ts' Hf Hts]; subst; [reflexivity|].
      destruct Hf as (E & Hne & _). symmetry in E. apply app_eq_nil in E as [E _]. congruence.
  - destruct s as [|c s].
    + cbn [lex_fuel]. split.
      * intros H; injection H as <-; constructor.
      * intros H; inversion H as [|s t rest ts' Hf Hts]; subst; [reflexivity|].
        destruct Hf as (E & Hne & _). symmetry in E. apply app_eq_nil in E as [E _]. congruence.
    + cbn [lex_fuel]. remember (c :: s) as w eqn:Ew.
      destruct (next_token w) as [[k n]|] eqn:En.
      * pose proof (next_token_some _ _ _ En) as (u & rest & E & Hu & Hn & Hf).
        destruct n as [|n]; [congruence|].
        assert (Hsk : skipn (S n) w = rest) by (rewrite E, <- Hu; apply skipn_app_l).
        assert (Hfi : firstn (S n) w = u) by (rewrite E, <- Hu; apply firstn_app_l).
        rewrite Hsk, Hfi.
        assert (Hr : (length rest <= f)%nat).
        { apply (f_equal (@length N)) in E. rewrite app_length in E. lia. }
        split.
        -- destruct (lex_fuel f rest) as [ts'|] eqn:El; [|discriminate]. intros H; injection H as <-.
           econstructor; [exact Hf|]. apply IH; auto.
        -- intros H. inversion H as [Hw|s' t rest' ts' Hf' Hts E1 E2]; [congruence|]. subst s' ts.
           apply next_token_spec in Hf'. destruct Hf' as [H1 H2]. rewrite En in H1. injection H1 as Hk Hl.
           assert (tx t = u) as Ht.
           { rewrite E in H2. rewrite <- (firstn_app_l (tx t) rest'), <- H2, <- Hl, <- Hu. apply firstn_app_l. }
           rewrite Ht, E in H2. apply app_inv_head in H2. subst rest'.
           apply (IH _ Hr) in Hts. rewrite Hts. destruct t as [t0 x0]. cbn in Hk, Ht. subst t0 x0. reflexivity.
      * split; [discriminate|]. intros H. inversion H as [Hw|s' t rest' ts' Hf' Hts]; subst; [congruence|].
        apply next_token_spec in Hf'. destruct Hf' as [H1 _]. congruence.
Qed.

Theorem lex_spec s ts : lex s = Some ts <-> tokens_of s ts.
Proof. apply lex_fuel_spec. lia. Qed.

Lemma hidden_layout t : hidden t = is_layout t.
Proof. destruct t; reflexivity. Qed.

Lemma visible_drop ts : visible ts = drop_layout ts.
Proof. unfold visible, drop_layout. apply filter_ext. intros t. rewrite hidden_layout. reflexivity. Qed.

Theorem tokenize_spec s vs : tokenize s = Some vs <-> exists ts, tokens_of s ts /\ vs = drop_layout ts.
Proof.
  unfold tokenize. destruct (lex s) as [ts|] eqn:E.
  - apply lex_spec in E. split.
    + intros H; injection H as <-. exists ts. split; [exact E|apply visible_drop].
    + intros (ts' & H & ->). apply lex_spec in E. apply lex_spec in H. rewrite E in H. injection H as ->.
      rewrite visible_drop. reflexivity.
  - split; [discriminate|]. intros (ts' & H & _). apply lex_spec in H. congruence.
Qed.

Lemma tokens_of_concat s ts : tokens_of s ts -> s = concat (map tx ts).
Proof.
  induction 1 as [|s t rest ts Hf Hts IH]; [reflexivity|]. cbn. rewrite <- IH. apply Hf.
Qed.

Lemma tokens_of_shape s ts : tokens_of s ts -> Forall (fun t => token_shape (ty t) (tx t)) ts.
Proof. induction 1 as [|s t rest ts Hf Hts IH]; constructor; auto. apply Hf. Qed.

Lemma tokens_of_prio s ts : tokens_of s ts ->
  Forall (fun t => forall k, token_shape k (tx t) -> (tt_num (ty t) <= tt_num k)%nat) ts.
Proof. induction 1 as [|s t rest ts Hf Hts IH]; constructor; auto. apply Hf. Qed.

Lemma tokens_of_fun s ts ts' : tokens_of s ts -> tokens_of s ts' -> ts = ts'.
Proof. intros H1 H2. apply lex_spec in H1. apply lex_spec in H2. congruence. Qed.

(** [lex] fails exactly where some position reached by whole tokens matches no rule. *)
Lemma lex_none s : lex s = None <->
  exists ts rest, s = concat (map tx ts) ++ rest /\ rest <> [] /\
    (forall k u r, rest = u ++ r -> ~ token_shape k u) /\
    (forall ts1 t ts2, ts = ts1 ++ t :: ts2 ->
       first_token (concat (map tx (t :: ts2)) ++ rest) t (concat (map tx ts2) ++ rest)).
Proof.
  split.
  - remember (length s) as n eqn:En. revert s En. induction n as [n IH] using lt_wf_ind. intros s En H.
    destruct s as [|c s0]; [discriminate|]. remember (c :: s0) as s eqn:Es.
    destruct (next_token s) as [[k m]|] eqn:E.
    + apply next_token_some in E as (u & rest & -> & Hu & Hm & Hf).
      assert (Hn : lex rest = None).
      { destruct (lex rest) as [ts|] eqn:El; [|reflexivity]. apply lex_spec in El.
        assert (lex (u ++ rest) = Some (Tok k u :: ts)) as H' by (apply lex_spec; econstructor; eauto). congruence. }
      destruct (IH (length rest)) with (s := rest) as (ts & r & -> & Hr & Hno & Hts); auto.
      { subst n. rewrite app_length. lia. }
      exists (Tok k u :: ts), r. split; [|split; [exact Hr|split; [exact Hno|]]].
      * cbn. rewrite app_assoc. reflexivity.
      * intros [|t1 ts1] t ts2 Heq; injection Heq as <- Heq.
        -- subst ts2. cbn [map concat]. cbn [tx]. rewrite <- app_assoc. exact Hf.
        -- eapply Hts; eauto.
    + exists [], s. cbn. split; [reflexivity|split; [subst; discriminate|split]].
      * apply next_token_none. exact E.
      * intros ts1 t0 ts2 Heq. destruct ts1; discriminate.
  - intros (ts & rest & -> & Hr & Hno & Hts). induction ts as [|t ts IH].
    + cbn [map concat app]. destruct (lex rest) as [ts|] eqn:E; [|reflexivity]. apply lex_spec in E.
      inversion E as [E1|s t r ts' Hf _]; subst; [congruence|]. exfalso.
      destruct Hf as (E1 & _ & Hs & _). exact (Hno _ _ _ E1 Hs).
    + cbn [map concat]. rewrite <- app_assoc. destruct (lex (tx t ++ concat (map tx ts) ++ rest)) as [ts'|] eqn:E; [|reflexivity]. exfalso.
      assert (Hn : lex (concat (map tx ts) ++ rest) = None).
      { apply IH. intros ts1 t' ts2 ->. eapply (Hts (t :: ts1)). reflexivity. }
      pose proof (Hts [] t ts eq_refl) as Hf. cbn [map concat] in Hf. rewrite <- app_assoc in Hf.
      apply lex_spec in E. inversion E as [E1|s t' r ts'' Hf' Hts' E1 E2].
      * symmetry in E1. apply app_eq_nil in E1 as [E1 _]. destruct Hf as (_ & Hne & _). congruence.
      * subst. apply next_token_spec in Hf. apply next_token_spec in Hf'.
        destruct Hf as [Hf _], Hf' as [Hf' E1]. rewrite Hf in Hf'. injection Hf' as Hk Hl.
        assert (tx t = tx t').
        { rewrite <- (firstn_app_l (tx t) (concat (map tx ts) ++ rest)), E1, Hl. apply firstn_app_l. }
        rewrite H in E1. apply app_inv_head in E1. subst r. apply lex_spec in Hts'. congruence.
Qed.
