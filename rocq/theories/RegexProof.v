(** Correctness of nullability and derivatives with respect to the inductive language. *)
From Verif Require Import Regex.
Local Open Scope N_scope.

Lemma matches_emp s : ~ matches Emp s.
Proof. intros H; inversion H. Qed.

Lemma matches_eps s : matches Eps s <-> s = [].
Proof. split; [intros H; inversion H; reflexivity|intros ->; constructor]. Qed.

Lemma matches_chr cs s : matches (Chr cs) s <-> exists c, s = [c] /\ cmem c cs = true.
Proof.
  split; [intros H; inversion H; subst; eauto|intros [c [-> H]]; constructor; exact H].
Qed.

Lemma matches_cat a b s : matches (Cat a b) s <-> exists u v, s = u ++ v /\ matches a u /\ matches b v.
Proof.
  split; [intros H; inversion H; subst; eauto|intros (u & v & -> & Hu & Hv); constructor; assumption].
Qed.

Lemma matches_alt a b s : matches (Alt a b) s <-> matches a s \/ matches b s.
Proof.
  split; [intros H; inversion H; subst; auto|intros [H|H]; [apply m_altl|apply m_altr]; exact H].
Qed.

Lemma cat_correct a b s : matches (cat a b) s <-> matches (Cat a b) s.
Proof.
  assert (HE : forall x, matches (Cat Emp x) s <-> False).
  { intros x; rewrite matches_cat; split; [intros (u & v & _ & H & _); inversion H|tauto]. }
  assert (HE' : forall x, matches (Cat x Emp) s <-> False).
  { intros x; rewrite matches_cat; split; [intros (u & v & _ & _ & H); inversion H|tauto]. }
  assert (H1 : forall x, matches (Cat Eps x) s <-> matches x s).
  { intros x; rewrite matches_cat; split.
    - intros (u & v & -> & Hu & Hv). apply matches_eps in Hu. subst u. exact Hv.
    - intros H; exists [], s; repeat split; [constructor|exact H]. }
  assert (H0 : matches Emp s <-> False) by (split; [apply matches_emp|tauto]).
  destruct a, b; cbn [cat]; rewrite ?HE, ?HE', ?H1, ?H0; tauto.
Qed.

Lemma alt_correct a b s : matches (alt a b) s <-> matches a s \/ matches b s.
Proof.
  assert (H0 : matches Emp s <-> False) by (split; [apply matches_emp|tauto]).
  destruct a, b; cbn [alt]; rewrite ?matches_alt, ?H0; tauto.
Qed.

Lemma nullable_correct r : nullable r = true <-> matches r [].
Proof.
  induction r as [| |cs|a IHa b IHb|a IHa b IHb|a IHa]; cbn [nullable].
  - split; [discriminate|intros H; inversion H].
  - split; [constructor|reflexivity].
  - split; [discriminate|intros H; inversion H].
  - rewrite andb_true_iff, IHa, IHb, matches_cat. split.
    + intros [Ha Hb]; exists [], []; auto.
    + intros (u & v & E & Hu & Hv). symmetry in E. apply app_eq_nil in E as [-> ->]. auto.
  - rewrite orb_true_iff, IHa, IHb, matches_alt. tauto.
  - split; [constructor|reflexivity].
Qed.

Lemma star_cons a c s :
  matches (Star a) (c :: s) <-> exists u v, s = u ++ v /\ matches a (c :: u) /\ matches (Star a) v.
Proof.
  split.
  - intros H. remember (Star a) as r eqn:Er. remember (c :: s) as w eqn:Ew.
    revert c s Ew. induction H as [|cs x Hx|r1 r2 u v H1 IH1 H2 IH2|r1 r2 u H1 IH1|r1 r2 u H1 IH1|r1|r1 u v H1 IH1 H2 IH2];
      intros c' s' Ew; try discriminate.
    injection Er as ->.
    destruct u as [|x u].
    + apply IH2; [reflexivity|exact Ew].
    + injection Ew as -> <-. exists u, v; auto.
  - intros (u & v & -> & Hu & Hv). change (c :: u ++ v) with ((c :: u) ++ v). apply m_star1; assumption.
Qed.

Lemma deriv_correct c r : forall s, matches (deriv c r) s <-> matches r (c :: s).
Proof.
  induction r as [| |cs|a IHa b IHb|a IHa b IHb|a IHa]; intros s; cbn [deriv].
  - split; intros H; inversion H.
  - split; intros H; inversion H.
  - destruct (cmem c cs) eqn:E.
    + rewrite matches_eps, matches_chr. split.
      * intros ->; eauto.
      * intros [x [H _]]; congruence.
    + split; intros H; inversion H; subst; congruence.
  - assert (HC : matches (Cat (deriv c a) b) s <-> exists u v, s = u ++ v /\ matches a (c :: u) /\ matches b v).
    { rewrite matches_cat. split; intros (u & v & E & H1 & H2); exists u, v; repeat split; auto; apply IHa; exact H1. }
    assert (HR : matches (Cat a b) (c :: s) <->
                 (exists u v, s = u ++ v /\ matches a (c :: u) /\ matches b v) \/ (matches a [] /\ matches b (c :: s))).
    { rewrite matches_cat. split.
      - intros (u & v & E & H1 & H2). destruct u as [|x u].
        + right. split; [exact H1|]. cbn in E. subst v. exact H2.
        + left. injection E as <- E. exists u, v; auto.
      - intros [(u & v & -> & H1 & H2)|[H1 H2]].
        + exists (c :: u), v; auto.
        + exists [], (c :: s); auto. }
    rewrite HR. destruct (nullable a) eqn:En.
    + rewrite alt_correct, cat_correct, HC, IHb.
      apply nullable_correct in En. tauto.
    + rewrite cat_correct, HC.
      assert (~ matches a []) by (rewrite <- nullable_correct; congruence). tauto.
  - rewrite alt_correct, IHa, IHb, matches_alt. tauto.
  - rewrite cat_correct, matches_cat, star_cons.
    split; intros (u & v & E & H1 & H2); exists u, v; repeat split; auto; apply IHa; exact H1.
Qed.

Lemma matches_word w s : matches (word w) s <-> s = w.
Proof.
  revert s; induction w as [|c w IH]; intros s; cbn [word].
  - apply matches_eps.
  - rewrite cat_correct, matches_cat. unfold ch. split.
    + intros (u & v & -> & Hu & Hv). apply matches_chr in Hu as (x & -> & Hx). apply IH in Hv. subst v.
      cbn in Hx. unfold in_range in Hx. cbn in Hx.
      rewrite orb_false_r, andb_true_iff, !N.leb_le in Hx. replace x with c by lia. reflexivity.
    + intros ->. exists [c], w. repeat split; [|apply IH; reflexivity].
      apply matches_chr. exists c. split; [reflexivity|]. cbn. unfold in_range; cbn.
      rewrite N.leb_refl. reflexivity.
Qed.

Lemma matches_ch c s : matches (ch c) s <-> s = [c].
Proof.
  rewrite <- (matches_word [c] s). cbn [word]. unfold cat, ch. rewrite matches_cat. split.
  - intros H; exists s, []; rewrite app_nil_r; repeat split; [exact H|constructor].
  - intros (u & v & -> & H & Hv). apply matches_eps in Hv. subst v. rewrite app_nil_r. exact H.
Qed.

Lemma matches_star_chr cs s : matches (Star (Chr cs)) s <-> Forall (fun c => cmem c cs = true) s.
Proof.
  induction s as [|c s IH].
  - split; constructor.
  - rewrite star_cons. split.
    + intros (u & v & -> & H1 & H2). apply matches_chr in H1 as (x & E & Hx). injection E as -> ->.
      constructor; [exact Hx|]. apply IH. exact H2.
    + intros H. inversion H as [|x l Hx Hl]; subst. exists [], s. repeat split; [|apply IH; exact Hl].
      apply matches_chr; eauto.
Qed.

Lemma matches_plus_chr cs s : matches (plus (Chr cs)) s <-> s <> [] /\ Forall (fun c => cmem c cs = true) s.
Proof.
  unfold plus. rewrite matches_cat. split.
  - intros (u & v & -> & Hu & Hv). apply matches_chr in Hu as (x & -> & Hx). apply matches_star_chr in Hv.
    split; [discriminate|constructor; assumption].
  - intros [Hn H]. destruct s as [|x l]; [congruence|]. inversion H as [|x' l' Hx Hl]; subst.
    exists [x], l. repeat split; [apply matches_chr; eauto|apply matches_star_chr; exact Hl].
Qed.
