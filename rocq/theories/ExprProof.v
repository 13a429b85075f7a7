(** The expression recogniser accepts exactly the expressions of the grammar. *)
From Verif Require Import Cst Parser.

Lemma der_nothing ts : derives Nothing ts <-> ts = [].
Proof. split; [intros H; inversion H; reflexivity|intros ->; constructor]. Qed.
Lemma der_t t ts : derives (T t) ts <-> exists x, ts = [x] /\ ty x = t.
Proof. split; [intros H; inversion H; subst; eauto|intros (x & -> & H); constructor; exact H]. Qed.
Lemma der_r n ts : derives (R n) ts <-> derives (rule n) ts.
Proof. split; [intros H; inversion H; assumption|intros H; constructor; exact H]. Qed.
Lemma der_seq a b ts : derives (Seq a b) ts <-> exists u v, ts = u ++ v /\ derives a u /\ derives b v.
Proof. split; [intros H; inversion H; subst; eauto|intros (u & v & -> & H1 & H2); constructor; assumption]. Qed.
Lemma der_or a b ts : derives (Or a b) ts <-> derives a ts \/ derives b ts.
Proof. split; [intros H; inversion H; subst; auto|intros [H|H]; [apply d_or1|apply d_or2]; exact H]. Qed.
Lemma der_opt a ts : derives (Opt a) ts <-> derives a ts \/ ts = [].
Proof. unfold Opt. rewrite der_or, der_nothing. reflexivity. Qed.
Lemma der_many a ts : derives (Many a) ts <-> exists l, ts = concat l /\ Forall (derives a) l.
Proof.
  split.
  - intros H. remember (Many a) as e eqn:Ee. revert a Ee.
    induction H as [|t x Hx|n us Hr IHr|a b u v H1 IH1 H2 IH2|a b u H1 IH1|a b u H1 IH1|a|a u v H1 IH1 H2 IH2];
      intros a' E; try discriminate.
    + exists []; split; [reflexivity|constructor].
    + injection E as <-. destruct (IH2 a eq_refl) as (l & -> & Hl). exists (u :: l). split; [reflexivity|]. constructor; assumption.
  - intros (l & -> & Hl). induction Hl as [|u l Hu Hl IH]; [constructor|]. cbn. constructor; assumption.
Qed.
Lemma der_many_app a u v : derives (Many a) u -> derives (Many a) v -> derives (Many a) (u ++ v).
Proof.
  rewrite !der_many. intros (l & -> & Hl) (k & -> & Hk). exists (l ++ k). split; [symmetry; apply concat_app|].
  apply Forall_app; auto.
Qed.
Lemma der_one_of l ts : l <> [] -> (derives (one_of l) ts <-> exists x, ts = [x] /\ tmem (ty x) l = true).
Proof.
  induction l as [|t l IH]; intros Hn; [congruence|].
  destruct l as [|t' l].
  - cbn [one_of]. rewrite der_t. unfold tmem; cbn [existsb]. split; intros (x & -> & H); exists x; split; auto.
    + rewrite orb_false_r. apply tt_eqb_eq; exact H.
    + rewrite orb_false_r in H. apply tt_eqb_eq; exact H.
  - change (one_of (t :: t' :: l)) with (Or (T t) (one_of (t' :: l))). rewrite der_or, IH by discriminate.
    rewrite der_t. split.
    + intros [(x & -> & H)|(x & -> & H)]; exists x; split; auto.
      * cbn. apply orb_true_iff; left. apply tt_eqb_eq; exact H.
      * unfold tmem in *. cbn [existsb] in *. rewrite H. apply orb_true_r.
    + intros (x & -> & H). unfold tmem in H. cbn [existsb] in H. apply orb_true_iff in H as [H|H].
      * left. exists x; split; auto. apply tt_eqb_eq; exact H.
      * right. exists x; split; auto.
Qed.

Definition binops : list tt :=
  [PIPE2; STAR; DIV; MOD; PLUS; MINUS; LT2; GT2; AMP; PIPE; LT; LT_EQ; GT; GT_EQ;
   ASSIGN; EQ; SQL_NOT_EQ1; SQL_NOT_EQ2; AND_; OR_].

Definition E (ts : list tok) : Prop := derives (R fn_arg_expr) ts.
Definition Ops (ts : list tok) : Prop := derives (Many (Seq (one_of binops) (R fn_arg_expr))) ts.
Definition Args (ts : list tok) : Prop := derives (Seq (R fn_arg_expr) (Many (Seq (T COMMA) (R fn_arg_expr)))) ts.

Inductive Prim : list tok -> Prop :=
| pr_atom x : tmem (ty x) [UNSIGNED_NUMBER_LITERAL; STRING_LITERAL; PARAM_OR_VAR; BLOCK_VAR_OR_ANNOTATION] = true -> Prim [x]
| pr_paren x e z : ty x = L_PAREN -> E e -> ty z = R_PAREN -> Prim (x :: e ++ [z])
| pr_un x e : tmem (ty x) [PLUS; MINUS; TILDE] = true -> E e -> Prim (x :: e)
| pr_not x e : ty x = NOT_ -> E e -> Prim (x :: e)
| pr_fn0 x y z : ty x = IDENTIFIER -> ty y = L_PAREN -> ty z = R_PAREN -> Prim [x; y; z]
| pr_fns x y s z : ty x = IDENTIFIER -> ty y = L_PAREN -> ty s = STAR -> ty z = R_PAREN -> Prim [x; y; s; z]
| pr_fn x y a z : ty x = IDENTIFIER -> ty y = L_PAREN -> Args a -> ty z = R_PAREN -> Prim (x :: y :: a ++ [z]).

Ltac dder :=
  repeat match goal with
  | H : derives (Seq _ _) _ |- _ => apply der_seq in H as (? & ? & ? & ? & ?)
  | H : derives (Or _ _) _ |- _ => apply der_or in H
  | H : derives (T _) _ |- _ => apply der_t in H as (? & ? & ?)
  | H : derives (Opt _) _ |- _ => apply der_opt in H
  | H : derives (one_of _) _ |- _ => apply der_one_of in H; [|discriminate]; destruct H as (? & ? & ?)
  | H : derives Nothing _ |- _ => apply der_nothing in H
  | H : _ \/ _ |- _ => destruct H as [H|H]
  end.

Lemma E_inv c : E c <-> exists p o, c = p ++ o /\ Prim p /\ Ops o.
Proof.
  unfold E. rewrite der_r. cbn [rule]. fold binops. rewrite der_seq. split.
  - intros (p & o & -> & Hp & Ho). exists p, o. split; [reflexivity|]. split; [|exact Ho].
    dder.
    + apply der_r in Hp. cbn [rule] in Hp. dder. subst. apply pr_atom.
      unfold tmem in *; cbn [existsb] in *. rewrite ?orb_false_r in *. apply orb_true_iff in H0 as [H0|H0]; rewrite H0; rewrite ?orb_true_r; reflexivity.
    + apply der_r in Hp. cbn [rule] in Hp. dder. subst. apply pr_atom. rewrite H0. reflexivity.
    + apply der_r in Hp. cbn [rule] in Hp. dder. subst. apply pr_atom. rewrite H0. reflexivity.
    + subst. cbn [app]. apply pr_paren; auto.
    + subst. cbn [app]. apply pr_un; auto.
    + subst. cbn [app]. apply pr_not; auto.
    + match goal with H : derives (R sfn_name) _ |- _ => apply der_r in H; cbn [rule] in H end.
      dder; subst; cbn [app]. apply pr_fn; auto. unfold Args. apply der_seq. eauto.
    + match goal with H : derives (R sfn_name) _ |- _ => apply der_r in H; cbn [rule] in H end.
      dder; subst; cbn [app]. apply pr_fns; auto.
    + match goal with H : derives (R sfn_name) _ |- _ => apply der_r in H; cbn [rule] in H end.
      dder; subst; cbn [app]. apply pr_fn0; auto.
  - intros (p & o & -> & Hp & Ho). exists p, o. split; [reflexivity|]. split; [|exact Ho].
    assert (HT : forall t x, ty x = t -> derives (T t) [x]) by (intros; constructor; assumption).
    destruct Hp as [x Hx|x e z Hx He Hz|x e Hx He|x e Hx He|x y z Hx Hy Hz|x y s z Hx Hy Hs Hz|x y a z Hx Hy Ha Hz].
    + unfold tmem in Hx; cbn [existsb] in Hx. rewrite orb_false_r in Hx. rewrite !orb_true_iff in Hx.
      destruct Hx as [Hx|[Hx|[Hx|Hx]]]; apply tt_eqb_eq in Hx.
      * apply d_or1. constructor. cbn. apply d_or1. auto.
      * apply d_or1. constructor. cbn. apply d_or2. auto.
      * apply d_or2, d_or1. constructor. cbn. auto.
      * apply d_or2, d_or2, d_or1. constructor. cbn. auto.
    + apply d_or2, d_or2, d_or2, d_or1. change (x :: e ++ [z]) with ([x] ++ e ++ [z]).
      constructor; [auto|]. constructor; [exact He|auto].
    + apply d_or2, d_or2, d_or2, d_or2, d_or1. change (x :: e) with ([x] ++ e). constructor; [|exact He].
      apply der_one_of; [discriminate|]. eauto.
    + apply d_or2, d_or2, d_or2, d_or2, d_or2, d_or1. change (x :: e) with ([x] ++ e). constructor; [|exact He]. auto.
    + do 6 apply d_or2. change [x; y; z] with ([x] ++ [y] ++ [] ++ [z]).
      constructor; [constructor; cbn; auto|]. constructor; [auto|]. constructor; [|auto]. apply der_opt; auto.
    + do 6 apply d_or2. change [x; y; s; z] with ([x] ++ [y] ++ [s] ++ [z]).
      constructor; [constructor; cbn; auto|]. constructor; [auto|]. constructor; [|auto]. apply der_opt; left. apply d_or2; auto.
    + do 6 apply d_or2. change (x :: y :: a ++ [z]) with ([x] ++ [y] ++ a ++ [z]).
      constructor; [constructor; cbn; auto|]. constructor; [auto|]. constructor; [|auto]. apply der_opt; left. apply d_or1; exact Ha.
Qed.

Lemma Ops_nil : Ops [].
Proof. constructor. Qed.

Lemma Ops_cons x e o : tmem (ty x) binops = true -> E e -> Ops o -> Ops (x :: e ++ o).
Proof.
  intros Hx He Ho. unfold Ops. change (x :: e ++ o) with ([x] ++ e ++ o). rewrite app_assoc.
  apply d_many1; [|exact Ho]. constructor; [|exact He]. apply der_one_of; [discriminate|]. eauto.
Qed.

Lemma Ops_inv o : Ops o -> o = [] \/ exists x e o', o = x :: e ++ o' /\ tmem (ty x) binops = true /\ E e /\ Ops o'.
Proof.
  unfold Ops. intros H. apply der_many in H as (l & -> & Hl). destruct Hl as [|u l Hu Hl]; [left; reflexivity|].
  right. apply der_seq in Hu as (a & e & -> & Ha & He). apply der_one_of in Ha; [|discriminate]. destruct Ha as (x & -> & Hx).
  exists x, e, (concat l). cbn [app concat]. split; [reflexivity|]. split; [exact Hx|]. split; [exact He|].
  apply der_many. eauto.
Qed.

Lemma E_ops e o : E e -> Ops o -> E (e ++ o).
Proof.
  intros He Ho. apply E_inv in He as (p & q & -> & Hp & Hq). apply E_inv. exists p, (q ++ o).
  rewrite app_assoc. repeat split; auto. apply der_many_app; assumption.
Qed.

Lemma bin_prec_mem t q r : bin_prec t = Some (q, r) -> tmem t binops = true.
Proof. destruct t; cbn; intros H; try discriminate; reflexivity. Qed.

Lemma bin_prec_some t : tmem t binops = true -> exists q r, bin_prec t = Some (q, r) /\ (0 < q)%nat.
Proof. destruct t; cbn; intros H; try discriminate; eexists _, _; (split; [reflexivity|lia]). Qed.

Lemma bin_prec_none t : tmem t binops = false -> bin_prec t = None.
Proof. destruct t; cbn; intros H; try discriminate; reflexivity. Qed.

Lemma expect_some t ts s r : expect t ts = Some (s, r) -> exists x, ts = x :: r /\ ty x = t /\ tx x = s.
Proof.
  destruct ts as [|x ts]; [discriminate|]. cbn. destruct (tt_eqb (ty x) t) eqn:Et; [|discriminate].
  intros H; injection H as <- <-. exists x. repeat split. apply tt_eqb_eq; exact Et.
Qed.

Lemma la_true l ts : la l ts = true -> exists x r, ts = x :: r /\ tmem (ty x) l = true.
Proof. destruct ts as [|x r]; [discriminate|]. eauto. Qed.

Lemma tmem1 t u : tmem t [u] = true <-> t = u.
Proof. unfold tmem; cbn [existsb]. rewrite orb_false_r. apply tt_eqb_eq. Qed.

Lemma Args_one e : E e -> Args e.
Proof. intros H. rewrite <- (app_nil_r e). constructor; [exact H|constructor]. Qed.

Lemma Args_cons e x a : E e -> ty x = COMMA -> Args a -> Args (e ++ x :: a).
Proof.
  intros He Hx Ha. unfold Args in *. constructor; [exact He|].
  apply der_seq in Ha as (u & v & -> & Hu & Hv). change (x :: u ++ v) with ((x :: u) ++ v). apply d_many1; [|exact Hv].
  change (x :: u) with ([x] ++ u). constructor; [constructor; exact Hx|exact Hu].
Qed.

(** Soundness. *)
Lemma ex_sound f : forall m ts r, ex f m ts = Some r ->
  exists c, ts = c ++ r /\ match m with MExpr _ => E c | MLoop _ => Ops c | MArgs => Args c end.
Proof.
  induction f as [|f IH]; intros m ts r H; [discriminate|]. cbn [ex] in H. destruct m as [p|p|].
  - destruct ts as [|x ts]; [discriminate|].
    assert (HF : forall pr ts', x :: ts = pr ++ ts' -> Prim pr -> ex f (MLoop p) ts' = Some r ->
                 exists c, x :: ts = c ++ r /\ E c).
    { intros pr ts' E0 Hp Hl. apply IH in Hl as (o & -> & Ho). exists (pr ++ o). rewrite E0, app_assoc. split; [reflexivity|].
      apply E_inv. eauto. }
    destruct (tmem (ty x) [UNSIGNED_NUMBER_LITERAL; STRING_LITERAL; PARAM_OR_VAR; BLOCK_VAR_OR_ANNOTATION]) eqn:E1.
    { apply (HF [x] ts); auto. constructor; exact E1. }
    destruct (tt_eqb (ty x) L_PAREN) eqn:E2.
    { apply tt_eqb_eq in E2. destruct (ex f (MExpr 0) ts) as [r1|] eqn:E3; [|discriminate].
      destruct (expect R_PAREN r1) as [[s r2]|] eqn:E4; [|discriminate].
      apply expect_some in E4 as (z & -> & Hz & _). apply IH in E3 as (e & -> & He).
      apply (HF (x :: e ++ [z]) r2); auto.
      - cbn. rewrite <- app_assoc. reflexivity.
      - constructor; auto. }
    destruct (tmem (ty x) [PLUS; MINUS; TILDE]) eqn:E3.
    { destruct (ex f (MExpr 11) ts) as [r1|] eqn:E4; [|discriminate]. apply IH in E4 as (e & -> & He).
      apply (HF (x :: e) r1); auto. apply pr_un; auto. }
    destruct (tt_eqb (ty x) NOT_) eqn:E4.
    { apply tt_eqb_eq in E4. destruct (ex f (MExpr 4) ts) as [r1|] eqn:E5; [|discriminate]. apply IH in E5 as (e & -> & He).
      apply (HF (x :: e) r1); auto. apply pr_not; auto. }
    destruct (tt_eqb (ty x) IDENTIFIER) eqn:E5; [|discriminate]. apply tt_eqb_eq in E5.
    destruct (expect L_PAREN ts) as [[s r1]|] eqn:E6; [|discriminate]. apply expect_some in E6 as (y & -> & Hy & _).
    destruct (la [R_PAREN] r1) eqn:E7.
    { destruct (expect R_PAREN r1) as [[s2 r2]|] eqn:E8; [|discriminate]. apply expect_some in E8 as (z & -> & Hz & _).
      apply (HF [x; y; z] r2); auto. apply pr_fn0; auto. }
    destruct (la [STAR] r1) eqn:E8.
    { apply la_true in E8 as (st & r2 & -> & Hst). cbn [tl] in H. apply tmem1 in Hst.
      destruct (expect R_PAREN r2) as [[s2 r3]|] eqn:E9; [|discriminate]. apply expect_some in E9 as (z & -> & Hz & _).
      apply (HF [x; y; st; z] r3); auto. apply pr_fns; auto. }
    destruct (ex f MArgs r1) as [r2|] eqn:E9; [|discriminate]. apply IH in E9 as (a & -> & Ha).
    destruct (expect R_PAREN r2) as [[s2 r3]|] eqn:E10; [|discriminate]. apply expect_some in E10 as (z & -> & Hz & _).
    apply (HF (x :: y :: a ++ [z]) r3); auto.
    + cbn. rewrite <- app_assoc. reflexivity.
    + apply pr_fn; auto.
  - destruct ts as [|x ts]; [injection H as <-; exists []; split; [reflexivity|constructor]|].
    destruct (bin_prec (ty x)) as [[q rp]|] eqn:Eb; [|injection H as <-; exists []; split; [reflexivity|constructor]].
    destruct (p <=? q); [|injection H as <-; exists []; split; [reflexivity|constructor]].
    destruct (ex f (MExpr rp) ts) as [r1|] eqn:E1; [|discriminate]. apply IH in E1 as (e & -> & He).
    apply IH in H as (o & -> & Ho). exists (x :: e ++ o). cbn. rewrite app_assoc. split; [reflexivity|].
    apply Ops_cons; auto. eapply bin_prec_mem; eauto.
  - destruct (ex f (MExpr 0) ts) as [r1|] eqn:E1; [|discriminate]. apply IH in E1 as (e & -> & He).
    destruct (la [COMMA] r1) eqn:E2.
    + apply la_true in E2 as (x & r2 & -> & Hx). apply tmem1 in Hx. cbn [tl] in H. apply IH in H as (a & -> & Ha).
      exists (e ++ x :: a). rewrite <- app_assoc. split; [reflexivity|]. apply Args_cons; auto.
    + injection H as <-. exists e. split; [reflexivity|]. apply Args_one; exact He.
Qed.

(** What may be left unread at level p: nothing, or an operator below p and an expression. *)
Definition Tail (p : nat) (c : list tok) : Prop :=
  c = [] \/ exists x e q rp, c = x :: e /\ bin_prec (ty x) = Some (q, rp) /\ (q < p)%nat /\ E e.
Definition Tails (c : list tok) : Prop := c = [] \/ exists x e, c = x :: e /\ tmem (ty x) binops = true /\ E e.

Lemma Tail_Tails p c : Tail p c -> Tails c.
Proof.
  intros [->|(x & e & q & rp & -> & Hb & _ & He)]; [left; reflexivity|]. right. exists x, e. repeat split; auto.
  eapply bin_prec_mem; eauto.
Qed.

Lemma Ops_Tails o : Ops o -> Tails o.
Proof.
  intros H. apply Ops_inv in H as [->|(x & e & o' & -> & Hx & He & Ho)]; [left; reflexivity|]. right.
  exists x, (e ++ o'). repeat split; auto. apply E_ops; assumption.
Qed.

Definition nobin (r : list tok) : Prop := la binops r = false.

Lemma E_length c : E c -> (1 <= length c)%nat.
Proof. intros H. apply E_inv in H as (p & o & -> & Hp & _). destruct Hp; cbn; lia. Qed.

Lemma Args_inv a : Args a -> E a \/ exists e x a', a = e ++ x :: a' /\ E e /\ ty x = COMMA /\ Args a'.
Proof.
  unfold Args. intros H. apply der_seq in H as (e & v & -> & He & Hv). apply der_many in Hv as (l & -> & Hl).
  destruct Hl as [|u l Hu Hl]; [left; cbn; rewrite app_nil_r; exact He|]. right.
  apply der_seq in Hu as (x & e2 & -> & Hx & He2). apply der_t in Hx as (y & -> & Hy).
  exists e, y, (e2 ++ concat l). cbn. repeat split; auto. constructor; [exact He2|]. apply der_many. eauto.
Qed.

Lemma ex_complete n :
  (forall c p r f, (length c <= n)%nat -> E c -> nobin r -> (2 * length c <= f)%nat ->
     exists c2, ex f (MExpr p) (c ++ r) = Some (c2 ++ r) /\ Tail p c2 /\ (length c2 < length c)%nat) /\
  (forall o p r f, (length o <= n)%nat -> Tails o -> nobin r -> (2 * length o + 1 <= f)%nat ->
     exists c2, ex f (MLoop p) (o ++ r) = Some (c2 ++ r) /\ Tail p c2 /\ (length c2 <= length o)%nat) /\
  (forall a r f, (length a <= n)%nat -> Args a -> nobin r -> la [COMMA] r = false -> (2 * length a + 1 <= f)%nat ->
     ex f MArgs (a ++ r) = Some r).
Proof.
  induction n as [n IHn] using lt_wf_ind.
  assert (IHE : forall c p r f, (length c < n)%nat -> E c -> nobin r -> (2 * length c <= f)%nat ->
     exists c2, ex f (MExpr p) (c ++ r) = Some (c2 ++ r) /\ Tail p c2 /\ (length c2 < length c)%nat).
  { intros c p r f Hl. apply (IHn (length c) Hl). lia. }
  assert (IHL : forall o p r f, (length o < n)%nat -> Tails o -> nobin r -> (2 * length o + 1 <= f)%nat ->
     exists c2, ex f (MLoop p) (o ++ r) = Some (c2 ++ r) /\ Tail p c2 /\ (length c2 <= length o)%nat).
  { intros c p r f Hl. apply (IHn (length c) Hl). lia. }
  assert (IHA : forall a r f, (length a < n)%nat -> Args a -> nobin r -> la [COMMA] r = false -> (2 * length a + 1 <= f)%nat ->
     ex f MArgs (a ++ r) = Some r).
  { intros c r f Hl. apply (IHn (length c) Hl). lia. }
  assert (T0 : forall c, Tail 0 c -> c = []).
  { intros c [->|(x & e & q & rp & -> & _ & H & _)]; [reflexivity|lia]. }
  clear IHn.
  assert (PE : forall c p r f, (length c <= n)%nat -> E c -> nobin r -> (2 * length c <= f)%nat ->
     exists c2, ex f (MExpr p) (c ++ r) = Some (c2 ++ r) /\ Tail p c2 /\ (length c2 < length c)%nat).
  { intros c p r f Hl HE Hr Hf. apply E_inv in HE as (pr & o & -> & Hp & Ho).
    pose proof (Ops_Tails _ Ho) as HoT.
    destruct f as [|f]; [destruct Hp; cbn in Hf; lia|].
    destruct Hp as [x Hx|x e z Hx He Hz|x e Hx He|x e Hx He|x y z Hx Hy Hz|x y s z Hx Hy Hs Hz|x y a z Hx Hy Ha Hz].
    - cbn [ex app]. rewrite Hx. cbn in Hl, Hf.
      destruct (IHL o p r f) as (c2 & H1 & H2 & H3); auto; try lia. exists c2. repeat split; auto. cbn; lia.
    - cbn [app ex]. rewrite Hx. cbn [tmem existsb tt_eqb tt_num Nat.eqb orb].
      cbn in Hl, Hf. rewrite !app_length in Hl, Hf. cbn in Hl, Hf.
      rewrite <- !app_assoc. cbn [app].
      destruct (IHE e 0 (z :: o ++ r) f) as (c2 & H1 & H2 & H3); auto; try lia.
      { unfold nobin, la. rewrite Hz. reflexivity. }
      apply T0 in H2. subst c2. cbn [app] in H1. rewrite H1. cbn [expect]. rewrite Hz, tt_eqb_refl.
      destruct (IHL o p r f) as (c2 & G1 & G2 & G3); auto; try lia. exists c2. repeat split; auto.
      cbn. rewrite !app_length. cbn. lia.
    - cbn [app ex].
      assert (HA : tmem (ty x) [UNSIGNED_NUMBER_LITERAL; STRING_LITERAL; PARAM_OR_VAR; BLOCK_VAR_OR_ANNOTATION] = false)
        by (clear -Hx; destruct (ty x); try discriminate Hx; reflexivity).
      assert (HB : tt_eqb (ty x) L_PAREN = false) by (clear -Hx; destruct (ty x); try discriminate Hx; reflexivity).
      rewrite HA, HB, Hx. cbn in Hl, Hf. rewrite !app_length in Hl, Hf.
      destruct (IHE (e ++ o) 11 r f) as (c2 & H1 & H2 & H3); auto; try (rewrite app_length; lia).
      { apply E_ops; assumption. }
      rewrite H1. rewrite app_length in H3.
      destruct (IHL c2 p r f) as (c3 & G1 & G2 & G3); auto; try lia. { eapply Tail_Tails; eauto. }
      exists c3. repeat split; auto. cbn. rewrite app_length. lia.
    - cbn [app ex]. rewrite Hx. cbn [tmem existsb tt_eqb tt_num Nat.eqb orb].
      cbn in Hl, Hf. rewrite !app_length in Hl, Hf.
      destruct (IHE (e ++ o) 4 r f) as (c2 & H1 & H2 & H3); auto; try (rewrite app_length; lia).
      { apply E_ops; assumption. }
      rewrite H1. rewrite app_length in H3.
      destruct (IHL c2 p r f) as (c3 & G1 & G2 & G3); auto; try lia. { eapply Tail_Tails; eauto. }
      exists c3. repeat split; auto. cbn. rewrite app_length. lia.
    - cbn [app ex]. rewrite Hx. cbn [tmem existsb tt_eqb tt_num Nat.eqb orb expect]. rewrite Hy.
      cbn [tt_eqb tt_num Nat.eqb la tmem existsb]. rewrite Hz. cbn [tt_eqb tt_num Nat.eqb orb expect]. rewrite Hz. cbn [tt_eqb tt_num Nat.eqb].
      cbn in Hl, Hf.
      destruct (IHL o p r f) as (c2 & G1 & G2 & G3); auto; try lia. exists c2. repeat split; auto. cbn; lia.
    - cbn [app ex]. rewrite Hx. cbn [tmem existsb tt_eqb tt_num Nat.eqb orb expect]. rewrite Hy.
      cbn [tt_eqb tt_num Nat.eqb la tmem existsb]. rewrite Hs. cbn [tt_eqb tt_num Nat.eqb orb expect tl]. rewrite Hz. cbn [tt_eqb tt_num Nat.eqb].
      cbn in Hl, Hf.
      destruct (IHL o p r f) as (c2 & G1 & G2 & G3); auto; try lia. exists c2. repeat split; auto. cbn; lia.
    - cbn [app ex]. rewrite Hx. cbn [tmem existsb tt_eqb tt_num Nat.eqb orb expect]. rewrite Hy.
      cbn [tt_eqb tt_num Nat.eqb]. rewrite <- !app_assoc.
      cbn in Hl, Hf. rewrite !app_length in Hl, Hf. cbn in Hl, Hf.
      assert (Hst : la [R_PAREN] (a ++ [z] ++ o ++ r) = false /\ la [STAR] (a ++ [z] ++ o ++ r) = false).
      { assert (HP : exists q a', a = q ++ a' /\ Prim q).
        { unfold Args in Ha. apply der_seq in Ha as (e & v & -> & He & _). apply E_inv in He as (q & o' & -> & Hq & _).
          exists q, (o' ++ v). rewrite app_assoc. auto. }
        destruct HP as (q & a' & -> & Hq). clear -Hq.
        destruct Hq as [t Ht|t e t' Ht _ _|t e Ht _|t e Ht _|t t1 t2 Ht _ _|t t1 t2 t3 Ht _ _ _|t t1 e t2 Ht _ _ _];
          cbn [app la]; destruct (ty t); try discriminate Ht; split; reflexivity. }
      destruct Hst as [S1 S2]. rewrite S1, S2.
      rewrite (IHA a ([z] ++ o ++ r) f); auto; try lia.
      + cbn [app expect]. rewrite Hz, tt_eqb_refl.
        destruct (IHL o p r f) as (c2 & G1 & G2 & G3); auto; try lia. exists c2. repeat split; auto. cbn. rewrite !app_length. cbn; lia.
      + unfold nobin. cbn [app la]. rewrite Hz. reflexivity.
      + cbn [app la]. rewrite Hz. reflexivity. }
  split; [exact PE|]. split.
  - intros o p r f Hl Ho Hr Hf. destruct f as [|f]; [lia|]. destruct Ho as [->|(x & e & -> & Hx & He)].
    + cbn [app]. exists []. cbn [app length]. split; [|split; [left; reflexivity|lia]].
      cbn [ex]. destruct r as [|y r]; [reflexivity|]. unfold nobin in Hr. cbn [la] in Hr. rewrite (bin_prec_none _ Hr). reflexivity.
    + cbn [app ex]. destruct (bin_prec_some _ Hx) as (q & rp & Hb & Hq). rewrite Hb. cbn in Hl, Hf.
      destruct (p <=? q) eqn:Epq.
      * destruct (IHE e rp r f) as (c2 & H1 & H2 & H3); auto; try lia. rewrite H1.
        destruct (IHL c2 p r f) as (c3 & G1 & G2 & G3); auto; try lia. { eapply Tail_Tails; eauto. }
        exists c3. repeat split; auto. cbn; lia.
      * exists (x :: e). apply Nat.leb_gt in Epq. split; [reflexivity|]. split; [|cbn; lia]. right. exists x, e, q, rp. auto.
  - intros a r f Hl Ha Hr Hc Hf. destruct f as [|f]; [lia|]. cbn [ex].
    apply Args_inv in Ha as [He|(e & x & a' & -> & He & Hx & Ha')].
    + destruct (PE a 0 r f) as (c2 & H1 & H2 & _); auto; try lia. apply T0 in H2. subst c2. cbn [app] in H1.
      rewrite H1, Hc. reflexivity.
    + rewrite app_length in Hl, Hf. cbn in Hl, Hf. rewrite <- app_assoc. cbn [app].
      pose proof (E_length _ He).
      destruct (PE e 0 (x :: a' ++ r) f) as (c2 & H1 & H2 & _); auto; try lia.
      { unfold nobin. cbn [la]. rewrite Hx. reflexivity. }
      apply T0 in H2. subst c2. cbn [app] in H1. rewrite H1. cbn [la]. rewrite Hx. cbn [tmem existsb tt_eqb tt_num Nat.eqb orb tl].
      apply IHA; auto; lia.
Qed.

Lemma p_arg_complete c r : E c -> nobin r -> p_arg (c ++ r) = Some (c, r).
Proof.
  intros Hc Hr. unfold p_arg. destruct (ex_complete (length c)) as [HE _].
  destruct (HE c 0 r (2 * length (c ++ r) + 2)) as (c2 & H1 & H2 & _); auto.
  { rewrite app_length. lia. }
  destruct H2 as [->|(x & e & q & rp & _ & _ & H & _)]; [|lia]. cbn [app] in H1. rewrite H1.
  rewrite app_length. replace (length c + length r - length r) with (length c) by lia. rewrite firstn_app_l. reflexivity.
Qed.

Lemma p_arg_sound ts c r : p_arg ts = Some (c, r) -> ts = c ++ r /\ E c.
Proof.
  unfold p_arg. destruct (ex _ _ ts) as [r'|] eqn:Ex; [|discriminate]. intros H; injection H as <- <-.
  apply ex_sound in Ex as (c & -> & Hc). rewrite app_length.
  replace (length c + length r' - length r') with (length c) by lia. rewrite firstn_app_l. auto.
Qed.
