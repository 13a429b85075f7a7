(** The trees built are parse trees. *)
From Coq Require Import ZArith.
From Verif Require Import Grammar Cst Parser ExprProof Regex RegexProof Lexer Atn AtnLexer AtnLexerTable AtnParser AtnParserTable AtnParserProof
  Tree TreeSpec TreeProof AtnTree.
Local Open Scope Z_scope.
Local Notation Ctx := Tree.Node.

Lemma kind_some x : kind_of (Some x) = tz (ty x). Proof. reflexivity. Qed.
Lemma rule_at_num n : rule_at (nt_num n) = n.
Proof. unfold rule_at. apply nth_error_nth. apply nth_all_nt. Qed.

Inductive pbuilds : Z -> pe -> list tree -> list (option tok) -> list tree -> Prop :=
| pb_nil p acc : pbuilds p PNil acc [] acc
| pb_t p acc x : pbuilds p (PT (kind_of x)) acc [x] (acc ++ [leaf_of x])
| pb_r p acc r k ts cs : pbuilds k (prule_at r) [] ts cs -> pbuilds p (PR r k) acc ts (acc ++ [Ctx (rule_at r) cs])
| pb_p p acc k : pbuilds p (PP k) acc [] [Ctx fn_arg_expr acc]
| pb_seq p a b acc u acc1 v acc2 : pbuilds p a acc u acc1 -> pbuilds p b acc1 v acc2 -> pbuilds p (PSeq a b) acc (u ++ v) acc2
| pb_or1 p a b acc u acc1 : pbuilds p a acc u acc1 -> pbuilds p (POr a b) acc u acc1
| pb_or2 p a b acc u acc1 : pbuilds p b acc u acc1 -> pbuilds p (POr a b) acc u acc1
| pb_many0 p a acc : pbuilds p (PMany a) acc [] acc
| pb_many1 p a acc u acc1 v acc2 : pbuilds p a acc u acc1 -> pbuilds p (PMany a) acc1 v acc2 -> pbuilds p (PMany a) acc (u ++ v) acc2.

Definition called (r k : Z) (ts : list (option tok)) (cs : list tree) : Prop := pbuilds k (prule_at r) [] ts cs.
Inductive texpand (p : Z) : list N -> list tree -> list (option tok) -> list tree -> Prop :=
| tx_nil acc : texpand p [] acc [] acc
| tx_t x ws acc ts acc' : -1 <= kind_of x <= 84 -> texpand p ws (acc ++ [leaf_of x]) ts acc' -> texpand p (sym_t (kind_of x) :: ws) acc (x :: ts) acc'
| tx_p k ws acc ts acc' : 0 <= k < 100 -> texpand p ws [Ctx fn_arg_expr acc] ts acc' -> texpand p (sym_p k :: ws) acc ts acc'
| tx_r r k ws acc ts1 cs ts2 acc' : 0 <= r < 51 -> 0 <= k < 100 -> called r k ts1 cs ->
    texpand p ws (acc ++ [Ctx (rule_at r) cs]) ts2 acc' -> texpand p (sym_r r k :: ws) acc (ts1 ++ ts2) acc'.
Lemma texpand_split p ws1 : forall ws2 acc ts acc', texpand p (ws1 ++ ws2) acc ts acc' ->
  exists ts1 acc1 ts2, ts = ts1 ++ ts2 /\ texpand p ws1 acc ts1 acc1 /\ texpand p ws2 acc1 ts2 acc'.
Proof.
  induction ws1 as [|a ws1 IH]; intros ws2 acc ts acc' H; cbn [app] in H.
  - exists [], acc, ts. split; [reflexivity|]. split; [constructor|exact H].
  - inversion H as [|x ws ac ts0 ac' Hr H0|k ws ac ts0 ac' Hr H0|r k ws ac t1 cs t2 ac' Hr Hk HC H0]; subst.
    + apply IH in H0 as (u & ac1 & v & -> & Hu & Hv). exists (x :: u), ac1, v. split; [reflexivity|]. split; [constructor; assumption|exact Hv].
    + apply IH in H0 as (u & ac1 & v & -> & Hu & Hv). exists u, ac1, v. split; [reflexivity|]. split; [constructor; assumption|exact Hv].
    + apply IH in H0 as (u & ac1 & v & -> & Hu & Hv). exists (t1 ++ u), ac1, v. split; [rewrite app_assoc; reflexivity|].
      split; [econstructor; eassumption|exact Hv].
Qed.
Lemma texpand_nil p acc ts acc' : texpand p [] acc ts acc' -> ts = [] /\ acc' = acc. Proof. intros H; inversion H; auto. Qed.
Lemma texpand_t p t acc ts acc' : -1 <= t <= 84 -> texpand p [sym_t t] acc ts acc' -> exists x, kind_of x = t /\ ts = [x] /\ acc' = acc ++ [leaf_of x].
Proof.
  intros Ht H. inversion H as [|x ws ac ts0 ac' Hr H0 E|k ws ac ts0 ac' Hr H0 E|r k ws ac t1 cs t2 ac' Hr Hk HC H0 E]; subst; unfold sym_t, sym_p, sym_r in E; try lia.
  apply texpand_nil in H0 as [-> ->]. exists x. split; [lia|auto].
Qed.
Lemma texpand_p p k acc ts acc' : 0 <= k < 100 -> texpand p [sym_p k] acc ts acc' -> ts = [] /\ acc' = [Ctx fn_arg_expr acc].
Proof.
  intros Ht H. inversion H as [|x ws ac ts0 ac' Hr H0 E|k' ws ac ts0 ac' Hr H0 E|r k' ws ac t1 cs t2 ac' Hr Hk HC H0 E]; subst; unfold sym_t, sym_p, sym_r in E; try lia.
  apply texpand_nil in H0 as [-> ->]. auto.
Qed.
Lemma texpand_r p r k acc ts acc' : 0 <= r < 51 -> 0 <= k < 100 -> texpand p [sym_r r k] acc ts acc' ->
  exists cs, called r k ts cs /\ acc' = acc ++ [Ctx (rule_at r) cs].
Proof.
  intros Hr0 Hk0 H. inversion H as [|x ws ac ts0 ac' Hr H0 E|k' ws ac ts0 ac' Hr H0 E|r' k' ws ac t1 cs t2 ac' Hr Hk HC H0 E]; subst; unfold sym_t, sym_p, sym_r in E; try lia.
  assert (r = r' /\ k = k') as [-> ->] by lia. apply texpand_nil in H0 as [-> ->]. rewrite app_nil_r. eauto.
Qed.

Lemma tcompose p e : forall ws acc ts acc', pe_ok e = true -> matches (re_of e) ws -> texpand p ws acc ts acc' -> pbuilds p e acc ts acc'.
Proof.
  induction e as [|k|r k|k|a IHa b IHb|a IHa b IHb|a IHa]; intros ws acc ts acc' Hok H Hx; cbn [pe_ok re_of] in *;
    rewrite ?andb_true_iff, ?Z.leb_le, ?Z.ltb_lt in Hok.
  - apply matches_eps in H. subst ws. apply texpand_nil in Hx as [-> ->]. constructor.
  - apply matches_ch in H. subst ws. apply texpand_t in Hx as (x & <- & -> & ->); [|lia]. constructor.
  - apply matches_ch in H. subst ws. apply texpand_r in Hx as (cs & HC & ->); [|lia|lia]. constructor. exact HC.
  - apply matches_ch in H. subst ws. apply texpand_p in Hx as (-> & ->); [|lia]. constructor.
  - apply matches_cat in H as (u & v & -> & Hu & Hv). apply texpand_split in Hx as (t1 & ac & t2 & -> & Hx1 & Hx2).
    econstructor; [eapply IHa|eapply IHb]; try eassumption; apply Hok.
  - apply matches_alt in H as [H|H]; [apply pb_or1; eapply IHa|apply pb_or2; eapply IHb]; try eassumption; apply Hok.
  - apply matches_star in H as (l & -> & Hl). revert acc ts Hx. induction Hl as [|u l Hu Hl IH]; intros acc ts Hx.
    + apply texpand_nil in Hx as [-> ->]. constructor.
    + cbn [concat] in Hx. apply texpand_split in Hx as (t1 & ac & t2 & -> & Hx1 & Hx2). eapply pb_many1; [eapply IHa; eassumption|apply IH; exact Hx2].
Qed.

(** Precedence tests are in the states of fn_arg_expr only. *)
Definition prec_ok (n : Atn.node) : bool := forallb (fun t => match t with TPrec _ _ => n_rule n =? 50 | _ => true end) (n_trans n).

Section Builds.
Variable A : atn.
Hypothesis A_ok : atn_ok A = true.
Hypothesis checked : forall r, 0 <= r < 51 -> rule_checked A r = true.
Hypothesis precs : forallb prec_ok (a_nodes A) = true.

Lemma prec_at q k to : In (TPrec k to) (n_trans (node_at A q)) -> rule_at (n_rule (node_at A q)) = fn_arg_expr.
Proof.
  intros H. pose proof precs as G. rewrite forallb_forall in G. unfold node_at in *.
  destruct (nth_in_or_default (Z.to_nat q) (a_nodes A) (Atn.Node 0 (-1) false [])) as [Hin|E]; [|rewrite E in H; destruct H].
  specialize (G _ Hin). unfold prec_ok in G. rewrite forallb_forall in G. specialize (G _ H). cbn in G. apply Z.eqb_eq in G. rewrite G. reflexivity.
Qed.
Lemma builds_sym p q acc ts q' acc' : builds A p q acc ts q' acc' -> exists ws, sym_walk A q ws q' /\ texpand p ws acc ts acc'.
Proof.
  induction 1 as [p q acc|p q acc to ts q' acc' Hin H IH|p q acc r a to ts q' acc' Hin H IH|p q acc l to x ts q' acc' Hin Ht H IH|p q acc k to ts q' acc' Hin Hk H IH
    |p q acc start r to k ts1 stop cs ts2 q' acc' Hin H1 IH1 Hs1 Hs2 H2 IH2].
  - exists []. split; constructor.
  - destruct IH as (ws & H1 & H2). exists ws. split; [|exact H2]. eapply sw_eps; [|exact H1]. eapply in_edges; [exact Hin|left; reflexivity].
  - destruct IH as (ws & H1 & H2). exists ws. split; [|exact H2]. eapply sw_eps; [|exact H1]. eapply in_edges; [exact Hin|left; reflexivity].
  - destruct IH as (ws & H1 & H2). pose proof (trans_ok_at A A_ok _ _ Hin) as G. cbn in G. rewrite forallb_forall in G.
    assert (Hr : -1 <= kind_of x <= 84).
    { pose proof Ht as Ht'. apply existsb_exists in Ht' as (r & Hr & Hb). specialize (G _ Hr). rewrite !andb_true_iff, !Z.leb_le in *. lia. }
    exists (sym_t (kind_of x) :: ws). split; [|constructor; assumption]. eapply sw_sym; [|exact H1]. eapply in_edges; [exact Hin|].
    cbn [edges_of]. apply in_map_iff. exists (kind_of x). split; [reflexivity|]. apply filter_In. split; [apply in_tokens; exact Hr|exact Ht].
  - destruct IH as (ws & H1 & H2). pose proof (trans_ok_at A A_ok _ _ Hin) as G. cbn in G. rewrite andb_true_iff, Z.leb_le, Z.ltb_lt in G.
    rewrite (prec_at _ _ _ Hin) in H2. exists (sym_p k :: ws). split; [|constructor; [lia|exact H2]]. eapply sw_sym; [|exact H1]. eapply in_edges; [exact Hin|left; reflexivity].
  - destruct IH1 as (ws1 & S1 & X1), IH2 as (ws2 & S2 & X2). pose proof (trans_ok_at A A_ok _ _ Hin) as G. cbn in G.
    rewrite !andb_true_iff, Z.eqb_eq, !Z.leb_le, !Z.ltb_lt in G. destruct G as ((((-> & G1) & G2) & G3) & G4).
    apply (stop_unique A A_ok) in Hs1 as [Hs1 _]. rewrite Hs2 in Hs1. subst stop.
    apply (rule_walk A r ws1 (checked r ltac:(lia))) in S1.
    exists (sym_r r k :: ws2). split.
    + eapply sw_sym; [|exact S2]. eapply in_edges; [exact Hin|left; reflexivity].
    + econstructor; [lia|lia| |exact X2]. eapply tcompose; [apply prule_ok; lia|exact S1|exact X1].
Qed.
Lemma builds_pbuilds ts stop cs : builds A 0 (start_of A 0) [] ts stop cs -> n_type (node_at A stop) = 7 -> n_rule (node_at A stop) = 0 ->
  pbuilds 0 (prule_at 0) [] ts cs.
Proof.
  intros Hw Hs1 Hs2. apply builds_sym in Hw as (ws & Hw & Hx). apply (stop_unique A A_ok) in Hs1 as [Hs1 _]. rewrite Hs2 in Hs1. subst stop.
  apply (rule_walk A 0 ws (checked 0 ltac:(lia))) in Hw. eapply tcompose; [apply (prule_ok 0); lia|exact Hw|exact Hx].
Qed.
(** A walk builds something, and building is walking. *)
Lemma walk_builds p q ts q' : walk A p q ts q' -> forall xs acc, ts = map kind_of xs -> exists acc', builds A p q acc xs q' acc'.
Proof.
  induction 1 as [p q|p q to ts q' Hin H IH|p q r a to ts q' Hin H IH|p q l to t ts q' Hin Ht H IH|p q k to ts q' Hin Hk H IH
    |p q start r to k ts1 stop ts2 q' Hin H1 IH1 Hs1 Hs2 H2 IH2]; intros xs acc E.
  - destruct xs; [|discriminate]. eexists. constructor.
  - destruct (IH xs acc E) as (acc' & H'). exists acc'. eapply bu_eps; eassumption.
  - destruct (IH xs acc E) as (acc' & H'). exists acc'. eapply bu_action; eassumption.
  - destruct xs as [|x xs]; [discriminate|]. cbn in E. injection E as -> E. destruct (IH xs (acc ++ [leaf_of x]) E) as (acc' & H'). exists acc'. eapply bu_token; eassumption.
  - destruct (IH xs [Ctx (rule_at (n_rule (node_at A q))) acc] E) as (acc' & H'). exists acc'. eapply bu_prec; eassumption.
  - symmetry in E. apply map_eq_app in E as (x1 & x2 & -> & <- & <-). destruct (IH1 x1 [] eq_refl) as (cs & Hcs).
    destruct (IH2 x2 (acc ++ [Ctx (rule_at r) cs]) eq_refl) as (acc' & H'). exists acc'. eapply bu_rule; eassumption.
Qed.
Lemma builds_walk p q acc xs q' acc' : builds A p q acc xs q' acc' -> walk A p q (map kind_of xs) q'.
Proof.
  induction 1; cbn [map]; [constructor|eapply w_eps; eassumption|eapply w_action; eassumption|eapply w_token; eassumption|eapply w_prec; eassumption|].
  rewrite map_app. eapply w_rule; eassumption.
Qed.
End Builds.

(** What the symbols' trees are, precedences forgotten. *)
Inductive iter (P : list tree -> list tok -> list tree -> Prop) : list tree -> list tok -> list tree -> Prop :=
| it_0 acc : iter P acc [] acc
| it_1 acc u acc1 v acc2 : P acc u acc1 -> iter P acc1 v acc2 -> iter P acc (u ++ v) acc2.
Fixpoint tden (e : pe) (acc : list tree) (xs : list tok) (acc' : list tree) : Prop :=
  match e with
  | PNil => xs = [] /\ acc' = acc
  | PT k => exists x, tz (ty x) = k /\ xs = [x] /\ acc' = acc ++ [Leaf x]
  | PR r _ => exists n cs, nt_num n = r /\ acc' = acc ++ [Ctx n cs] /\ spells (tree_rule n) cs /\ lv cs = xs
  | PP _ => xs = [] /\ acc' = [Ctx fn_arg_expr acc]
  | PSeq a b => exists u v acc1, xs = u ++ v /\ tden a acc u acc1 /\ tden b acc1 v acc'
  | POr a b => tden a acc xs acc' \/ tden b acc xs acc'
  | PMany a => iter (tden a) acc xs acc'
  end.
Definition grows (e : ebnf) (acc : list tree) (xs : list tok) (acc' : list tree) : Prop := exists cs, acc' = acc ++ cs /\ spells e cs /\ lv cs = xs.
Lemma tden_ebnf e : forall acc xs acc', tden (pe_of e) acc xs acc' -> grows e acc xs acc'.
Proof.
  induction e as [|t|n|a IHa b IHb|a IHa b IHb|a IHa]; intros acc xs acc'; cbn [pe_of tden].
  - intros [-> ->]. exists []. rewrite app_nil_r. repeat split; constructor.
  - intros (x & Hx & -> & ->). exists [Leaf x]. repeat split. constructor. apply tz_inj. exact Hx.
  - intros (m & cs & Hm & -> & Hs & Hl). apply nt_num_inj in Hm. subst m. exists [Ctx n cs]. repeat split; [constructor; exact Hs|].
    rewrite lv_node. exact Hl.
  - intros (u & v & acc1 & -> & Hu & Hv). apply IHa in Hu as (c1 & -> & S1 & L1). apply IHb in Hv as (c2 & -> & S2 & L2).
    exists (c1 ++ c2). rewrite app_assoc, lv_app, L1, L2. repeat split. constructor; assumption.
  - intros [H|H]; [apply IHa in H as (c & -> & S1 & L1)|apply IHb in H as (c & -> & S1 & L1)]; exists c; repeat split; auto; [apply s_or1|apply s_or2]; exact S1.
  - intros H. induction H as [acc|acc u acc1 v acc2 Hu Hv (c2 & -> & S2 & L2)].
    + exists []. rewrite app_nil_r. repeat split; constructor.
    + apply IHa in Hu as (c1 & -> & S1 & L1). exists (c1 ++ c2). rewrite app_assoc, lv_app, L1, L2. repeat split. apply s_many1; assumption.
Qed.
(** Primary expressions: the calls have precedences, otherwise as in the grammar. *)
Definition prim_ebnf : ebnf :=
  (Or (R literal_value) (Or (R variable) (Or (R block_var)
       (Or (Seq (T L_PAREN) (Seq (R fn_arg_expr) (T R_PAREN)))
       (Or (Seq (one_of [PLUS; MINUS; TILDE]) (R fn_arg_expr))
       (Or (Seq (T NOT_) (R fn_arg_expr))
       (Seq (R sfn_name) (Seq (T L_PAREN)
            (Seq (Or (Or (Seq (R fn_arg_expr) (Many (Seq (T COMMA) (R fn_arg_expr)))) (T STAR)) Nothing) (T R_PAREN)))))))))).
Lemma tden_prim xs acc : tden prim_rule [] xs acc -> spells (tree_rule fn_arg_expr) acc /\ lv acc = xs.
Proof.
  intros H. assert (H' : tden (pe_of prim_ebnf) [] xs acc) by exact H.      (* [tden] forgets the precedences *)
  apply tden_ebnf in H' as (cs & -> & Hs & Hl). cbn [app]. split; [|exact Hl]. cbn [tree_rule].
  unfold prim_ebnf in Hs. repeat (match type of Hs with spells (Or _ _) _ => apply sp_or in Hs as [Hs|Hs]; [|apply s_or2] end; [apply s_or1; exact Hs|]). apply s_or1. exact Hs.
Qed.
Lemma tden_level k l k' acc xs acc' : l <> [] -> tden (op_level k l k') acc xs acc' ->
  exists x cs, tmem (ty x) l = true /\ acc' = [Ctx fn_arg_expr acc; Leaf x; Ctx fn_arg_expr cs] /\ spells (tree_rule fn_arg_expr) cs /\ xs = x :: lv cs.
Proof.
  intros Hn. unfold op_level. cbn [tden]. intros (u & v & a1 & -> & [-> ->] & (u1 & v1 & a2 & -> & Hu & (n & cs & Hnum & -> & Hs & Hl))).
  apply (nt_num_inj n fn_arg_expr) in Hnum. subst n. apply tden_ebnf in Hu as (c & -> & Hc & <-). apply sp_one_of in Hc as (x & -> & Hx); [|exact Hn].
  exists x, cs. split; [|split; [reflexivity|split; [exact Hs|rewrite <- Hl; reflexivity]]].
  apply existsb_exists. exists (ty x). split; [exact Hx|]. apply tt_eqb_eq. reflexivity.
Qed.
Lemma tden_op acc xs acc' : tden op_rule acc xs acc' ->
  exists x cs, In (ty x) binops /\ acc' = [Ctx fn_arg_expr acc; Leaf x; Ctx fn_arg_expr cs] /\ spells (tree_rule fn_arg_expr) cs /\ xs = x :: lv cs.
Proof.
  assert (HL : forall k l k', l <> [] -> (forall t, tmem t l = true -> In t binops) -> tden (op_level k l k') acc xs acc' ->
    exists x cs, In (ty x) binops /\ acc' = [Ctx fn_arg_expr acc; Leaf x; Ctx fn_arg_expr cs] /\ spells (tree_rule fn_arg_expr) cs /\ xs = x :: lv cs).
  { intros k l k' Hn Hl H. apply tden_level in H as (x & cs & Hx & H); [|exact Hn]. exists x, cs. split; [apply Hl; exact Hx|exact H]. }
  unfold op_rule. cbn [tden]. intros H.
  repeat match type of H with _ \/ _ => destruct H as [H|H]; [eapply HL; [| |exact H]; [discriminate|intros t; destruct t; vm_compute; intros HE; first [discriminate HE|tauto]]|] end.
  eapply HL; [| |exact H]; [discriminate|intros t; destruct t; vm_compute; intros HE; first [discriminate HE|tauto]].
Qed.
Lemma spells_one_of l x : l <> [] -> In (ty x) l -> spells (one_of l) [Leaf x].
Proof.
  induction l as [|t l IH]; [congruence|]. intros _ H. destruct l as [|t' l].
  - destruct H as [H|[]]. constructor. auto.
  - change (one_of (t :: t' :: l)) with (Or (T t) (one_of (t' :: l))). destruct H as [H|H]; [apply s_or1; constructor; auto|apply s_or2, IH; [discriminate|exact H]].
Qed.
Lemma tden_ops acc xs acc' : iter (tden op_rule) acc xs acc' -> spells (tree_rule fn_arg_expr) acc -> spells (tree_rule fn_arg_expr) acc' /\ lv acc' = lv acc ++ xs.
Proof.
  induction 1 as [acc|acc u acc1 v acc2 Hu Hv IH]; intros Hs.
  - rewrite app_nil_r. auto.
  - apply tden_op in Hu as (x & cs & Hx & -> & Hc & ->). destruct IH as [S L].
    + cbn [tree_rule]. do 7 apply s_or2. change [Ctx fn_arg_expr acc; Leaf x; Ctx fn_arg_expr cs] with ([Ctx fn_arg_expr acc] ++ [Leaf x] ++ [Ctx fn_arg_expr cs]).
      apply s_seq; [apply s_r; exact Hs|]. apply s_seq; [apply spells_one_of; [discriminate|exact Hx]|apply s_r; exact Hc].
    + split; [exact S|]. rewrite L. unfold lv. cbn [map concat leaves]. rewrite !app_nil_r, <- !app_assoc. reflexivity.
Qed.
Lemma tden_prule n xs cs : tden (prule n) [] xs cs -> spells (tree_rule n) cs /\ lv cs = xs.
Proof.
  intros H. destruct n;
    try (match type of H with tden (prule ?m) _ _ _ => apply (tden_ebnf (rule m)) in H; destruct H as (c & -> & Hs & Hl); split; [exact Hs|exact Hl] end).
  - exfalso. cbn [prule tden] in H. destruct H as (u & v & a1 & _ & _ & (x & Hx & _)). unfold tz in Hx. lia.
  - cbn [prule] in H. unfold expr_rule in H. cbn [tden] in H. destruct H as (u & v & a1 & -> & Hu & Hv). apply tden_prim in Hu as [S L]. apply tden_ops in Hv as [S' L']; [|exact S].
    split; [exact S'|]. rewrite L', L. reflexivity.
Qed.
Lemma prule_at_some' r p acc ts acc' : pbuilds p (prule_at r) acc ts acc' -> (exists n, nt_num n = r) \/ exists x, ts = [x] /\ kind_of x = -2.
Proof.
  intros H. unfold prule_at in H. destruct ((0 <=? r) && (r <? 51)) eqn:E; [|right; inversion H; subst; eauto].
  destruct (nth_error all_nt (Z.to_nat r)) as [n|] eqn:En; [|right; inversion H; subst; eauto]. left. exists n.
  rewrite andb_true_iff, Z.leb_le, Z.ltb_lt in E. pose proof (nt_num_range n).
  assert (H1 : Z.to_nat (nt_num n) = Z.to_nat r).
  { apply (proj1 (NoDup_nth_error all_nt)).
    - repeat (constructor; [cbn [In]; intros HI; decompose [or] HI; try discriminate; assumption|]). constructor.
    - apply nth_error_Some. rewrite nth_all_nt. discriminate.
    - rewrite nth_all_nt, En. reflexivity. }
  lia.
Qed.
Lemma pbuilds_tden p e acc ts acc' : pbuilds p e acc ts acc' -> forall xs, ts = map Some xs -> tden e acc xs acc'.
Proof.
  induction 1 as [p acc|p acc x|p acc r k ts cs H IH|p acc k|p a b acc u acc1 v acc2 H1 IH1 H2 IH2|p a b acc u acc1 H1 IH1|p a b acc u acc1 H1 IH1|p a acc|p a acc u acc1 v acc2 H1 IH1 H2 IH2];
    intros xs E; cbn [tden].
  - destruct xs; [auto|discriminate].
  - destruct xs as [|y [|]]; try discriminate. cbn in E. injection E as ->. exists y. auto.
  - destruct (prule_at_some' _ _ _ _ _ H) as [[n Hn]|(x & -> & Hx)].
    + subst r. rewrite prule_at_num in IH. apply IH in E. apply tden_prule in E as [S L]. exists n, cs. rewrite rule_at_num. auto.
    + exfalso. destruct x as [x|]; cbn in Hx; [lia|lia].
  - destruct xs; [auto|discriminate].
  - symmetry in E. apply map_eq_app in E as (x1 & x2 & -> & <- & <-). exists x1, x2, acc1. auto.
  - left; auto.
  - right; auto.
  - destruct xs; [constructor|discriminate].
  - symmetry in E. apply map_eq_app in E as (x1 & x2 & -> & <- & <-). econstructor; [apply IH1; reflexivity|]. apply (IH2 _ eq_refl).
Qed.

Lemma parser_precs : forallb prec_ok (a_nodes parser_atn) = true. Proof. vm_compute. reflexivity. Qed.
Lemma pb_seq_inv p a b acc ts acc' : pbuilds p (PSeq a b) acc ts acc' -> exists u acc1 v, ts = u ++ v /\ pbuilds p a acc u acc1 /\ pbuilds p b acc1 v acc'.
Proof. intros H. inversion H; subst. do 3 eexists. eauto. Qed.
Lemma pb_t_inv p k acc ts acc' : pbuilds p (PT k) acc ts acc' -> exists x, kind_of x = k /\ ts = [x] /\ acc' = acc ++ [leaf_of x].
Proof. intros H. inversion H; subst. eauto. Qed.
Theorem parser_builds_tree ts t : parser_builds ts t -> parse_tree_of ts t.
Proof.
  intros (stop & cs & Hb & Hs1 & Hs2 & ->).
  apply (builds_pbuilds parser_atn parser_ok checked parser_precs _ _ _ Hb Hs1) in Hs2. clear Hb Hs1.
  change (prule_at 0) with (PSeq (pe_of (rule source_unit)) (PT (-1))) in Hs2.
  apply pb_seq_inv in Hs2 as (u & acc1 & v & E & H1 & H2). apply pb_t_inv in H2 as (x & Hx & -> & ->). apply app_inj_tail in E as [<- <-].
  pose proof (pbuilds_tden _ _ _ _ _ H1 ts eq_refl) as H3. apply tden_ebnf in H3 as (c & -> & Hs & Hl). cbn [app leaf_of].
  exists c. split; [reflexivity|]. split; [exact Hs|]. cbn [leaves]. fold (lv (c ++ [Eof])). rewrite lv_app, Hl. apply app_nil_r.
Qed.
Theorem parser_builds_iff ts : (exists t, parser_builds ts t) <-> parser_accepts ts.
Proof.
  assert (HK : kinds ts ++ [-1] = map kind_of (map Some ts ++ [None])).
  { rewrite map_app, map_map. reflexivity. }
  unfold parser_accepts, accepts, parser_builds. rewrite HK. split.
  - intros (t & stop & cs & Hb & Hs1 & Hs2 & _). exists stop. split; [exact (builds_walk _ _ _ _ _ _ _ Hb)|auto].
  - intros (stop & Hw & Hs). destruct (walk_builds _ _ _ _ _ Hw _ [] eq_refl) as (cs & Hcs). exists (Ctx (rule_at 0) cs), stop, cs. tauto.
Qed.
