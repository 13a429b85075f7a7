(** On every parse tree of a token sequence the visitor gives what Visitor.v gives. *)
From Verif Require Import Schema Grammar Cst Parser ExprProof ParserProof ParserSound ParserComplete ParserGrammar Visitor Tree TreeSpec TreeVisitor.

Local Arguments kw : simpl never.

(** Tokens of the lexer: a keyword has its text, no text is empty. *)
Definition fine (x : tok) : Prop := tok_ok x /\ tx x <> [].
Definition fines (ts : list tok) : Prop := Forall fine ts.
Lemma fines_app u v : fines (u ++ v) <-> fines u /\ fines v. Proof. apply Forall_app. Qed.
Lemma fines_cons x v : fines (x :: v) <-> fine x /\ fines v. Proof. split; [intros H; inversion H; auto|intros [? ?]; constructor; assumption]. Qed.
Lemma fines_ok ts : fines ts -> toks_ok ts. Proof. apply Forall_impl. intros x [H _]; exact H. Qed.
Lemma kw_fine x t : fine x -> ty x = t -> literal_of t <> None -> x = kw t. Proof. intros [H _]. apply kw_is. exact H. Qed.

Definition lv (cs : list tree) : list tok := concat (map leaves cs).
Lemma lv_app u v : lv (u ++ v) = lv u ++ lv v.
Proof. unfold lv. rewrite map_app, concat_app. reflexivity. Qed.

(** *** Inversion *)
Lemma sp_nothing cs : spells Nothing cs -> cs = []. Proof. intros H; inversion H; reflexivity. Qed.
Lemma sp_t t cs : spells (T t) cs -> exists x, cs = [Leaf x] /\ ty x = t. Proof. intros H; inversion H; subst; eauto. Qed.
Lemma sp_r n cs : spells (R n) cs -> exists c, cs = [Node n c] /\ spells (tree_rule n) c. Proof. intros H; inversion H; subst; eauto. Qed.
Lemma sp_seq a b cs : spells (Seq a b) cs -> exists u v, cs = u ++ v /\ spells a u /\ spells b v. Proof. intros H; inversion H; subst; eauto. Qed.
Lemma sp_or a b cs : spells (Or a b) cs -> spells a cs \/ spells b cs. Proof. intros H; inversion H; subst; auto. Qed.
Lemma sp_many a cs : spells (Many a) cs -> exists l, cs = concat l /\ Forall (spells a) l.
Proof.
  intros H. remember (Many a) as e eqn:E. induction H; try discriminate; injection E as ->.
  - exists []. split; [reflexivity|constructor].
  - destruct (IHspells2 eq_refl) as (l & -> & Hl). exists (u :: l). split; [reflexivity|constructor; assumption].
Qed.
Lemma sp_one_of l cs : l <> [] -> spells (one_of l) cs -> exists x, cs = [Leaf x] /\ In (ty x) l.
Proof.
  induction l as [|t l IH]; [congruence|]. intros _ H. destruct l as [|t' l].
  - apply sp_t in H as (x & -> & Hx). exists x. split; [reflexivity|left; auto].
  - change (one_of (t :: t' :: l)) with (Or (T t) (one_of (t' :: l))) in H. apply sp_or in H as [H|H].
    + apply sp_t in H as (x & -> & Hx). exists x. split; [reflexivity|left; auto].
    + destruct (IH ltac:(discriminate) H) as (x & -> & Hx). exists x. split; [reflexivity|right; exact Hx].
Qed.

(** *** Forgetting the tree *)
Lemma spells_derives e cs : spells e cs -> derives e (lv cs).
Proof.
  induction 1 as [|t x Hx|n cs H IH|a b u v H1 IH1 H2 IH2|a b u H IH|a b u H IH|a|a u v H1 IH1 H2 IH2]; rewrite ?lv_app; try (constructor; assumption).
  - replace (lv [Node n cs]) with (lv cs) by (unfold lv; cbn; rewrite app_nil_r; reflexivity).
    destruct n; try (constructor; exact IH). cbn [tree_rule] in IH.
    repeat match type of IH with derives (Or _ (Or _ _)) _ => apply der_or in IH as [IH|IH]; [constructor; cbn [rule]; rewrite <- (app_nil_r (lv cs)); constructor; [|apply d_many0]|] end.
    + apply d_or1; exact IH.
    + apply d_or2, d_or1; exact IH.
    + apply d_or2, d_or2, d_or1; exact IH.
    + apply d_or2, d_or2, d_or2, d_or1; exact IH.
    + apply d_or2, d_or2, d_or2, d_or2, d_or1; exact IH.
    + apply d_or2, d_or2, d_or2, d_or2, d_or2, d_or1; exact IH.
    + apply der_or in IH as [IH|IH].
      * constructor; cbn [rule]; rewrite <- (app_nil_r (lv cs)); constructor; [|apply d_many0]. do 6 apply d_or2. exact IH.
      * apply der_seq in IH as (u & v & E1 & Hu & Hv). rewrite E1. apply (E_ops u v); [exact Hu|].
        rewrite <- (app_nil_r v). apply d_many1; [exact Hv|apply d_many0].
Qed.
Lemma spells_text e cs : spells e cs -> concat (map get_text cs) = text (lv cs).
Proof.
  assert (HA : forall u v, text (u ++ v) = text u ++ text v) by (intros; unfold text; rewrite map_app, concat_app; reflexivity).
  induction 1 as [|t x Hx|n cs H IH|a b u v H1 IH1 H2 IH2|a b u H IH|a b u H IH|a|a u v H1 IH1 H2 IH2]; try exact IH; try reflexivity.
  - cbn [map concat get_text]. unfold lv. cbn [map concat leaves]. rewrite !app_nil_r. exact IH.
  - rewrite lv_app, map_app, concat_app, HA, IH1, IH2. reflexivity.
  - rewrite lv_app, map_app, concat_app, HA, IH1, IH2. reflexivity.
Qed.

(** *** The outcome of the visitor's steps *)
Lemma snd_andthen {A B} (m : M A) (k : A -> M B) : snd (andthen m k) = bind (snd m) (fun a => snd (k a)).
Proof. destruct m as [l [a|e|p]]; cbn; [destruct (k a); reflexivity|reflexivity|reflexivity]. Qed.
Lemma snd_each {A B} (f : A -> M B) l : snd (each f l) = mapM (fun a => snd (f a)) l.
Proof.
  induction l as [|a l IH]; [reflexivity|]. cbn [each mapM]. rewrite snd_andthen. destruct (snd (f a)); cbn; [|reflexivity|reflexivity].
  rewrite snd_andthen, IH. destruct (mapM _ l); reflexivity.
Qed.
Lemma snd_visit {A} tr n (f : tree -> M A) cs : snd (visit tr n f (Some (Node n cs))) = snd (f (Node n cs)).
Proof. unfold visit, on. rewrite snd_andthen. cbn [snd bind is_node]. unfold nt_eqb. destruct (nt_eq_dec n n); [reflexivity|congruence]. Qed.
Lemma mapM_ok {A B} (g : A -> B) l : mapM (fun a => Ok (g a)) l = Ok (map g l).
Proof. induction l as [|a l IH]; [reflexivity|]. cbn. rewrite IH. reflexivity. Qed.
Lemma mapM_ext {A B} (f g : A -> res B) l : (forall a, In a l -> f a = g a) -> mapM f l = mapM g l.
Proof. induction l as [|a l IH]; intros H; [reflexivity|]. cbn. rewrite (H a), IH; [reflexivity|intros; apply H; right; assumption|left; reflexivity]. Qed.

Definition node (n : nt) (t : tree) : Prop := exists cs, t = Node n cs.
Lemma is_node_eq n cs : is_node n (Node n cs) = true.
Proof. cbn. unfold nt_eqb. destruct (nt_eq_dec n n); [reflexivity|congruence]. Qed.
Lemma filter_nodes n ts : Forall (node n) ts -> filter (is_node n) ts = ts.
Proof. induction 1 as [|t ts [cs ->] H IH]; [reflexivity|]. cbn [filter]. rewrite is_node_eq, IH. reflexivity. Qed.
Lemma filter_others n m ts : n <> m -> Forall (node n) ts -> filter (is_node m) ts = [].
Proof. intros Hn. induction 1 as [|t ts [cs ->] H IH]; [reflexivity|]. cbn [filter is_node]. unfold nt_eqb. destruct (nt_eq_dec n m); [congruence|exact IH]. Qed.
Definition commaed (ts : list tree) : list tree := concat (map (fun t => [Leaf (kw COMMA); t]) ts).
Lemma filter_commaed n ts : filter (is_node n) (commaed ts) = filter (is_node n) ts.
Proof. induction ts as [|t ts IH]; [reflexivity|]. unfold commaed in *. cbn [map concat app filter is_node]. rewrite IH. reflexivity. Qed.

(** [f] on a context of rule [n] gives [v] of what its tokens say. *)
Definition gives {A V} (n : nt) (y : A -> list tok) (f : bool -> tree -> M V) (v : A -> res V) : Prop :=
  forall cs, spells (rule n) cs -> fines (lv cs) -> exists a, lv cs = y a /\ forall tr, snd (f tr (Node n cs)) = v a.
Lemma lv_node n cs : lv [Node n cs] = lv cs. Proof. unfold lv. cbn. rewrite app_nil_r. reflexivity. Qed.
Lemma many_gives {A V} n y (f : bool -> tree -> M V) (v : A -> res V) cs : n <> fn_arg_expr -> gives n y f v -> spells (Many (R n)) cs -> fines (lv cs) ->
  exists l, lv cs = many y l /\ Forall (node n) cs /\ forall tr, mapM (fun c => snd (visit tr n (f tr) (Some c))) cs = mapM v l.
Proof.
  intros Hn Hg H. apply sp_many in H as (l & -> & Hl). induction Hl as [|u l Hu Hl IH]; intros Hok.
  - exists []. split; [reflexivity|]. split; [constructor|reflexivity].
  - cbn [concat] in *. rewrite lv_app in *. apply fines_app in Hok as [O1 O2]. destruct (IH O2) as (la & E1 & HN & E2).
    apply sp_r in Hu as (c & -> & Hc). replace (tree_rule n) with (rule n) in Hc by (destruct n; congruence || reflexivity).
    rewrite lv_node in *. destruct (Hg c Hc O1) as (a & Ea & Hv). exists (a :: la). split; [unfold many; cbn; rewrite Ea, E1; reflexivity|].
    split; [constructor; [eexists; reflexivity|exact HN]|]. intros tr. cbn [app mapM]. rewrite snd_visit, Hv, E2. reflexivity.
Qed.
Lemma commas_gives {A V} n y (f : bool -> tree -> M V) (v : A -> res V) cs : n <> fn_arg_expr -> gives n y f v -> spells (Many (Seq (T COMMA) (R n))) cs -> fines (lv cs) ->
  exists ts l, cs = commaed ts /\ lv cs = commas y l /\ Forall (node n) ts /\ forall tr, mapM (fun c => snd (visit tr n (f tr) (Some c))) ts = mapM v l.
Proof.
  intros Hn Hg H. apply sp_many in H as (l & -> & Hl). induction Hl as [|u l Hu Hl IH]; intros Hok.
  - exists [], []. split; [reflexivity|]. split; [reflexivity|]. split; [constructor|reflexivity].
  - cbn [concat] in *. rewrite lv_app in *. apply fines_app in Hok as [O1 O2]. destruct (IH O2) as (ts & la & E0 & E1 & HN & E2).
    apply sp_seq in Hu as (u1 & u2 & -> & H1 & Hu). apply sp_t in H1 as (x & -> & Hx).
    apply sp_r in Hu as (c & -> & Hc). replace (tree_rule n) with (rule n) in Hc by (destruct n; congruence || reflexivity).
    rewrite lv_app in *. apply fines_app in O1 as [O0 O1]. apply fines_cons in O0 as [O0 _].
    apply kw_fine in Hx; [|exact O0|discriminate]. subst x.
    rewrite lv_node in *. destruct (Hg c Hc O1) as (a & Ea & Hv). exists (Node n c :: ts), (a :: la).
    split; [rewrite E0; reflexivity|]. split; [unfold commas in *; cbn; rewrite Ea, E1; cbn; reflexivity|].
    split; [constructor; [eexists; reflexivity|exact HN]|]. intros tr. cbn [app mapM]. rewrite snd_visit, Hv, E2. reflexivity.
Qed.

(** *** Taking a list of children apart *)
Lemma lv_leaf x r : lv (Leaf x :: r) = x :: lv r. Proof. reflexivity. Qed.
Lemma lv_cons n c r : lv (Node n c :: r) = lv c ++ lv r. Proof. reflexivity. Qed.
Lemma lv_nil : lv [] = []. Proof. reflexivity. Qed.
Ltac lvs := repeat first [rewrite lv_app in * | rewrite lv_leaf in * | rewrite lv_cons in * | rewrite lv_nil in * | rewrite app_nil_r in *].
Ltac oks := repeat match goal with
  | H : fines (_ ++ _) |- _ => apply fines_app in H as [? ?]
  | H : fines (_ :: _) |- _ => apply fines_cons in H as [? ?]
  end.
Ltac kws := repeat match goal with
  | Hx : ty ?x = ?t, Ho : fine ?x |- _ => apply (kw_fine x t Ho) in Hx; [subst x|discriminate]
  | Hx : ty ?x = ?t |- _ => apply tok_is in Hx; rewrite Hx in *; clear Hx; let s := fresh "s" in set (s := tx x) in *; clearbody s; clear x
  end.
Ltac dsp := repeat match goal with
  | H : spells (Seq _ _) _ |- _ => let u := fresh "u" in let v := fresh "v" in apply sp_seq in H as (u & v & -> & ? & ?)
  | H : spells (T _) _ |- _ => let x := fresh "x" in apply sp_t in H as (x & -> & ?)
  | H : spells (one_of _) _ |- _ => let x := fresh "x" in apply sp_one_of in H; [|discriminate]; destruct H as (x & -> & H)
  | H : spells (R ?n) _ |- _ => let c := fresh "c" in apply sp_r in H as (c & -> & H); cbn [tree_rule] in H
  | H : spells Nothing _ |- _ => apply sp_nothing in H; subst
  | H : spells (rule ?n) _ |- _ => progress cbn [rule] in H
  end.
Ltac names := dsp; cbn [app] in *; lvs; oks.

(** *** The rules *)
Lemma g_ids : gives column_name_list (fun p => y_id (fst p) ++ commas y_id (snd p)) (fun _ => visit_column_name_list) (fun p => Ok (fst p :: snd p)).
Proof.
  intros cs H Hok. cbn [rule] in H. apply sp_seq in H as (u & v & -> & H1 & H2).
  assert (Hg : gives column_name y_id (fun _ c => text_of (Some c)) (@Ok str)).
  { intros cs H Ho. names. exists (tx x). split; [|intros _; cbn; rewrite app_nil_r; reflexivity]. unfold y_id. f_equal. apply tok_is. exact H. }
  rewrite lv_app in *. apply fines_app in Hok as [O1 O2].
  apply (commas_gives column_name _ _ _ _ ltac:(discriminate) Hg) in H2 as (ts & l & -> & E1 & HN & E2); [|exact O2].
  apply sp_r in H1 as (c & -> & H1). rewrite lv_node in *. destruct (Hg c H1 O1) as (a & Ea & Hv).
  exists (a, l). rewrite E1, Ea. split; [reflexivity|]. intros tr. unfold visit_column_name_list, all_of. rewrite snd_each. cbn [children app filter].
  rewrite is_node_eq, filter_commaed, filter_nodes by exact HN. cbn [mapM]. specialize (Hv tr). rewrite Hv.
  specialize (E2 tr). cbn [fst snd bind].
  assert (E3 : mapM (fun c => snd (text_of (Some c))) ts = Ok l).
  { transitivity (mapM (@Ok str) l); [|rewrite (mapM_ok (fun a : str => a)), map_id; reflexivity]. rewrite <- E2. apply mapM_ext. intros t Ht.
    rewrite Forall_forall in HN. destruct (HN t Ht) as (ct & ->). rewrite snd_visit. reflexivity. }
  rewrite E3. reflexivity.
Qed.

Lemma tkw t : ty (kw t) = t. Proof. reflexivity. Qed.
Ltac acc := unfold child_of, all_of, token_of, children, text_of; cbn [app filter is_node nth_error find is_leaf get_text map concat];
  repeat rewrite tkw; cbn; repeat rewrite app_nil_r.
Lemma g_literal cs : spells (rule literal_value) cs -> exists l, lv cs = y_literal l /\ concat (map get_text cs) = lit_text l.
Proof.
  intros H. cbn [rule] in H. dsp. destruct H as [H|[H|[]]]; symmetry in H; apply tok_is in H.
  - exists (LNum (tx x)). rewrite H. split; reflexivity || (cbn; rewrite ?app_nil_r; reflexivity).
  - exists (LStr (tx x)). rewrite H. split; reflexivity || (cbn; rewrite ?app_nil_r; reflexivity).
Qed.
Lemma g_number cs : spells (rule number_value) cs -> exists s, lv cs = y_number s /\ concat (map get_text cs) = s.
Proof.
  intros H. cbn [rule] in H. dsp. apply tok_is in H. exists (tx x). rewrite H. split; [reflexivity|cbn; rewrite ?app_nil_r; reflexivity].
Qed.
Lemma g_constr : gives column_constraint y_constr (fun _ => visit_column_constraint) (fun c => Ok (v_constr c)).
Proof.
  intros cs H Hok. cbn [rule] in H.
  repeat match goal with H : spells (Or _ _) _ |- _ => apply sp_or in H as [H|H] end; dsp; cbn [app] in *; lvs; oks; kws.
  - exists KPrimary. split; [reflexivity|]. intros _. reflexivity.
  - exists KNotNull. split; [reflexivity|]. intros _. reflexivity.
  - exists KUnique. split; [reflexivity|]. intros _. reflexivity.
  - match goal with H : In (ty ?z) _ |- _ => assert (HL : spells (rule literal_value) [Leaf z]) by
      (destruct H as [H|[H|[]]]; symmetry in H; [apply s_or1|apply s_or2]; constructor; exact H) end.
    destruct (g_literal _ HL) as (l & E1 & E2). rewrite lv_leaf, lv_nil in E1. cbn [map concat get_text] in E2.
    exists (KDefault l). split; [cbn; rewrite <- E1; reflexivity|]. intros _. unfold visit_column_constraint. acc. rewrite app_nil_r in E2. rewrite E2. reflexivity.
  - eexists (KMin _). split; [reflexivity|]. intros _. unfold visit_column_constraint. acc. reflexivity.
  - eexists (KMax _). split; [reflexivity|]. intros _. unfold visit_column_constraint. acc. reflexivity.
  - eexists (KMinLen _). split; [reflexivity|]. intros _. unfold visit_column_constraint. acc. reflexivity.
  - eexists (KMaxLen _). split; [reflexivity|]. intros _. unfold visit_column_constraint. acc. reflexivity.
Qed.
Ltac flt HN := repeat first [rewrite (filter_nodes _ _ HN) | rewrite filter_commaed | match type of HN with Forall (node ?n) ?ts =>
  match goal with |- context [filter (is_node ?m) ts] => rewrite (filter_others n m ts ltac:(discriminate) HN) end end].
Lemma g_name n cs : rule n = T IDENTIFIER -> spells (rule n) cs -> exists s, cs = [Leaf (Tok IDENTIFIER s)].
Proof. intros E H. rewrite E in H. dsp. apply tok_is in H. exists (tx x). rewrite H. reflexivity. Qed.
Lemma g_coltype cs : spells (rule column_type) cs -> fines (lv cs) -> exists t, cs = map Leaf (y_coltype t).
Proof.
  intros H Hok. cbn [rule] in H. dsp. lvs. oks. destruct H as [H|[H|[H|[]]]]; symmetry in H; kws; [exists TInt|exists TText|exists TBlob]; reflexivity.
Qed.
Lemma g_column : gives column_def y_column visit_column_def (fun c => Ok (v_column c)).
Proof.
  intros cs H Hok. cbn [rule] in H. apply sp_seq in H as (u & v & -> & H1 & H). apply sp_seq in H as (v1 & v2 & -> & H2 & H3).
  apply sp_r in H1 as (c1 & -> & H1). apply (g_name column_name _ eq_refl) in H1 as (s & ->).
  apply sp_r in H2 as (c2 & -> & H2). cbn [app] in *. lvs. oks. apply g_coltype in H2 as (ct & ->); [|assumption].
  apply (many_gives column_constraint _ (fun _ => visit_column_constraint) _ _ ltac:(discriminate) g_constr) in H3 as (l & E1 & HN & E2); [|assumption].
  exists (CColumn s ct l). split; [rewrite E1; destruct ct; reflexivity|]. intros tr. specialize (E2 tr). rewrite mapM_ok in E2.
  unfold visit_column_def, all_of, child_of, all_of. cbn [children app filter is_node]. cbn [nt_eqb nt_eq_dec nt_rec nt_rect].
  flt HN.
  cbn [nth_error]. unfold text_of, on. rewrite snd_andthen. cbn [snd ret bind]. rewrite snd_andthen.
  assert (EC : forall k : str -> M column, bind (snd (if has (token_of INT_ (Node column_type (map Leaf (y_coltype ct)))) then ret ColInt
      else if has (token_of TEXT_ (Node column_type (map Leaf (y_coltype ct)))) then ret ColText
      else if has (token_of BLOB_ (Node column_type (map Leaf (y_coltype ct)))) then ret ColBlob
      else raise (PErr (wrap NotSupportColumnType (get_text (Node column_type (map Leaf (y_coltype ct)))))))) (fun a => snd (k a)) = snd (k (v_coltype ct)))
    by (intros k; destruct ct; reflexivity).
  rewrite EC. rewrite snd_andthen, snd_each, E2. cbn [bind snd ret get_text map concat tx]. rewrite !app_nil_r. reflexivity.
Qed.
Lemma g_columns : gives column_def_list (fun p => y_column (fst p) ++ commas y_column (snd p)) visit_column_def_list (fun p => Ok (map v_column (fst p :: snd p))).
Proof.
  intros cs H Hok. cbn [rule] in H. apply sp_seq in H as (u & v & -> & H1 & H2). lvs. oks.
  apply (commas_gives column_def _ visit_column_def _ _ ltac:(discriminate) g_column) in H2 as (ts & l & -> & E1 & HN & E2); [|assumption].
  apply sp_r in H1 as (c & -> & H1). rewrite lv_node in *. destruct (g_column c H1) as (a & Ea & Hv); [assumption|].
  exists (a, l). rewrite E1, Ea. split; [reflexivity|]. intros tr. unfold visit_column_def_list, all_of. rewrite snd_each. cbn [children app filter].
  rewrite is_node_eq, filter_commaed, filter_nodes by exact HN. cbn [mapM]. rewrite snd_visit, Hv, E2, mapM_ok. reflexivity.
Qed.
Lemma g_index_name cs : spells (rule index_name) cs -> exists s, cs = [Leaf (Tok INDEX_NAME s)].
Proof. intros H. cbn [rule] in H. dsp. apply tok_is in H. exists (tx x). rewrite H. reflexivity. Qed.
Local Opaque visit.
Ltac runit := repeat first [rewrite snd_andthen | progress (cbn [bind snd ret text_of on get_text map concat tx fst]; rewrite ?app_nil_r)].
Lemma g_index : gives index_def y_index visit_index_def
  (fun i => Ok (v_index i)).
Proof.
  intros cs H Hok. cbn [rule] in H. apply sp_seq in H as (u & v & -> & H1 & H). apply sp_seq in H as (v1 & v2 & -> & H2 & H).
  apply sp_seq in H as (v3 & v4 & -> & H3 & H). apply sp_seq in H as (v5 & v6 & -> & H4 & H5).
  apply sp_r in H1 as (c1 & -> & H1). apply g_index_name in H1 as (s & ->).
  apply sp_r in H4 as (c4 & -> & H4). dsp. cbn [app] in *. lvs. oks.
  destruct (g_ids c4 H4) as ([f r] & E1 & Hv); [assumption|]. cbn [fst snd] in *. rewrite E1 in *.
  destruct H2 as [H2|[H2|[H2|[]]]]; symmetry in H2; kws.
  - exists (CIndex s IPrimary f r). split; [unfold y_index; ynorm|]. intros tr. unfold visit_index_def, child_of, all_of. cbn [children filter is_node nt_eqb nt_eq_dec nt_rec nt_rect nth_error].
    runit. destruct s; [exfalso; match goal with H : fine (Tok INDEX_NAME []) |- _ => apply (proj2 H); reflexivity end|]. unfold from1. runit. rewrite snd_visit, (Hv tr). reflexivity.
  - exists (CIndex s IUnique f r). split; [unfold y_index; ynorm|]. intros tr. unfold visit_index_def, child_of, all_of. cbn [children filter is_node nt_eqb nt_eq_dec nt_rec nt_rect nth_error].
    runit. destruct s; [exfalso; match goal with H : fine (Tok INDEX_NAME []) |- _ => apply (proj2 H); reflexivity end|]. unfold from1. runit. rewrite snd_visit, (Hv tr). reflexivity.
  - exists (CIndex s IIndex f r). split; [unfold y_index; ynorm|]. intros tr. unfold visit_index_def, child_of, all_of. cbn [children filter is_node nt_eqb nt_eq_dec nt_rec nt_rect nth_error].
    runit. destruct s; [exfalso; match goal with H : fine (Tok INDEX_NAME []) |- _ => apply (proj2 H); reflexivity end|]. unfold from1. runit. rewrite snd_visit, (Hv tr). reflexivity.
Qed.
Lemma g_fkact : gives foreign_key_action y_fkact (fun _ => visit_foreign_key_action) (fun a => Ok (v_fkact a)).
Proof.
  intros cs H Hok. cbn [rule] in H. apply sp_seq in H as (u & v & -> & H1 & H). apply sp_seq in H as (v1 & v2 & -> & H2 & H3).
  apply sp_one_of in H1 as (x & -> & H1); [|discriminate]. apply sp_one_of in H3 as (z & -> & H3); [|discriminate].
  assert (HB : exists b : bool, v1 = if b then [Leaf (kw ACTION_DO_)] else []).
  { apply sp_or in H2 as [H2|H2]; dsp; [exists true|exists false; reflexivity]. cbn [app] in *. lvs. oks. kws. reflexivity. }
  destruct HB as (b & ->). lvs. oks.
  assert (H1' : exists o, x = kw match o with OnUpdate => ACTION_ON_UPDATE_ | OnDelete => ACTION_ON_DELETE_ end).
  { destruct H1 as [H1|[H1|[]]]; symmetry in H1; apply kw_fine in H1; try assumption; try discriminate; [exists OnUpdate|exists OnDelete]; exact H1. }
  assert (H3' : exists d, z = kw match d with DoNoAction => ACTION_DO_NO_ACTION_ | DoCascade => ACTION_DO_CASCADE_
         | DoSetNull => ACTION_DO_SET_NULL_ | DoSetDefault => ACTION_DO_SET_DEFAULT_ | DoRestrict => ACTION_DO_RESTRICT_ end).
  { destruct H3 as [H3|[H3|[H3|[H3|[H3|[]]]]]]; symmetry in H3; apply kw_fine in H3; try assumption; try discriminate;
      [exists DoNoAction|exists DoCascade|exists DoSetNull|exists DoSetDefault|exists DoRestrict]; exact H3. }
  destruct H1' as (o & ->), H3' as (d & ->). exists (CFkact o b d). split; [destruct b; reflexivity|]. intros _. destruct o, b, d; reflexivity.
Qed.
Lemma g_fk : gives foreign_key_def y_fk visit_foreign_key_def (fun f => Ok (v_fk f)).
Proof.
  intros cs H Hok. cbn [rule] in H. apply sp_seq in H as (u & v & -> & H1 & H). apply sp_seq in H as (v1 & v2 & -> & H2 & H).
  apply sp_seq in H as (v3 & v4 & -> & H3 & H). apply sp_seq in H as (v5 & v6 & -> & H4 & H). apply sp_seq in H as (v7 & v8 & -> & H5 & H).
  apply sp_seq in H as (v9 & va & -> & H6 & H). apply sp_seq in H as (vb & vc & -> & H7 & H). apply sp_seq in H as (vd & ve & -> & H8 & H).
  apply sp_seq in H as (vf & vg & -> & H9 & HA).
  apply sp_one_of in H1 as (x & -> & H1); [|discriminate]. apply sp_one_of in H5 as (z & -> & H5); [|discriminate].
  apply sp_r in H3 as (c3 & -> & H3). apply sp_r in H8 as (c8 & -> & H8). apply sp_r in H6 as (c6 & -> & H6).
  apply (g_name table_name _ eq_refl) in H6 as (s & ->). dsp. cbn [app] in *. lvs. oks.
  destruct (g_ids c3 H3) as ([f r] & E1 & Hv1); [assumption|]. destruct (g_ids c8 H8) as ([f' r'] & E2 & Hv2); [assumption|]. cbn [fst snd] in *.
  apply (many_gives foreign_key_action _ (fun _ => visit_foreign_key_action) _ _ ltac:(discriminate) g_fkact) in HA as (l & E3 & HN & E4); [|assumption].
  assert (H1' : exists b : bool, x = kw (if b then FOREIGN_KEY_ABBR_ else FOREIGN_KEY_)).
  { destruct H1 as [H1|[H1|[]]]; symmetry in H1; apply kw_fine in H1; try assumption; try discriminate; [exists false|exists true]; exact H1. }
  assert (H5' : exists b : bool, z = kw (if b then REFERENCES_ABBR_ else REFERENCES_)).
  { destruct H5 as [H5|[H5|[]]]; symmetry in H5; apply kw_fine in H5; try assumption; try discriminate; [exists false|exists true]; exact H5. }
  destruct H1' as (b & ->), H5' as (b' & ->). clear H1 H5. kws.
  exists (CFk b f r b' s f' r' l). split; [rewrite E1, E2, E3; unfold y_fk; ynorm|]. intros tr.
  unfold visit_foreign_key_def, child_of, all_of. cbn [children filter is_node nt_eqb nt_eq_dec nt_rec nt_rect nth_error]. flt HN.
  cbn [nth_error]. rewrite snd_andthen, snd_visit, (Hv1 tr). cbn [bind]. runit. rewrite snd_visit, (Hv2 tr). cbn [bind]. runit.
  rewrite snd_each, (E4 tr), mapM_ok. reflexivity.
Qed.
Lemma is_node_ne n m cs : n <> m -> is_node m (Node n cs) = false.
Proof. intros H. cbn. unfold nt_eqb. destruct (nt_eq_dec n m); [congruence|reflexivity]. Qed.
Lemma g_members cs : spells (Many (Seq (T COMMA) (Or (R index_def) (R foreign_key_def)))) cs -> fines (lv cs) ->
  exists ts ms, cs = commaed ts /\ lv cs = commas y_member ms /\
    (forall m, m <> index_def -> m <> foreign_key_def -> filter (is_node m) ts = []) /\
    (forall tr, mapM (fun c => snd (visit tr index_def (visit_index_def tr) (Some c))) (filter (is_node index_def) ts) = Ok (map v_index (indexes ms))) /\
    (forall tr, mapM (fun c => snd (visit tr foreign_key_def (visit_foreign_key_def tr) (Some c))) (filter (is_node foreign_key_def) ts) = Ok (map v_fk (fks ms))).
Proof.
  intros H. apply sp_many in H as (l & -> & Hl). induction Hl as [|u l Hu Hl IH]; intros Hok.
  - exists [], []. repeat split; reflexivity.
  - cbn [concat] in *. rewrite lv_app in *. apply fines_app in Hok as [O1 O2]. destruct (IH O2) as (ts & ms & E0 & E1 & HN & E2 & E3).
    apply sp_seq in Hu as (u1 & u2 & -> & H1 & Hu). apply sp_t in H1 as (x & -> & Hx).
    rewrite lv_app in *. apply fines_app in O1 as [O0 O1]. apply fines_cons in O0 as [O0 _].
    apply kw_fine in Hx; [|exact O0|discriminate]. subst x.
    apply sp_or in Hu as [Hu|Hu]; apply sp_r in Hu as (c & -> & Hc); cbn [tree_rule] in Hc; rewrite lv_node in *.
    + destruct (g_index c Hc O1) as (a & Ea & Hv). exists (Node index_def c :: ts), (MIndex a :: ms).
      split; [rewrite E0; reflexivity|]. split; [unfold commas in *; cbn; rewrite Ea, E1; cbn; reflexivity|]. split; [|split].
      * intros m H1 H2. cbn [filter]. rewrite is_node_ne by congruence. apply HN; assumption.
      * intros tr. cbn [filter]. rewrite is_node_eq. cbn [mapM]. rewrite snd_visit, (Hv tr), (E2 tr). reflexivity.
      * intros tr. cbn [filter]. rewrite is_node_ne by discriminate. exact (E3 tr).
    + destruct (g_fk c Hc O1) as (a & Ea & Hv). exists (Node foreign_key_def c :: ts), (MFk a :: ms).
      split; [rewrite E0; reflexivity|]. split; [unfold commas in *; cbn; rewrite Ea, E1; cbn; reflexivity|]. split; [|split].
      * intros m H1 H2. cbn [filter]. rewrite is_node_ne by congruence. apply HN; assumption.
      * intros tr. cbn [filter]. rewrite is_node_ne by discriminate. exact (E2 tr).
      * intros tr. cbn [filter]. rewrite is_node_eq. cbn [mapM]. rewrite snd_visit, (Hv tr), (E3 tr). reflexivity.
Qed.
Lemma g_table : gives table_decl y_table visit_table_decl (fun t => Ok (v_table t)).
Proof.
  intros cs H Hok. cbn [rule] in H. apply sp_seq in H as (u & v & -> & H1 & H). apply sp_seq in H as (v1 & v2 & -> & H2 & H).
  apply sp_seq in H as (v3 & v4 & -> & H3 & H). apply sp_seq in H as (v5 & v6 & -> & H4 & H). apply sp_seq in H as (v7 & v8 & -> & H5 & H).
  apply sp_seq in H as (v9 & va & -> & H6 & H7).
  apply sp_r in H2 as (c2 & -> & H2). apply (g_name table_name _ eq_refl) in H2 as (s & ->). apply sp_r in H4 as (c4 & -> & H4).
  assert (HB : fines (lv v9) -> exists b : bool, v9 = if b then [Leaf (kw COMMA)] else []).
  { intros O. apply sp_or in H6 as [H6|H6]; dsp; [exists true|exists false; reflexivity]. lvs. oks. kws. reflexivity. }
  clear H6. dsp. cbn [app] in *. lvs. oks. destruct HB as (b & ->); [assumption|].
  destruct (g_columns c4 H4) as ([f r] & E1 & Hv); [assumption|]. cbn [fst snd] in *. apply g_members in H5 as (ts & ms & -> & E2 & HN & E3 & E4); [|assumption].
  kws. exists (CTable s f r ms b). split.
  { rewrite E1, E2. unfold y_table. destruct b; ynorm. }
  intros tr. unfold visit_table_decl, child_of, all_of. cbn [children filter is_node nt_eqb nt_eq_dec nt_rec nt_rect nth_error app].
  assert (HF : forall m, filter (is_node m) (commaed ts ++ (if b then [Leaf (kw COMMA)] else []) ++ [Leaf (kw R_BRACE)]) = filter (is_node m) ts).
  { intros m. rewrite filter_app, filter_commaed. destruct b; apply app_nil_r. }
  rewrite !HF. runit. rewrite snd_visit, (Hv tr). runit. rewrite snd_each, (E3 tr). runit.
  rewrite snd_each, (E4 tr). reflexivity.
Qed.
Lemma g_config cs : spells (rule ext_config) cs -> fines (lv cs) -> exists c, lv cs = y_config c /\
  snd (LETM a <- text_of (child_of ext_config_name 0 (Node ext_config cs)); LETM v <- text_of (child_of ext_config_value 0 (Node ext_config cs)); ret (ExtConfig a v)) = Ok (v_config c).
Proof.
  intros H Hok. cbn [rule] in H. apply sp_seq in H as (u & v & -> & H1 & H). apply sp_seq in H as (v1 & v2 & -> & H2 & H3).
  apply sp_r in H1 as (c1 & -> & H1). apply (g_name ext_config_name _ eq_refl) in H1 as (s & ->). apply sp_t in H2 as (x & -> & H2).
  apply sp_r in H3 as (c3 & -> & H3). cbn [tree_rule rule] in H3. apply sp_r in H3 as (c4 & -> & H3). apply g_literal in H3 as (l & E1 & E2).
  cbn [app] in *. lvs. oks. kws. exists (CConfig s l). split; [rewrite E1; reflexivity|].
  unfold child_of, all_of. cbn [children filter is_node nt_eqb nt_eq_dec nt_rec nt_rect nth_error]. runit. rewrite E2. reflexivity.
Qed.
Lemma g_configs : gives ext_config_list (fun p => y_config (fst p) ++ commas y_config (snd p)) (fun _ => visit_ext_config_list) (fun p => Ok (map v_config (fst p :: snd p))).
Proof.
  intros cs H Hok. cbn [rule] in H. apply sp_seq in H as (u & v & -> & H1 & H2). lvs. oks.
  assert (Hg : gives ext_config y_config (fun _ config => LETM a <- text_of (child_of ext_config_name 0 config);
    LETM v <- text_of (child_of ext_config_value 0 config); ret (ExtConfig a v)) (fun c => Ok (v_config c))).
  { intros cs Hs Ho. destruct (g_config cs Hs Ho) as (c & E1 & E2). exists c. split; [exact E1|intros _; exact E2]. }
  apply (commas_gives ext_config _ _ _ _ ltac:(discriminate) Hg) in H2 as (ts & l & -> & E1 & HN & E2); [|assumption].
  apply sp_r in H1 as (c & -> & H1). rewrite lv_node in *. destruct (Hg c H1) as (a & Ea & Hv); [assumption|].
  exists (a, l). rewrite E1, Ea. split; [reflexivity|]. intros tr. unfold visit_ext_config_list, all_of. rewrite snd_each. cbn [children app filter].
  rewrite is_node_eq, filter_commaed, filter_nodes by exact HN. cbn [mapM]. rewrite (Hv tr).
  specialize (E2 tr). rewrite mapM_ok in E2. erewrite mapM_ext; [rewrite E2; reflexivity|]. intros t Ht.
  rewrite Forall_forall in HN. destruct (HN t Ht) as (ct & ->). rewrite snd_visit. reflexivity.
Qed.
Lemma g_ext : gives extension_directive y_ext visit_extension_directive (fun x => Ok (v_ext x)).
Proof.
  intros cs H Hok. cbn [rule] in H. apply sp_seq in H as (u & v & -> & H1 & H). apply sp_seq in H as (v1 & v2 & -> & H2 & H).
  apply sp_seq in H as (v3 & v4 & -> & H3 & H). apply sp_seq in H as (v5 & v6 & -> & H4 & H). apply sp_seq in H as (v7 & v8 & -> & H5 & H6).
  apply sp_r in H2 as (c2 & -> & H2). apply (g_name extension_name _ eq_refl) in H2 as (s & ->).
  apply sp_r in H5 as (c5 & -> & H5). apply (g_name extension_name _ eq_refl) in H5 as (s' & ->).
  apply sp_or in H3 as [H3|H3].
  - apply sp_seq in H3 as (w1 & w2 & -> & H7 & H3). apply sp_seq in H3 as (w3 & w4 & -> & H8 & H9). apply sp_r in H8 as (c8 & -> & H8).
    dsp. cbn [app] in *. lvs. oks. kws. destruct (g_configs c8 H8) as (p & E1 & Hv); [assumption|].
    exists (CExt s (Some p) s'). split; [rewrite E1; unfold y_ext, y_configs; ynorm|]. intros tr.
    unfold visit_extension_directive, child_of, all_of. cbn [children filter is_node nt_eqb nt_eq_dec nt_rec nt_rect nth_error has]. runit.
    rewrite snd_visit, (Hv tr). runit. destruct p; reflexivity.
  - dsp. cbn [app] in *. lvs. oks. kws. exists (CExt s None s'). split; [reflexivity|]. intros tr.
    unfold visit_extension_directive, child_of, all_of. cbn [children filter is_node nt_eqb nt_eq_dec nt_rec nt_rect nth_error has]. runit. reflexivity.
Qed.
(** Attribute lists. *)
Definition attr_tree (a : aattr) : tree :=
  match a with
  | APublic | APrivate => Node action_visibility (map Leaf (y_aattr a))
  | AView => Node action_mutability (map Leaf (y_aattr a))
  | AOwner => Node action_auxiliary (map Leaf (y_aattr a))
  end.
Lemma aattrs_trees cs : spells (rule action_attr_list) cs -> fines (lv cs) -> exists l, cs = map attr_tree l.
Proof.
  intros H. cbn [rule] in H. apply sp_many in H as (l & -> & Hl). induction Hl as [|u l Hu Hl IH]; intros Hok.
  - exists []. reflexivity.
  - cbn [concat] in *. rewrite lv_app in *. apply fines_app in Hok as [O1 O2]. destruct (IH O2) as (la & ->).
    repeat match goal with H : spells (Or _ _) _ |- _ => apply sp_or in H as [H|H] end; apply sp_r in Hu as (c & -> & Hu); cbn [tree_rule rule] in Hu; dsp; lvs; oks.
    + destruct Hu as [Hu|[Hu|[]]]; symmetry in Hu; kws; [exists (APublic :: la)|exists (APrivate :: la)]; reflexivity.
    + kws. exists (AView :: la). reflexivity.
    + kws. exists (AOwner :: la). reflexivity.
Qed.
Lemma lv_attrs l : lv (map attr_tree l) = many y_aattr l.
Proof. induction l as [|a l IH]; [reflexivity|]. unfold lv, many in *. cbn [map concat]. rewrite IH. destruct a; reflexivity. Qed.
Lemma vis_texts l : map get_text (filter (is_node action_visibility) (map attr_tree l)) = visibilities l.
Proof. induction l as [|a l IH]; [reflexivity|]. unfold visibilities in *. cbn [map concat]. rewrite <- IH. destruct a; reflexivity. Qed.
Lemma mut_texts l : map get_text (filter (is_node action_mutability) (map attr_tree l)) = mutabilities l.
Proof. induction l as [|a l IH]; [reflexivity|]. unfold mutabilities in *. cbn [map concat]. rewrite <- IH. destruct a; reflexivity. Qed.
Lemma aux_texts l : map get_text (filter (is_node action_auxiliary) (map attr_tree l)) = auxiliaries l.
Proof. induction l as [|a l IH]; [reflexivity|]. unfold auxiliaries in *. cbn [map concat]. rewrite <- IH. destruct a; reflexivity. Qed.
Lemma seen_auxs_texts l : forall seen, snd (seen_auxs seen l) = v_auxs seen (map get_text l).
Proof.
  induction l as [|a l IH]; intros seen; [reflexivity|]. cbn [seen_auxs v_auxs map]. destruct (mem_str (get_text a) seen); [reflexivity|].
  rewrite snd_andthen, IH. destruct (v_auxs _ _); reflexivity.
Qed.
Lemma g_aattrs : gives action_attr_list (many y_aattr) (fun _ => visit_action_attr_list) v_aattrs.
Proof.
  intros cs H Hok. apply aattrs_trees in H as (l & ->); [|exact Hok]. exists l. split; [apply lv_attrs|]. intros _.
  unfold visit_action_attr_list, v_aattrs, all_of. cbn [children]. rewrite <- vis_texts, <- mut_texts, <- aux_texts.
  rewrite snd_andthen. destruct (filter (is_node action_visibility) _) as [|v1 [|v2 vs]]; cbn [map]; [| |reflexivity]; cbn [snd ret bind].
  - rewrite snd_andthen. destruct (filter (is_node action_mutability) _) as [|m1 [|m2 ms]]; cbn [map]; [| |reflexivity]; cbn [snd ret bind];
      rewrite snd_andthen; (destruct (filter (is_node action_auxiliary) _) as [|a1 as_]; [reflexivity|]);
      rewrite snd_andthen, seen_auxs_texts; cbn [map]; destruct (v_auxs _ _); reflexivity.
  - rewrite snd_andthen. destruct (filter (is_node action_mutability) _) as [|m1 [|m2 ms]]; cbn [map]; [| |reflexivity]; cbn [snd ret bind];
      rewrite snd_andthen; (destruct (filter (is_node action_auxiliary) _) as [|a1 as_]; [reflexivity|]);
      rewrite snd_andthen, seen_auxs_texts; cbn [map]; destruct (v_auxs _ _); reflexivity.
Qed.
Lemma g_annot : gives annotation_decl y_annot (fun _ => visit_annotation_decl) (fun a => Ok (v_annot a)).
Proof.
  intros cs H Hok. pose proof (spells_derives _ _ H) as HD. pose proof (spells_text _ _ H) as HT. apply der_r in HD.
  apply r_annot in HD as (a & Ea & _); [|apply fines_ok; exact Hok]. exists a. split; [exact Ea|]. intros _. unfold visit_annotation_decl. cbn [get_text].
  rewrite HT, Ea. unfold v_annot, drop1. rewrite Ea in Hok. unfold y_annot in *. cbn [app] in Hok. apply fines_cons in Hok as [[_ Hn] _].
  unfold text. cbn [app map concat]. cbn [tx] in *. destruct (cn_target a); [congruence|reflexivity].
Qed.
Lemma g_stmt : gives action_stmt (fun s : sig wf_stmt => y_stmt (proj1_sig s)) (fun _ => visit_action_stmt) (fun s => Ok (v_stmt (proj1_sig s))).
Proof.
  intros cs H Hok. pose proof (spells_derives _ _ H) as HD. pose proof (spells_text _ _ H) as HT. apply der_r in HD.
  apply r_stmt in HD as (s & Es & Hs); [|apply fines_ok; exact Hok]. exists (exist _ s Hs). split; [exact Es|]. intros _. unfold visit_action_stmt. cbn [get_text proj1_sig].
  rewrite HT, Es. reflexivity.
Qed.
Lemma many_map {A B} (y : B -> list tok) (g : A -> B) l : many (fun a => y (g a)) l = many y (map g l).
Proof. unfold many. rewrite map_map. reflexivity. Qed.
Lemma Forall_sig {A} (P : A -> Prop) (l : list (sig P)) : Forall P (map (@proj1_sig _ _) l).
Proof. induction l as [|[a H] l IH]; constructor; assumption. Qed.
Definition wf_stmts (p : cstmt * list cstmt) : Prop := wf_stmt (fst p) /\ Forall wf_stmt (snd p).
Lemma g_stmts : gives action_stmt_list (fun p : sig wf_stmts => y_stmt (fst (proj1_sig p)) ++ many y_stmt (snd (proj1_sig p)))
  visit_action_stmt_list (fun p => Ok (map v_stmt (fst (proj1_sig p) :: snd (proj1_sig p)))).
Proof.
  intros cs H Hok. cbn [rule] in H. apply sp_seq in H as (u & v & -> & H1 & H2). lvs. oks.
  apply (many_gives action_stmt _ (fun _ => visit_action_stmt) _ _ ltac:(discriminate) g_stmt) in H2 as (l & E1 & HN & E2); [|assumption].
  apply sp_r in H1 as (c & -> & H1). rewrite lv_node in *. destruct (g_stmt c H1) as ([a Ha] & Ea & Hv); [assumption|]. cbn [proj1_sig] in *.
  exists (exist _ (a, map (@proj1_sig _ _) l) (conj Ha (Forall_sig _ l))). cbn [proj1_sig fst snd]. rewrite E1, Ea, many_map. split; [reflexivity|]. intros tr. unfold visit_action_stmt_list, all_of. rewrite snd_each. cbn [children app filter].
  rewrite is_node_eq, filter_nodes by exact HN. cbn [mapM]. rewrite snd_visit, (Hv tr), (E2 tr).
  rewrite (mapM_ok (fun s : sig wf_stmt => v_stmt (proj1_sig s))). cbn [bind map]. rewrite map_map. reflexivity.
Qed.
(** Parameters. *)
Lemma g_param cs : spells (rule parameter) cs -> exists s, cs = [Leaf (Tok PARAM_OR_VAR s)].
Proof. intros H. cbn [rule] in H. dsp. apply tok_is in H. exists (tx x). rewrite H. reflexivity. Qed.
Lemma g_params cs : spells (rule param_list) cs -> fines (lv cs) -> exists o l, lv cs = opt y_param o ++ commas y_param l /\
  map get_text (all_of parameter (Node param_list cs)) = match o with Some p => [p] | None => [] end ++ l /\ Forall (node parameter) (all_of parameter (Node param_list cs)).
Proof.
  intros H Hok. cbn [rule] in H. apply sp_seq in H as (u & v & -> & H1 & H2). lvs. oks.
  assert (Hg : gives parameter y_param (fun _ c => text_of (Some c)) (@Ok str)).
  { intros cs H' Ho. apply g_param in H' as (s & ->). exists s. split; [reflexivity|]. intros _. cbn. rewrite app_nil_r. reflexivity. }
  apply (commas_gives parameter _ _ _ _ ltac:(discriminate) Hg) in H2 as (ts & l & -> & E1 & HN & E2); [|assumption].
  assert (E3 : map get_text ts = l).
  { specialize (E2 true). rewrite (mapM_ok (fun a : str => a)), map_id in E2.
    erewrite mapM_ext in E2; [rewrite (mapM_ok get_text) in E2; injection E2 as E2; exact E2|]. intros t Ht.
    rewrite Forall_forall in HN. destruct (HN t Ht) as (ct & ->). rewrite snd_visit. reflexivity. }
  apply sp_or in H1 as [H1|H1].
  - apply sp_r in H1 as (c & -> & H1). apply g_param in H1 as (s & ->). exists (Some s), l. rewrite E1. split; [reflexivity|].
    unfold all_of. cbn [children app filter]. rewrite is_node_eq, filter_commaed, filter_nodes by exact HN. split; [cbn; rewrite E3, ?app_nil_r; reflexivity|].
    constructor; [eexists; reflexivity|exact HN].
  - apply sp_nothing in H1. subst u. exists None, l. rewrite E1. split; [reflexivity|].
    unfold all_of. cbn [children app]. rewrite filter_commaed, filter_nodes by exact HN. split; [exact E3|exact HN].
Qed.
Lemma params_texts (f : tree -> M str) ts : (forall t, snd (f t) = Ok (get_text t)) -> mapM (fun t => snd (f t)) ts = Ok (map get_text ts).
Proof. intros H. rewrite <- (mapM_ok get_text). apply mapM_ext. intros; apply H. Qed.
Lemma g_action : gives action_decl (fun a : sig wf_action => y_action (proj1_sig a)) visit_action_decl (fun a => v_action (proj1_sig a)).
Proof.
  intros cs H Hok. cbn [rule] in H. apply sp_seq in H as (u & v & -> & H1 & H). apply sp_seq in H as (v1 & v2 & -> & H2 & H).
  apply sp_seq in H as (v3 & v4 & -> & H3 & H). apply sp_seq in H as (v5 & v6 & -> & H4 & H). apply sp_seq in H as (v7 & v8 & -> & H5 & H).
  apply sp_seq in H as (v9 & va & -> & H6 & H). apply sp_seq in H as (vb & vc & -> & H7 & H). apply sp_seq in H as (vd & ve & -> & H8 & H).
  apply sp_seq in H as (vf & vg & -> & H9 & HA).
  apply sp_r in H3 as (c3 & -> & H3). apply (g_name action_name _ eq_refl) in H3 as (s & ->).
  apply sp_r in H5 as (c5 & -> & H5). apply sp_r in H7 as (c7 & -> & H7). apply sp_r in H9 as (c9 & -> & H9).
  dsp. cbn [app] in *. lvs. oks.
  apply (many_gives annotation_decl _ (fun _ => visit_annotation_decl) _ _ ltac:(discriminate) g_annot) in H1 as (l & E1 & HN & E2); [|assumption].
  destruct (g_params c5 H5) as (o & ps & E3 & E4 & E5); [assumption|]. destruct (g_aattrs c7 H7) as (at_ & E6 & Hv7); [assumption|].
  destruct (g_stmts c9 H9) as ([[st sts] [Hw1 Hw2]] & E7 & Hv9); [assumption|]. cbn [proj1_sig fst snd] in *. kws.
  exists (exist _ (CActionD l s o ps at_ st sts) (conj Hw1 Hw2)). cbn [proj1_sig]. split.
  { rewrite E1, E3, E6, E7. unfold y_action. ynorm. }
  intros tr. unfold visit_action_decl, child_of.
  assert (HF : forall m, m <> annotation_decl -> all_of m (Node action_decl (u ++ Leaf (kw ACTION_) :: Node action_name [Leaf (Tok IDENTIFIER s)] :: Leaf (kw L_PAREN) :: Node param_list c5 :: Leaf (kw R_PAREN)
      :: Node action_attr_list c7 :: Leaf (kw L_BRACE) :: Node action_stmt_list c9 :: [Leaf (kw R_BRACE)])) =
      filter (is_node m) [Node action_name [Leaf (Tok IDENTIFIER s)]; Node param_list c5; Node action_attr_list c7; Node action_stmt_list c9]).
  { intros m Hm. unfold all_of. cbn [children]. rewrite filter_app, (filter_others annotation_decl m) by (congruence || exact HN). reflexivity. }
  assert (HA : all_of annotation_decl (Node action_decl (u ++ Leaf (kw ACTION_) :: Node action_name [Leaf (Tok IDENTIFIER s)] :: Leaf (kw L_PAREN) :: Node param_list c5 :: Leaf (kw R_PAREN)
      :: Node action_attr_list c7 :: Leaf (kw L_BRACE) :: Node action_stmt_list c9 :: [Leaf (kw R_BRACE)])) = u).
  { unfold all_of. cbn [children]. rewrite filter_app, (filter_nodes _ _ HN). cbn. apply app_nil_r. }
  rewrite HA, (HF action_name), (HF param_list), (HF action_attr_list), (HF action_stmt_list) by discriminate.
  cbn [filter is_node nt_eqb nt_eq_dec nt_rec nt_rect nth_error]. runit. rewrite snd_each, (E2 tr), mapM_ok. runit.
  assert (EP : snd (if Nat.eqb (length (all_of parameter (Node param_list c5))) 0 then ret None
      else LETM l0 <- visit tr param_list visit_param_list (Some (Node param_list c5)); ret (Some l0)) = Ok (nz (params (CActionD l s o ps at_ st sts)))).
  { unfold params. cbn [cd_param cd_params]. rewrite <- E4. destruct (all_of parameter (Node param_list c5)) as [|p1 pr] eqn:EA; [reflexivity|]. cbn [length Nat.eqb].
    rewrite snd_andthen, snd_visit. unfold visit_param_list. rewrite snd_each, EA, params_texts; [reflexivity|]. intros t. reflexivity. }
  match goal with |- bind ?x _ = _ => replace x with (Ok (nz (params (CActionD l s o ps at_ st sts)))) by (symmetry; exact EP) end. runit. rewrite snd_visit, (Hv7 tr). unfold v_action. cbn [cd_attrs]. destruct (v_aattrs at_) as [[[pub mut] auxs]|e|p]; cbn [bind]; [|reflexivity|reflexivity].
  runit. rewrite snd_visit, (Hv9 tr). reflexivity.
Qed.
Lemma g_init : gives init_decl (fun p : sig wf_stmts => y_decl (DInit (fst (proj1_sig p)) (snd (proj1_sig p)))) visit_init_decl
  (fun p => Ok (v_init (fst (proj1_sig p)) (snd (proj1_sig p)))).
Proof.
  intros cs H Hok. cbn [rule] in H. apply sp_seq in H as (u & v & -> & H1 & H). apply sp_seq in H as (v1 & v2 & -> & H2 & H).
  apply sp_seq in H as (v3 & v4 & -> & H3 & H). apply sp_seq in H as (v5 & v6 & -> & H4 & H). apply sp_seq in H as (v7 & v8 & -> & H5 & H6).
  apply sp_r in H5 as (c5 & -> & H5). dsp. cbn [app] in *. lvs. oks. kws.
  destruct (g_stmts c5 H5) as (p & E7 & Hv); [assumption|]. exists p. split.
  { rewrite E7. ynorm. }
  intros tr. unfold visit_init_decl, child_of, all_of. cbn [children filter is_node nt_eqb nt_eq_dec nt_rec nt_rect nth_error]. runit. rewrite snd_visit, (Hv tr). reflexivity.
Qed.
(** Declarations. *)
Lemma g_decls cs : spells (Many (Or (R table_decl) (Or (R action_decl) (R init_decl)))) cs -> fines (lv cs) ->
  exists ds, lv cs = many y_decl ds /\ Forall wf_decl ds /\
    (forall m, m <> table_decl -> m <> action_decl -> m <> init_decl -> filter (is_node m) cs = []) /\
    (forall tr, mapM (fun c => snd (visit tr table_decl (visit_table_decl tr) (Some c))) (filter (is_node table_decl) cs) = Ok (map v_table (tables ds))) /\
    (forall tr, mapM (fun c => snd (visit tr action_decl (visit_action_decl tr) (Some c))) (filter (is_node action_decl) cs) = mapM v_action (actions ds)) /\
    length (filter (is_node init_decl) cs) = length (inits ds) /\
    (forall tr, mapM (fun c => snd (visit tr init_decl (visit_init_decl tr) (Some c))) (filter (is_node init_decl) cs) = Ok (map (fun p => v_init (fst p) (snd p)) (inits ds))).
Proof.
  intros H. apply sp_many in H as (l & -> & Hl). induction Hl as [|u l Hu Hl IH]; intros Hok.
  - exists []. repeat split; try reflexivity; constructor.
  - cbn [concat] in *. rewrite lv_app in *. apply fines_app in Hok as [O1 O2]. destruct (IH O2) as (ds & E0 & HW & HN & E1 & E2 & E3 & E4). clear IH.
    apply sp_or in Hu as [Hu|Hu]; [|apply sp_or in Hu as [Hu|Hu]]; apply sp_r in Hu as (c & -> & Hc); cbn [tree_rule] in Hc; rewrite lv_node in *.
    + destruct (g_table c Hc O1) as (a & Ea & Hv). exists (DTable a :: ds). split; [unfold many in *; cbn; rewrite Ea, E0; reflexivity|].
      split; [constructor; [exact I|exact HW]|]. cbn [app]. split; [intros m H1 H2 H3; cbn [filter]; rewrite is_node_ne by congruence; apply HN; assumption|].
      split; [|split; [|split]]; try (intros tr); cbn [filter]; rewrite ?is_node_eq, ?is_node_ne by discriminate; [|apply E2|exact E3|apply E4].
      cbn [mapM]. rewrite snd_visit, (Hv tr), (E1 tr). reflexivity.
    + destruct (g_action c Hc O1) as ([a Ha] & Ea & Hv). cbn [proj1_sig] in *. exists (DAction a :: ds). split; [unfold many in *; cbn; rewrite Ea, E0; reflexivity|].
      split; [constructor; [exact Ha|exact HW]|]. cbn [app]. split; [intros m H1 H2 H3; cbn [filter]; rewrite is_node_ne by congruence; apply HN; assumption|].
      split; [|split; [|split]]; try (intros tr); cbn [filter]; rewrite ?is_node_eq, ?is_node_ne by discriminate; [apply E1| |exact E3|apply E4].
      cbn [mapM]. rewrite snd_visit, (Hv tr), (E2 tr). reflexivity.
    + destruct (g_init c Hc O1) as ([[s ss] Ha] & Ea & Hv). cbn [proj1_sig fst snd] in *. exists (DInit s ss :: ds).
      split; [unfold many in *; cbn [map concat]; rewrite Ea, E0; reflexivity|].
      split; [constructor; [exact Ha|exact HW]|]. cbn [app]. split; [intros m H1 H2 H3; cbn [filter]; rewrite is_node_ne by congruence; apply HN; assumption|].
      split; [|split; [|split]]; try (intros tr); cbn [filter]; rewrite ?is_node_eq, ?is_node_ne by discriminate; [apply E1|apply E2|cbn; rewrite E3; reflexivity|].
      cbn [mapM]. rewrite snd_visit, (Hv tr), (E4 tr). reflexivity.
Qed.
Lemma mapM_one {A B} (f : A -> res B) a b : mapM f [a] = Ok [b] -> f a = Ok b.
Proof. cbn. destruct (f a); cbn; congruence. Qed.
Lemma g_unit ts t : parse_tree_of ts t -> fines ts ->
  exists u, ts = y_unit u /\ wf_unit u /\ forall tr, snd (visit tr source_unit (visit_source_unit tr) (Some t)) = v_unit u.
Proof.
  intros (cs & -> & H & HT) Hok. cbn [leaves] in HT. fold (lv (cs ++ [Eof])) in HT. rewrite lv_app, app_nil_r in HT. subst ts.
  cbn [rule] in H. apply sp_seq in H as (u & v & -> & H1 & H). apply sp_seq in H as (v1 & v2 & -> & H2 & H).
  apply sp_seq in H as (v3 & v4 & -> & H3 & H4). apply sp_r in H1 as (c1 & -> & H1). cbn [tree_rule rule] in H1.
  apply sp_seq in H1 as (w1 & w2 & -> & H1 & H5). apply sp_r in H5 as (c5 & -> & H5). apply (g_name database_name _ eq_refl) in H5 as (s & ->).
  dsp. cbn [app] in *. lvs. oks. cbn [app] in *. oks. kws.
  apply (many_gives extension_directive _ visit_extension_directive _ _ ltac:(discriminate) g_ext) in H3 as (xs & E1 & HN & E2); [|assumption].
  apply g_decls in H4 as (ds & E3 & HW & HD & E4 & E5 & E6 & E7); [|assumption].
  exists (CUnit s xs ds). split; [unfold y_unit; cbn [cu_name cu_exts cu_decls]; rewrite E1, E3; reflexivity|]. split; [exact HW|].
  intros tr. rewrite snd_visit. unfold visit_source_unit, child_of.
  set (T := Node source_unit _).
  assert (HF : forall m, m <> database_directive -> m <> extension_directive -> all_of m T = filter (is_node m) v4).
  { intros m Hm Hm'. unfold all_of, T. cbn [children app filter]. rewrite is_node_ne by congruence. cbn [is_node]. rewrite !filter_app, (filter_others extension_directive m) by (congruence || exact HN).
    cbn [filter is_node app]. apply app_nil_r. }
  assert (HX : all_of extension_directive T = v3).
  { unfold all_of, T. cbn [children app filter]. rewrite is_node_ne by discriminate. cbn [is_node]. rewrite !filter_app, (filter_nodes _ _ HN), HD by discriminate.
    cbn. rewrite !app_nil_r. reflexivity. }
  assert (HB : nth_error (all_of database_directive T) 0 = Some (Node database_directive [Leaf (kw DATABASE_); Node database_name [Leaf (Tok IDENTIFIER s)]])).
  { unfold all_of, T. cbn [children app filter]. rewrite is_node_eq. reflexivity. }
  rewrite HB, HX, !HF by discriminate. clear HB HX HF T. cbn [on]. unfold all_of. cbn [children filter is_node nt_eqb nt_eq_dec nt_rec nt_rect nth_error]. runit.
  rewrite snd_each, (E2 tr), mapM_ok. runit. rewrite snd_each, (E4 tr). runit. rewrite E6. unfold v_unit. cbn [cu_decls cu_name cu_exts].
  specialize (E7 tr). destruct (inits ds) as [|i1 [|i2 is]] eqn:EI; [| |reflexivity]; cbn [length Nat.ltb Nat.leb Nat.eqb].
  - rewrite snd_andthen, snd_each, (E5 tr). destruct (mapM v_action (actions ds)); reflexivity.
  - destruct (filter (is_node init_decl) v4) as [|n1 [|? ?]]; try discriminate. cbn [map] in E7. apply mapM_one in E7. cbn [nth_error].
    rewrite snd_andthen, snd_each, (E5 tr). destruct (mapM v_action (actions ds)); cbn [bind]; [|reflexivity|reflexivity]. runit. rewrite E7. reflexivity.
Qed.
