(** The derivations of the grammar are the yields of the trees; acceptance is derivability. *)
From Verif Require Import Cst Parser ExprProof ParserProof ParserSound ParserComplete.

Local Arguments kw : simpl never.

Lemma rep_nt {A} n (y : A -> list tok) wf : rep (rule n) y wf -> rep (R n) y wf.
Proof.
  intros [H1 H2]. split.
  - intros ts Hok H. apply der_r in H. auto.
  - intros a Ha. apply der_r. auto.
Qed.
Lemma rep_seq {A B} a b (ya : A -> list tok) (yb : B -> list tok) wa wb : rep a ya wa -> rep b yb wb ->
  rep (Seq a b) (fun p => ya (fst p) ++ yb (snd p)) (fun p => wa (fst p) /\ wb (snd p)).
Proof.
  intros [A1 A2] [B1 B2]. split.
  - intros ts Hok H. apply der_seq in H as (u & v & -> & Hu & Hv). apply toks_ok_app in Hok as [Ou Ov].
    destruct (A1 u Ou Hu) as (x & -> & Hx). destruct (B1 v Ov Hv) as (z & -> & Hz). exists (x, z). auto.
  - intros [x z] [Hx Hz]. constructor; cbn; auto.
Qed.
Lemma rep_or {A B} a b (ya : A -> list tok) (yb : B -> list tok) wa wb : rep a ya wa -> rep b yb wb ->
  rep (Or a b) (fun s => match s with inl x => ya x | inr z => yb z end) (fun s => match s with inl x => wa x | inr z => wb z end).
Proof.
  intros [A1 A2] [B1 B2]. split.
  - intros ts Hok H. apply der_or in H as [H|H].
    + destruct (A1 _ Hok H) as (x & -> & Hx). exists (inl x); auto.
    + destruct (B1 _ Hok H) as (x & -> & Hx). exists (inr x); auto.
  - intros [x|x] H; [apply d_or1|apply d_or2]; auto.
Qed.
Lemma rep_map {A B} (f : A -> B) e y wf y' (wf' : B -> Prop) : rep e y wf ->
  (forall a, wf a -> y' (f a) = y a /\ wf' (f a)) -> (forall b, wf' b -> exists a, f a = b /\ wf a) -> rep e y' wf'.
Proof.
  intros [H1 H2] Hf Hg. split.
  - intros ts Hok H. destruct (H1 ts Hok H) as (a & -> & Ha). exists (f a). destruct (Hf a Ha). auto.
  - intros b Hb. destruct (Hg b Hb) as (a & <- & Ha). destruct (Hf a Ha) as [-> _]. auto.
Qed.
Lemma rep_tok t : literal_of t = None -> rep (T t) (fun s => [Tok t s]) all.
Proof.
  intros _. split.
  - intros ts Hok H. apply der_t in H as ([t' s] & -> & Hx). cbn in Hx. subst t'. exists s. split; [reflexivity|exact I].
  - intros s _. constructor. reflexivity.
Qed.
Lemma rep_one_of l : l <> [] -> (forall t, In t l -> literal_of t <> None) -> rep (one_of l) (fun t => [kw t]) (fun t => In t l).
Proof.
  intros Hn Hl. split.
  - intros ts Hok H. apply der_one_of in H as (x & -> & Hx); [|exact Hn].
    apply existsb_exists in Hx as (t & Ht & Et). apply tt_eqb_eq in Et. exists t. split; [|exact Ht].
    apply toks_ok_cons in Hok as [Hx _]. f_equal. apply kw_is; auto.
  - intros t Ht. apply der_one_of; [exact Hn|]. exists (kw t). split; [reflexivity|]. apply existsb_exists. exists t.
    split; [exact Ht|apply tt_eqb_refl].
Qed.

Create HintDb rep.
#[export] Hint Resolve rep_seq rep_or rep_many rep_opt : rep.
#[export] Hint Resolve rep_commas | 0 : rep.
#[export] Hint Extern 1 (rep (T _) _ _) => (apply rep_kw; discriminate) : rep.
#[export] Hint Extern 2 (rep (T _) _ _) => (apply rep_tok; reflexivity) : rep.
#[export] Hint Extern 1 (rep (one_of _) _ _) => (apply rep_one_of; [discriminate|cbn; intuition (subst; discriminate)]) : rep.

Ltac auto_rep := repeat first
  [ apply rep_commas | apply rep_many | apply rep_opt | apply rep_seq | apply rep_or
  | apply rep_kw; discriminate | apply rep_tok; reflexivity
  | apply rep_one_of; [discriminate|cbn; intuition (subst; discriminate)]
  | solve [eauto with rp nocore] ].
Create HintDb rp.
Ltac ynorm := cbn; repeat (rewrite <- app_assoc; cbn [app]); try reflexivity.
Ltac rmap f := eapply (rep_map f); [apply rep_nt; cbn [rule]; auto_rep| |].

Lemma r_id n : rule n = T IDENTIFIER -> rep (R n) y_id all.
Proof. intros H. apply rep_nt. rewrite H. apply (rep_tok IDENTIFIER); reflexivity. Qed.
#[export] Hint Extern 1 (rep (R _) _ _) => (apply r_id; reflexivity) : rp.
Lemma r_literal : rep (R literal_value) y_literal all.
Proof.
  apply rep_nt. cbn [rule one_of].
  apply (rep_map (fun s => match s with inl a => LNum a | inr a => LStr a end) _ _ _ _ _
    (rep_or _ _ _ _ _ _ (rep_tok UNSIGNED_NUMBER_LITERAL eq_refl) (rep_tok STRING_LITERAL eq_refl))).
  - intros [a|a] _; split; try exact I; reflexivity.
  - intros [a|a] _; [exists (inl a)|exists (inr a)]; split; try exact I; reflexivity.
Qed.
Lemma r_literal_1 n : rule n = R literal_value -> rep (R n) y_literal all.
Proof. intros H. apply rep_nt. rewrite H. apply r_literal. Qed.
Lemma r_number : rep (R number_value) y_number all.
Proof. apply rep_nt. apply (rep_tok UNSIGNED_NUMBER_LITERAL); reflexivity. Qed.
Lemma r_param n : rule n = T PARAM_OR_VAR -> rep (R n) y_param all.
Proof. intros H. apply rep_nt. rewrite H. apply (rep_tok PARAM_OR_VAR); reflexivity. Qed.
#[export] Hint Extern 1 (rep (R _) _ _) => (apply r_param; reflexivity) : rp.
#[export] Hint Extern 1 (rep (R _) _ _) => (apply r_literal_1; reflexivity) : rp.
#[export] Hint Resolve r_literal r_number : rp.
Lemma r_index_name : rep (R index_name) (fun s => [Tok INDEX_NAME s]) all.
Proof. apply rep_nt. apply (rep_tok INDEX_NAME); reflexivity. Qed.
Lemma r_target : rep (R annotation_target_name) (fun s => [Tok BLOCK_VAR_OR_ANNOTATION s]) all.
Proof. apply rep_nt. apply (rep_tok BLOCK_VAR_OR_ANNOTATION); reflexivity. Qed.
#[export] Hint Resolve r_index_name r_target : rp.

Lemma rep_enum {B} (g : B -> tt) l (lB : list B) : l <> [] -> l = map g lB -> (forall b, In b lB) ->
  (forall t, In t l -> literal_of t <> None) -> rep (one_of l) (fun b => [kw (g b)]) all.
Proof.
  intros Hn Hl Hb Hlit. destruct (rep_one_of l Hn Hlit) as [H1 H2]. split.
  - intros ts Hok H. destruct (H1 ts Hok H) as (t & -> & Ht). subst l. apply in_map_iff in Ht as (b & <- & _). exists b. split; [reflexivity|exact I].
  - intros b _. apply H2. subst l. apply in_map. auto.
Qed.
Lemma r_coltype : rep (R column_type) y_coltype all.
Proof.
  apply rep_nt. unfold y_coltype. apply (rep_enum _ _ [TInt; TText; TBlob]); [discriminate|reflexivity|intros []; cbn; auto|].
  cbn. intuition (subst; discriminate).
Qed.
Lemma r_ikind : rep (one_of [PRIMARY_; UNIQUE_; INDEX_])
  (fun k => [kw match k with IPrimary => PRIMARY_ | IUnique => UNIQUE_ | IIndex => INDEX_ end]) all.
Proof. apply (rep_enum _ _ [IPrimary; IUnique; IIndex]); [discriminate|reflexivity|intros []; cbn; auto|]. cbn. intuition (subst; discriminate). Qed.
Lemma r_fkon : rep (one_of [ACTION_ON_UPDATE_; ACTION_ON_DELETE_])
  (fun k => [kw match k with OnUpdate => ACTION_ON_UPDATE_ | OnDelete => ACTION_ON_DELETE_ end]) all.
Proof. apply (rep_enum _ _ [OnUpdate; OnDelete]); [discriminate|reflexivity|intros []; cbn; auto|]. cbn. intuition (subst; discriminate). Qed.
Lemma r_fkdo : rep (one_of [ACTION_DO_NO_ACTION_; ACTION_DO_CASCADE_; ACTION_DO_SET_NULL_; ACTION_DO_SET_DEFAULT_; ACTION_DO_RESTRICT_])
  (fun k => [kw match k with DoNoAction => ACTION_DO_NO_ACTION_ | DoCascade => ACTION_DO_CASCADE_
         | DoSetNull => ACTION_DO_SET_NULL_ | DoSetDefault => ACTION_DO_SET_DEFAULT_ | DoRestrict => ACTION_DO_RESTRICT_ end]) all.
Proof.
  apply (rep_enum _ _ [DoNoAction; DoCascade; DoSetNull; DoSetDefault; DoRestrict]); [discriminate|reflexivity|intros []; cbn; auto 7|].
  cbn. intuition (subst; discriminate).
Qed.
Lemma r_bool t u : literal_of t <> None -> literal_of u <> None ->
  rep (one_of [t; u]) (fun b : bool => [kw (if b then u else t)]) all.
Proof. intros Ht Hu. apply (rep_enum _ _ [false; true]); [discriminate|reflexivity|intros []; cbn; auto|]. cbn. intuition (subst; auto). Qed.
Lemma r_flag t : literal_of t <> None -> rep (Opt (T t)) (fun b : bool => if b then [kw t] else []) all.
Proof.
  intros Ht. apply (rep_map (fun o : option unit => match o with Some _ => true | None => false end) _ _ _ _ _ (rep_opt _ _ _ (rep_kw t Ht))).
  - intros [[]|] _; split; try exact I; reflexivity.
  - intros [] _; [exists (Some Datatypes.tt)|exists None]; split; try reflexivity; intros; exact I.
Qed.

Ltac tv := repeat split; try exact I; try apply all_forall; try (intros; exact I); auto; try discriminate.

Lemma r_ids : rep (R column_name_list) (fun p => y_id (fst p) ++ commas y_id (snd p)) all.
Proof.
  rmap (fun p : str * list str => p).
  - intros [a l] _. split; [reflexivity|exact I].
  - intros [a l] _. exists (a, l). split; [reflexivity|]. split; [exact I|apply all_forall].
Qed.
#[export] Hint Resolve r_coltype r_ikind r_fkon r_fkdo r_ids : rp.

Lemma r_constr : rep (R column_constraint) y_constr all.
Proof.
  rmap (fun s : unit + (unit + (unit + (unit * (unit * (literal * unit)) + (unit * (unit * (str * unit)) + (unit * (unit * (str * unit))
        + (unit * (unit * (str * unit)) + unit * (unit * (str * unit)))))))) =>
     match s with
     | inl _ => KPrimary
     | inr (inl _) => KNotNull
     | inr (inr (inl _)) => KUnique
     | inr (inr (inr (inl (_, (_, (l, _)))))) => KDefault l
     | inr (inr (inr (inr (inl (_, (_, (n, _))))))) => KMin n
     | inr (inr (inr (inr (inr (inl (_, (_, (n, _)))))))) => KMax n
     | inr (inr (inr (inr (inr (inr (inl (_, (_, (n, _))))))))) => KMinLen n
     | inr (inr (inr (inr (inr (inr (inr (_, (_, (n, _))))))))) => KMaxLen n
     end).
  - intros a _. split; [|exact I]. repeat match goal with p : _ + _ |- _ => destruct p | p : _ * _ |- _ => destruct p end; ynorm.
  - pose (u := Datatypes.tt). intros [| | |l|n|n|n|n] _;
      [exists (inl u)|exists (inr (inl u))|exists (inr (inr (inl u)))|exists (inr (inr (inr (inl (u, (u, (l, u)))))))
      |exists (inr (inr (inr (inr (inl (u, (u, (n, u))))))))|exists (inr (inr (inr (inr (inr (inl (u, (u, (n, u)))))))))
      |exists (inr (inr (inr (inr (inr (inr (inl (u, (u, (n, u))))))))))|exists (inr (inr (inr (inr (inr (inr (inr (u, (u, (n, u))))))))))];
      split; try reflexivity; cbn; tv.
Qed.
#[export] Hint Resolve r_constr : rp.

Lemma r_column : rep (R column_def) y_column all.
Proof.
  rmap (fun p : str * (coltype * list constr) => CColumn (fst p) (fst (snd p)) (snd (snd p))).
  - intros [n [t l]] _. split; [reflexivity|exact I].
  - intros [n t l] _. exists (n, (t, l)). split; [reflexivity|]. cbn; tv.
Qed.
#[export] Hint Resolve r_column : rp.
Lemma r_columns : rep (R column_def_list) (fun p => y_column (fst p) ++ commas y_column (snd p)) all.
Proof.
  rmap (fun p : ccolumn * list ccolumn => p).
  - intros [a l] _. split; [reflexivity|exact I].
  - intros [a l] _. exists (a, l). split; [reflexivity|]. split; [exact I|apply all_forall].
Qed.
Lemma r_index : rep (R index_def) y_index all.
Proof.
  eapply (rep_map (fun p : str * (ikind * (unit * ((str * list str) * unit))) =>
    let '(n, (k, (_, ((a, l), _)))) := p in CIndex n k a l)).
  - apply rep_nt. cbn [rule]. apply rep_seq; [apply r_index_name|]. apply rep_seq; [apply r_ikind|]. auto_rep.
  - intros [n [k [u [[a l] v]]]] _. split; [ynorm|exact I].
  - intros [n k a l] _. exists (n, (k, (Datatypes.tt, ((a, l), Datatypes.tt)))). split; [reflexivity|]. cbn; tv.
Qed.
Lemma r_fkact : rep (R foreign_key_action) y_fkact all.
Proof.
  eapply (rep_map (fun p : fkon * (bool * fkdo) => CFkact (fst p) (fst (snd p)) (snd (snd p)))).
  - apply rep_nt. cbn [rule]. apply rep_seq; [apply r_fkon|]. apply rep_seq; [apply r_flag; discriminate|apply r_fkdo].
  - intros [n [k d]] _. split; [ynorm|exact I].
  - intros [n k d] _. exists (n, (k, d)). split; [reflexivity|]. cbn; tv.
Qed.
#[export] Hint Resolve r_columns r_index r_fkact : rp.
Lemma r_fk : rep (R foreign_key_def) y_fk all.
Proof.
  eapply (rep_map (fun p : bool * (unit * ((str * list str) * (unit * (bool * (str * (unit * ((str * list str) * (unit * list cfkact)))))))) =>
    let '(b, (_, ((c, cs), (_, (rb, (t, (_, ((p, ps), (_, l))))))))) := p in CFk b c cs rb t p ps l)).
  - apply rep_nt. cbn [rule]. apply rep_seq; [apply r_bool; discriminate|]. apply rep_seq; [apply rep_kw; discriminate|].
    apply rep_seq; [apply r_ids|]. apply rep_seq; [apply rep_kw; discriminate|]. apply rep_seq; [apply r_bool; discriminate|]. auto_rep.
  - intros (b & u & (c & cs) & u2 & rb & t & u3 & (p & ps) & u4 & l) _. split; [ynorm|exact I].
  - intros [b c cs rb t p ps l] _. pose (u := Datatypes.tt). exists (b, (u, ((c, cs), (u, (rb, (t, (u, ((p, ps), (u, l))))))))).
    split; [reflexivity|]. cbn; tv.
Qed.
#[export] Hint Resolve r_fk : rp.
Lemma r_member : rep (Or (R index_def) (R foreign_key_def)) y_member all.
Proof.
  eapply (rep_map (fun s : cindex + cfk => match s with inl i => MIndex i | inr f => MFk f end)); [auto_rep| |].
  - intros [a|a] _; split; try exact I; reflexivity.
  - intros [a|a] _; [exists (inl a)|exists (inr a)]; split; try exact I; reflexivity.
Qed.
Lemma r_table : rep (R table_decl) y_table all.
Proof.
  eapply (rep_map (fun p : unit * (str * (unit * ((ccolumn * list ccolumn) * (list member * (bool * unit))))) =>
    let '(_, (n, (_, ((c, cs), (ms, (b, _)))))) := p in CTable n c cs ms b)).
  - apply rep_nt. cbn [rule]. apply rep_seq; [apply rep_kw; discriminate|]. apply rep_seq; [apply r_id; reflexivity|].
    apply rep_seq; [apply rep_kw; discriminate|]. apply rep_seq; [apply r_columns|]. apply rep_seq; [apply rep_commas, r_member|].
    apply rep_seq; [apply r_flag; discriminate|]. auto_rep.
  - intros (u & n & u2 & (c & cs) & ms & b & u3) _. split; [ynorm|exact I].
  - intros [n c cs ms b] _. pose (u := Datatypes.tt). exists (u, (n, (u, ((c, cs), (ms, (b, u)))))).
    split; [reflexivity|]. cbn; tv.
Qed.
Lemma r_config : rep (R ext_config) y_config all.
Proof.
  rmap (fun p : str * (unit * literal) => CConfig (fst p) (snd (snd p))).
  - intros [n [t l]] _. split; [reflexivity|exact I].
  - intros [n v] _. exists (n, (Datatypes.tt, v)). split; [reflexivity|]. cbn; tv.
Qed.
#[export] Hint Resolve r_table r_config : rp.
Lemma r_configs : rep (R ext_config_list) (fun p => y_config (fst p) ++ commas y_config (snd p)) all.
Proof.
  rmap (fun p : cconfig * list cconfig => p).
  - intros [a l] _. split; [reflexivity|exact I].
  - intros [a l] _. exists (a, l). split; [reflexivity|]. split; [exact I|apply all_forall].
Qed.
#[export] Hint Resolve r_configs : rp.
Lemma r_ext : rep (R extension_directive) y_ext all.
Proof.
  rmap (fun p : unit * (str * (option (unit * ((cconfig * list cconfig) * unit)) * (unit * (str * unit)))) =>
    CExt (fst (snd p)) (match fst (snd (snd p)) with Some (_, (c, _)) => Some c | None => None end) (fst (snd (snd (snd (snd p)))))).
  - intros (u & n & [(u1 & (c & cs) & u2)|] & u3 & a & u4) _; (split; [ynorm|exact I]).
  - pose (u := Datatypes.tt). intros [n [c|] a] _; [exists (u, (n, (Some (u, (c, u)), (u, (a, u)))))|exists (u, (n, (None, (u, (a, u)))))];
      (split; [reflexivity|]); cbn; tv.
Qed.
Lemma r_attr : rep (R annotation_attr) y_attr all.
Proof.
  rmap (fun p : str * (unit * literal) => CAttr (fst p) (snd (snd p))).
  - intros [n [t l]] _. split; [reflexivity|exact I].
  - intros [n v] _. exists (n, (Datatypes.tt, v)). split; [reflexivity|]. cbn; tv.
Qed.
#[export] Hint Resolve r_ext r_attr : rp.
Lemma r_attrs : rep (R annotation_attr_list) (fun p => y_attr (fst p) ++ commas y_attr (snd p)) all.
Proof.
  rmap (fun p : cattr * list cattr => p).
  - intros [a l] _. split; [reflexivity|exact I].
  - intros [a l] _. exists (a, l). split; [reflexivity|]. split; [exact I|apply all_forall].
Qed.
#[export] Hint Resolve r_attrs : rp.
Lemma r_annot : rep (R annotation_decl) y_annot all.
Proof.
  rmap (fun p : str * (unit * ((cattr * list cattr) * unit)) => let '(t, (_, ((a, l), _))) := p in CAnnot t a l).
  - intros (t & u & (a & l) & u2) _; (split; [ynorm|exact I]).
  - pose (u := Datatypes.tt). intros [t a l] _. exists (t, (u, ((a, l), u))). split; [reflexivity|]. cbn; tv.
Qed.
Lemma r_aattr : rep (Or (R action_visibility) (Or (R action_mutability) (R action_auxiliary))) y_aattr all.
Proof.
  assert (HV : rep (R action_visibility) (fun b : bool => [kw (if b then PRIVATE_ else PUBLIC_)]) all)
    by (apply rep_nt, r_bool; discriminate).
  eapply (rep_map (fun s : bool + (unit + unit) => match s with inl b => if b then APrivate else APublic | inr (inl _) => AView | inr (inr _) => AOwner end)).
  - apply rep_or; [exact HV|]. apply rep_or; apply rep_nt; apply rep_kw; discriminate.
  - intros [[]|[[]|[]]] _; split; try exact I; reflexivity.
  - intros [] _; [exists (inl false)|exists (inl true)|exists (inr (inl Datatypes.tt))|exists (inr (inr Datatypes.tt))];
      split; try exact I; reflexivity.
Qed.
Lemma r_aattrs : rep (R action_attr_list) (many y_aattr) all.
Proof.
  eapply (rep_map (fun l => l)); [apply rep_nt; cbn [rule]; apply rep_many, r_aattr| |].
  - intros l _. split; [reflexivity|exact I].
  - intros l _. exists l. auto using all_forall.
Qed.
#[export] Hint Resolve r_annot r_aattrs : rp.

Lemma r_arg : rep (R fn_arg_expr) y_arg wf_arg.
Proof.
  split.
  - intros ts Hok H. exists ts. split; [reflexivity|]. split; assumption.
  - intros a [Ha _]. exact Ha.
Qed.
#[export] Hint Resolve r_arg : rp.
Lemma r_recv : rep (Seq (R call_receivers) (T ASSIGN)) y_recv all.
Proof.
  assert (HC : rep (R call_receivers) (fun p => y_param (fst p) ++ commas y_param (snd p)) (fun p => all (fst p) /\ Forall all (snd p)))
    by (apply rep_nt; cbn [rule]; auto_rep).
  eapply (rep_map (fun p : (str * list str) * unit => fst p)); [apply rep_seq; [exact HC|auto_rep]| |].
  - intros [[a l] u] _. split; [ynorm|exact I].
  - intros [a l] _. exists ((a, l), Datatypes.tt). split; [reflexivity|]. cbn; tv.
Qed.
Lemma r_callee : rep (R fn_name) y_callee all.
Proof.
  eapply (rep_map (fun s : (str * (unit * str)) + str => match s with inl (e, (_, f)) => CExtFn e f | inr f => CAction f end)).
  - apply rep_nt. cbn [rule]. apply rep_or; [apply rep_nt; cbn [rule]; auto_rep|apply r_id; reflexivity].
  - intros [(e & u & f)|f] _; split; try exact I; reflexivity.
  - intros [e f|f] _; [exists (inl (e, (Datatypes.tt, f)))|exists (inr f)]; cbn; tv.
Qed.
Lemma r_call : rep (R call_stmt) y_call wf_call.
Proof.
  assert (HA : rep (R fn_arg_list) (fun p => opt y_arg (fst p) ++ commas y_arg (snd p))
     (fun p => (forall a, fst p = Some a -> wf_arg a) /\ Forall wf_arg (snd p)))
    by (apply rep_nt; cbn [rule]; exact (rep_seq _ _ _ _ _ _ (rep_opt _ _ _ r_arg) (rep_commas _ _ _ r_arg))).
  eapply (rep_map (fun p : option (str * list str) * ((callee * (unit * ((option (list tok) * list (list tok)) * unit))) * unit) =>
    let '(rc, ((fn, (_, ((a, l), _))), _)) := p in CCall rc fn a l)).
  - apply rep_nt. cbn [rule]. apply rep_seq; [apply rep_opt, r_recv|]. apply rep_seq; [|auto_rep].
    apply rep_nt. cbn [rule]. apply rep_seq; [apply r_callee|]. apply rep_seq; [auto_rep|]. apply rep_seq; [exact HA|auto_rep].
  - intros (rc & (fn & u1 & (a & l) & u2) & u3) H. cbn in H. split; [unfold y_call; ynorm|]. unfold wf_call. cbn. tauto.
  - intros [rc fn a l] H. pose (u := Datatypes.tt). exists (rc, ((fn, (u, ((a, l), u))), u)). split; [reflexivity|].
    unfold wf_call in H. cbn in *. unfold all. tauto.
Qed.
Lemma r_stmt : rep (R action_stmt) y_stmt wf_stmt.
Proof.
  eapply (rep_map (fun s : (str * unit) + ccall => match s with inl (t, _) => SSql t | inr c => SCall c end)).
  - apply rep_nt. cbn [rule]. apply rep_or; [apply rep_nt; cbn [rule]; auto_rep|apply r_call].
  - intros [(e & u)|f] H; split; try exact I; try reflexivity. exact H.
  - intros [t|c] H; [exists (inl (t, Datatypes.tt)); cbn; tv|exists (inr c); split; [reflexivity|exact H]].
Qed.
Lemma r_stmts : rep (R action_stmt_list) (fun p => y_stmt (fst p) ++ many y_stmt (snd p)) (fun p => wf_stmt (fst p) /\ Forall wf_stmt (snd p)).
Proof. apply rep_nt. cbn [rule]. unfold Some_. apply rep_seq; [apply r_stmt|apply rep_many, r_stmt]. Qed.
Lemma r_params : rep (R param_list) (fun p => opt y_param (fst p) ++ commas y_param (snd p)) all.
Proof.
  eapply (rep_map (fun p : option str * list str => p)); [apply rep_nt; cbn [rule]; apply rep_seq; [apply rep_opt|apply rep_commas]; apply r_param; reflexivity| |].
  - intros p _. split; [reflexivity|exact I].
  - intros [a l] _. exists (a, l). split; [reflexivity|]. cbn; tv.
Qed.
Lemma r_action : rep (R action_decl) y_action wf_action.
Proof.
  eapply (rep_map (fun p : list cannot * (unit * (str * (unit * ((option str * list str) * (unit * (list aattr * (unit * ((cstmt * list cstmt) * unit)))))))) =>
    let '(an, (_, (n, (_, ((q, qs), (_, (at_, (_, ((s, ss), _))))))))) := p in CActionD an n q qs at_ s ss)).
  - apply rep_nt. cbn [rule]. apply rep_seq; [apply rep_many, r_annot|]. apply rep_seq; [apply rep_kw; discriminate|].
    apply rep_seq; [apply r_id; reflexivity|]. apply rep_seq; [apply rep_kw; discriminate|]. apply rep_seq; [apply r_params|].
    apply rep_seq; [apply rep_kw; discriminate|]. apply rep_seq; [apply r_aattrs|]. apply rep_seq; [apply rep_kw; discriminate|].
    apply rep_seq; [apply r_stmts|]. apply rep_kw; discriminate.
  - intros (an & u1 & n & u2 & (q & qs) & u3 & ats & u4 & (s & ss) & u5) H. cbn in H. split; [unfold y_action; ynorm|].
    unfold wf_action. cbn. tauto.
  - intros [an n q qs ats s ss] H. pose (u := Datatypes.tt). exists (an, (u, (n, (u, ((q, qs), (u, (ats, (u, ((s, ss), u))))))))).
    split; [reflexivity|]. unfold wf_action in H. cbn in *. unfold all. pose proof (all_forall an) as Han. unfold all in Han. tauto.
Qed.
Lemma r_init : rep (R init_decl) (fun p => y_decl (DInit (fst p) (snd p))) (fun p => wf_stmt (fst p) /\ Forall wf_stmt (snd p)).
Proof.
  eapply (rep_map (fun p : unit * (unit * (unit * (unit * ((cstmt * list cstmt) * unit)))) => fst (snd (snd (snd (snd p)))))).
  - apply rep_nt. cbn [rule]. do 4 (apply rep_seq; [apply rep_kw; discriminate|]). apply rep_seq; [apply r_stmts|]. apply rep_kw; discriminate.
  - intros (u1 & u2 & u3 & u4 & (s & ss) & u5) H. cbn in *. split; [ynorm|]. tauto.
  - intros [s ss] H. pose (u := Datatypes.tt). exists (u, (u, (u, (u, ((s, ss), u))))). split; [reflexivity|]. cbn in *. unfold all. tauto.
Qed.
Lemma r_decl : rep (Or (R table_decl) (Or (R action_decl) (R init_decl))) y_decl wf_decl.
Proof.
  eapply (rep_map (fun s : ctable + (caction + (cstmt * list cstmt)) =>
    match s with inl t => DTable t | inr (inl a) => DAction a | inr (inr (s, ss)) => DInit s ss end)).
  - apply rep_or; [apply r_table|]. apply rep_or; [apply r_action|apply r_init].
  - intros [t|[a|[s ss]]] H; split; try exact I; try reflexivity; exact H.
  - intros [t|a|s ss] H; [exists (inl t)|exists (inr (inl a))|exists (inr (inr (s, ss)))]; split; try reflexivity; try exact I; exact H.
Qed.
Lemma r_unit : rep (R source_unit) y_unit wf_unit.
Proof.
  eapply (rep_map (fun p : (unit * str) * (unit * (list cext * list decl)) => let '((_, n), (_, (xs, ds))) := p in CUnit n xs ds)).
  - apply rep_nt. cbn [rule]. apply rep_seq; [apply rep_nt; cbn [rule]; auto_rep|]. apply rep_seq; [apply rep_kw; discriminate|].
    apply rep_seq; [apply rep_many, r_ext|apply rep_many, r_decl].
  - intros ((u & n) & u2 & xs & ds) H. cbn in H. split; [ynorm|]. unfold wf_unit. cbn. tauto.
  - intros [n xs ds] H. pose (u := Datatypes.tt). exists ((u, n), (u, (xs, ds))). split; [reflexivity|].
    unfold wf_unit in H. cbn in *. pose proof (all_forall xs) as Hx. unfold all in *. tauto.
Qed.

(** * Main statements *)
Theorem p_unit_tree ts u : toks_ok ts -> (p_unit ts = Some u <-> ts = y_unit u /\ wf_unit u).
Proof.
  intros Hok. split; [apply s_unit; exact Hok|]. intros [-> Hw]. apply c_unit; exact Hw.
Qed.
Theorem p_unit_accepts ts : toks_ok ts -> ((exists u, p_unit ts = Some u) <-> program ts).
Proof.
  intros Hok. split.
  - intros (u & H). apply p_unit_tree in H as [-> Hw]; [|exact Hok]. apply r_unit; exact Hw.
  - intros H. apply r_unit in H as (u & -> & Hw); [|exact Hok]. exists u. apply c_unit; exact Hw.
Qed.
(** The grammar is unambiguous on trees: one token list, one tree. *)
Theorem y_unit_inj u v : wf_unit u -> wf_unit v -> y_unit u = y_unit v -> u = v.
Proof. intros Hu Hv H. apply c_unit in Hu, Hv. rewrite H in Hu. congruence. Qed.
