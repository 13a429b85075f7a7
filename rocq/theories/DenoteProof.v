(** The visitor computes exactly the schema the tokens write. *)
From Verif Require Import Schema Grammar Cst ParserProof ParserGrammar Visitor LexSpec Denote FaultSpec.

Definition shaped (ts : list tok) : Prop := Forall (fun t => token_shape (ty t) (tx t)) ts.
Lemma shaped_app u v : shaped (u ++ v) <-> shaped u /\ shaped v. Proof. apply Forall_app. Qed.
Lemma shaped_cons x v : shaped (x :: v) <-> token_shape (ty x) (tx x) /\ shaped v. Proof. apply Forall_cons_iff. Qed.
Lemma shaped_ok ts : shaped ts -> toks_ok ts.
Proof.
  intros H. eapply Forall_impl; [|exact H]. intros [t s] Ht w Hl. unfold token_shape in Ht. cbn in *. rewrite Hl in Ht. exact Ht.
Qed.
Lemma fixed_kw t : fixed t = kw t. Proof. reflexivity. Qed.

(** [corr D y V wf]: the tokens write x iff they are the tokens of a (well-formed) tree that the visitor maps to x. *)
Definition corr {A C} (D : A -> list tok -> Prop) (y : C -> list tok) (V : C -> A -> Prop) (wf : C -> Prop) : Prop :=
  forall x ts, shaped ts -> (D x ts <-> exists c, ts = y c /\ V c x /\ wf c).

Lemma corr_series {A C} D (y : C -> list tok) (V : C -> A -> Prop) wf : corr D y V wf ->
  corr (series D) (many y) (Forall2 V) (Forall wf).
Proof.
  intros H l ts Hs. split.
  - intros HD. induction HD as [|a ts l us Ha HD IH].
    + exists []. repeat split; constructor.
    + apply shaped_app in Hs as [Hs1 Hs2]. apply (H a ts Hs1) in Ha as (c & -> & Hc & Hw). destruct (IH Hs2) as (cs & -> & Hcs & Hws).
      exists (c :: cs). split; [reflexivity|]. split; constructor; assumption.
  - intros (cs & -> & HF & Hw). revert Hw Hs. induction HF as [|c a cs l Hc HF IH]; intros Hw Hs.
    + constructor.
    + inversion Hw; subst. rewrite many_app in *. apply shaped_app in Hs as [Hs1 Hs2]. constructor; [|apply IH; assumption].
      apply H; [exact Hs1|]. exists c; auto.
Qed.
Lemma corr_listed {A C} D (y : C -> list tok) (V : C -> A -> Prop) wf : corr D y V wf ->
  corr (listed D) (fun p => y (fst p) ++ commas y (snd p)) (fun p l => Forall2 V (fst p :: snd p) l) (fun p => Forall wf (fst p :: snd p)).
Proof.
  intros H l ts Hs. split.
  - intros HD. induction HD as [a ts Ha|a ts l us Ha HD IH].
    + apply (H a ts Hs) in Ha as (c & -> & Hc & Hw). exists (c, []). cbn. rewrite app_nil_r. split; [reflexivity|]. split; repeat constructor; auto.
    + apply shaped_app in Hs as [Hs1 Hs2]. apply shaped_cons in Hs2 as [_ Hs2]. apply (H a ts Hs1) in Ha as (c & -> & Hc & Hw).
      destruct (IH Hs2) as ((c2 & cs) & -> & Hcs & Hws). exists (c, c2 :: cs). cbn in *. split; [reflexivity|]. split; constructor; assumption.
  - intros ((c & cs) & -> & HF & Hw). cbn [fst snd] in *. revert c l HF Hw Hs. induction cs as [|c2 cs IH]; intros c l HF Hw Hs.
    + inversion HF as [|? a ? l' Hc HF']; subst. inversion HF'; subst. inversion Hw; subst. cbn in *. rewrite app_nil_r in *. constructor.
      apply H; [exact Hs|]. exists c; auto.
    + inversion HF as [|? a ? l' Hc HF']; subst. inversion Hw; subst.
      change (commas y (c2 :: cs)) with (kw COMMA :: y c2 ++ commas y cs) in *.
      apply shaped_app in Hs as [Hs1 Hs2]. apply shaped_cons in Hs2 as [_ Hs2]. constructor; [|apply IH; assumption].
      apply H; [exact Hs1|]. exists c; auto.
Qed.

Lemma F2_map {C A} (v : C -> A) cs l : Forall2 (fun c a => v c = a) cs l <-> l = map v cs.
Proof.
  split.
  - intros H; induction H; cbn; congruence.
  - intros ->. induction cs; cbn; constructor; auto.
Qed.
Lemma slice_nz {A} (l : list A) s : slice_of l s <-> s = nz l.
Proof.
  unfold slice_of, nz. destruct l; split; intros H; try (destruct H as [[H1 H2]|[H1 H2]]; congruence); [left; auto|right; split; [discriminate|exact H]].
Qed.

(** The functions of the visitor as relations. *)
Definition corrf {A C} (D : A -> list tok -> Prop) (y : C -> list tok) (v : C -> A) (wf : C -> Prop) : Prop :=
  corr D y (fun c a => v c = a) wf.
Lemma corrf_series {A C} D (y : C -> list tok) (v : C -> A) wf : corrf D y v wf -> corrf (series D) (many y) (map v) (Forall wf).
Proof.
  intros H l ts Hs. rewrite (corr_series D y _ wf H l ts Hs). setoid_rewrite F2_map. split; intros (c & H1 & H2 & H3); exists c; auto.
Qed.
Lemma corrf_listed {A C} D (y : C -> list tok) (v : C -> A) wf : corrf D y v wf ->
  corrf (listed D) (fun p => y (fst p) ++ commas y (snd p)) (fun p => map v (fst p :: snd p)) (fun p => Forall wf (fst p :: snd p)).
Proof.
  intros H l ts Hs. rewrite (corr_listed D y _ wf H l ts Hs). setoid_rewrite F2_map. split; intros (c & H1 & H2 & H3); exists c; auto.
Qed.

Lemma k_name : corrf w_name y_id (fun s => s) all.
Proof. intros x ts _. unfold w_name. split; [intros ->; exists x; repeat split|intros (c & -> & -> & _); reflexivity]. Qed.
Lemma k_param : corrf w_param y_param (fun s => s) all.
Proof. intros x ts _. unfold w_param. split; [intros ->; exists x; repeat split|intros (c & -> & -> & _); reflexivity]. Qed.
Lemma k_value : corrf w_value y_literal lit_text all.
Proof.
  intros x ts _. unfold w_value. split.
  - intros [->| ->]; [exists (LNum x)|exists (LStr x)]; repeat split.
  - intros ([s|s] & -> & <- & _); auto.
Qed.
Lemma k_attribute : corrf w_attribute y_constr v_constr all.
Proof.
  intros x ts Hs. split.
  - intros H. inversion H as [| | |v ts0 Hv| | | |]; subst;
      [exists KPrimary|exists KNotNull|exists KUnique| |exists (KMin n)|exists (KMax n)|exists (KMinLen n)|exists (KMaxLen n)]; try (repeat split; fail).
    assert (Hs' : shaped ts0) by (unfold in_parens in Hs; rewrite !shaped_app in Hs; tauto).
    apply (k_value v ts0 Hs') in Hv as (l & -> & <- & _). exists (KDefault l). repeat split.
  - intros ([] & -> & <- & _); cbn [v_constr y_constr]; try constructor.
    unfold w_value. destruct l; cbn; auto.
Qed.
Lemma k_type : corrf w_type y_coltype v_coltype all.
Proof.
  intros x ts _. split; [intros []; [exists TInt|exists TText|exists TBlob]; repeat split|].
  intros ([] & -> & <- & _); constructor.
Qed.
Lemma k_column : corrf w_column y_column v_column all.
Proof.
  intros x ts Hs. split.
  - intros H. inversion H as [n ty t l s u Ht Hl Hn]; subst. rewrite !shaped_app in Hs. destruct Hs as (_ & Hs1 & Hs2).
    apply (k_type _ _ Hs1) in Ht as (c & -> & <- & _). apply (corrf_series _ _ _ _ k_attribute l u Hs2) in Hl as (cs & -> & <- & _).
    apply slice_nz in Hn as ->. exists (CColumn n c cs). repeat split.
  - intros ([n c cs] & -> & <- & _). unfold y_column, v_column, y_id in *. cbn [cc_name cc_type cc_constrs] in *.
    rewrite !shaped_app in Hs. destruct Hs as (_ & Hs1 & Hs2).
    econstructor; [apply k_type; [exact Hs1|]; exists c; repeat split| |apply slice_nz; reflexivity].
    apply (corrf_series _ _ _ _ k_attribute); [exact Hs2|]. exists cs. split; [reflexivity|]. split; [reflexivity|]. apply Forall_forall; repeat split.
Qed.

Lemma k_names : corrf (listed w_name) (fun p => y_id (fst p) ++ commas y_id (snd p)) (fun p => fst p :: snd p) all.
Proof.
  intros x ts Hs. rewrite (corrf_listed _ _ _ _ k_name x ts Hs). split; intros (p & H1 & H2 & H3); exists p; (split; [exact H1|]).
  - rewrite map_id in H2. repeat split; exact H2.
  - rewrite map_id. split; [exact H2|]. apply Forall_forall; repeat split.
Qed.

Lemma k_index : corrf w_index y_index v_index all.
Proof.
  intros x ts Hs. split.
  - intros H. inversion H as [n k t l u Hk Hl]; subst. rewrite !shaped_app in Hs. destruct Hs as (Hn & Hs1 & _ & Hs2 & _).
    apply (k_names l u Hs2) in Hl as ((c & cs) & -> & <- & _). cbn [fst snd] in *.
    inversion Hk; subst; [exists (CIndex (lit "#" ++ n) IIndex c cs)|exists (CIndex (lit "#" ++ n) IUnique c cs)|exists (CIndex (lit "#" ++ n) IPrimary c cs)];
      (split; [|split; [reflexivity|exact I]]); unfold y_index; cbn; rewrite <- ?app_assoc; reflexivity.
  - intros ([s k c cs] & -> & <- & _). unfold y_index, v_index in *. cbn [ci_name ci_kind ci_first ci_rest] in *.
    cbn [app] in Hs. rewrite !shaped_cons, !app_assoc, shaped_app in Hs. destruct Hs as (Hn & _ & _ & Hs2 & _). cbn [ty tx] in Hn.
    destruct Hn as (w & -> & _). cbn [drop1 tl app lit].
    pose proof (w_index_ w (v_ikind k) [kw match k with IPrimary => PRIMARY_ | IUnique => UNIQUE_ | IIndex => INDEX_ end] (c :: cs) (y_id c ++ commas y_id cs)) as G.
    cbn [app lit] in G. rewrite <- app_assoc in G. apply G.
    + destruct k; constructor.
    + apply k_names; [exact Hs2|]. exists (c, cs). repeat split.
Qed.

Lemma k_fkaction : corrf w_fkaction y_fkact v_fkact all.
Proof.
  intros x ts _. split.
  - intros H. inversion H as [on_ do_ t o u Ho Hd Hu]; subst. inversion Ho; subst; inversion Hu; subst; destruct Hd as [->| ->];
    match goal with |- exists c, ?ts = _ /\ _ = FKAction ?a ?b /\ _ =>
      let on := match ts with context [ACTION_ON_UPDATE_] => constr:(OnUpdate) | _ => constr:(OnDelete) end in
      let wd := match ts with context [ACTION_DO_] => constr:(true) | _ => constr:(false) end in
      let d := match ts with context [ACTION_DO_NO_ACTION_] => constr:(DoNoAction) | context [ACTION_DO_CASCADE_] => constr:(DoCascade)
        | context [ACTION_DO_SET_NULL_] => constr:(DoSetNull) | context [ACTION_DO_SET_DEFAULT_] => constr:(DoSetDefault) | _ => constr:(DoRestrict) end in
      exists (CFkact on wd d) end; repeat split.
  - intros ([on wd d] & -> & <- & _). unfold y_fkact, v_fkact. cbn [fa_on fa_word fa_do].
    constructor; [destruct on; constructor|destruct wd; auto|destruct d; constructor].
Qed.

Lemma k_fkey : corrf w_fkey y_fk v_fk all.
Proof.
  intros x ts Hs. split.
  - intros H. inversion H as [k r ch tc t pa tp acts sacts ta Hk Hr Hc Hp Ha Hsl]; subst. unfold in_parens in *. rewrite !shaped_app in Hs.
    destruct Hs as ((_ & Hs1 & _) & _ & Hs2 & _ & Hs3).
    apply (k_names _ _ Hs1) in Hc as ((c & cs) & -> & <- & _). apply (k_names _ _ Hs2) in Hp as ((p & ps) & -> & <- & _).
    apply (corrf_series _ _ _ _ k_fkaction _ _ Hs3) in Ha as (fs & -> & <- & _). apply slice_nz in Hsl as ->.
    exists (CFk (match k with FOREIGN_KEY_ABBR_ => true | _ => false end) c cs (match r with REFERENCES_ABBR_ => true | _ => false end) t p ps fs).
    split; [|split; [reflexivity|exact I]]. unfold y_fk. cbn [fst snd cf_abbr cf_child cf_childs cf_rabbr cf_table cf_parent cf_parents cf_acts].
    destruct Hk as [->| ->], Hr as [->| ->]; cbn [app]; rewrite <- ?app_assoc; reflexivity.
  - intros ([ab c cs rab t p ps fs] & -> & <- & _). unfold y_fk, v_fk in *. cbn [cf_abbr cf_child cf_childs cf_rabbr cf_table cf_parent cf_parents cf_acts] in *.
    match goal with |- w_fkey ?x ?ts => replace ts with
      (in_parens (if ab then FOREIGN_KEY_ABBR_ else FOREIGN_KEY_) (y_id c ++ commas y_id cs) ++
       [fixed (if rab then REFERENCES_ABBR_ else REFERENCES_); Tok IDENTIFIER t; fixed L_PAREN] ++ (y_id p ++ commas y_id ps) ++ [fixed R_PAREN] ++ many y_fkact fs) in *
      by (unfold in_parens; cbn [app]; rewrite <- ?app_assoc; reflexivity) end.
    unfold in_parens in Hs. rewrite !shaped_app in Hs. rewrite <- !shaped_app in Hs. 
    assert (Hs1 : shaped (y_id c ++ commas y_id cs)) by (rewrite !shaped_app in *; tauto).
    assert (Hs2 : shaped (y_id p ++ commas y_id ps)) by (rewrite !shaped_app in *; tauto).
    assert (Hs3 : shaped (many y_fkact fs)) by (rewrite !shaped_app in *; tauto).
    econstructor.
    + destruct ab; auto.
    + destruct rab; auto.
    + apply k_names; [exact Hs1|]. exists (c, cs). repeat split.
    + apply k_names; [exact Hs2|]. exists (p, ps). repeat split.
    + apply (corrf_series _ _ _ _ k_fkaction); [exact Hs3|]. exists fs. split; [reflexivity|]. split; [reflexivity|]. apply Forall_forall; repeat split.
    + apply slice_nz. reflexivity.
Qed.

Lemma k_members is_ fs_ ts : shaped ts ->
  (w_members is_ fs_ ts <-> exists ms, ts = commas y_member ms /\ is_ = map v_index (indexes ms) /\ fs_ = map v_fk (fks ms)).
Proof.
  intros Hs. split.
  - intros H. induction H as [|i t is_ fs_ u Hi H IH|f t is_ fs_ u Hf H IH].
    + exists []. repeat split.
    + apply shaped_cons in Hs as [_ Hs]. apply shaped_app in Hs as [Hs1 Hs2]. apply (k_index _ _ Hs1) in Hi as (c & -> & <- & _).
      destruct (IH Hs2) as (ms & -> & -> & ->). exists (MIndex c :: ms). repeat split.
    + apply shaped_cons in Hs as [_ Hs]. apply shaped_app in Hs as [Hs1 Hs2]. apply (k_fkey _ _ Hs1) in Hf as (c & -> & <- & _).
      destruct (IH Hs2) as (ms & -> & -> & ->). exists (MFk c :: ms). repeat split.
  - intros (ms & -> & -> & ->). revert Hs. induction ms as [|m ms IH]; intros Hs; [constructor|].
    change (commas y_member (m :: ms)) with (kw COMMA :: y_member m ++ commas y_member ms) in *.
    apply shaped_cons in Hs as [_ Hs]. apply shaped_app in Hs as [Hs1 Hs2]. destruct m as [i|f]; cbn [y_member indexes fks map] in *.
    + constructor; [apply k_index; [exact Hs1|]; exists i; repeat split|apply IH; exact Hs2].
    + constructor; [apply k_fkey; [exact Hs1|]; exists f; repeat split|apply IH; exact Hs2].
Qed.

Lemma all_Forall {A} (l : list A) : Forall all l.
Proof. apply Forall_forall. intros; exact I. Qed.

Lemma k_table : corrf w_table y_table v_table all.
Proof.
  intros x ts Hs. split.
  - intros H. inversion H as [n cs tc is_ sis fs sfs tm o Hc Hm Hi Hf Ho]; subst. rewrite !shaped_app in Hs. destruct Hs as (_ & Hs1 & Hs2 & _).
    apply (corrf_listed _ _ _ _ k_column _ _ Hs1) in Hc as ((c & cs') & -> & <- & _). apply (k_members _ _ _ Hs2) in Hm as (ms & -> & -> & ->).
    apply slice_nz in Hi as ->. apply slice_nz in Hf as ->.
    exists (CTable n c cs' ms (match o with [] => false | _ => true end)). split; [|split; [reflexivity|exact I]].
    unfold y_table. cbn [ct_name ct_first ct_rest ct_members ct_comma fst snd].
    destruct Ho as [->| ->]; cbn [app]; rewrite <- ?app_assoc; reflexivity.
  - intros ([n c cs ms cm] & -> & <- & _). unfold y_table, v_table in *. cbn [ct_name ct_first ct_rest ct_members ct_comma] in *.
    match goal with |- w_table ?x ?ts => replace ts with ([fixed TABLE_; Tok IDENTIFIER n; fixed L_BRACE] ++ (y_column c ++ commas y_column cs) ++ commas y_member ms ++
      (if cm then [kw COMMA] else []) ++ [fixed R_BRACE]) in * by (cbn [app]; rewrite <- ?app_assoc; reflexivity) end.
    assert (Hs1 : shaped (y_column c ++ commas y_column cs)) by (rewrite !shaped_app in *; tauto).
    assert (Hs2 : shaped (commas y_member ms)) by (rewrite !shaped_app in *; tauto).
    econstructor.
    + apply (corrf_listed _ _ _ _ k_column); [exact Hs1|]. exists (c, cs). split; [reflexivity|]. split; [reflexivity|]. apply all_Forall.
    + apply k_members; [exact Hs2|]. exists ms. repeat split.
    + apply slice_nz; reflexivity.
    + apply slice_nz; reflexivity.
    + destruct cm; auto.
Qed.

Lemma k_config : corrf w_config y_config v_config all.
Proof.
  intros x ts Hs. split.
  - intros H. inversion H as [n v t Hv]; subst. rewrite !shaped_app in Hs. destruct Hs as (_ & Hs).
    apply (k_value _ _ Hs) in Hv as (l & -> & <- & _). exists (CConfig n l). repeat split.
  - intros ([n l] & -> & <- & _). unfold y_config, v_config in *. cbn [cg_name cg_value] in *.
    rewrite app_assoc in *. apply shaped_app in Hs as [_ Hs]. apply (w_config_ n). apply k_value; [exact Hs|]. exists l; repeat split.
Qed.
Lemma k_extension : corrf w_extension y_ext v_ext all.
Proof.
  intros x ts Hs. split.
  - intros H. inversion H as [n a|n l t a Hl]; subst.
    + exists (CExt n None a). repeat split.
    + rewrite !shaped_app in Hs. destruct Hs as (_ & Hs & _). apply (corrf_listed _ _ _ _ k_config _ _ Hs) in Hl as ((c & cs) & -> & <- & _).
      exists (CExt n (Some (c, cs)) a). split; [|split; [reflexivity|exact I]]. unfold y_ext, y_configs. cbn [cx_name cx_config cx_alias opt fst snd].
      cbn [app]. rewrite <- ?app_assoc. reflexivity.
  - intros ([n [[c cs]|] a] & -> & <- & _); unfold y_ext, v_ext, y_configs in *; cbn [cx_name cx_config cx_alias opt fst snd] in *.
    + match goal with |- w_extension ?x ?ts => replace ts with ([fixed USE_; Tok IDENTIFIER n; fixed L_BRACE] ++ (y_config c ++ commas y_config cs) ++
         [fixed R_BRACE; fixed AS_; Tok IDENTIFIER a; fixed SCOL]) in * by (cbn [app]; rewrite <- ?app_assoc; reflexivity) end.
      constructor. apply (corrf_listed _ _ _ _ k_config); [rewrite !shaped_app in *; tauto|]. exists (c, cs). split; [reflexivity|]. split; [reflexivity|]. apply all_Forall.
    + constructor.
Qed.

(** Statements.  strings.TrimSpace leaves them alone: they begin with a letter or '$' and end with ';'. *)
Lemma drop_space_id s : (forall c r, s = c :: r -> is_space c = false) -> drop_space s = s.
Proof. destruct s as [|c s]; [reflexivity|]. intros H. cbn. rewrite (H c s eq_refl). reflexivity. Qed.
Lemma trim_id c s e : is_space c = false -> is_space e = false -> trim_space (c :: s ++ [e]) = c :: s ++ [e].
Proof.
  intros Hc He. unfold trim_space. rewrite (drop_space_id (c :: s ++ [e])) by (intros ? ? E; injection E as <- _; exact Hc).
  rewrite drop_space_id.
  - apply rev_involutive.
  - cbn [rev]. rewrite rev_app_distr. cbn. intros ? ? E. injection E as <- _. exact He.
Qed.
Lemma letter_space c : is_letter c = true -> is_space c = false.
Proof.
  intros H. unfold is_space. apply orb_false_iff. unfold is_letter in H.
  assert (Hr : (65 <= c <= 122)%N).
  { apply orb_true_iff in H as [H|H]; apply andb_true_iff in H as [H1 H2]; apply N.leb_le in H1, H2; lia. }
  split.
  - apply not_true_iff_false. intros HE. apply existsb_exists in HE as (k & Hk & E). apply N.eqb_eq in E. subst k. cbn in Hk.
    repeat (destruct Hk as [Hk|Hk]; [lia|]). exact Hk.
  - apply andb_false_iff. left. apply N.leb_gt. lia.
Qed.
Lemma lower_letter c : is_letter (lower1 c) = true -> is_letter c = true.
Proof.
  unfold lower1. destruct ((65 <=? c) && (c <=? 90))%N eqn:E; [|auto]. intros _. unfold is_letter. rewrite E. reflexivity.
Qed.
Lemma sqlkw_letter k : sqlkw k -> exists c r, k = c :: r /\ is_letter c = true.
Proof.
  intros H. destruct k as [|c r].
  - cbn in H. repeat (destruct H as [H|H]; [discriminate|]). destruct H.
  - exists c, r. split; [reflexivity|]. apply lower_letter. cbn in H.
    repeat (destruct H as [H|H]; [injection H as H _; rewrite <- H; reflexivity|]). destruct H.
Qed.
Lemma text_app a b : text (a ++ b) = text a ++ text b.
Proof. unfold text. rewrite map_app, concat_app. reflexivity. Qed.

Lemma ident_head s : ident s -> exists c r, s = c :: r /\ is_space c = false.
Proof. intros (c & w & -> & H & _). exists c, w. split; [reflexivity|apply letter_space; exact H]. Qed.
Lemma call_head c : shaped (y_call c) -> exists ch r, text (y_call c) = ch :: r ++ [59%N] /\ is_space ch = false.
Proof.
  intros Hs. destruct c as [rc fn a args]. unfold y_call in *. cbn [cl_recv cl_fn cl_arg cl_args] in *.
  assert (Htail : forall pre, text (pre ++ [kw R_PAREN; kw SCOL]) = text pre ++ lit ")" ++ [59%N]) by (intros pre; rewrite text_app; reflexivity).
  rewrite !app_assoc in *. rewrite Htail.
  assert (Hh : exists ch r, text (opt y_recv rc ++ y_callee fn) = ch :: r /\ is_space ch = false).
  { rewrite shaped_app in Hs. destruct Hs as [Hs _]. rewrite !shaped_app in Hs. 
    assert (H1 : shaped (opt y_recv rc)) by tauto. assert (H2 : shaped (y_callee fn)) by tauto. clear Hs.
    destruct rc as [[p ps]|]; cbn [opt y_recv fst snd] in *.
    - unfold y_recv, y_param in H1. cbn in H1. apply shaped_cons in H1 as [H1 _]. cbn in H1. destruct H1 as (w & -> & _).
      rewrite text_app. eexists; eexists. split; [reflexivity|reflexivity].
    - cbn [app]. destruct fn as [e f|f]; cbn in H2; apply shaped_cons in H2 as [H2 _]; cbn in H2; apply ident_head in H2 as (ch & r & E & Hc).
      + exists ch, (r ++ lit "." ++ f). split; [|exact Hc]. unfold text; cbn. rewrite E, app_nil_r. cbn. reflexivity.
      + exists ch, r. split; [|exact Hc]. unfold text; cbn. rewrite app_nil_r. exact E. }
  destruct Hh as (ch & r & E & Hc). rewrite !text_app in E. rewrite !text_app, E. exists ch.
  exists (r ++ text [kw L_PAREN] ++ text (opt y_arg a) ++ text (commas y_arg args) ++ lit ")"). split; [|exact Hc].
  cbn [app]. rewrite <- !app_assoc. reflexivity.
Qed.

Lemma k_stmt : corrf w_stmt y_stmt v_stmt wf_stmt.
Proof.
  assert (Hsql : forall s, shaped (y_stmt (SSql s)) -> v_stmt (SSql s) = s ++ lit ";").
  { intros s Hs. unfold v_stmt. cbn [y_stmt] in *. apply shaped_cons in Hs as [Hs _]. cbn in Hs. destruct Hs as (k & c & d & r & -> & Hk & _ & _).
    apply sqlkw_letter in Hk as (ch & w & -> & Hl). change (text [Tok SQL_STMT ((ch :: w) ++ c :: d :: r); kw SCOL]) with (ch :: (w ++ c :: d :: r) ++ [59%N]).
    apply (trim_id ch (w ++ c :: d :: r)). { apply letter_space; exact Hl. } { reflexivity. } }
  intros x ts Hs. split.
  - intros H. inversion H as [s|ts' Hd]; subst.
    + exists (SSql s). split; [reflexivity|]. split; [apply Hsql; exact Hs|exact I].
    + apply r_call in Hd as (c & -> & Hw); [|apply shaped_ok; exact Hs]. exists (SCall c). split; [reflexivity|]. split; [|exact Hw].
      unfold v_stmt. cbn [y_stmt]. destruct (call_head c Hs) as (ch & r & E & Hc). change (chars (y_call c)) with (text (y_call c)). rewrite E.
      apply trim_id; [exact Hc|reflexivity].
  - intros ([s|c] & -> & <- & Hw).
    + rewrite Hsql by exact Hs. constructor.
    + unfold v_stmt. cbn [y_stmt] in *. destruct (call_head c Hs) as (ch & r & E & Hc).
      assert (Et : trim_space (text (y_call c)) = chars (y_call c)).
      { change (chars (y_call c)) with (text (y_call c)). rewrite E. apply trim_id; [exact Hc|reflexivity]. }
      rewrite Et. constructor. apply r_call. exact Hw.
Qed.

Lemma k_annotation : corrf w_annotation y_annot v_annot all.
Proof.
  intros x ts Hs. unfold w_annotation, v_annot. split.
  - intros [Hd E]. apply r_annot in Hd as (c & -> & _); [|apply shaped_ok; exact Hs]. exists c. split; [reflexivity|]. split; [|exact I].
    change (chars (y_annot c)) with (text (y_annot c)) in E. rewrite E. reflexivity.
  - intros (c & -> & <- & _). split; [apply r_annot; exact I|]. unfold y_annot in *. cbn in Hs. apply shaped_cons in Hs as [Hs _]. cbn in Hs.
    destruct Hs as (w & E & _). change (chars ?l) with (text l). cbn [app]. unfold text at 1 2. cbn [map concat tx]. rewrite E. reflexivity.
Qed.

Lemma k_body : corrf w_body (fun p : cstmt * list cstmt => y_stmt (fst p) ++ many y_stmt (snd p)) (fun p => map v_stmt (fst p :: snd p))
   (fun p => wf_stmt (fst p) /\ Forall wf_stmt (snd p)).
Proof.
  intros x ts Hs. unfold w_body. rewrite (corrf_series _ _ _ _ k_stmt x ts Hs). split.
  - intros (Hx & cs & -> & <- & Hw). destruct cs as [|c cs]; [contradiction|]. exists (c, cs). inversion Hw; subst. repeat split; assumption.
  - intros ((c & cs) & -> & <- & Hw1 & Hw2). split; [discriminate|]. exists (c :: cs). split; [reflexivity|]. split; [reflexivity|]. constructor; assumption.
Qed.

Lemma k_params : corrf w_params (fun p : option str * list str => opt y_param (fst p) ++ commas y_param (snd p))
  (fun p => match fst p with Some a => [a] | None => [] end ++ snd p) all.
Proof.
  intros x ts Hs. split.
  - intros H. inversion H as [|l t Hl|l t Hl]; subst.
    + exists (None, []). repeat split.
    + apply (corrf_listed _ _ _ _ k_param _ _ Hs) in Hl as ((p & ps) & -> & <- & _). exists (Some p, ps). cbn [fst snd opt]. rewrite map_id. repeat split.
    + apply shaped_cons in Hs as [_ Hs]. apply (corrf_listed _ _ _ _ k_param _ _ Hs) in Hl as ((p & ps) & -> & <- & _). exists (None, p :: ps).
      cbn [fst snd opt]. rewrite map_id. repeat split.
  - intros ((o & l) & -> & <- & _). cbn [fst snd] in *. destruct o as [p|]; cbn [opt app] in *.
    + apply wp_some. apply (corrf_listed _ _ _ _ k_param); [exact Hs|]. exists (p, l). split; [reflexivity|]. cbn [fst snd]. rewrite map_id. split; [reflexivity|]. apply all_Forall.
    + destruct l as [|p l]; [constructor|]. change (commas y_param (p :: l)) with (kw COMMA :: (y_param p ++ commas y_param l)) in *. apply shaped_cons in Hs as [_ Hs].
      apply wp_comma. apply (corrf_listed _ _ _ _ k_param); [exact Hs|]. exists (p, l). split; [reflexivity|]. cbn [fst snd]. rewrite map_id. split; [reflexivity|]. apply all_Forall.
Qed.

(** * Action attributes *)
Definition word (a : aattr) : tt := match a with APublic => PUBLIC_ | APrivate => PRIVATE_ | AView => VIEW_ | AOwner => OWNER_ end.
Definition words (l : list aattr) : list tt := map word l.
Notation cnt := (count_occ tt_eq_dec).

Lemma words_in l : Forall (fun t => In t [PUBLIC_; PRIVATE_; VIEW_; OWNER_]) (words l).
Proof. apply Forall_forall. intros t Ht. apply in_map_iff in Ht as ([] & <- & _); cbn; tauto. Qed.
Lemma words_onto (ws : list tt) : Forall (fun t => In t [PUBLIC_; PRIVATE_; VIEW_; OWNER_]) ws -> exists l, words l = ws.
Proof.
  induction 1 as [|t ws Ht _ (l & <-)]; [exists []; reflexivity|].
  cbn in Ht. destruct Ht as [<-|[<-|[<-|[<-|[]]]]]; [exists (APublic :: l)|exists (APrivate :: l)|exists (AView :: l)|exists (AOwner :: l)]; reflexivity.
Qed.
Lemma words_yield l : many y_aattr l = map fixed (words l).
Proof. induction l as [|[] l IH]; cbn; [reflexivity|f_equal; exact IH..]. Qed.

Lemma cnt_in t l : In t l <-> (cnt l t > 0)%nat. Proof. apply count_occ_In. Qed.
Lemma mut_repeat l : mutabilities l = repeat (lit "view") (cnt (words l) VIEW_).
Proof. induction l as [|[] l IH]; cbn; [reflexivity|exact IH..| |exact IH]. unfold mutabilities in *. cbn. f_equal. exact IH. Qed.
Lemma aux_repeat l : auxiliaries l = repeat (lit "owner") (cnt (words l) OWNER_).
Proof. induction l as [|[] l IH]; cbn; [reflexivity|exact IH..|]. unfold auxiliaries in *. cbn. f_equal. exact IH. Qed.
Lemma vis_length l : length (visibilities l) = (cnt (words l) PUBLIC_ + cnt (words l) PRIVATE_)%nat.
Proof.
  induction l as [|[] l IH]; [reflexivity| | |exact IH..].
  - change (visibilities (APublic :: l)) with (lit "public" :: visibilities l). change (words (APublic :: l)) with (PUBLIC_ :: words l).
    rewrite count_occ_cons_eq by reflexivity. rewrite count_occ_cons_neq by discriminate. cbn [length]. lia.
  - change (visibilities (APrivate :: l)) with (lit "private" :: visibilities l). change (words (APrivate :: l)) with (PRIVATE_ :: words l).
    rewrite count_occ_cons_neq by discriminate. rewrite count_occ_cons_eq by reflexivity. cbn [length]. lia.
Qed.
Lemma vis_first l v r : visibilities l = v :: r -> v = first_vis (words l).
Proof.
  induction l as [|[] l IH]; cbn; intros H; [discriminate|injection H as <- _; reflexivity..|apply IH; exact H|apply IH; exact H].
Qed.
Lemma vis_nil l : visibilities l = [] <-> ~ In PUBLIC_ (words l) /\ ~ In PRIVATE_ (words l).
Proof.
  rewrite !cnt_in. pose proof (vis_length l). destruct (visibilities l); cbn in *; split; intros; try discriminate; try reflexivity; lia.
Qed.
Lemma vis_one l v : visibilities l = [v] -> (str_eqb v VisibilityPublic = true <-> In PUBLIC_ (words l)).
Proof.
  intros H. pose proof (vis_first l v [] H) as ->. pose proof (vis_length l) as HL. rewrite H in HL. cbn in HL. clear H.
  rewrite cnt_in. revert HL. induction l as [|[] l IH]; cbn; intros HL.
  - lia.
  - split; [lia|reflexivity].
  - split; [discriminate|]. lia.
  - apply IH; exact HL.
  - apply IH; exact HL.
Qed.

Definition aux_outcome (n : nat) : res (list str) :=
  match n with 0 => Ok [] | 1 => Ok [lit "owner"] | _ => Panic (PErr (wrap AuxiliaryAlreadySet (lit "owner"))) end%nat.
Lemma v_auxs_repeat n : v_auxs [] (repeat (lit "owner") n) = aux_outcome n.
Proof. destruct n as [|[|n]]; reflexivity. Qed.

Lemma aattrs_cases l :
  (exists p m x, v_aattrs l = Ok (p, m, x) /\ attr_words (words l) /\ attrs_mean (words l) p m x) \/
  (exists e, v_aattrs l = Panic (PErr e) /\ attrs_fault (words l) e).
Proof.
  unfold v_aattrs. rewrite mut_repeat, aux_repeat. unfold attrs_fault, attr_words, once.
  pose proof (vis_length l) as HL. pose proof (vis_nil l) as HN. pose proof (vis_one l) as H1. pose proof (vis_first l) as HF.
  pose proof (cnt_in VIEW_ (words l)) as CV. pose proof (cnt_in OWNER_ (words l)) as CO.
  set (v := cnt (words l) VIEW_) in *. set (o := cnt (words l) OWNER_) in *.
  assert (HM : exists p, match visibilities l with [] => Ok false | [v] => Ok (str_eqb v VisibilityPublic) | v :: _ => Panic (PErr (wrap VisibilityAlreadySet v)) end = Ok p
             /\ (p = true <-> In PUBLIC_ (words l)) /\ (cnt (words l) PUBLIC_ + cnt (words l) PRIVATE_ <= 1)%nat
          \/ (cnt (words l) PUBLIC_ + cnt (words l) PRIVATE_ > 1)%nat /\
             match visibilities l with [] => Ok false | [v] => Ok (str_eqb v VisibilityPublic) | v :: _ => Panic (PErr (wrap VisibilityAlreadySet v)) end = Panic (PErr (wrap VisibilityAlreadySet (first_vis (words l))))).
  { destruct (visibilities l) as [|a [|b r]]; cbn [length] in HL.
    - exists false. left. split; [reflexivity|]. split; [|lia]. destruct HN as [HN _]. specialize (HN eq_refl). split; [discriminate|tauto].
    - exists (str_eqb a VisibilityPublic). left. split; [reflexivity|]. split; [apply H1; reflexivity|lia].
    - exists false. right. split; [lia|]. rewrite (HF a (b :: r) eq_refl). reflexivity. }
  destruct HM as (p & [(-> & Hp & Hc)|(Hc & ->)]); cbn [bind]; [|right; eexists; split; [reflexivity|]; left; auto].
  clear HL HN H1 HF.
  destruct v as [|[|v]]; cbn [repeat bind str_eqb].
  3:{ right. eexists. split; [reflexivity|]. right. left. split; [exact Hc|]. split; [lia|reflexivity]. }
  - destruct o as [|[|o]]; cbn [repeat bind v_auxs mem_str existsb str_eqb].
    + left. exists p, MutabilityUpdate, None. split; [reflexivity|]. split; [split; [apply words_in|lia]|].
      unfold attrs_mean. split; [exact Hp|]. rewrite CV, CO. split; [lia|]. split; [reflexivity|]. split; [lia|reflexivity].
    + left. exists p, MutabilityUpdate, (Some [AuxOwner]). split; [reflexivity|]. split; [split; [apply words_in|lia]|].
      unfold attrs_mean. split; [exact Hp|]. rewrite CV, CO. split; [lia|]. split; [reflexivity|]. split; [reflexivity|lia].
    + right. exists (wrap AuxiliaryAlreadySet (lit "owner")). split; [reflexivity|]. right. right. split; [exact Hc|]. split; [lia|]. split; [lia|reflexivity].
  - destruct o as [|[|o]]; cbn [repeat bind v_auxs mem_str existsb str_eqb].
    + left. exists p, MutabilityView, None. split; [reflexivity|]. split; [split; [apply words_in|lia]|].
      unfold attrs_mean. split; [exact Hp|]. rewrite CV, CO. split; [reflexivity|]. split; [lia|]. split; [lia|reflexivity].
    + left. exists p, MutabilityView, (Some [AuxOwner]). split; [reflexivity|]. split; [split; [apply words_in|lia]|].
      unfold attrs_mean. split; [exact Hp|]. rewrite CV, CO. split; [reflexivity|]. split; [lia|]. split; [reflexivity|lia].
    + right. exists (wrap AuxiliaryAlreadySet (lit "owner")). split; [reflexivity|]. right. right. split; [exact Hc|]. split; [lia|]. split; [lia|reflexivity].
Qed.
Lemma attrs_fault_bad l e : attrs_fault l e -> ~ attr_words l.
Proof. unfold attrs_fault, attr_words, once. intros [H|[H|H]] H'; lia. Qed.
Lemma attrs_fault_fun l e e' : attrs_fault l e -> attrs_fault l e' -> e = e'.
Proof. unfold attrs_fault. intros [[H ->]|[(H1 & H2 & ->)|(H1 & H2 & H3 & ->)]] [[G ->]|[(G1 & G2 & ->)|(G1 & G2 & G3 & ->)]]; try reflexivity; lia. Qed.
Lemma attrs_mean_fun l p m x p' m' x' : attrs_mean l p m x -> attrs_mean l p' m' x' -> p = p' /\ m = m' /\ x = x'.
Proof.
  intros (A1 & A2 & A3 & A4 & A5) (B1 & B2 & B3 & B4 & B5). split; [|split].
  - destruct p, p'; try reflexivity; destruct A1, B1; exfalso; intuition congruence.
  - destruct (in_dec tt_eq_dec VIEW_ l) as [H|H]; [rewrite A2, B2|rewrite A3, B3]; auto.
  - destruct (in_dec tt_eq_dec OWNER_ l) as [H|H]; [rewrite A4, B4|rewrite A5, B5]; auto.
Qed.
Lemma v_aattrs_ok l p m x : v_aattrs l = Ok (p, m, x) <-> attr_words (words l) /\ attrs_mean (words l) p m x.
Proof.
  destruct (aattrs_cases l) as [(p' & m' & x' & E & Hw & Hm)|(e & E & Hf)]; rewrite E; split.
  - intros H; injection H as <- <- <-. auto.
  - intros [_ H]. destruct (attrs_mean_fun _ _ _ _ _ _ _ Hm H) as (-> & -> & ->). reflexivity.
  - discriminate.
  - intros [H _]. destruct (attrs_fault_bad _ _ Hf H).
Qed.
Lemma v_aattrs_panic l z : v_aattrs l = Panic z <-> exists e, z = PErr e /\ attrs_fault (words l) e.
Proof.
  destruct (aattrs_cases l) as [(p' & m' & x' & E & Hw & Hm)|(e & E & Hf)]; rewrite E; split.
  - discriminate.
  - intros (e & _ & H). destruct (attrs_fault_bad _ _ H Hw).
  - intros H; injection H as <-. eauto.
  - intros (e' & -> & H). f_equal. f_equal. eapply attrs_fault_fun; eassumption.
Qed.
Lemma v_aattrs_no_err l e : v_aattrs l <> Err e.
Proof. destruct (aattrs_cases l) as [(p' & m' & x' & -> & _)|(e' & -> & _)]; discriminate. Qed.

(** * Actions *)
Definition vrel {C A} (v : C -> res A) (c : C) (a : A) : Prop := v c = Ok a.
Lemma k_action : corr w_action y_action (vrel v_action) wf_action.
Proof.
  intros x ts Hs. unfold vrel. split.
  - intros H. inversion H as [n anns sanns tn ins sins ti l pub mut aux body tb Ha Hsa Hp Hsp Hl Hpub Hm1 Hm2 Hx1 Hx2 Hb]; subst.
    rewrite !shaped_app in Hs. destruct Hs as (Hs1 & _ & Hs2 & _ & _ & _ & Hs3 & _).
    apply (corrf_series _ _ _ _ k_annotation _ _ Hs1) in Ha as (an & -> & <- & _).
    apply (k_params _ _ Hs2) in Hp as ((o & ps) & -> & <- & _). apply (k_body _ _ Hs3) in Hb as ((st & sts) & -> & <- & Hw1 & Hw2).
    apply slice_nz in Hsa as ->. apply slice_nz in Hsp as ->. pose proof Hl as (Hl1 & _). apply words_onto in Hl1 as (at_ & <-).
    exists (CActionD an n o ps at_ st sts). split; [|split; [|split; assumption]].
    + unfold y_action. cbn [cd_annots cd_name cd_param cd_params cd_attrs cd_stmt cd_stmts fst snd]. rewrite words_yield.
      unfold y_id. cbn [app]. rewrite <- !app_assoc. cbn [app]. reflexivity.
    + unfold v_action. cbn [cd_attrs]. rewrite (proj2 (v_aattrs_ok at_ pub mut aux)).
      2:{ split; [exact Hl|]. unfold attrs_mean. tauto. }
      reflexivity.
  - intros (c & -> & E & Hw). destruct c as [an n o ps at_ st sts]. unfold v_action, y_action, wf_action in *.
    cbn [cd_annots cd_name cd_param cd_params cd_attrs cd_stmt cd_stmts] in *.
    destruct (v_aattrs at_) as [[[pub mut] aux]|e|p] eqn:Ea; cbn [bind] in E; try discriminate. injection E as <-.
    apply v_aattrs_ok in Ea as [Hl Hm]. destruct Hm as (M1 & M2 & M3 & M4 & M5). rewrite words_yield in *.
    match goal with |- w_action ?x ?ts => replace ts with (many y_annot an ++ [fixed ACTION_; Tok IDENTIFIER n; fixed L_PAREN] ++ (opt y_param o ++ commas y_param ps) ++
      [fixed R_PAREN] ++ map fixed (words at_) ++ [fixed L_BRACE] ++ (y_stmt st ++ many y_stmt sts) ++ [fixed R_BRACE]) in * by (cbn [app]; rewrite <- ?app_assoc; reflexivity) end.
    assert (Hs1 : shaped (many y_annot an)) by (rewrite !shaped_app in *; tauto).
    assert (Hs2 : shaped (opt y_param o ++ commas y_param ps)) by (rewrite !shaped_app in *; tauto).
    assert (Hs3 : shaped (y_stmt st ++ many y_stmt sts)) by (rewrite !shaped_app in *; tauto).
    econstructor; try eassumption.
    + apply (corrf_series _ _ _ _ k_annotation); [exact Hs1|]. exists an. split; [reflexivity|]. split; [reflexivity|]. apply all_Forall.
    + apply slice_nz; reflexivity.
    + apply k_params; [exact Hs2|]. exists (o, ps). split; [reflexivity|]. split; [reflexivity|]. exact I.
    + apply slice_nz; reflexivity.
    + apply k_body; [exact Hs3|]. exists (st, sts). repeat split; tauto.
Qed.

Lemma k_init : corrf w_init (fun p => y_decl (DInit (fst p) (snd p))) (fun p => v_init (fst p) (snd p)) (fun p => wf_stmt (fst p) /\ Forall wf_stmt (snd p)).
Proof.
  intros x ts Hs. split.
  - intros H. inversion H as [body tb Hb]; subst. rewrite !shaped_app in Hs. destruct Hs as (_ & Hs & _).
    apply (k_body _ _ Hs) in Hb as ((st & sts) & -> & <- & Hw). exists (st, sts). split; [|split; [reflexivity|exact Hw]].
    cbn [y_decl fst snd]. rewrite <- ?app_assoc. reflexivity.
  - intros ((st & sts) & -> & <- & Hw). cbn [y_decl fst snd] in *.
    match goal with |- w_init ?x ?ts => replace ts with ([fixed INIT_; fixed L_PAREN; fixed R_PAREN; fixed L_BRACE] ++ (y_stmt st ++ many y_stmt sts) ++ [fixed R_BRACE]) in *
      by (rewrite <- ?app_assoc; reflexivity) end.
    constructor. apply k_body; [rewrite !shaped_app in *; tauto|]. exists (st, sts). repeat split; tauto.
Qed.

Lemma mapM_ok {A B} (f : A -> res B) l l' : mapM f l = Ok l' <-> Forall2 (vrel f) l l'.
Proof.
  revert l'. induction l as [|a l IH]; intros l'; cbn [mapM].
  - split; [intros H; injection H as <-; constructor|intros H; inversion H; reflexivity].
  - split.
    + destruct (f a) as [b|e|p] eqn:E; cbn [bind]; try discriminate. destruct (mapM f l) as [bs|e|p] eqn:E2; cbn [bind]; try discriminate.
      intros H. injection H as <-. constructor; [exact E|]. apply IH. reflexivity.
    + intros H. inversion H as [|? b ? bs Hb Hbs]; subst. unfold vrel in Hb. rewrite Hb. cbn. apply IH in Hbs. rewrite Hbs. reflexivity.
Qed.

Definition v_inits (is_ : list (cstmt * list cstmt)) : list action := map (fun p => v_init (fst p) (snd p)) is_.
Lemma k_decls ta ac ini ts : shaped ts ->
  (w_decls ta ac ini ts <-> exists ds, ts = many y_decl ds /\ Forall wf_decl ds /\ ta = map v_table (tables ds) /\ 
     Forall2 (vrel v_action) (actions ds) ac /\ (length (inits ds) <= 1)%nat /\ ini = v_inits (inits ds)).
Proof.
  intros Hs. split.
  - intros H. induction H as [|t ts ta ac ini us Ht H IH|a ts ta ac ini us Ha H IH|i ts ta ac us Hi H IH].
    + exists []. split; [reflexivity|]. split; [constructor|]. split; [reflexivity|]. split; [constructor|]. split; [cbn; lia|reflexivity].
    + apply shaped_app in Hs as [Hs1 Hs2]. apply (k_table _ _ Hs1) in Ht as (c & -> & <- & _).
      destruct (IH Hs2) as (ds & -> & Hw & -> & Hac & Hl & ->). exists (DTable c :: ds). split; [reflexivity|].
      split; [constructor; [exact I|exact Hw]|]. repeat split; assumption.
    + apply shaped_app in Hs as [Hs1 Hs2]. apply (k_action _ _ Hs1) in Ha as (c & -> & Hc & Hwc).
      destruct (IH Hs2) as (ds & -> & Hw & -> & Hac & Hl & ->). exists (DAction c :: ds). split; [reflexivity|].
      split; [constructor; [exact Hwc|exact Hw]|]. split; [reflexivity|]. split; [constructor; assumption|]. split; [exact Hl|reflexivity].
    + apply shaped_app in Hs as [Hs1 Hs2]. apply (k_init _ _ Hs1) in Hi as ((st & sts) & -> & <- & Hwc).
      destruct (IH Hs2) as (ds & -> & Hw & -> & Hac & Hl & E). exists (DInit st sts :: ds). split; [reflexivity|].
      split; [constructor; [exact Hwc|exact Hw]|]. split; [reflexivity|]. split; [exact Hac|]. cbn [inits length].
      destruct (inits ds); [|discriminate]. split; [cbn; lia|reflexivity].
  - intros (ds & -> & Hw & -> & Hac & Hl & ->). revert Hs ac Hac Hl. induction Hw as [|d ds Hd Hw IH]; intros Hs ac Hac Hl.
    + inversion Hac; subst. constructor.
    + rewrite many_app in *. apply shaped_app in Hs as [Hs1 Hs2]. destruct d as [t|a|st sts]; cbn [tables actions inits map] in *.
      * constructor; [|apply IH; assumption]. apply k_table; [exact Hs1|]. exists t; repeat split.
      * inversion Hac as [|? b ? bs Hb Hbs]; subst. constructor; [|apply IH; assumption]. apply k_action; [exact Hs1|]. exists a. repeat split; [exact Hb|apply Hd|apply Hd].
      * cbn [length] in Hl. destruct (inits ds) as [|] eqn:Ei; [|cbn in Hl; lia]. unfold v_inits. cbn [map]. constructor.
        { apply k_init; [exact Hs1|]. exists (st, sts). repeat split; apply Hd. }
        { apply (IH Hs2 ac Hac). lia. }
Qed.

(** The visitor's result is the schema the tokens write. *)
Theorem v_unit_denotes ts s : shaped ts -> (denotes ts s <-> exists u, ts = y_unit u /\ v_unit u = Ok s /\ wf_unit u).
Proof.
  intros Hs. split.
  - intros H. inversion H as [n xs sxs tx ta sta ac ini sac td Hx Hsx Hd Hst Hsa]; subst. rewrite !shaped_app in Hs. destruct Hs as (_ & Hs1 & Hs2).
    apply (corrf_series _ _ _ _ k_extension _ _ Hs1) in Hx as (cx & -> & <- & _).
    apply (k_decls _ _ _ _ Hs2) in Hd as (ds & -> & Hw & -> & Hac & Hl & ->).
    apply slice_nz in Hsx as ->. apply slice_nz in Hst as ->. apply slice_nz in Hsa as ->.
    exists (CUnit n cx ds). split; [reflexivity|]. split; [|exact Hw].
    unfold v_unit. cbn [cu_decls cu_name cu_exts]. apply mapM_ok in Hac.
    destruct (inits ds) as [|i [|j r]]; [| |cbn in Hl; lia]; rewrite Hac; reflexivity.
  - intros ([n cx ds] & -> & E & Hw). unfold v_unit, y_unit, wf_unit in *. cbn [cu_decls cu_name cu_exts] in *.
    match goal with |- denotes ?ts _ => replace ts with ([fixed DATABASE_; Tok IDENTIFIER n; fixed SCOL] ++ many y_ext cx ++ many y_decl ds) in *
      by (unfold y_id; cbn [app]; reflexivity) end.
    rewrite !shaped_app in Hs. destruct Hs as (_ & Hs1 & Hs2).
    assert (Hex : exists ac, mapM v_action (actions ds) = Ok ac /\ (length (inits ds) <= 1)%nat /\
      s = Schema [] n (nz (map v_table (tables ds))) (nz (ac ++ v_inits (inits ds))) (nz (map v_ext cx))).
    { destruct (inits ds) as [|i [|j r]]; [| |discriminate]; destruct (mapM v_action (actions ds)) as [ac|e|p]; cbn [bind] in E; try discriminate;
        injection E as <-; exists ac; (split; [reflexivity|]); (split; [cbn; lia|reflexivity]). }
    destruct Hex as (ac & Hm & Hl & ->). econstructor.
    + apply (corrf_series _ _ _ _ k_extension); [exact Hs1|]. exists cx. split; [reflexivity|]. split; [reflexivity|]. apply all_Forall.
    + apply slice_nz; reflexivity.
    + apply k_decls; [exact Hs2|]. exists ds. split; [reflexivity|]. split; [exact Hw|]. split; [reflexivity|]. split; [apply mapM_ok; exact Hm|]. split; [exact Hl|reflexivity].
    + apply slice_nz; reflexivity.
    + apply slice_nz; reflexivity.
Qed.

(** The faults the visitor raises. *)
Definition unit_fault (u : cunit) (e : gerr) : Prop :=
  ((length (inits (cu_decls u)) > 1)%nat /\ e = ESent MultiInit)
  \/ ((length (inits (cu_decls u)) <= 1)%nat /\ exists pre a post, actions (cu_decls u) = pre ++ a :: post /\
      Forall (fun b => attr_words (words (cd_attrs b))) pre /\ attrs_fault (words (cd_attrs a)) e).

Lemma mapM_panic l z : mapM v_action l = Panic z <->
  exists pre a post e, l = pre ++ a :: post /\ Forall (fun b => attr_words (words (cd_attrs b))) pre /\ z = PErr e /\ attrs_fault (words (cd_attrs a)) e.
Proof.
  induction l as [|a l IH]; cbn [mapM].
  - split; [discriminate|]. intros (pre & b & post & e & E & _). destruct pre; discriminate.
  - unfold v_action at 1. destruct (aattrs_cases (cd_attrs a)) as [(p & m & x & E & Hw & Hm)|(e & E & Hf)]; rewrite E; cbn [bind].
    + split.
      * intros H. assert (Hz : mapM v_action l = Panic z) by (destruct (mapM v_action l); cbn [bind] in H; congruence).
        apply IH in Hz as (pre & b & post & e & -> & Hp & Hz & Hf). exists (a :: pre), b, post, e. repeat split; [constructor; assumption|assumption|assumption].
      * intros (pre & b & post & e & El & Hp & Hz & Hf). destruct pre as [|a' pre]; cbn in El; injection El as <- ->.
        { destruct (attrs_fault_bad _ _ Hf Hw). }
        { inversion Hp; subst. assert (Hz : mapM v_action (pre ++ b :: post) = Panic (PErr e)) by (apply IH; exists pre, b, post, e; auto). rewrite Hz. reflexivity. }
    + split.
      * intros H. injection H as <-. exists [], a, l, e. repeat split; [constructor|exact Hf].
      * intros (pre & b & post & e' & El & Hp & -> & Hf'). destruct pre as [|a' pre]; cbn in El; injection El as <- ->.
        { rewrite (attrs_fault_fun _ _ _ Hf Hf'). reflexivity. }
        { inversion Hp; subst. destruct (attrs_fault_bad _ _ Hf ltac:(assumption)). }
Qed.
Lemma mapM_no_err l e : mapM v_action l <> Err e.
Proof.
  induction l as [|a l IH]; cbn [mapM]; [discriminate|]. unfold v_action at 1.
  destruct (aattrs_cases (cd_attrs a)) as [(p & m & x & E & _)|(e' & E & _)]; rewrite E; cbn [bind]; [|discriminate].
  destruct (mapM v_action l); cbn [bind]; congruence.
Qed.
Theorem v_unit_fault u z : v_unit u = Panic z <-> exists e, z = PErr e /\ unit_fault u e.
Proof.
  unfold v_unit, unit_fault. destruct (inits (cu_decls u)) as [|i [|j r]]; cbn [length].
  3:{ split; [intros H; injection H as <-; eexists; split; [reflexivity|]; left; split; [lia|reflexivity]|].
      intros (e & -> & [[_ ->]|[H _]]); [reflexivity|lia]. }
  all: split; [intros H|intros (e & -> & [[H _]|(_ & pre & a & post & El & Hp & Hf)]); [lia|]].
  1,3: (assert (Hz : mapM v_action (actions (cu_decls u)) = Panic z) by (destruct (mapM v_action (actions (cu_decls u))); cbn [bind] in H; congruence);
    apply mapM_panic in Hz as (pre & a & post & e & El & Hp & -> & Hf); exists e; split; [reflexivity|]; right; split; [lia|]; exists pre, a, post; auto).
  all: assert (Hz : mapM v_action (actions (cu_decls u)) = Panic (PErr e)) by (apply mapM_panic; exists pre, a, post, e; auto); rewrite Hz; reflexivity.
Qed.
Theorem v_unit_no_err u e : v_unit u <> Err e.
Proof.
  unfold v_unit. pose proof (mapM_no_err (actions (cu_decls u))) as H.
  destruct (inits (cu_decls u)) as [|i [|j r]]; [| |discriminate]; destruct (mapM v_action (actions (cu_decls u))); cbn [bind]; try discriminate; intros _; apply (H e0); reflexivity.
Qed.
