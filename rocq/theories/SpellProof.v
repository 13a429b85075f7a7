(** Other spellings: the same schema (C68). *)
From Verif Require Import LexSpec Grammar Schema Denote FaultSpec SpellSpec.

Section Spelling. Context (d : bool).
Lemma resp_app u v w : respelled d (u ++ v) w -> exists u' v', w = u' ++ v' /\ respelled d u u' /\ respelled d v v'.
Proof.
  revert w. induction u as [|x u IH]; intros w H; cbn in H.
  - exists [], w. split; [reflexivity|]. split; [constructor|exact H].
  - inversion H; subst. destruct (IH _ H4) as (u' & v' & -> & Hu & Hv). exists (ys ++ u'), v'. split; [apply app_assoc|]. split; [constructor; assumption|exact Hv].
Qed.
Lemma resp_join u u' v v' : respelled d u u' -> respelled d v v' -> respelled d (u ++ v) (u' ++ v').
Proof. intros H G. induction H; [exact G|]. cbn. rewrite <- app_assoc. constructor; assumption. Qed.

(** Tokens with one spelling *)
Definition special (t : tt) : bool := existsb (tt_eqb t) [FOREIGN_KEY_; FOREIGN_KEY_ABBR_; REFERENCES_; REFERENCES_ABBR_; ACTION_ON_UPDATE_; ACTION_ON_DELETE_; ACTION_DO_].
Definition only (ts : list tok) : Prop := Forall (fun x => special (ty x) = false) ts.
Lemma spelled_only x ys : special (ty x) = false -> spelled d x ys -> ys = [x].
Proof. unfold spelled. destruct x as [t s]. cbn [ty]. destruct t; cbn; intros E; try discriminate E; auto. Qed.
Lemma resp_only ts w : only ts -> respelled d ts w -> w = ts.
Proof. intros H R. induction R; [reflexivity|]. inversion H; subst. rewrite (spelled_only _ _ H3 H0), IHR by assumption. reflexivity. Qed.
(** Which rules lead to which tokens *)
Fixpoint leads (ns : list nt) (e : ebnf) : Prop :=
  match e with
  | Nothing => True | T t => special t = false | R n => In n ns | Seq a b | Or a b => leads ns a /\ leads ns b | Many a => leads ns a
  end.
Lemma leads_only ns e ts : (forall n, In n ns -> leads ns (rule n)) -> derives e ts -> leads ns e -> only ts.
Proof.
  intros Hc D. induction D; cbn [leads]; intros L; try (match type of L with _ /\ _ => destruct L as [L1 L2] end); auto.
  - constructor.
  - constructor; [rewrite H; exact L|constructor].
  - apply Forall_app. split; [apply IHD1|apply IHD2]; assumption.
  - constructor.
  - apply Forall_app. split; [apply IHD1|apply IHD2]; assumption.
Qed.
Definition call_rules : list nt := [call_stmt; call_receivers; call_body; variable; block_var; fn_name; extension_call_name; action_name; fn_arg_list; fn_arg_expr; literal_value; sfn_name].
Lemma call_only ts : derives (R call_stmt) ts -> only ts.
Proof.
  intros D. apply (leads_only call_rules (R call_stmt)); [|exact D|left; reflexivity]. intros n H. cbn in H. repeat (destruct H as [<-|H]; [cbn; repeat split; auto 20|]). destruct H.
Qed.
Definition annotation_rules : list nt := [annotation_decl; annotation_target_name; annotation_attr_list; annotation_attr; annotation_attr_name; annotation_attr_value; literal_value].
Lemma annotation_only ts : derives (R annotation_decl) ts -> only ts.
Proof.
  intros D. apply (leads_only annotation_rules (R annotation_decl)); [|exact D|left; reflexivity]. intros n H. cbn in H. repeat (destruct H as [<-|H]; [cbn; repeat split; auto 20|]). destruct H.
Qed.
Lemma words_only l : attr_words l -> only (map fixed l).
Proof. intros (H & _). induction H as [|t l Ht H IH]; constructor; [|exact IH]. cbn in Ht. destruct Ht as [<-|[<-|[<-|[<-|[]]]]]; reflexivity. Qed.

(** Taking a respelled d list apart along the list it is made from. *)
Ltac apart := repeat match goal with
  | H : respelled d (_ ++ _) _ |- _ => apply resp_app in H as (? & ? & -> & ? & ?)
  | H : respelled d [] _ |- _ => inversion H; subst; clear H
  | H : respelled d (Tok ?t ?s :: _) _ |- _ => let E := fresh in inversion H as [|? ? ? ? E]; subst; clear H; cbn in E; subst
  | H : respelled d (fixed ?t :: _) _ |- _ => let E := fresh in inversion H as [|? ? ? ? E]; subst; clear H; cbn in E; subst
  end.
Definition kept {A} (D : A -> list tok -> Prop) : Prop := forall a ts ts', D a ts -> respelled d ts ts' -> D a ts'.
Lemma kept_only {A} (D : A -> list tok -> Prop) : (forall a ts, D a ts -> only ts) -> kept D.
Proof. intros H a ts ts' Ha R. rewrite (resp_only _ _ (H _ _ Ha) R). exact Ha. Qed.
Lemma kept_series {A} (D : A -> list tok -> Prop) : kept D -> kept (series D).
Proof. intros K l ts ts' H. revert ts'. induction H; intros ts' R; apart; [constructor|]. constructor; eauto. Qed.
Lemma kept_listed {A} (D : A -> list tok -> Prop) : kept D -> kept (listed D).
Proof. intros K l ts ts' H. revert ts'. induction H; intros ts' R; [constructor; eauto|]. apart. constructor; eauto. Qed.
Lemma only_series {A} (D : A -> list tok -> Prop) l ts : (forall a ts, D a ts -> only ts) -> series D l ts -> only ts.
Proof. intros K H. induction H; [constructor|]. apply Forall_app. split; [eapply K; eassumption|assumption]. Qed.
Lemma only_listed {A} (D : A -> list tok -> Prop) l ts : (forall a ts, D a ts -> only ts) -> listed D l ts -> only ts.
Proof. intros K H. induction H; [eapply K; eassumption|]. apply Forall_app. split; [eapply K; eassumption|]. constructor; [reflexivity|assumption]. Qed.
Lemma only_name n ts : w_name n ts -> only ts.
Proof. intros ->. repeat constructor. Qed.
Lemma only_param n ts : w_param n ts -> only ts.
Proof. intros ->. repeat constructor. Qed.
Lemma only_value n ts : w_value n ts -> only ts.
Proof. intros [-> | ->]; repeat constructor. Qed.
Lemma only_column c ts : w_column c ts -> only ts.
Proof.
  intros [n ty t l s u Ht Hl _]. apply Forall_app. split; [repeat constructor|]. apply Forall_app. split; [destruct Ht; repeat constructor|]. eapply only_series; [|exact Hl].
  intros a v [| | |v0 w [-> | ->]| | | |]; repeat constructor.
Qed.
Lemma only_index c ts : w_index c ts -> only ts.
Proof.
  intros [n k t l u Ht Hl]. apply Forall_app. split; [repeat constructor|]. apply Forall_app. split; [destruct Ht; repeat constructor|]. constructor; [reflexivity|]. apply Forall_app. split; [eapply only_listed; [exact only_name|exact Hl]|repeat constructor].
Qed.
Lemma only_extension c ts : w_extension c ts -> only ts.
Proof.
  intros [n a|n l t a Hl]; [repeat constructor|]. apply Forall_app. split; [repeat constructor|]. apply Forall_app. split; [|repeat constructor]. eapply only_listed; [|exact Hl].
  intros [] v H. inversion H as [? ? ? Hv]; subst. apply Forall_app. split; [repeat constructor|]. eapply only_value; exact Hv.
Qed.
Lemma only_stmt c ts : w_stmt c ts -> only ts.
Proof. intros [s|ts' D]; [repeat constructor|]. apply call_only, D. Qed.
Lemma only_body l ts : w_body l ts -> only ts.
Proof. intros (_ & H). eapply only_series; [exact only_stmt|exact H]. Qed.
Lemma only_action c ts : w_action c ts -> only ts.
Proof.
  intros [n anns sanns tn ins sins ti l pub mut aux body tb Ha _ Hi _ Hw _ _ _ _ _ Hb]. apply Forall_app. split; [eapply only_series; [|exact Ha]; intros a ts1 [D _]; apply annotation_only, D|]. apply Forall_app. split; [repeat constructor|].
  apply Forall_app. split; [destruct Hi as [|l0 ts1 Hl|l0 ts1 Hl]; [constructor|eapply only_listed; [exact only_param|exact Hl]|constructor; [reflexivity|eapply only_listed; [exact only_param|exact Hl]]]|].
  constructor; [reflexivity|]. apply Forall_app. split; [apply words_only, Hw|]. constructor; [reflexivity|]. apply Forall_app. split; [apply (only_body _ _ Hb)|repeat constructor].
Qed.
Lemma only_init c ts : w_init c ts -> only ts.
Proof. intros [body tb Hb]. apply Forall_app. split; [repeat constructor|]. apply Forall_app. split; [apply (only_body _ _ Hb)|repeat constructor]. Qed.
Lemma only_effect c ts : w_effect c ts -> only ts.
Proof. intros []; repeat constructor. Qed.

Lemma kept_fkaction : kept w_fkaction.
Proof.
  intros a ts ts' [on_ do_ t o u Ht Ho Hu] R. apply resp_app in R as (t' & v' & -> & Rt & R). apply resp_app in R as (o' & u' & -> & Ro & Ru). rewrite (resp_only _ _ (only_effect _ _ Hu) Ru). 
  assert (Ho' : if d then o' = [] else o' = o) by (destruct Ho as [-> | ->]; inversion Ro as [|? ? ? ? E R']; subst; [destruct d; reflexivity|]; inversion R'; subst; cbn in E; subst; destruct d; reflexivity).
  destruct Ht; inversion Rt as [|? ? ? ? E R']; subst; inversion R'; subst; cbn in E; destruct E as [-> |(Ed & ->)]; cbn [app].
  - apply (w_fkaction_ _ _ [fixed ACTION_ON_UPDATE_] o' u); [constructor|destruct d; subst; auto|exact Hu].
  - rewrite Ed in Ho'. subst o'. apply (w_fkaction_ _ _ [fixed ACTION_ON_UPDATE_] [fixed ACTION_DO_] u); [constructor|right; reflexivity|exact Hu].
  - apply (w_fkaction_ _ _ [fixed ACTION_ON_DELETE_] o' u); [constructor|destruct d; subst; auto|exact Hu].
  - rewrite Ed in Ho'. subst o'. apply (w_fkaction_ _ _ [fixed ACTION_ON_DELETE_] [fixed ACTION_DO_] u); [constructor|right; reflexivity|exact Hu].
Qed.
Lemma resp_names l ts ts' : listed w_name l ts -> respelled d ts ts' -> ts' = ts.
Proof. intros H. apply resp_only. eapply only_listed; [exact only_name|exact H]. Qed.
Lemma resp_cons x ts w : respelled d (x :: ts) w -> exists ys us, w = ys ++ us /\ spelled d x ys /\ respelled d ts us.
Proof. intros H. inversion H; subst. eauto. Qed.
Lemma resp_one x ts w : special (ty x) = false -> respelled d (x :: ts) w -> exists us, w = x :: us /\ respelled d ts us.
Proof. intros E H. apply resp_cons in H as (ys & us & -> & Hy & R). rewrite (spelled_only _ _ E Hy). exists us. split; [reflexivity|exact R]. Qed.
Lemma kept_fkey : kept w_fkey.
Proof.
  intros f ts ts' [k r ch tc t pa tp acts sacts ta Hk Hr Hc Hp Ha Hs] R. unfold in_parens in R. cbn [app] in R.
  apply resp_cons in R as (kk & y & -> & Sk & R). apply resp_one in R as (? & -> & R); [|reflexivity]. rewrite <- !app_assoc in R. apply resp_app in R as (? & ? & -> & R1 & R). rewrite (resp_names _ _ _ Hc R1). clear R1. cbn [app] in R.
  apply resp_one in R as (? & -> & R); [|reflexivity]. apply resp_cons in R as (rr & ? & -> & Sr & R). apply resp_one in R as (? & -> & R); [|reflexivity]. apply resp_one in R as (? & -> & R); [|reflexivity].
  apply resp_app in R as (? & ? & -> & R1 & R). rewrite (resp_names _ _ _ Hp R1). clear R1. apply resp_one in R as (tt' & -> & R); [|reflexivity].
  assert (exists k', kk = [fixed k'] /\ (k' = FOREIGN_KEY_ \/ k' = FOREIGN_KEY_ABBR_)) as (k' & -> & Hk') by (destruct Hk as [-> | ->]; cbn in Sk; destruct Sk as [-> | ->]; eauto).
  assert (exists k', rr = [fixed k'] /\ (k' = REFERENCES_ \/ k' = REFERENCES_ABBR_)) as (r' & -> & Hr') by (destruct Hr as [-> | ->]; cbn in Sr; destruct Sr as [-> | ->]; eauto).
  pose proof (w_fkey_ k' r' ch tc t pa tp acts sacts tt') as G. unfold in_parens in G. rewrite <- !app_assoc in G. cbn [app] in *. apply G; auto. eapply kept_series; [exact kept_fkaction|exact Ha|exact R].
Qed.
Lemma kept_members is fs ts ts' : w_members is fs ts -> respelled d ts ts' -> w_members is fs ts'.
Proof.
  intros H. revert ts'. induction H as [|i t is fs u Hi Hm IH|f t is fs u Hf Hm IH]; intros ts' R.
  - inversion R. constructor.
  - apply resp_one in R as (? & -> & R); [|reflexivity]. apply resp_app in R as (? & ? & -> & R1 & R). rewrite (resp_only _ _ (only_index _ _ Hi) R1). constructor; auto.
  - apply resp_one in R as (? & -> & R); [|reflexivity]. apply resp_app in R as (? & ? & -> & R1 & R). constructor; [eapply kept_fkey; eassumption|auto].
Qed.
Lemma kept_table : kept w_table.
Proof.
  intros t ts ts' [n cs tc is sis fs sfs tm o Hc Hm Hi Hf Ho] R. cbn [app] in R. do 3 (apply resp_one in R as (? & -> & R); [|reflexivity]). apply resp_app in R as (x1 & ? & -> & R1 & R). apply resp_app in R as (x2 & ? & -> & R2 & R).
  apply resp_app in R as (x3 & ? & -> & R3 & R). apply resp_one in R as (? & -> & R); [|reflexivity]. inversion R; subst. assert (x3 = o) as -> by (apply (resp_only o); [destruct Ho as [-> | ->]; repeat constructor|assumption]).
  apply (w_table_ n cs x1 is sis fs sfs x2 o); auto; [|eapply kept_members; eassumption]. eapply kept_listed; [|exact Hc|exact R1]. apply kept_only. exact only_column.
Qed.
Lemma kept_decls ta ac ini ts ts' : w_decls ta ac ini ts -> respelled d ts ts' -> w_decls ta ac ini ts'.
Proof.
  intros H. revert ts'. induction H as [|t ts ta ac ini us Ht H IH|a ts ta ac ini us Ht H IH|i ts ta ac us Ht H IH]; intros ts' R; [inversion R; constructor| | |]; apply resp_app in R as (? & ? & -> & R1 & R).
  - constructor; [eapply kept_table; eassumption|auto].
  - rewrite (resp_only _ _ (only_action _ _ Ht) R1). constructor; auto.
  - rewrite (resp_only _ _ (only_init _ _ Ht) R1). constructor; auto.
Qed.
Lemma kept_denotes ts ts' s : denotes ts s -> respelled d ts ts' -> denotes ts' s.
Proof.
  intros [n xs sxs tx ta sta ac ini sac td Hx Sx Hd St Sa] R. cbn [app] in R. do 3 (apply resp_one in R as (? & -> & R); [|reflexivity]). apply resp_app in R as (x1 & x2 & -> & R1 & R). apply (denotes_ n xs sxs x1 ta sta ac ini sac x2); auto; [|eapply kept_decls; eassumption].
  eapply kept_series; [|exact Hx|exact R1]. apply kept_only. exact only_extension.
Qed.

(** The grammar with the other spellings in place *)
Fixpoint wide (e : ebnf) : ebnf :=
  match e with
  | Nothing => Nothing
  | T t => match t with
    | FOREIGN_KEY_ | FOREIGN_KEY_ABBR_ => Or (T FOREIGN_KEY_) (T FOREIGN_KEY_ABBR_)
    | REFERENCES_ | REFERENCES_ABBR_ => Or (T REFERENCES_) (T REFERENCES_ABBR_)
    | ACTION_ON_UPDATE_ | ACTION_ON_DELETE_ => if d then Seq (T t) (Opt (T ACTION_DO_)) else T t
    | ACTION_DO_ => if d then Nothing else T t
    | _ => T t
    end
  | R n => R n
  | Seq a b => Seq (wide a) (wide b)
  | Or a b => Or (wide a) (wide b)
  | Many a => Many (wide a)
  end.
Ltac into H := match type of H with
  | derives (Seq _ _) _ => let H1 := fresh in let H2 := fresh in inversion H as [| | |? ? ? ? H1 H2| | | |]; subst; clear H; into H1; into H2
  | derives (Or _ _) _ => let H1 := fresh in inversion H as [| | | |? ? ? H1|? ? ? H1| |]; subst; clear H; into H1
  | derives (Opt _) _ => unfold Opt in H; into H
  | derives Nothing _ => inversion H; subst; clear H
  | derives (T _) _ => idtac
  | _ => idtac
  end.
Lemma wide_rule n ts : derives (wide (rule n)) ts -> derives (rule n) ts.
Proof.
  destruct n; try (intros H; exact H).
  - cbn [rule one_of wide Opt]. destruct d; [|intros H; exact H]. intros H. inversion H as [| | |a b u v H1 H2 E1 E2| | | |]; subst; clear H. inversion H2 as [| | |a b u' v' H3 H4 E1 E2| | | |]; subst; clear H2.
    assert (u' = []) as -> by (into H3; reflexivity). cbn [app]. assert (exists x o, u = x ++ o /\ derives (one_of [ACTION_ON_UPDATE_; ACTION_ON_DELETE_]) x /\ derives (Opt (T ACTION_DO_)) o) as (x & o & -> & Hx & Hd).
    { inversion H1 as [| | | |? ? ? H2|? ? ? H2| |]; subst; clear H1; inversion H2 as [| | |a b x o Hx Hd E1 E2| | | |]; subst; exists x, o; (split; [reflexivity|]); (split; [|exact Hd]); [apply d_or1|apply d_or2]; exact Hx. }
    rewrite <- app_assoc. apply d_seq; [exact Hx|]. apply d_seq; [exact Hd|exact H4].
  - cbn [rule one_of wide Opt]. intros H. inversion H as [| | |a b u v H1 H2 E1 E2| | | |]; subst; clear H. apply d_seq; [inversion H1; subst; assumption|]. clear H1 u. rename v into w. rename H2 into H.
    inversion H as [| | |a b u v H1 H2 E1 E2| | | |]; subst; clear H. apply d_seq; [exact H1|]. clear H1 u. rename H2 into H.
    inversion H as [| | |a b u w H1 H2 E1 E2| | | |]; subst; clear H. apply d_seq; [exact H1|]. clear H1 u. rename H2 into H.
    inversion H as [| | |a b u v H1 H2 E1 E2| | | |]; subst; clear H. apply d_seq; [exact H1|]. clear H1 u. rename H2 into H.
    inversion H as [| | |a b u w0 H1 H2 E1 E2| | | |]; subst; clear H. apply d_seq; [inversion H1; subst; assumption|exact H2].
Qed.
Lemma wide_derives e ts ts' : derives e ts -> respelled d ts ts' -> derives (wide e) ts'.
Proof.
  intros D. revert ts'. induction D; intros ts' R; cbn [wide].
  - inversion R; subst. constructor.
  - inversion R as [|? ? ? ? E R']; subst. inversion R'; subst. rewrite app_nil_r. destruct x as [t0 s0]. cbn [ty] in *. clear R R'. unfold spelled in E. cbn [ty] in E.
    destruct t0; try (subst ys; constructor; reflexivity); try (destruct d; subst ys; constructor; reflexivity);
      try (destruct E as [-> | ->]; [apply d_or1|apply d_or2]; constructor; reflexivity);
      try (destruct E as [-> |(-> & ->)]; [destruct d; [|constructor; reflexivity]; apply (d_seq _ _ [_] []); [constructor; reflexivity|apply d_or2; constructor]|apply (d_seq _ _ [_] [_]); [constructor; reflexivity|apply d_or1; constructor; reflexivity]]).
  - constructor. apply wide_rule. auto.
  - apply resp_app in R as (u' & v' & -> & R1 & R2). constructor; auto.
  - apply d_or1; auto.
  - apply d_or2; auto.
  - inversion R; subst. constructor.
  - apply resp_app in R as (u' & v' & -> & R1 & R2). apply d_many1; auto.
Qed.
Lemma kept_program ts ts' : program ts -> respelled d ts ts' -> program ts'.
Proof. intros H R. apply (wide_derives _ _ _ H R). Qed.

End Spelling.

(** With "do" as it is: one token for one token, and back. *)
Definition swapped (x y : tok) : Prop := y = x \/ (special (ty x) = true /\ special (ty y) = true).
Lemma resp_swapped ts ts' : respelled false ts ts' -> Forall2 swapped ts ts'.
Proof.
  intros R. induction R as [|x ys ts us E R IH]; [constructor|]. destruct x as [t s]. unfold spelled in E. cbn [ty] in E.
  destruct t; try (subst ys; constructor; [left; reflexivity|exact IH]); try (destruct E as [-> |(E & _)]; [constructor; [left; reflexivity|exact IH]|discriminate E]); (destruct E as [-> | ->]; constructor; [right; split; reflexivity|exact IH| right; split; reflexivity|exact IH]).
Qed.
Lemma special_not t k : special t = true -> special k = false -> tt_eqb t k = false.
Proof. intros H G. apply tt_eqb_neq. intros ->. congruence. Qed.
Lemma swapped_ninit ts ts' : Forall2 swapped ts ts' -> ninit ts' = ninit ts.
Proof.
  unfold ninit. intros F. induction F as [|x y l l' [-> |(Sx & Sy)] F IH]; [reflexivity| |]; cbn [filter].
  - destruct (tt_eqb (ty x) INIT_); cbn [length]; congruence.
  - rewrite (special_not _ INIT_ Sx eq_refl), (special_not _ INIT_ Sy eq_refl). exact IH.
Qed.
Lemma special_word t : special t = true -> is_attr_word t = false.
Proof. destruct t; cbn; congruence. Qed.
Lemma swapped_prefix ts ts' : Forall2 swapped ts ts' -> attr_prefix ts' = attr_prefix ts.
Proof.
  intros F. induction F as [|x y l l' [-> |(Sx & Sy)] F IH]; [reflexivity| |]; cbn [attr_prefix]; [rewrite IH; reflexivity|]. rewrite (special_word _ Sx), (special_word _ Sy). reflexivity.
Qed.
Lemma swapped_after ts ts' : Forall2 swapped ts ts' -> Forall2 swapped (after_r_paren ts) (after_r_paren ts').
Proof.
  intros F. induction F as [|x y l l' [-> |(Sx & Sy)] F IH]; [constructor| |]; cbn [after_r_paren]; [destruct (tt_eqb (ty x) R_PAREN); assumption|]. rewrite (special_not _ R_PAREN Sx eq_refl), (special_not _ R_PAREN Sy eq_refl). exact IH.
Qed.
Lemma swapped_attrs ts ts' : Forall2 swapped ts ts' -> attr_lists ts' = attr_lists ts.
Proof.
  intros F. induction F as [|x y l l' [-> |(Sx & Sy)] F IH]; [reflexivity| |]; cbn [attr_lists].
  - rewrite IH, (swapped_prefix _ _ (swapped_after _ _ F)). reflexivity.
  - rewrite (special_not _ ACTION_ Sx eq_refl), (special_not _ ACTION_ Sy eq_refl). exact IH.
Qed.
Lemma kept_fault ts ts' e : program_fault ts e -> respelled false ts ts' -> program_fault ts' e.
Proof. intros H R. apply resp_swapped in R. unfold program_fault in *. rewrite (swapped_ninit _ _ R), (swapped_attrs _ _ R). exact H. Qed.
Lemma special_fixed x : special (ty x) = true -> token_shape (ty x) (tx x) -> x = fixed (ty x).
Proof. destruct x as [t s]. cbn [ty tx]. destruct t; cbn; intros H G; try discriminate H; rewrite G; reflexivity. Qed.
Lemma resp_sym ts ts' : lexed ts -> respelled false ts ts' -> respelled false ts' ts.
Proof.
  intros L R. induction R as [|x ys ts us E R IH]; [constructor|]. inversion L as [|? ? (Sh & _) L']; subst. specialize (IH L'). pose proof (special_fixed x) as Fx. destruct x as [t s]. unfold spelled in E. cbn [ty tx] in *.
  destruct t; try (subst ys; cbn [app]; apply (rs_cons false _ [_]); [reflexivity|exact IH]); try (destruct E as [-> |(E & _)]; [cbn [app]; apply (rs_cons false _ [_]); [left; reflexivity|exact IH]|discriminate E]);
    (rewrite (Fx eq_refl Sh) in *; destruct E as [-> | ->]; cbn [app]; apply (rs_cons false _ [_]); try exact IH; cbn; auto).
Qed.
