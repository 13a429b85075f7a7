(** Properties of validation: C08-C14, C16, C17. *)
From Verif Require Import Schema Validator ValidSpec ValidProof ValidProof3 ParseKF ParseSpec ParseProof Sample.

Notation accepts x s := (validate x s = Ok Datatypes.tt).
Lemma sample_valid : accepts (w_ext sample_world) sample_schema. Proof. vm_compute. reflexivity. Qed.

(** C16: validation accepts exactly the schemas that satisfy the declarative rules. *)
Theorem C16_accepts_exactly_valid : forall x s, accepts x s <-> valid_schema x s.
Proof. intros x s. apply validate_spec. Qed.
Print Assumptions C16_accepts_exactly_valid.
Example C16_case : valid_schema (w_ext sample_world) sample_schema. Proof. apply C16_accepts_exactly_valid, sample_valid. Qed.

(** C17: the report is exactly the first fault in the documented order. *)
Theorem C17_reports_first_fault : forall x s z, stops (validate x s) z <-> invalid_schema x s z.
Proof. intros x s z. apply validate_spec. Qed.
Print Assumptions C17_reports_first_fault.
Theorem C17_one_report : forall x s z z', invalid_schema x s z -> invalid_schema x s z' -> z = z'.
Proof. exact invalid_fun. Qed.
Print Assumptions C17_one_report.
Theorem C17_always_a_verdict : forall x s, valid_schema x s \/ exists z, invalid_schema x s z.
Proof. exact valid_or_invalid. Qed.
Print Assumptions C17_always_a_verdict.
Example C17_case : exists s, o_result (parse_kf sample_world min_text [] Default) = Some s /\
  invalid_schema (w_ext sample_world) s (inl (wrap AttributeNotAllow (lit "text(min)"))).
Proof. eexists. split; [vm_compute; reflexivity|]. apply validate_spec. vm_compute. reflexivity. Qed.

(** C08 *)
Theorem C08_top_level_names_unique : forall x s, accepts x s ->
  NoDup (map tb_name (elems (sc_tables s))) /\ NoDup (map ac_name (elems (sc_actions s))) /\ NoDup (ext_names s).
Proof. intros x s H. apply C16_accepts_exactly_valid in H. split; [apply H|]. split; [exact (vs_actions _ _ H)|exact (vs_exts _ _ H)]. Qed.
Print Assumptions C08_top_level_names_unique.
Theorem C08_duplicates_refused : forall x s,
  ~ NoDup (map tb_name (elems (sc_tables s))) \/ ~ NoDup (map ac_name (elems (sc_actions s))) \/ ~ NoDup (ext_names s) ->
  exists z, stops (validate x s) z.
Proof.
  intros x s H. destruct (valid_or_invalid x s) as [HV|(z & Hz)]; [|exists z; apply C17_reports_first_fault; exact Hz].
  exfalso. destruct HV as [V1 V2 V3 V4 V5 V6 V7]. unfold action_names in V4. tauto.
Qed.
Print Assumptions C08_duplicates_refused.
Example C08_case : accepts (w_ext sample_world) sample_schema /\ length (elems (sc_tables sample_schema)) = 2%nat.
Proof. split; [exact sample_valid|reflexivity]. Qed.

(** C09 *)
Theorem C09_members_and_parameters_unique : forall x s, accepts x s ->
  (forall t, In t (elems (sc_tables s)) ->
     NoDup (map co_name (elems (tb_cols t)) ++ map ix_name (elems (tb_idx t))) /\
     (forall c, In c (elems (tb_cols t)) -> NoDup (map at_type (elems (co_attrs c)))) /\
     (forall f, In f (elems (tb_fks t)) -> NoDup (map fk_on (elems (fk_acts f))))) /\
  (forall a, In a (elems (sc_actions s)) -> NoDup (elems (ac_inputs a))).
Proof.
  intros x s H. apply C16_accepts_exactly_valid in H. split; [|exact (vs_params _ _ H)]. intros t Ht.
  destruct (vs_table _ _ H t Ht) as (H1 & H2 & _). split; [exact H1|]. split.
  - intros c Hc. rewrite Forall_forall in H2. apply (H2 c Hc).
  - intros f Hf. apply (vs_fks _ _ H t f Ht Hf).
Qed.
Print Assumptions C09_members_and_parameters_unique.
Example C09_case : exists t, In t (elems (sc_tables sample_schema)) /\ elems (tb_idx t) <> [] /\ elems (tb_cols t) <> [].
Proof. eexists. split; [left; reflexivity|]. split; discriminate. Qed.

(** C10 *)
Theorem C10_attribute_type_compatible : forall x s, accepts x s -> forall t c a,
  In t (elems (sc_tables s)) -> In c (elems (tb_cols t)) -> In a (elems (co_attrs c)) ->
  (co_type c = lit "int" -> at_type a <> lit "min_length" /\ at_type a <> lit "max_length") /\
  (co_type c = lit "text" -> at_type a <> lit "min" /\ at_type a <> lit "max").
Proof.
  intros x s H t c a Ht Hc Ha. apply C16_accepts_exactly_valid in H. destruct (vs_table _ _ H t Ht) as (_ & H2 & _).
  rewrite Forall_forall in H2. apply (H2 c Hc). exact Ha.
Qed.
Print Assumptions C10_attribute_type_compatible.
(** Refused, and with this error when nothing before it is wrong. *)
Theorem C10_incompatible_refused : forall x s pt t qt pc c qc pa a qa,
  elems (sc_tables s) = pt ++ t :: qt -> elems (tb_cols t) = pc ++ c :: qc -> elems (co_attrs c) = pa ++ a :: qa ->
  NoDup (ext_names s) -> NoDup (map tb_name (pt ++ [t])) -> Forall valid_table pt ->
  NoDup (map co_name (pc ++ [c])) -> Forall valid_column pc ->
  NoDup (map at_type (pa ++ [a])) -> Forall (fun b => attr_allowed (co_type c) (at_type b)) pa ->
  ~ attr_allowed (co_type c) (at_type a) ->
  validate x s = Err (wrap AttributeNotAllow (co_type c ++ lit "(" ++ at_type a ++ lit ")")).
Proof.
  intros x s pt t qt pc c qc pa a qa Et Ec Ea He Hnt Hvt Hnc Hvc Hna Hva Hbad.
  assert (Hpre : forall A (f : A -> str) l b, NoDup (map f (l ++ [b])) -> each (fresh f) l /\ fresh f l b).
  { intros A f l b HN. rewrite map_app in HN. cbn in HN. apply NoDup_remove in HN as [HN1 HN2]. rewrite app_nil_r in *. split; [|exact HN2].
    intros p u q E. subst l. unfold fresh. rewrite map_app in HN1. cbn in HN1. apply NoDup_remove_2 in HN1. intros Hin. apply HN1, in_or_app. left; exact Hin. }
  assert (HE : forall A (P : A -> Prop) l, Forall P l -> forall p u q, l = p ++ u :: q -> P u).
  { intros A P l HF p u q ->. apply Forall_app in HF as [_ HF]. inversion HF; assumption. }
  destruct (Hpre _ _ _ _ Hnt) as [T1 T2]. destruct (Hpre _ _ _ _ Hnc) as [C1 C2]. destruct (Hpre _ _ _ _ Hna) as [A1 A2].
  assert (H : invalid_schema x s (inl (wrap AttributeNotAllow (co_type c ++ lit "(" ++ at_type a ++ lit ")")))).
  { right; left. split; [exact He|]. exists pt, t, qt. split; [exact Et|]. split.
    - intros p u q E. split; [apply (T1 p u q E)|exact (HE _ _ _ Hvt p u q E)].
    - right. split; [exact T2|]. left. exists pc, c, qc. split; [exact Ec|]. split.
      + intros p u q E. split; [apply (C1 p u q E)|exact (HE _ _ _ Hvc p u q E)].
      + right. split; [exact C2|]. exists pa, a, qa. split; [exact Ea|]. split.
        * intros p u q E. split; [apply (A1 p u q E)|exact (HE _ _ _ Hva p u q E)].
        * right. split; [exact A2|]. split; [exact Hbad|reflexivity]. }
  apply C17_reports_first_fault in H. destruct (validate x s); cbn in H; try contradiction. rewrite H. reflexivity.
Qed.
Print Assumptions C10_incompatible_refused.
Example C10_case : exists s t c a, o_result (parse_kf sample_world min_text [] Default) = Some s /\ elems (sc_tables s) = [t] /\
  elems (tb_cols t) = [c] /\ elems (co_attrs c) = [a] /\ ~ attr_allowed (co_type c) (at_type a).
Proof.
  eexists _, _, _, _. split; [vm_compute; reflexivity|]. split; [reflexivity|]. split; [reflexivity|]. split; [reflexivity|].
  intros [_ H]. destruct (H eq_refl) as [H' _]. apply H'. reflexivity.
Qed.

(** C11: the exact set of names an index may list; the literal claim fails. *)
Theorem C11_index_columns_resolve : forall x s, accepts x s -> forall t pre i post,
  In t (elems (sc_tables s)) -> elems (tb_idx t) = pre ++ i :: post ->
  incl (elems (ix_cols i)) (map co_name (elems (tb_cols t)) ++ map ix_name pre ++ [ix_name i]).
Proof. intros x s H t pre i post Ht E. apply C16_accepts_exactly_valid in H. destruct (vs_table _ _ H t Ht) as (_ & _ & H3). exact (H3 pre i post E). Qed.
Print Assumptions C11_index_columns_resolve.
Theorem C11_index_columns_are_columns_refuted : exists s t i n,
  parse_kf sample_world (lit "database d; table t { a int, #i index(i) }") [] Default = Outcome (Some s) [] /\
  In t (elems (sc_tables s)) /\ In i (elems (tb_idx t)) /\ In n (elems (ix_cols i)) /\ ~ In n (map co_name (elems (tb_cols t))).
Proof.
  eexists _, _, _, _. split; [vm_compute; reflexivity|]. split; [left; reflexivity|]. split; [left; reflexivity|]. split; [left; reflexivity|].
  cbn. intros [H|[]]. discriminate.
Qed.
Print Assumptions C11_index_columns_are_columns_refuted.
Example C11_case : exists t pre i post, In t (elems (sc_tables sample_schema)) /\ elems (tb_idx t) = pre ++ i :: post /\ elems (ix_cols i) <> [].
Proof. eexists _, [], _, []. split; [left; reflexivity|]. split; [reflexivity|discriminate]. Qed.

(** C12 *)
Theorem C12_foreign_keys_resolve : forall x s, accepts x s -> forall t f,
  In t (elems (sc_tables s)) -> In f (elems (tb_fks t)) ->
  incl (elems (fk_child f)) (map co_name (elems (tb_cols t)) ++ map ix_name (elems (tb_idx t))) /\
  exists p, In p (elems (sc_tables s)) /\ tb_name p = fk_table f /\
    incl (elems (fk_parent f)) (map co_name (elems (tb_cols p)) ++ map ix_name (elems (tb_idx p))).
Proof. intros x s H t f Ht Hf. apply C16_accepts_exactly_valid in H. destruct (vs_fks _ _ H t f Ht Hf) as (H1 & H2 & _). split; [exact H1|exact H2]. Qed.
Print Assumptions C12_foreign_keys_resolve.
Theorem C12_keys_are_columns_and_counts_agree_refuted : exists s t f n,
  parse_kf sample_world (lit "database d; table t { a int, b int, #i index(a), fk (i) ref t (a, b) }") [] Default = Outcome (Some s) [] /\
  In t (elems (sc_tables s)) /\ In f (elems (tb_fks t)) /\ In n (elems (fk_child f)) /\ ~ In n (map co_name (elems (tb_cols t))) /\
  length (elems (fk_child f)) <> length (elems (fk_parent f)).
Proof.
  eexists _, _, _, _. split; [vm_compute; reflexivity|]. split; [left; reflexivity|]. split; [left; reflexivity|]. split; [left; reflexivity|].
  split; [cbn; intros [H|[H|[]]]; discriminate|discriminate].
Qed.
Print Assumptions C12_keys_are_columns_and_counts_agree_refuted.
Example C12_case : exists t f, In t (elems (sc_tables sample_schema)) /\ In f (elems (tb_fks t)).
Proof. eexists _, _. split; [right; left; reflexivity|left; reflexivity]. Qed.

(** C13 *)
Theorem C13_calls_resolve : forall x s, accepts x s -> forall a st, In a (elems (sc_actions s)) -> In st (elems (ac_stmts a)) ->
  (forall m args, act_parse x st = Ok (ActionCall m args) -> In m (map ac_name (elems (sc_actions s)))) /\
  (forall e args r, act_parse x st = Ok (ExtCall e args r) -> In e (ext_names s)).
Proof.
  intros x s H a st Ha Hst. apply C16_accepts_exactly_valid in H. apply in_split in Hst as (pre & post & E).
  pose proof (vs_bodies _ _ H a Ha pre st post E) as Hs. unfold stmt_ok in Hs. split.
  - intros m args Em. rewrite Em in Hs. apply Hs.
  - intros e args r Em. rewrite Em in Hs. apply Hs.
Qed.
Print Assumptions C13_calls_resolve.
(** An unresolved call is refused with the matching error, if nothing before it is wrong. *)
Theorem C13_unresolved_refused : forall x s pa a qa pre st post,
  elems (sc_actions s) = pa ++ a :: qa -> elems (ac_stmts a) = pre ++ st :: post ->
  exts_clean s -> tables_clean s -> actions_clean s -> fks_clean s ->
  (forall b, In b pa -> valid_body x s b) ->
  (forall p u q, pre = p ++ u :: q -> stmt_ok x s (elems (ac_inputs a) ++ concat (map (receivers x) p)) u) ->
  (forall m args, act_parse x st = Ok (ActionCall m args) -> ~ In m (action_names s) -> validate x s = Err (wrap ActionNotFound m)) /\
  (forall e args r, act_parse x st = Ok (ExtCall e args r) -> ~ In e (ext_names s) -> validate x s = Err (wrap ExtensionNotFound e)).
Proof.
  intros x s pa a qa pre st post Ea Es X1 X2 X3 X4 Hb Hp.
  assert (G : forall z, stmt_bad x s (elems (ac_inputs a) ++ concat (map (receivers x) pre)) st z -> invalid_schema x s z).
  { intros z Hz. do 4 right. do 4 (split; [assumption|]). exists pa, a, qa. split; [exact Ea|]. split.
    - intros p u q ->. apply Hb. apply in_or_app. right; left; reflexivity.
    - exists pre, st, post. split; [exact Es|]. split; [exact Hp|exact Hz]. }
  assert (GE : forall e, invalid_schema x s (inl e) -> validate x s = Err e).
  { intros e He. apply C17_reports_first_fault in He. destruct (validate x s); cbn in He; try contradiction. rewrite He. reflexivity. }
  split.
  - intros m args Em Hm. apply GE, G. unfold stmt_bad. rewrite Em. left. split; [exact Hm|reflexivity].
  - intros e args r Em He. apply GE, G. unfold stmt_bad. rewrite Em. left. split; [exact He|reflexivity].
Qed.
Print Assumptions C13_unresolved_refused.
Example C13_case : exists a st m args, In a (elems (sc_actions sample_schema)) /\ In st (elems (ac_stmts a)) /\
  act_parse (w_ext sample_world) st = Ok (ActionCall m args) /\ args <> [].
Proof.
  eexists _, _, _, _. split; [right; right; left; reflexivity|]. split; [right; left; reflexivity|]. split; [vm_compute; reflexivity|discriminate].
Qed.
Example C13_unresolved_case : exists s, o_result (parse_kf sample_world (lit "database d; action a() public { create($x,'a'); }") [] Default) = Some s /\
  exts_clean s /\ tables_clean s /\ actions_clean s /\ fks_clean s /\ ~ In (lit "create") (action_names s) /\
  validate (w_ext sample_world) s = Err (wrap ActionNotFound (lit "create")).
Proof.
  eexists. split; [vm_compute; reflexivity|]. split; [constructor|]. split; [split; [constructor|intros t []]|].
  split; [split; [repeat constructor; intros []|intros a [<-|[]]; constructor]|]. split; [intros t f []|].
  split; [cbn; intros [H|[]]; discriminate|vm_compute; reflexivity].
Qed.

(** C14: [pre] are the statements before the call. *)
Theorem C14_argument_variables_in_scope : forall x s, accepts x s -> forall a pre st post p,
  In a (elems (sc_actions s)) -> elems (ac_stmts a) = pre ++ st :: post ->
  (exists m args, act_parse x st = Ok (ActionCall m args) /\ In (ABind p) args) \/
  (exists e args r, act_parse x st = Ok (ExtCall e args r) /\ In (ABind p) args) ->
  (forall w, p = lit "$" ++ w -> In p (elems (ac_inputs a)) \/
     exists st' e args r, In st' pre /\ act_parse x st' = Ok (ExtCall e args r) /\ In p r) /\
  (forall w, p = lit "@" ++ w -> p = lit "@caller").
Proof.
  intros x s H a pre st post p Ha E Hc. apply C16_accepts_exactly_valid in H. pose proof (vs_bodies _ _ H a Ha pre st post E) as Hs. unfold stmt_ok in Hs.
  assert (Hok : arg_ok (elems (ac_inputs a) ++ concat (map (receivers x) pre)) (ABind p)).
  { destruct Hc as [(m & args & Em & Hin)|(e & args & r & Em & Hin)]; rewrite Em in Hs.
    - destruct Hs as [_ Hs]. rewrite Forall_forall in Hs. apply Hs; exact Hin.
    - destruct Hs as (_ & Hs & _). rewrite Forall_forall in Hs. apply Hs; exact Hin. }
  destruct Hok as [H1 H2]. split; [|exact H2]. intros w Ew. apply (H1 w) in Ew. apply in_app_or in Ew as [Ew|Ew]; [left; exact Ew|right].
  apply in_concat in Ew as (r & Hr & Hp). apply in_map_iff in Hr as (st' & Er & Hin). unfold receivers in Er.
  destruct (act_parse x st') as [[|m args|e args r'|]|e|q] eqn:Em; subst r; try destruct Hp. exists st', e, args, r'. auto.
Qed.
Print Assumptions C14_argument_variables_in_scope.
Theorem C14_receivers_distinct : forall x s, accepts x s -> forall a st e args r, In a (elems (sc_actions s)) -> In st (elems (ac_stmts a)) ->
  act_parse x st = Ok (ExtCall e args r) -> NoDup r.
Proof.
  intros x s H a st e args r Ha Hst Em. apply C16_accepts_exactly_valid in H. apply in_split in Hst as (pre & post & E).
  pose proof (vs_bodies _ _ H a Ha pre st post E) as Hs. unfold stmt_ok in Hs. rewrite Em in Hs. apply Hs.
Qed.
Print Assumptions C14_receivers_distinct.
(** A variable received later is out of scope. *)
Example C14_case : exists s, parse_kf sample_world late_receiver [] Default = Outcome (Some s) [wrap VariableNotFound (lit "$x")].
Proof. eexists. vm_compute. reflexivity. Qed.
Example C14_case_ok : exists a pre st post args, In a (elems (sc_actions sample_schema)) /\ elems (ac_stmts a) = pre ++ st :: post /\ pre <> [] /\
  act_parse (w_ext sample_world) st = Ok (ActionCall (lit "create") args) /\ In (ABind (lit "$x")) args.
Proof.
  eexists _, [_], _, [], _. split; [right; right; left; reflexivity|]. split; [reflexivity|]. split; [discriminate|]. split; [vm_compute; reflexivity|left; reflexivity].
Qed.
