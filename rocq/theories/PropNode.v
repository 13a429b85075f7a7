(** C43, C44: the Accept methods of the schema types, and a validator that is used again. *)
From Verif Require Import Schema Validator ValidSpec ValidProof ValidProof2 ValidProof3 JsonSpec Node NodeSpec NodeProof Sample ParseSpec ParseKF.

Notation done := (Ok Datatypes.tt).
Definition mini (n : string) : schema :=
  Schema [] (lit "d") (Some [Table (lit n) (Some [Column (lit "id") (lit "int") (Some [Attribute (lit "primary_key") None])]) None None]) None None.

(** ** C43 *)
(** A new validator accepts exactly the valid schemas, and reports exactly the first fault. *)
Theorem C43_new_validator : forall x s,
  (then_accept x [] (NSchema s) = done <-> valid_schema x s) /\
  (forall e, then_accept x [] (NSchema s) = Err e <-> invalid_schema x s (inl e)) /\
  (forall p, then_accept x [] (NSchema s) = Panic p <-> invalid_schema x s (inr p)).
Proof.
  intros x s. unfold then_accept. cbn [lives accept]. rewrite accept_new. destruct (validate_spec x s) as [H1 H2].
  split; [exact H1|]. split.
  - intros e. rewrite <- H2. destruct (validate x s); cbn; split; intros HH; (congruence || contradiction).
  - intros p. rewrite <- H2. destruct (validate x s); cbn; split; intros HH; (congruence || contradiction).
Qed.
Print Assumptions C43_new_validator.

(** Schemas given to one validator one after the other are all accepted iff the schemas up to each point, taken together,
    are one valid schema. *)
Theorem C43_history : forall x (h : list schema),
  (forall p s q, h = p ++ s :: q -> then_accept x (map NSchema p) (NSchema s) = done) <->
  (forall p q, h = p ++ q -> valid_schema x (together p)).
Proof. intros x h. apply history. Qed.
Print Assumptions C43_history.

(** So schemas that share no names do not disturb one another. *)
Theorem C43_disjoint_schemas : forall x h s,
  (forall p s' q, h = p ++ s' :: q -> then_accept x (map NSchema p) (NSchema s') = done) ->
  valid_schema x s ->
  disjoint (map tb_name (elems (sc_tables (together h)))) (map tb_name (elems (sc_tables s))) ->
  disjoint (action_names (together h)) (action_names s) ->
  disjoint (ext_names (together h)) (ext_names s) ->
  then_accept x (map NSchema h) (NSchema s) = done.
Proof.
  intros x h s HA HV D1 D2 D3. destruct (history x h) as [Hv Hk]. specialize (Hk HA). pose proof (proj1 Hv HA h [] (eq_sym (app_nil_r h))) as Vh.
  unfold then_accept. cbn [accept]. apply (accept_after x h s _ Hk Vh).
  destruct (together_snoc h s) as (TT & TA & TE). pose proof HV as [V1 V2 V3 V4 V5 V6 V7]. pose proof Vh as [W1 W2 W3 W4 W5 W6 W7].
  assert (ND : forall (a b : list str), NoDup a -> NoDup b -> disjoint a b -> NoDup (a ++ b)).
  { intros a b Ha Hb Hd. induction a as [|k a IH]; [exact Hb|]. inversion Ha; subst. cbn. constructor.
    - rewrite in_app_iff. intros [H|H]; [contradiction|]. apply (Hd k); [left; reflexivity|exact H].
    - apply IH; [assumption|]. intros n Hn Hn'. apply (Hd n); [right; exact Hn|exact Hn']. }
  assert (IA : forall m, incl (action_names m) (action_names (together (h ++ [s]))) -> incl (ext_names m) (ext_names (together (h ++ [s]))) ->
     forall a, valid_body x m a -> valid_body x (together (h ++ [s])) a).
  { intros m H1 H2 a. apply valid_body_mono; assumption. }
  constructor.
  - unfold ext_names. rewrite TE, map_app. apply ND; assumption.
  - rewrite TT, map_app. apply ND; assumption.
  - intros t Ht. rewrite TT in Ht. apply in_app_or in Ht as [Ht|Ht]; auto.
  - unfold action_names. rewrite TA, map_app. apply ND; assumption.
  - intros t Ht. rewrite TA in Ht. apply in_app_or in Ht as [Ht|Ht]; auto.
  - intros t f Ht Hf. rewrite TT in Ht. apply in_app_or in Ht as [Ht|Ht].
    + apply (valid_fk_mono (together h)); [rewrite TT; apply incl_appl, incl_refl|]. apply W6; assumption.
    + apply (valid_fk_mono s); [rewrite TT; apply incl_appr, incl_refl|]. apply V6; assumption.
  - intros a Ha. rewrite TA in Ha. apply in_app_or in Ha as [Ha|Ha].
    + apply (IA (together h)); [unfold action_names; rewrite TA, map_app; apply incl_appl, incl_refl|unfold ext_names; rewrite TE, map_app; apply incl_appl, incl_refl|]. apply W7; exact Ha.
    + apply (IA s); [unfold action_names; rewrite TA, map_app; apply incl_appr, incl_refl|unfold ext_names; rewrite TE, map_app; apply incl_appr, incl_refl|]. apply V7; exact Ha.
Qed.
Print Assumptions C43_disjoint_schemas.
Example C43_case : forall p s q, [sample_schema; mini "a"; mini "b"] = p ++ s :: q -> then_accept (w_ext sample_world) (map NSchema p) (NSchema s) = done.
Proof.
  intros p s q E. destruct p as [|? [|? [|? p]]]; injection E; intros; subst; try (vm_compute; reflexivity).
  destruct p; discriminate.
Qed.

(** Whatever calls come in between, and however they end, a name declared by an accepted schema cannot be declared again. *)
Theorem C43_names_stay_taken : forall x before s0 between s n,
  then_accept x before (NSchema s0) = done ->
  then_accept x (before ++ NSchema s0 :: between) (NSchema s) = done ->
  ~ (In n (map tb_name (elems (sc_tables s0))) /\ In n (map tb_name (elems (sc_tables s)))) /\
  ~ (In n (action_names s0) /\ In n (action_names s)) /\ ~ (In n (ext_names s0) /\ In n (ext_names s)).
Proof. intros x l1 s0 l2 s k H1 H2. destruct (names_stay_taken x l1 s0 l2 s k H1 H2) as (A & B & C). intuition. Qed.
Print Assumptions C43_names_stay_taken.

(** "A used validator judges a schema as a new one does" is false: it accepts a reference to a table of an earlier schema,
    and it refuses a corrected schema after the wrong one. *)
Definition wrong : schema :=
  Schema [] (lit "d") (Some [Table (lit "t") (Some [Column (lit "id") (lit "int") (Some [Attribute (lit "max_length") None])]) None None]) None None.
Definition dangling : schema :=
  Schema [] (lit "d") (Some [Table (lit "u") (Some [Column (lit "id") (lit "int") (Some [Attribute (lit "primary_key") None])]) None
    (Some [FKey (Some [lit "id"]) (Some [lit "id"]) (lit "t") None])]) None None.
Theorem C43_reuse_changes_nothing_refuted : forall x,
  (then_accept x [NSchema (mini "t")] (NSchema dangling) = done /\
   then_accept x [] (NSchema dangling) = Err (wrap TableNotFound (lit "t"))) /\
  (then_accept x [NSchema wrong] (NSchema (mini "t")) = Err (wrap DuplicateTable (lit "t")) /\
   then_accept x [] (NSchema (mini "t")) = done).
Proof. intros x. vm_compute. auto. Qed.
Print Assumptions C43_reuse_changes_nothing_refuted.

(** ** C44 *)
(** Columns, attributes, tables and actions: the verdict is that of the part itself, whatever the validator did before. *)
Theorem C44_column : forall x l c,
  (then_accept x l (NColumn c) = done <-> valid_column c) /\ (forall e, then_accept x l (NColumn c) = Err e <-> column_bad c (inl e)).
Proof.
  intros x l c. unfold then_accept. cbn [accept]. unfold accept_column, reads. cbn [snd]. destruct (visit_column_spec c) as [H1 H2]. split.
  - rewrite <- H1. symmetry. apply fine_unit.
  - intros e. rewrite <- H2. destruct (visit_column c); cbn; split; intros HH; (congruence || contradiction).
Qed.
Print Assumptions C44_column.
Theorem C44_attribute : forall x l a, then_accept x l (NAttribute a) = done.
Proof. reflexivity. Qed.
Print Assumptions C44_attribute.
(** Foreign keys of a table are not looked at. *)
Theorem C44_table : forall x l t, then_accept x l (NTable t) = done <-> valid_table t.
Proof. intros x l t. apply accept_table_spec. Qed.
Print Assumptions C44_table.
(** The report names the table "current", not its name. *)
Theorem C44_table_report : forall x t e,
  then_accept x [] (NTable t) = Err e <-> table_bad (Table (lit "current") (tb_cols t) (tb_idx t) (tb_fks t)) (inl e).
Proof.
  intros x t e. destruct (accept_table_spec t new_ctx) as (_ & H & _). change (Table _ _ _ _) with (named (c_current new_ctx) t). rewrite <- H.
  unfold then_accept. cbn [lives accept]. destruct (snd (accept_table t new_ctx)) as [u|e'|p]; cbn; split; intros HH; (congruence || contradiction).
Qed.
Print Assumptions C44_table_report.
(** The body of an action is not looked at. *)
Theorem C44_action : forall x l a,
  (then_accept x l (NAction a) = done <-> NoDup (elems (ac_inputs a))) /\
  (forall e, then_accept x l (NAction a) = Err e <-> exists pre i post, elems (ac_inputs a) = pre ++ i :: post /\ NoDup pre /\ In i pre /\ e = wrap DuplicateParam i).
Proof.
  intros x l a. unfold then_accept. cbn [accept]. destruct (accept_action_spec a (lives x l new_ctx)) as [H1 H2]. split; [exact H1|].
  intros e. assert (E : snd (accept_action a (lives x l new_ctx)) = Err e <-> stops (snd (accept_action a (lives x l new_ctx))) (inl e)).
  { destruct (snd (accept_action a (lives x l new_ctx))) as [u|e'|p]; cbn; split; intros HH; (congruence || contradiction). }
  rewrite E, H2. unfold first_bad. split.
  - intros (pre & i & post & Eq & He & Hd & Hs). apply each_NoDup in He. rewrite map_id in He, Hd. exists pre, i, post. unfold says in Hs.
    injection Hs as ->. auto.
  - intros (pre & i & post & Eq & Hn & Hi & ->). exists pre, i, post. split; [exact Eq|]. split; [apply each_NoDup; rewrite map_id; exact Hn|].
    split; [rewrite map_id; exact Hi|reflexivity].
Qed.
Print Assumptions C44_action.
(** An extension cannot be validated: the call panics, always. *)
Theorem C44_extension_panics : forall x l e, then_accept x l (NExtension e) = Panic (PStr (lit "implement me")).
Proof. reflexivity. Qed.
Print Assumptions C44_extension_panics.

(** Indexes and foreign keys are judged against what the validator has seen: an index against the table accepted just before,
    a foreign key against the tables of the schemas accepted before; with a new validator nothing can be referred to. *)
Theorem C44_index_after_its_table : forall x l t i,
  then_accept x l (NTable t) = done ->
  (then_accept x (l ++ [NTable t]) (NIndex i) = done <-> incl (elems (ix_cols i)) (members t)).
Proof.
  intros x l t i H. unfold then_accept in *. rewrite lives_app. cbn [lives accept] in *. unfold accept_index, reads. cbn [snd].
  destruct (accept_table_spec t (lives x l new_ctx)) as (_ & _ & K). destruct (K H) as [_ K']. rewrite <- fine_unit. apply visit_index_spec. exact K'.
Qed.
Print Assumptions C44_index_after_its_table.
Theorem C44_index_alone : forall x i, then_accept x [] (NIndex i) = done <-> elems (ix_cols i) = [].
Proof.
  intros x i. unfold then_accept. cbn [lives accept]. unfold accept_index, reads. cbn [snd]. rewrite <- fine_unit.
  destruct (missing_spec ([] : declctx) [] (fun col => lit "index(" ++ lit "current" ++ lit "/" ++ col ++ lit ")") (elems (ix_cols i)) keys_nil) as [M _].
  unfold visit_index. change (tablectx new_ctx (c_current new_ctx)) with ([] : declctx). change (c_current new_ctx) with (lit "current").
  rewrite M. split; [apply incl_l_nil|]. intros ->. apply incl_refl.
Qed.
Print Assumptions C44_index_alone.
Theorem C44_foreign_key_after_schemas : forall x h f,
  (forall p s q, h = p ++ s :: q -> then_accept x (map NSchema p) (NSchema s) = done) ->
  (then_accept x (map NSchema h) (NForeignKey f) = done <->
   (exists p, In p (elems (sc_tables (together h))) /\ tb_name p = fk_table f /\ incl (elems (fk_parent f)) (members p)) /\
   NoDup (map fk_on (elems (fk_acts f)))).
Proof.
  intros x h f HA. destruct (history x h) as [Hv Hk]. specialize (Hk HA). pose proof (proj1 Hv HA h [] (eq_sym (app_nil_r h))) as Vh.
  unfold then_accept. cbn [accept]. unfold accept_fkey, reads. cbn [snd]. rewrite <- fine_unit.
  apply (visit_fk_spec (together h)). destruct Hk as [K1 K2 K3 K4 K5]. split; [apply Vh|]. auto.
Qed.
Print Assumptions C44_foreign_key_after_schemas.
Theorem C44_foreign_key_alone : forall x f, then_accept x [] (NForeignKey f) = Err (wrap TableNotFound (fk_table f)).
Proof. reflexivity. Qed.
Print Assumptions C44_foreign_key_alone.
Example C44_case : forall x,
  let t := Table (lit "users") (Some [Column (lit "id") (lit "int") None; Column (lit "n") (lit "text") (Some [Attribute (lit "min_length") None])])
             (Some [Index (lit "i") (Some [lit "id"]) (lit "unique")]) (Some [FKey None None (lit "nowhere") None]) in
  then_accept x [NExtension (Extension [] None [])] (NTable t) = done /\
  then_accept x [NExtension (Extension [] None []); NTable t] (NIndex (Index (lit "j") (Some [lit "n"; lit "i"]) [])) = done /\
  then_accept x [NExtension (Extension [] None []); NTable t] (NIndex (Index (lit "j") (Some [lit "m"]) [])) = Err (wrap ColumnNotFound (lit "index(current/m)")).
Proof. intros x. vm_compute. auto. Qed.
