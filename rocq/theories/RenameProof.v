From Coq Require Import FinFun.
From Verif Require Import Schema Validator ValidSpec ValidProof ValidProof2 ValidProof3 RenameSpec.

Lemma each_of_elems {A} (f : A -> A) s : elems (each_of f s) = map f (elems s). Proof. destruct s; reflexivity. Qed.
Lemma in_map_inj (f : str -> str) a l : injective f -> (In (f a) (map f l) <-> In a l).
Proof. intros Hf. split; [|apply in_map]. intros H. apply in_map_iff in H as (b & E & H). apply Hf in E. subst. exact H. Qed.
Lemma nodup_map (f : str -> str) l : injective f -> (NoDup (map f l) <-> NoDup l).
Proof. intros Hf. split; [apply NoDup_map_inv|]. intros H. apply Injective_map_NoDup; [intros a b; apply Hf|exact H]. Qed.
Lemma incl_map_inj (f : str -> str) a b : injective f -> (incl (map f a) (map f b) <-> incl a b).
Proof.
  intros Hf. split; [|apply incl_map]. intros H y Hy. apply (in_map_inj f y b Hf). apply H. apply in_map. exact Hy.
Qed.
Lemma map_split {A B} (f : A -> B) l : forall pre b post, map f l = pre ++ b :: post -> exists p a q, l = p ++ a :: q /\ pre = map f p /\ b = f a /\ post = map f q.
Proof.
  induction l as [|x l IH]; intros [|c pre] b post E; cbn in E; try discriminate.
  - injection E as <- <-. exists [], x, l. auto.
  - injection E as <- E. destruct (IH _ _ _ E) as (p & a & q & -> & -> & -> & ->). exists (x :: p), a, q. auto.
Qed.
Lemma each_map {A B} (f : A -> B) (ok : list A -> A -> Prop) (ok' : list B -> B -> Prop) l : (forall pre a, In a l -> ok pre a -> ok' (map f pre) (f a)) -> each ok l -> each ok' (map f l).
Proof. intros H HE pre b post E. destruct (map_split _ _ _ _ _ E) as (p & a & q & -> & -> & -> & ->). apply H; [apply in_elt|]. eapply HE. reflexivity. Qed.
Lemma first_bad_map {A B} (f : A -> B) (ok : list A -> A -> Prop) (bad : list A -> A -> report -> Prop) (ok' : list B -> B -> Prop) bad' l z :
  (forall pre a, In a l -> ok pre a -> ok' (map f pre) (f a)) -> (forall pre a, In a l -> bad pre a z -> exists z', bad' (map f pre) (f a) z' /\ same_kind z z') ->
  first_bad ok bad l z -> exists z', first_bad ok' bad' (map f l) z' /\ same_kind z z'.
Proof.
  intros H1 H2 (pre & a & post & -> & HO & HB). destruct (H2 pre a) as (z' & H3 & H4); [apply in_elt|exact HB|]. exists z'. split; [|exact H4].
  exists (map f pre), (f a), (map f post). split; [rewrite map_app; reflexivity|]. split; [|exact H3].
  apply (each_map f ok ok' pre); [intros p b Hb; apply H1; apply in_or_app; auto|exact HO].
Qed.

Section Renaming.
Variable r : renaming.
Variables x x' : externals.
Hypothesis F : faithful r.
Hypothesis M : same_meaning r x x'.

Lemma dup_map {A B} (f : A -> B) (name : A -> str) (name' : B -> str) (g : str -> str) k pre a z : (forall c, name' (f c) = g (name c)) ->
  dup name k pre a z -> exists z', dup name' k (map f pre) (f a) z' /\ same_kind z z'.
Proof.
  intros HN [H1 H2]. exists (inl (EWrap (ESent k) (name' (f a)))). unfold says in H2. subst z. split; [|reflexivity]. split; [|reflexivity].
  rewrite HN. rewrite map_map. rewrite (map_ext _ _ HN). rewrite <- (map_map name g). apply in_map. exact H1.
Qed.
Lemma fresh_map {A B} (f : A -> B) (name : A -> str) (name' : B -> str) (g : str -> str) pre a : injective g -> (forall c, name' (f c) = g (name c)) ->
  fresh name pre a -> fresh name' (map f pre) (f a).
Proof.
  intros Hg HN H H'. apply H. unfold fresh in *. rewrite HN, map_map, (map_ext _ _ HN), <- (map_map name g) in H'. exact (proj1 (in_map_inj g _ _ Hg) H').
Qed.

Notation T := (rename_table r).
Lemma col_names_T t : col_names (T t) = map (rn_member r) (col_names t).
Proof. unfold col_names. cbn [T rename_table tb_cols]. rewrite each_of_elems, !map_map. reflexivity. Qed.
Lemma idx_names_T l : idx_names (map (rename_index r) l) = map (rn_member r) (idx_names l).
Proof. unfold idx_names. rewrite !map_map. reflexivity. Qed.
Lemma members_T t : members (T t) = map (rn_member r) (members t).
Proof. unfold members. rewrite map_app, col_names_T. cbn [T rename_table tb_idx]. rewrite each_of_elems, idx_names_T. reflexivity. Qed.
Lemma known_T t pre i : col_names (T t) ++ idx_names (map (rename_index r) pre) ++ [ix_name (rename_index r i)] = map (rn_member r) (col_names t ++ idx_names pre ++ [ix_name i]).
Proof. rewrite col_names_T, idx_names_T, !map_app. reflexivity. Qed.

Lemma missing_map known msg msg' l z : missing known msg l z -> exists z', missing (map (rn_member r) known) msg' (map (rn_member r) l) z' /\ same_kind z z'.
Proof.
  apply first_bad_map.
  - intros _ n _ H. apply in_map. exact H.
  - intros _ n _ [H1 H2]. unfold says in H2. subst z. exists (inl (EWrap (ESent ColumnNotFound) (msg' (rn_member r n)))). split; [|reflexivity].
    split; [|reflexivity]. rewrite (in_map_inj _ _ _ (fa_member r F)). exact H1.
Qed.
Lemma valid_column_T c : valid_column c -> valid_column (rename_column r c). Proof. exact (fun H => H). Qed.
Lemma valid_table_T t : valid_table t -> valid_table (T t).
Proof.
  intros (H1 & H2 & H3). split; [|split].
  - rewrite members_T. apply nodup_map; [exact (fa_member r F)|exact H1].
  - cbn [T rename_table tb_cols]. rewrite each_of_elems. apply Forall_map. exact H2.
  - intros pre i post E. cbn [T rename_table tb_idx] in E. rewrite each_of_elems in E. destruct (map_split _ _ _ _ _ E) as (p & a & q & E' & -> & -> & ->).
    rewrite known_T. cbn [rename_index ix_cols]. rewrite each_of_elems. apply incl_map. eapply H3. exact E'.
Qed.
Lemma table_bad_T t z : table_bad t z -> exists z', table_bad (T t) z' /\ same_kind z z'.
Proof.
  intros [H|(H1 & H2 & H)].
  - assert (G : exists z', first_bad (fun pre c => fresh co_name pre c /\ valid_column c)
      (fun pre c z => dup co_name DuplicateColumn pre c z \/ fresh co_name pre c /\ column_bad c z) (map (rename_column r) (elems (tb_cols t))) z' /\ same_kind z z').
    { revert H. apply first_bad_map.
      - intros pre c _ [H1 H2]. split; [|exact H2]. eapply (fresh_map (rename_column r)); [exact (fa_member r F)|reflexivity|exact H1].
      - intros pre c _ [H|[H1 H2]].
        + destruct (dup_map (rename_column r) co_name co_name (rn_member r) _ _ _ _ (fun _ => eq_refl) H) as (z' & H' & HK). exists z'. auto.
        + exists z. split; [|]. right. split; [|exact H2]. eapply (fresh_map (rename_column r)); [exact (fa_member r F)|reflexivity|exact H1].
          destruct H2 as (p & a & q & _ & _ & [[_ H2]|(_ & _ & H2)]); unfold says in H2; subst; reflexivity. }
    destruct G as (z' & G & HK). exists z'. split; [|exact HK]. left. cbn [T rename_table tb_cols]. rewrite each_of_elems. exact G.
  - assert (HC : NoDup (col_names (T t)) /\ Forall valid_column (elems (tb_cols (T t)))).
    { split; [rewrite col_names_T; apply nodup_map; [exact (fa_member r F)|exact H1]|]. cbn [T rename_table tb_cols]. rewrite each_of_elems. apply Forall_map. exact H2. }
    destruct HC as [C1 C2]. eapply (first_bad_map (rename_index r)) in H; [destruct H as (z' & H & HK); exists z'; split; [|exact HK]; right; split; [exact C1|]; split; [exact C2|];
      cbn [T rename_table tb_idx]; rewrite each_of_elems; exact H| |].
    + intros pre i _ [A B]. split.
      * rewrite col_names_T, idx_names_T, <- map_app. cbn [rename_index ix_name]. rewrite (in_map_inj _ _ _ (fa_member r F)). exact A.
      * rewrite known_T. cbn [rename_index ix_cols]. rewrite each_of_elems. apply incl_map. exact B.
    + intros pre i _ [[A B]|[A B]].
      * unfold says in B. subst z. eexists. split; [left; split; [|reflexivity]|reflexivity].
        rewrite col_names_T, idx_names_T, <- map_app. cbn [rename_index ix_name]. apply in_map. exact A.
      * destruct (missing_map _ _ (fun col => lit "index(" ++ tb_name (T t) ++ lit "/" ++ col ++ lit ")") _ _ B) as (z' & H' & HK). exists z'. split; [|exact HK]. right. split.
        -- rewrite col_names_T, idx_names_T, <- map_app. cbn [rename_index ix_name]. rewrite (in_map_inj _ _ _ (fa_member r F)). exact A.
        -- rewrite known_T. cbn [rename_index ix_cols]. rewrite each_of_elems. exact H'.
Qed.

Notation S' := (renamed r).
Lemma tables_S s : elems (sc_tables (S' s)) = map T (elems (sc_tables s)). Proof. apply each_of_elems. Qed.
Lemma actions_S s : elems (sc_actions (S' s)) = map (rename_action r) (elems (sc_actions s)). Proof. apply each_of_elems. Qed.
Lemma exts_S s : elems (sc_exts (S' s)) = map (rename_extension r) (elems (sc_exts s)). Proof. apply each_of_elems. Qed.
Lemma table_names_S s : map tb_name (elems (sc_tables (S' s))) = map (rn_table r) (map tb_name (elems (sc_tables s))).
Proof. rewrite tables_S, !map_map. reflexivity. Qed.
Lemma action_names_S s : action_names (S' s) = map (rn_action r) (action_names s).
Proof. unfold action_names. rewrite actions_S, !map_map. reflexivity. Qed.
Lemma ext_name_S e : ext_name (rename_extension r e) = rn_ext r (ext_name e).
Proof.
  unfold ext_name. cbn [rename_extension ex_alias ex_name]. destruct (str_eqb (ex_alias e) []) eqn:E.
  - apply str_eqb_eq in E. rewrite E. rewrite (proj2 (fa_alias r F []) eq_refl). reflexivity.
  - destruct (str_eqb (rn_ext r (ex_alias e)) []) eqn:E'; [|reflexivity]. apply str_eqb_eq in E'. apply (proj1 (fa_alias r F _)) in E'. rewrite E' in E. discriminate.
Qed.
Lemma ext_names_S s : ext_names (S' s) = map (rn_ext r) (ext_names s).
Proof. unfold ext_names. fold ext_name. rewrite exts_S, !map_map. apply map_ext. exact ext_name_S. Qed.

Lemma valid_fk_S s t f : valid_fk s t f -> valid_fk (S' s) (T t) (rename_fk r f).
Proof.
  intros (H1 & (p & HP & EP & HI) & H3). split; [|split; [|exact H3]].
  - rewrite members_T. cbn [rename_fk fk_child]. rewrite each_of_elems. apply incl_map. exact H1.
  - exists (T p). split; [rewrite tables_S; apply in_map; exact HP|]. split; [cbn; rewrite EP; reflexivity|]. rewrite members_T. cbn [rename_fk fk_parent]. rewrite each_of_elems.
    apply incl_map. exact HI.
Qed.
Lemma fk_bad_S s t f z : fk_bad s t f z -> exists z', fk_bad (S' s) (T t) (rename_fk r f) z' /\ same_kind z z'.
Proof.
  unfold fk_bad. cbn [rename_fk fk_child fk_parent fk_table fk_acts]. rewrite !each_of_elems, !members_T. intros [H|[HI [[H1 H2]|(p & HP & EP & [H|[H1 H2]])]]].
  - destruct (missing_map _ _ (fun col => lit "fk(" ++ tb_name (T t) ++ lit "/" ++ col ++ lit ")") _ _ H) as (z' & H' & HK). exists z'. auto.
  - unfold says in H2. subst z. eexists. split; [right; split; [apply incl_map; exact HI|left; split; [|reflexivity]]|reflexivity].
    rewrite table_names_S. rewrite (in_map_inj _ _ _ (fa_table r F)). exact H1.
  - destruct (missing_map _ _ (fun col => lit "ref(" ++ rn_table r (fk_table f) ++ lit "->" ++ col ++ lit ")") _ _ H) as (z' & H' & HK). exists z'. split; [|exact HK].
    right. split; [apply incl_map; exact HI|]. right. exists (T p). split; [rewrite tables_S; apply in_map; exact HP|]. split; [cbn; rewrite EP; reflexivity|]. left. rewrite members_T. exact H'.
  - exists z. split.
    + right. split; [apply incl_map; exact HI|]. right. exists (T p). split; [rewrite tables_S; apply in_map; exact HP|]. split; [cbn; rewrite EP; reflexivity|]. right. rewrite members_T.
      split; [apply incl_map; exact H1|exact H2].
    + destruct H2 as (a & b & c & _ & _ & _ & H2). unfold says in H2. subst z. reflexivity.
Qed.

Lemma arg_ok_R vars a : arg_ok (map (rn_var r) vars) (rename_arg r a) <-> arg_ok vars a.
Proof.
  destruct a as [p|]; [|reflexivity]. cbn [rename_arg arg_ok]. split; intros [H1 H2]; split; intros w E.
  - destruct (proj2 (fa_dollar r F p) (ex_intro _ w E)) as (q & Eq). apply (in_map_inj _ _ _ (fa_var r F)). apply (H1 q Eq).
  - destruct (proj2 (fa_at r F p) (ex_intro _ w E)) as (q & Eq). apply (fa_caller r F). exact (H2 q Eq).
  - destruct (proj1 (fa_dollar r F p) (ex_intro _ w E)) as (q & Eq). apply in_map. exact (H1 q Eq).
  - destruct (proj1 (fa_at r F p) (ex_intro _ w E)) as (q & Eq). apply (fa_caller r F). exact (H2 q Eq).
Qed.
Lemma args_ok_R vars l : Forall (arg_ok vars) l -> Forall (arg_ok (map (rn_var r) vars)) (map (rename_arg r) l).
Proof. intros H. apply Forall_map. eapply Forall_impl; [|exact H]. intros a. apply arg_ok_R. Qed.
Lemma receivers_R l : concat (map (receivers x') (map (rn_stmt r) l)) = map (rn_var r) (concat (map (receivers x) l)).
Proof.
  induction l as [|st l IH]; [reflexivity|]. cbn [map concat]. rewrite IH, map_app. f_equal. unfold receivers. rewrite (proj1 (M st)).
  destruct (act_parse x st) as [m|e|p]; [destruct m|reflexivity|reflexivity]; reflexivity.
Qed.
Lemma stmt_ok_R s vars st : stmt_ok x s vars st -> stmt_ok x' (S' s) (map (rn_var r) vars) (rn_stmt r st).
Proof.
  unfold stmt_ok. destruct (M st) as (E1 & E2 & E3). rewrite E1, E2, E3. destruct (act_parse x st) as [[|m args|e args recv|]|e|p]; cbn [rename_res rename_meaning]; auto.
  - intros [H1 H2]. rewrite action_names_S. split; [apply in_map; exact H1|apply args_ok_R; exact H2].
  - intros (H1 & H2 & H3). rewrite ext_names_S. split; [apply in_map; exact H1|]. split; [apply args_ok_R; exact H2|apply nodup_map; [exact (fa_var r F)|exact H3]].
Qed.
Lemma args_bad_R vars l z : first_bad (fun _ => arg_ok vars) (fun _ => arg_bad x vars) l z ->
  exists z', first_bad (fun _ => arg_ok (map (rn_var r) vars)) (fun _ => arg_bad x' (map (rn_var r) vars)) (map (rename_arg r) l) z' /\ same_kind z z'.
Proof.
  apply first_bad_map.
  - intros _ a _ H. apply arg_ok_R. exact H.
  - intros _ a _ (p & -> & H1 & H2). unfold says in H2. subst z. exists (inl (EWrap (ESent VariableNotFound) (fmt_arg x' (rn_var r p)))). split; [|reflexivity].
    exists (rn_var r p). split; [reflexivity|]. split; [|reflexivity]. intros H. apply H1. apply (proj1 (arg_ok_R vars (ABind p))). exact H.
Qed.
Lemma passes_same {A} (m : res A) st st' z : passes_on m st z -> exists z', passes_on m st' z' /\ same_kind z z'.
Proof. destruct m as [a|e|p]; [intros []| |]; intros ->; eexists; (split; [reflexivity|reflexivity]). Qed.
Lemma stmt_bad_R s vars st z : stmt_bad x s vars st z -> exists z', stmt_bad x' (S' s) (map (rn_var r) vars) (rn_stmt r st) z' /\ same_kind z z'.
Proof.
  unfold stmt_bad. destruct (M st) as (E1 & E2 & E3). rewrite E1, E2, E3. destruct (act_parse x st) as [[|m args|e args recv|]|e|p]; cbn [rename_res rename_meaning].
  - intros [H|[H1 H2]]; [destruct (passes_same _ _ (rn_stmt r st) _ H) as (z' & H' & HK)|destruct (passes_same _ _ (rn_stmt r st) _ H2) as (z' & H' & HK)]; exists z'; auto.
  - rewrite action_names_S. setoid_rewrite (in_map_inj _ _ _ (fa_action r F)). intros [[H1 H2]|[H1 H2]].
    + unfold says in H2. subst z. eexists. split; [left; split; [exact H1|reflexivity]|reflexivity].
    + destruct (args_bad_R _ _ _ H2) as (z' & H' & HK). exists z'. auto.
  - rewrite ext_names_S. setoid_rewrite (in_map_inj _ _ _ (fa_ext r F)). intros [[H1 H2]|[H1 [H2|[H2 H3]]]].
    + unfold says in H2. subst z. eexists. split; [left; split; [exact H1|reflexivity]|reflexivity].
    + destruct (args_bad_R _ _ _ H2) as (z' & H' & HK). exists z'. auto.
    + eapply (first_bad_map (rn_var r)) in H3; [destruct H3 as (z' & H' & HK); exists z'; split; [|exact HK]; right; split; [exact H1|]; right; split; [apply args_ok_R; exact H2|exact H']| |].
      * intros pre a _. apply fresh_map with (g := rn_var r); [exact (fa_var r F)|reflexivity].
      * intros pre a _. apply dup_map with (g := rn_var r). reflexivity.
  - intros [].
  - intros H. destruct (passes_same _ _ (rn_stmt r st) _ H) as (z' & H' & HK). exists z'. auto.
  - intros H. destruct (passes_same _ _ (rn_stmt r st) _ H) as (z' & H' & HK). exists z'. auto.
Qed.
Lemma vars_R a p : elems (ac_inputs (rename_action r a)) ++ concat (map (receivers x') (map (rn_stmt r) p)) = map (rn_var r) (elems (ac_inputs a) ++ concat (map (receivers x) p)).
Proof. cbn [rename_action ac_inputs]. rewrite each_of_elems, receivers_R, map_app. reflexivity. Qed.
Lemma valid_body_R s a : valid_body x s a -> valid_body x' (S' s) (rename_action r a).
Proof.
  intros H pre st post E. cbn [rename_action ac_stmts] in E. rewrite each_of_elems in E. destruct (map_split _ _ _ _ _ E) as (p & b & q & E' & -> & -> & ->).
  rewrite vars_R. apply stmt_ok_R. eapply H. exact E'.
Qed.
Lemma body_bad_R s a z : body_bad x s a z -> exists z', body_bad x' (S' s) (rename_action r a) z' /\ same_kind z z'.
Proof.
  unfold body_bad. replace (elems (ac_stmts (rename_action r a))) with (map (rn_stmt r) (elems (ac_stmts a))) by (symmetry; apply each_of_elems). apply first_bad_map.
  - intros pre st _ H. rewrite vars_R. apply stmt_ok_R. exact H.
  - intros pre st _ H. rewrite vars_R. apply stmt_bad_R. exact H.
Qed.

Lemma exts_clean_S s : exts_clean s -> exts_clean (S' s).
Proof. unfold exts_clean. rewrite ext_names_S. apply nodup_map. exact (fa_ext r F). Qed.
Lemma tables_clean_S s : tables_clean s -> tables_clean (S' s).
Proof.
  intros [H1 H2]. split; [rewrite table_names_S; apply nodup_map; [exact (fa_table r F)|exact H1]|]. intros t Ht. rewrite tables_S in Ht. apply in_map_iff in Ht as (t0 & <- & Ht).
  apply valid_table_T. auto.
Qed.
Lemma actions_clean_S s : actions_clean s -> actions_clean (S' s).
Proof.
  intros [H1 H2]. split; [rewrite action_names_S; apply nodup_map; [exact (fa_action r F)|exact H1]|]. intros a Ha. rewrite actions_S in Ha. apply in_map_iff in Ha as (a0 & <- & Ha).
  cbn [rename_action ac_inputs]. rewrite each_of_elems. apply nodup_map; [exact (fa_var r F)|auto].
Qed.
Lemma fks_clean_S s : fks_clean s -> fks_clean (S' s).
Proof.
  intros H t f Ht Hf. rewrite tables_S in Ht. apply in_map_iff in Ht as (t0 & <- & Ht). cbn [T rename_table tb_fks] in Hf. rewrite each_of_elems in Hf.
  apply in_map_iff in Hf as (f0 & <- & Hf). apply valid_fk_S. auto.
Qed.
Theorem renamed_valid s : valid_schema x s -> valid_schema x' (S' s).
Proof.
  intros [H1 H2 H3 H4 H5 H6 H7]. destruct (tables_clean_S s (conj H2 H3)) as [T1 T2]. destruct (actions_clean_S s (conj H4 H5)) as [A1 A2]. constructor; auto.
  - apply exts_clean_S. exact H1.
  - exact (fks_clean_S s H6).
  - intros a Ha. rewrite actions_S in Ha. apply in_map_iff in Ha as (a0 & <- & Ha). apply valid_body_R. auto.
Qed.
Theorem renamed_invalid s z : invalid_schema x s z -> exists z', invalid_schema x' (S' s) z' /\ same_kind z z'.
Proof.
  unfold invalid_schema. intros [H|[[C1 H]|[(C1 & C2 & H)|[(C1 & C2 & C3 & H)|(C1 & C2 & C3 & C4 & H)]]]].
  - assert (G : exists z', exts_bad (S' s) z' /\ same_kind z z'); [|destruct G as (z' & G & HK); exists z'; auto].
    unfold exts_bad in *. rewrite exts_S. revert H. apply first_bad_map.
    + intros pre e _. apply fresh_map with (g := rn_ext r); [exact (fa_ext r F)|exact ext_name_S].
    + intros pre e _. apply dup_map with (g := rn_ext r). exact ext_name_S.
  - assert (G : exists z', tables_bad (S' s) z' /\ same_kind z z'); [|destruct G as (z' & G & HK); exists z'; split; [right; left; split; [apply exts_clean_S; exact C1|exact G]|exact HK]].
    unfold tables_bad in *. rewrite tables_S. revert H. apply first_bad_map.
    + intros pre t _ [A B]. split; [|apply valid_table_T; exact B]. eapply fresh_map with (g := rn_table r); [exact (fa_table r F)|reflexivity|exact A].
    + intros pre t _ [A|[A B]].
      * destruct (dup_map T tb_name tb_name (rn_table r) _ _ _ _ (fun _ => eq_refl) A) as (z' & A' & HK). exists z'. auto.
      * destruct (table_bad_T _ _ B) as (z' & B' & HK). exists z'. split; [|exact HK]. right. split; [|exact B']. eapply fresh_map with (g := rn_table r); [exact (fa_table r F)|reflexivity|exact A].
  - assert (G : exists z', actions_bad (S' s) z' /\ same_kind z z'); [|destruct G as (z' & G & HK); exists z'; split; [right; right; left; split; [apply exts_clean_S; exact C1|split; [apply tables_clean_S; exact C2|exact G]]|exact HK]].
    unfold actions_bad in *. rewrite actions_S. revert H. apply first_bad_map.
    + intros pre a _ [A B]. split; [eapply fresh_map with (g := rn_action r); [exact (fa_action r F)|reflexivity|exact A]|].
      cbn [rename_action ac_inputs]. rewrite each_of_elems. apply nodup_map; [exact (fa_var r F)|exact B].
    + intros pre a _ [A|[A B]].
      * destruct (dup_map (rename_action r) ac_name ac_name (rn_action r) _ _ _ _ (fun _ => eq_refl) A) as (z' & A' & HK). exists z'. auto.
      * eapply (first_bad_map (rn_var r)) in B; [destruct B as (z' & B' & HK); exists z'; split; [|exact HK]; right; split; [eapply fresh_map with (g := rn_action r); [exact (fa_action r F)|reflexivity|exact A]|];
          cbn [rename_action ac_inputs]; rewrite each_of_elems; exact B'| |].
        -- intros p i _. apply fresh_map with (g := rn_var r); [exact (fa_var r F)|reflexivity].
        -- intros p i _. apply dup_map with (g := rn_var r). reflexivity.
  - assert (G : exists z', fks_bad (S' s) z' /\ same_kind z z').
    2: { destruct G as (z' & G & HK). exists z'. split; [|exact HK]. right; right; right; left. split; [apply exts_clean_S; exact C1|]. split; [apply tables_clean_S; exact C2|].
         split; [apply actions_clean_S; exact C3|exact G]. }
    unfold fks_bad in *. rewrite tables_S. revert H. apply first_bad_map.
    + intros _ t _ A. cbn [T rename_table tb_fks]. rewrite each_of_elems. apply Forall_map. eapply Forall_impl; [|exact A]. intros f. apply valid_fk_S.
    + intros _ t _ A. cbn [T rename_table tb_fks]. rewrite each_of_elems. revert A. apply first_bad_map.
      * intros _ f _. apply valid_fk_S.
      * intros _ f _. apply fk_bad_S.
  - assert (G : exists z', bodies_bad x' (S' s) z' /\ same_kind z z').
    2: { destruct G as (z' & G & HK). exists z'. split; [|exact HK]. right; right; right; right. split; [apply exts_clean_S; exact C1|]. split; [apply tables_clean_S; exact C2|].
         split; [apply actions_clean_S; exact C3|]. split; [apply fks_clean_S; exact C4|exact G]. }
    unfold bodies_bad in *. rewrite actions_S. revert H. apply first_bad_map.
    + intros _ a _. apply valid_body_R.
    + intros _ a _. apply body_bad_R.
Qed.
End Renaming.
