(** Validation, continued: tables, actions, foreign keys, statements, schemas. *)
From Verif Require Import Schema Validator ValidSpec ValidProof.

(** * Tables *)
Definition frame (c c' : ctx) : Prop :=
  c_actions c' = c_actions c /\ c_exts c' = c_exts c /\ c_current c' = c_current c /\
  (forall k, k <> c_current c -> get k (c_tables c') = get k (c_tables c)).
Definition tabkeys (c : ctx) (l : list str) : Prop := exists d, get (c_current c) (c_tables c) = Some d /\ keys d l.

Lemma tabkeys_ctx c l : tabkeys c l -> keys (tablectx c (c_current c)) l.
Proof. intros (d & H & K). unfold tablectx. rewrite H. exact K. Qed.
Lemma frame_trans a b c : frame a b -> frame b c -> frame a c.
Proof.
  intros (A1 & A2 & A3 & A4) (B1 & B2 & B3 & B4). unfold frame. rewrite B1, B2, B3, A1, A2, A3. split; [reflexivity|]. split; [reflexivity|].
  split; [reflexivity|]. intros k Hk. rewrite B4, A4; auto. rewrite A3; exact Hk.
Qed.
Lemma frame_add c n kind : frame c (add_member c n kind).
Proof.
  unfold frame, add_member. cbn. split; [reflexivity|]. split; [reflexivity|]. split; [reflexivity|].
  intros k Hk. apply str_eqb_neq in Hk. rewrite Hk. reflexivity.
Qed.
Lemma tabkeys_add c l n kind : tabkeys c l -> tabkeys (add_member c n kind) (l ++ [n]).
Proof.
  intros H. apply tabkeys_ctx in H. unfold tabkeys, add_member. cbn. eexists. split; [rewrite str_eqb_refl; reflexivity|].
  apply keys_put. exact H.
Qed.

Definition col_step (col : column) (c : ctx) : res ctx :=
  if has (co_name col) (tablectx c (c_current c)) then Err (wrap DuplicateColumn (co_name col))
  else let c := add_member c (co_name col) (lit "column") in DO _ <- visit_column col; Ok c.
Definition idx_step (i : tindex) (c : ctx) : res ctx :=
  if has (ix_name i) (tablectx c (c_current c)) then Err (wrap DuplicateIndex (ix_name i))
  else let c := add_member c (ix_name i) (lit "index") in DO _ <- visit_index i c; Ok c.

Lemma seq_fine {A B} (m : res A) (b : B) : fine (DO _ <- m; Ok b) <-> fine m.
Proof.
  rewrite bind_fine. split; [intros (a & H & _); exists a; exact H|]. intros [a H]. exists a. split; [exact H|apply fine_ok].
Qed.
Lemma seq_stops {A B} (m : res A) (b : B) z : stops (DO _ <- m; Ok b) z <-> stops m z.
Proof. rewrite bind_stops. split; [intros [H|(a & _ & H)]; [exact H|destruct (stops_ok _ _ H)]|auto]. Qed.
Lemma seq_ok {A B} (m : res A) (b c : B) : (DO _ <- m; Ok b) = Ok c -> c = b.
Proof. destruct m; cbn; congruence. Qed.

Lemma cols_loop c0 cols : tabkeys c0 [] ->
  (fine (foreach col_step cols c0) <-> NoDup (map co_name cols) /\ Forall valid_column cols) /\
  (forall c', foreach col_step cols c0 = Ok c' -> frame c0 c' /\ tabkeys c' (map co_name cols)) /\
  (forall z, stops (foreach col_step cols c0) z <->
     first_bad (fun pre c => fresh co_name pre c /\ valid_column c)
       (fun pre c z => dup co_name DuplicateColumn pre c z \/ fresh co_name pre c /\ column_bad c z) cols z).
Proof.
  intros H0.
  destruct (foreach_spec col_step (fun pre c => frame c0 c /\ tabkeys c (map co_name pre))
    (fun pre c => fresh co_name pre c /\ valid_column c)
    (fun pre c z => dup co_name DuplicateColumn pre c z \/ fresh co_name pre c /\ column_bad c z)) with (l := cols) (s := c0) as (G1 & G2 & G3).
  - intros pre a c [_ HK]. apply tabkeys_ctx in HK. unfold col_step.
    match goal with |- fine (if _ then _ else ?r) <-> _ => destruct (dup_step (co_name a) _ _ DuplicateColumn r HK) as [D1 _]; rewrite D1 end.
    cbv zeta. rewrite seq_fine. rewrite (proj1 (visit_column_spec a)). reflexivity.
  - intros pre a c c' [HF HK] E. unfold col_step in E. destruct (has (co_name a) (tablectx c (c_current c))); [discriminate|].
    cbv zeta in E. apply seq_ok in E. subst c'. split; [eapply frame_trans; [exact HF|apply frame_add]|].
    rewrite map_app. apply tabkeys_add; exact HK.
  - intros pre a c z [_ HK]. apply tabkeys_ctx in HK. unfold col_step.
    match goal with |- stops (if _ then _ else ?r) _ <-> _ => destruct (dup_step (co_name a) _ _ DuplicateColumn r HK) as [_ D2]; rewrite D2 end.
    cbv zeta. rewrite seq_stops. rewrite (proj2 (visit_column_spec a)). reflexivity.
  - split; [|exact H0]. unfold frame. auto.
  - rewrite each_and, each_NoDup, each_Forall in G1. auto.
Qed.

Lemma visit_index_spec i c l : tabkeys c l ->
  (fine (visit_index i c) <-> incl (elems (ix_cols i)) l) /\
  (forall z, stops (visit_index i c) z <->
     missing l (fun col => lit "index(" ++ c_current c ++ lit "/" ++ col ++ lit ")") (elems (ix_cols i)) z).
Proof. intros H. apply tabkeys_ctx in H. apply missing_spec. exact H. Qed.

Lemma idx_loop c0 cn is : tabkeys c0 cn ->
  let ok pre i := ~ In (ix_name i) (cn ++ idx_names pre) /\ incl (elems (ix_cols i)) (cn ++ idx_names pre ++ [ix_name i]) in
  (fine (foreach idx_step is c0) <-> each ok is) /\
  (forall c', foreach idx_step is c0 = Ok c' -> frame c0 c' /\ tabkeys c' (cn ++ idx_names is)) /\
  (forall z, stops (foreach idx_step is c0) z <->
     first_bad ok
     (fun pre i z => In (ix_name i) (cn ++ idx_names pre) /\ says DuplicateIndex (ix_name i) z \/
        ~ In (ix_name i) (cn ++ idx_names pre) /\
        missing (cn ++ idx_names pre ++ [ix_name i])
                (fun col => lit "index(" ++ c_current c0 ++ lit "/" ++ col ++ lit ")") (elems (ix_cols i)) z) is z).
Proof.
  intros H0 ok.
  apply (foreach_spec idx_step (fun pre c => frame c0 c /\ tabkeys c (cn ++ idx_names pre))).
  - intros pre a c [_ HK]. pose proof (tabkeys_ctx _ _ HK) as HK'. unfold idx_step.
    match goal with |- fine (if _ then _ else ?r) <-> _ => destruct (dup_step (ix_name a) _ _ DuplicateIndex r HK') as [D1 _]; rewrite D1 end.
    cbv zeta. rewrite seq_fine.
    rewrite (proj1 (visit_index_spec a _ _ (tabkeys_add c _ (ix_name a) (lit "index") HK))). rewrite <- app_assoc. reflexivity.
  - intros pre a c c' [HF HK] E. unfold idx_step in E. destruct (has (ix_name a) (tablectx c (c_current c))); [discriminate|].
    cbv zeta in E. apply seq_ok in E. subst c'. split; [eapply frame_trans; [exact HF|apply frame_add]|].
    unfold idx_names. rewrite map_app, app_assoc. apply tabkeys_add; exact HK.
  - intros pre a c z [HF HK]. pose proof (tabkeys_ctx _ _ HK) as HK'. unfold idx_step.
    match goal with |- stops (if _ then _ else ?r) _ <-> _ => destruct (dup_step (ix_name a) _ _ DuplicateIndex r HK') as [_ D2]; rewrite D2 end.
    cbv zeta. rewrite seq_stops.
    rewrite (proj2 (visit_index_spec a _ _ (tabkeys_add c _ (ix_name a) (lit "index") HK))). rewrite <- app_assoc.
    destruct HF as (_ & _ & HC & _). cbn [c_current add_member set_tables]. rewrite HC. reflexivity.
  - unfold idx_names. cbn. rewrite app_nil_r. split; [|exact H0]. unfold frame. auto.
Qed.

Lemma NoDup_members cn (is : list tindex) :
  NoDup (cn ++ idx_names is) <-> NoDup cn /\ each (fun pre i => ~ In (ix_name i) (cn ++ idx_names pre)) is.
Proof.
  induction is as [|i is IH] using rev_ind.
  - cbn. rewrite app_nil_r. split; [intros H; split; [exact H|apply each_nil]|tauto].
  - rewrite each_snoc. unfold idx_names in *. rewrite map_app, app_assoc. cbn [map].
    assert (H := NoDup_Add (Add_app (ix_name i) (cn ++ map ix_name is) [])). rewrite app_nil_r in H. rewrite H, IH. tauto.
Qed.

Lemma visit_table_spec t c : c_current c = tb_name t ->
  (fine (visit_table t c) <-> valid_table t) /\ (forall z, stops (visit_table t c) z <-> table_bad t z) /\
  (forall c', visit_table t c = Ok c' -> frame c c' /\ tabkeys c' (members t)).
Proof.
  intros HC. unfold visit_table. cbv zeta. set (c0 := set_tables c (put (c_current c) [] (c_tables c))).
  assert (F0 : frame c c0).
  { unfold frame, c0. cbn. split; [reflexivity|]. split; [reflexivity|]. split; [reflexivity|]. intros k Hk. apply str_eqb_neq in Hk.
    rewrite Hk. reflexivity. }
  assert (K0 : tabkeys c0 []).
  { exists []. unfold c0. cbn. rewrite str_eqb_refl. split; [reflexivity|apply keys_nil]. }
  change (foreach (fun (col : column) (c1 : ctx) => _) (elems (tb_cols t)) c0) with (foreach col_step (elems (tb_cols t)) c0).
  change (fun c1 : ctx => foreach (fun (i : tindex) (c2 : ctx) => _) (elems (tb_idx t)) c1)
    with (fun c1 : ctx => foreach idx_step (elems (tb_idx t)) c1).
  destruct (cols_loop c0 (elems (tb_cols t)) K0) as (C1 & C2 & C3).
  assert (HI : forall c1, foreach col_step (elems (tb_cols t)) c0 = Ok c1 ->
     frame c c1 /\ tabkeys c1 (col_names t) /\ c_current c1 = tb_name t).
  { intros c1 E. destruct (C2 c1 E) as [F K]. pose proof (frame_trans _ _ _ F0 F) as FF. split; [exact FF|]. split; [exact K|].
    destruct FF as (_ & _ & -> & _). exact HC. }
  split; [|split].
  - rewrite bind_fine. unfold valid_table. unfold members. rewrite NoDup_members. split.
    + intros (c1 & E1 & E2). destruct (HI c1 E1) as (F & K & Hc).
      apply (idx_loop c1 _ _ K) in E2. apply each_and in E2 as [E2 E3].
      assert (Hf : fine (foreach col_step (elems (tb_cols t)) c0)) by (exists c1; exact E1). apply C1 in Hf as [Hn Hv].
      split; [split; [exact Hn|exact E2]|]. split; [exact Hv|exact E3].
    + intros ((Hn & E2) & Hv & E3). assert (Hf : fine (foreach col_step (elems (tb_cols t)) c0)) by (apply C1; auto).
      destruct Hf as [c1 E1]. exists c1. split; [exact E1|]. destruct (HI c1 E1) as (F & K & Hc).
      apply (idx_loop c1 _ _ K). apply each_and. auto.
  - intros z. rewrite bind_stops, C3. unfold table_bad. apply or_iff_compat_l. split.
    + intros (c1 & E1 & E2). destruct (HI c1 E1) as (F & K & Hc).
      assert (Hf : fine (foreach col_step (elems (tb_cols t)) c0)) by (exists c1; exact E1). apply C1 in Hf as [Hn Hv].
      split; [exact Hn|]. split; [exact Hv|]. apply (idx_loop c1 _ _ K) in E2. rewrite Hc in E2. exact E2.
    + intros (Hn & Hv & E2). assert (Hf : fine (foreach col_step (elems (tb_cols t)) c0)) by (apply C1; auto).
      destruct Hf as [c1 E1]. exists c1. split; [exact E1|]. destruct (HI c1 E1) as (F & K & Hc).
      apply (idx_loop c1 _ _ K). rewrite Hc. exact E2.
  - intros c' E. destruct (foreach col_step (elems (tb_cols t)) c0) as [c1|e|p] eqn:E1; cbn [bind] in E; try discriminate.
    destruct (HI c1 eq_refl) as (F & K & Hc). destruct (idx_loop c1 _ (elems (tb_idx t)) K) as (_ & I2 & _).
    destruct (I2 c' E) as [F' K']. split; [eapply frame_trans; eauto|exact K'].
Qed.

(** * The phases *)
Definition ext_step (e : extension) (c : ctx) : res ctx :=
  if has (ext_key e) (c_exts c) then Err (wrap DuplicateExtension (ext_key e))
  else Ok (set_exts c (put (ext_key e) [] (c_exts c))).
Definition tab_step (t : table) (c : ctx) : res ctx :=
  if has (tb_name t) (c_tables c) then Err (wrap DuplicateTable (tb_name t))
  else visit_table t (set_current c (tb_name t)).
Definition act_step (a : action) (c : ctx) : res ctx :=
  if has (ac_name a) (c_actions c) then Err (wrap DuplicateAction (ac_name a))
  else visit_action a (set_current c (ac_name a)).

Lemma ext_key_name e : ext_key e = ext_name e.
Proof. unfold ext_key, ext_name. destruct (ex_alias e); reflexivity. Qed.

Definition after_exts (pre : list extension) (c : ctx) : Prop :=
  keys (c_exts c) (map ext_name pre) /\ c_tables c = [] /\ c_actions c = [].
Lemma ext_phase es :
  (fine (foreach ext_step es new_ctx) <-> NoDup (map ext_name es)) /\
  (forall c, foreach ext_step es new_ctx = Ok c -> after_exts es c) /\
  (forall z, stops (foreach ext_step es new_ctx) z <-> first_bad (fresh ext_name) (dup ext_name DuplicateExtension) es z).
Proof.
  destruct (foreach_spec ext_step after_exts (fresh ext_name) (dup ext_name DuplicateExtension)) with (l := es) (s := new_ctx) as (G1 & G2 & G3).
  - intros pre a c (HK & _). unfold ext_step. rewrite ext_key_name.
    match goal with |- fine (if _ then _ else ?r) <-> _ => destruct (dup_step (ext_name a) _ _ DuplicateExtension r HK) as [D1 _]; rewrite D1 end.
    unfold fresh. split; [tauto|]. intros H; split; [exact H|apply fine_ok].
  - intros pre a c c' (HK & HT & HA) E. unfold ext_step in E. destruct (has (ext_key a) (c_exts c)); [discriminate|]. injection E as <-.
    unfold after_exts. cbn. rewrite map_app. split; [|auto]. rewrite ext_key_name. apply keys_put; exact HK.
  - intros pre a c z (HK & _). unfold ext_step. rewrite ext_key_name.
    match goal with |- stops (if _ then _ else ?r) _ <-> _ => destruct (dup_step (ext_name a) _ _ DuplicateExtension r HK) as [_ D2]; rewrite D2 end.
    unfold dup. split; [|tauto]. intros [H|[_ H]]; [exact H|destruct (stops_ok _ _ H)].
  - split; [apply keys_nil|auto].
  - rewrite each_NoDup in G1. auto.
Qed.

Definition after_tables (E : gomap declctx) (pre : list table) (c : ctx) : Prop :=
  keys (c_tables c) (map tb_name pre) /\ (forall t, In t pre -> keys (tablectx c (tb_name t)) (members t)) /\
  c_exts c = E /\ c_actions c = [].
Lemma tab_phase ts c0 : c_tables c0 = [] -> c_actions c0 = [] ->
  (fine (foreach tab_step ts c0) <-> NoDup (map tb_name ts) /\ Forall valid_table ts) /\
  (forall c, foreach tab_step ts c0 = Ok c -> after_tables (c_exts c0) ts c) /\
  (forall z, stops (foreach tab_step ts c0) z <-> 
     first_bad (fun pre t => fresh tb_name pre t /\ valid_table t)
    (fun pre t z => dup tb_name DuplicateTable pre t z \/ fresh tb_name pre t /\ table_bad t z) ts z).
Proof.
  intros HT HA.
  destruct (foreach_spec tab_step (after_tables (c_exts c0)) (fun pre t => fresh tb_name pre t /\ valid_table t)
    (fun pre t z => dup tb_name DuplicateTable pre t z \/ fresh tb_name pre t /\ table_bad t z)) with (l := ts) (s := c0) as (G1 & G2 & G3).
  - intros pre a c (HK & _). unfold tab_step.
    match goal with |- fine (if _ then _ else ?r) <-> _ => destruct (dup_step (tb_name a) _ _ DuplicateTable r HK) as [D1 _]; rewrite D1 end.
    destruct (visit_table_spec a (set_current c (tb_name a)) eq_refl) as (V1 & _). rewrite V1. reflexivity.
  - intros pre a c c' (HK & HM & HE & HAc) E. unfold tab_step in E. destruct (has (tb_name a) (c_tables c)) eqn:Eh; [discriminate|].
    destruct (visit_table_spec a (set_current c (tb_name a)) eq_refl) as (_ & _ & V3). destruct (V3 c' E) as [(F1 & F2 & F3 & F4) K].
    cbn in F1, F2, F3, F4. apply (keys_has _ _ _ HK) in Eh. unfold after_tables. split; [|split; [|split]].
    + intros k. rewrite map_app, in_app_iff. cbn. destruct (str_eq_dec k (tb_name a)) as [->|Hne].
      * split; [auto|]. intros _. destruct K as (d & Hd & _). rewrite F3 in Hd. unfold has. rewrite Hd. reflexivity.
      * rewrite <- (HK k). unfold has. rewrite F4 by exact Hne. split; [auto|]. intros [H|[H|[]]]; [exact H|congruence].
    + intros t Ht. apply in_app_or in Ht as [Ht|[<-|[]]].
      * specialize (HM t Ht). unfold tablectx in *. rewrite F4; [exact HM|]. intros Heq. apply Eh. rewrite <- Heq. apply in_map; exact Ht.
      * apply tabkeys_ctx in K. rewrite F3 in K. exact K.
    + congruence.
    + congruence.
  - intros pre a c z (HK & _). unfold tab_step.
    match goal with |- stops (if _ then _ else ?r) _ <-> _ => destruct (dup_step (tb_name a) _ _ DuplicateTable r HK) as [_ D2]; rewrite D2 end.
    destruct (visit_table_spec a (set_current c (tb_name a)) eq_refl) as (_ & V2 & _). rewrite V2. reflexivity.
  - split; [rewrite HT; apply keys_nil|]. split; [intros t []|]. split; [reflexivity|exact HA].
  - rewrite each_and, each_NoDup, each_Forall in G1. auto.
Qed.

(** * Actions *)
Definition frame_a (c c' : ctx) : Prop :=
  c_tables c' = c_tables c /\ c_exts c' = c_exts c /\ c_current c' = c_current c /\
  (forall k, k <> c_current c -> get k (c_actions c') = get k (c_actions c)).
Definition actkeys (c : ctx) (l : list str) : Prop := exists d, get (c_current c) (c_actions c) = Some d /\ keys d l.
Lemma actkeys_ctx c l : actkeys c l -> keys (actionctx c (c_current c)) l.
Proof. intros (d & H & K). unfold actionctx. rewrite H. exact K. Qed.

Lemma visit_action_spec a c :
  (fine (visit_action a c) <-> NoDup (elems (ac_inputs a))) /\
  (forall z, stops (visit_action a c) z <-> first_bad (fresh (fun i => i)) (dup (fun i => i) DuplicateParam) (elems (ac_inputs a)) z) /\
  (forall c', visit_action a c = Ok c' -> frame_a c c' /\ actkeys c' (elems (ac_inputs a))).
Proof.
  unfold visit_action. cbv zeta. set (c0 := set_actions c (put (c_current c) [] (c_actions c))).
  set (step := fun (input : str) (c1 : ctx) => if has input (actionctx c1 (c_current c1)) then Err (wrap DuplicateParam input) else _).
  destruct (foreach_spec step (fun pre c1 => frame_a c c1 /\ actkeys c1 pre)
    (fresh (fun i => i)) (dup (fun i => i) DuplicateParam)) with (l := elems (ac_inputs a)) (s := c0) as (G1 & G2 & G3).
  - intros pre i c1 (_ & HK). apply actkeys_ctx in HK. unfold step.
    match goal with |- fine (if _ then _ else ?r) <-> _ => destruct (dup_step i _ _ DuplicateParam r HK) as [D1 _]; rewrite D1 end.
    unfold fresh. rewrite map_id. split; [tauto|]. intros H; split; [exact H|apply fine_ok].
  - intros pre i c1 c2 ((F1 & F2 & F3 & F4) & HK) E. unfold step in E. destruct (has i (actionctx c1 (c_current c1))) eqn:Eh; [discriminate|].
    injection E as <-. split.
    + unfold frame_a. cbn. split; [exact F1|]. split; [exact F2|]. split; [exact F3|]. intros k Hk.
      rewrite F3. assert (Hk' := Hk). apply str_eqb_neq in Hk'. rewrite Hk'. apply F4; exact Hk.
    + unfold actkeys. cbn. eexists. split; [rewrite str_eqb_refl; reflexivity|]. apply keys_put. apply actkeys_ctx; exact HK.
  - intros pre i c1 z (_ & HK). apply actkeys_ctx in HK. unfold step.
    match goal with |- stops (if _ then _ else ?r) _ <-> _ => destruct (dup_step i _ _ DuplicateParam r HK) as [_ D2]; rewrite D2 end.
    unfold dup. rewrite map_id. split; [|tauto]. intros [H|[_ H]]; [exact H|destruct (stops_ok _ _ H)].
  - unfold frame_a, actkeys, c0. cbn. split.
    + split; [reflexivity|]. split; [reflexivity|]. split; [reflexivity|]. intros k Hk. apply str_eqb_neq in Hk. rewrite Hk. reflexivity.
    + exists []. rewrite str_eqb_refl. split; [reflexivity|apply keys_nil].
  - rewrite each_NoDup, map_id in G1. auto.
Qed.

Definition after_actions (T E : gomap declctx) (pre : list action) (c : ctx) : Prop :=
  keys (c_actions c) (map ac_name pre) /\ (forall a, In a pre -> keys (actionctx c (ac_name a)) (elems (ac_inputs a))) /\
  c_exts c = E /\ c_tables c = T.
Lemma act_phase acts c0 : c_actions c0 = [] ->
  (fine (foreach act_step acts c0) <-> NoDup (map ac_name acts) /\ Forall (fun a => NoDup (elems (ac_inputs a))) acts) /\
  (forall c, foreach act_step acts c0 = Ok c -> after_actions (c_tables c0) (c_exts c0) acts c) /\
  (forall z, stops (foreach act_step acts c0) z <->
     first_bad (fun pre a => fresh ac_name pre a /\ NoDup (elems (ac_inputs a)))
    (fun pre a z => dup ac_name DuplicateAction pre a z \/
       fresh ac_name pre a /\ first_bad (fresh (fun i => i)) (dup (fun i => i) DuplicateParam) (elems (ac_inputs a)) z) acts z).
Proof.
  intros HA.
  destruct (foreach_spec act_step (after_actions (c_tables c0) (c_exts c0)) (fun pre a => fresh ac_name pre a /\ NoDup (elems (ac_inputs a)))
    (fun pre a z => dup ac_name DuplicateAction pre a z \/
       fresh ac_name pre a /\ first_bad (fresh (fun i => i)) (dup (fun i => i) DuplicateParam) (elems (ac_inputs a)) z))
    with (l := acts) (s := c0) as (G1 & G2 & G3).
  - intros pre a c (HK & _). unfold act_step.
    match goal with |- fine (if _ then _ else ?r) <-> _ => destruct (dup_step (ac_name a) _ _ DuplicateAction r HK) as [D1 _]; rewrite D1 end.
    destruct (visit_action_spec a (set_current c (ac_name a))) as (V1 & _). rewrite V1. reflexivity.
  - intros pre a c c' (HK & HM & HE & HTb) E. unfold act_step in E. destruct (has (ac_name a) (c_actions c)) eqn:Eh; [discriminate|].
    destruct (visit_action_spec a (set_current c (ac_name a))) as (_ & _ & V3). destruct (V3 c' E) as [(F1 & F2 & F3 & F4) K].
    cbn in F1, F2, F3, F4. apply (keys_has _ _ _ HK) in Eh. unfold after_actions. split; [|split; [|split]].
    + intros k. rewrite map_app, in_app_iff. cbn. destruct (str_eq_dec k (ac_name a)) as [->|Hne].
      * split; [auto|]. intros _. destruct K as (d & Hd & _). rewrite F3 in Hd. unfold has. rewrite Hd. reflexivity.
      * rewrite <- (HK k). unfold has. rewrite F4 by exact Hne. split; [auto|]. intros [H|[H|[]]]; [exact H|congruence].
    + intros t Ht. apply in_app_or in Ht as [Ht|[<-|[]]].
      * specialize (HM t Ht). unfold actionctx in *. rewrite F4; [exact HM|]. intros Heq. apply Eh. rewrite <- Heq. apply in_map; exact Ht.
      * apply actkeys_ctx in K. rewrite F3 in K. exact K.
    + congruence.
    + congruence.
  - intros pre a c z (HK & _). unfold act_step.
    match goal with |- stops (if _ then _ else ?r) _ <-> _ => destruct (dup_step (ac_name a) _ _ DuplicateAction r HK) as [_ D2]; rewrite D2 end.
    destruct (visit_action_spec a (set_current c (ac_name a))) as (_ & V2 & _). rewrite V2. reflexivity.
  - split; [rewrite HA; apply keys_nil|]. split; [intros t []|]. split; reflexivity.
  - rewrite each_and, each_NoDup, each_Forall in G1. auto.
Qed.
