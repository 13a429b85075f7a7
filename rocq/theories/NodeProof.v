(** Accept on every kind of node, in every state of the validator. *)
From Verif Require Import Schema Validator ValidSpec ValidProof ValidProof2 ValidProof3 JsonSpec Node NodeSpec.

(** * The object and the functional model *)
Definition out (p : ctx * res unit) : res ctx :=
  match snd p with Ok _ => Ok (fst p) | Err e => Err e | Panic q => Panic q end.
Lemma out_and_then p k : out (and_then p k) = (DO c <- out p; out (k c)).
Proof. destruct p as [c [u|e|q]]; reflexivity. Qed.
Lemma out_loop {A} (f : A -> method) (g : A -> ctx -> res ctx) l :
  (forall a c, out (f a c) = g a c) -> forall c, out (loop f l c) = foreach g l c.
Proof.
  intros H. induction l as [|a l IH]; intros c; cbn [loop foreach]; [reflexivity|]. rewrite out_and_then, H.
  destruct (g a c); cbn [bind]; [apply IH|reflexivity..].
Qed.
Lemma loop_reads {A} (r : A -> ctx -> res unit) l c : loop (fun a => reads (r a)) l c = (c, foreach (fun a _ => r a c) l tt).
Proof.
  induction l as [|a l IH]; cbn [loop foreach]; [reflexivity|]. unfold reads at 1. cbn [and_then].
  destruct (r a c) as [[]|e|p]; cbn [bind]; [exact IH|reflexivity..].
Qed.
Lemma loop_same {A} (f : A -> method) (r : A -> ctx -> res unit) l c : (forall a c, f a c = (c, r a c)) ->
  loop f l c = (c, foreach (fun a _ => r a c) l tt).
Proof.
  intros H. induction l as [|a l IH]; cbn [loop foreach]; [reflexivity|]. rewrite H. cbn [and_then].
  destruct (r a c) as [[]|e|p]; cbn [bind]; [exact IH|reflexivity..].
Qed.
Lemma out_snd p : snd p = (DO _ <- out p; Ok tt).
Proof. destruct p as [c [[]|e|q]]; reflexivity. Qed.
Lemma out_fst p c : out p = Ok c -> fst p = c /\ snd p = Ok tt.
Proof. destruct p as [c' [[]|e|q]]; cbn; intros H; try discriminate. injection H as <-. auto. Qed.
Lemma snd_out p : snd p = Ok tt -> out p = Ok (fst p).
Proof. destruct p as [c' [[]|e|q]]; cbn; intros H; try discriminate. reflexivity. Qed.

Lemma accept_table_out t c : out (accept_table t c) = visit_table t c.
Proof.
  unfold accept_table, visit_table. rewrite out_and_then. cbv zeta.
  rewrite (out_loop _ col_step).
  2:{ intros a c'. unfold col_step. destruct (has _ _); [reflexivity|]. unfold accept_column, reads, out. cbn [fst snd].
      destruct (visit_column a) as [[]|e|p]; reflexivity. }
  change (foreach _ (elems (tb_cols t))) with (foreach col_step (elems (tb_cols t))).
  destruct (foreach col_step _ _) as [c1|e|p]; cbn [bind]; [|reflexivity..].
  apply out_loop. intros i c'. destruct (has _ _); [reflexivity|]. unfold accept_index, reads, out. cbn [fst snd].
  destruct (visit_index i _) as [[]|e|p]; reflexivity.
Qed.
Lemma accept_action_out a c : out (accept_action a c) = visit_action a c.
Proof. unfold accept_action, visit_action. apply out_loop. intros i c'. destruct (has _ _); reflexivity. Qed.

Definition fks_result (c : ctx) (ts : list table) : res unit := foreach (fks_step c) ts tt.
Lemma accept_schema_steps x s c : out (accept_schema x s c) =
  (DO c <- foreach ext_step (elems (sc_exts s)) c;
   DO c <- foreach tab_step (elems (sc_tables s)) c;
   DO c <- foreach act_step (elems (sc_actions s)) c;
   DO _ <- fks_result c (elems (sc_tables s));
   DO _ <- foreach (body_step x c) (elems (sc_actions s)) tt;
   Ok c).
Proof.
  unfold accept_schema. rewrite out_and_then. rewrite (out_loop _ ext_step) by (intros; unfold ext_step; destruct (has _ _); reflexivity).
  destruct (foreach ext_step _ _) as [c1|e|p]; cbn [bind]; [|reflexivity..].
  rewrite out_and_then. rewrite (out_loop _ tab_step) by (intros; unfold tab_step; destruct (has _ _); [reflexivity|apply accept_table_out]).
  destruct (foreach tab_step _ _) as [c2|e|p]; cbn [bind]; [|reflexivity..].
  rewrite out_and_then. rewrite (out_loop _ act_step) by (intros; unfold act_step; destruct (has _ _); [reflexivity|apply accept_action_out]).
  destruct (foreach act_step _ _) as [c3|e|p]; cbn [bind]; [|reflexivity..].
  rewrite out_and_then.
  rewrite (loop_same _ (fun t c => foreach (fk_step c t) (elems (tb_fks t)) tt)).
  2:{ intros t c0. rewrite (loop_same _ (fun fk c => fk_step c t fk tt)); [reflexivity|]. intros fk c'. rewrite loop_reads. cbn [and_then]. unfold fk_step.
      destruct (foreach _ (elems (fk_child fk)) tt) as [[]|e|p]; cbn [bind and_then]; reflexivity. }
  unfold out at 1. cbn [fst snd]. unfold fks_result. change (fks_step c3) with (fun t (_ : unit) => foreach (fk_step c3 t) (elems (tb_fks t)) tt).
  destruct (foreach _ (elems (sc_tables s)) tt) as [[]|e|p]; cbn [bind]; [|reflexivity..].
  rewrite loop_reads. unfold out. cbn [fst snd]. change (fun a (_ : unit) => visit_stmts x c3 a) with (body_step x c3).
  destruct (foreach (body_step x c3) _ tt) as [[]|e|p]; reflexivity.
Qed.
Lemma accept_new x s : snd (accept_schema x s new_ctx) = validate x s.
Proof.
  rewrite out_snd, accept_schema_steps, validate_steps. unfold fks_result.
  destruct (foreach ext_step _ _) as [c1|e|p]; cbn [bind]; [|reflexivity..].
  destruct (foreach tab_step _ _) as [c2|e|p]; cbn [bind]; [|reflexivity..].
  destruct (foreach act_step _ _) as [c3|e|p]; cbn [bind]; [|reflexivity..].
  destruct (foreach (fks_step c3) _ _) as [[]|e|p]; cbn [bind]; [|reflexivity..].
  destruct (foreach (body_step x c3) _ _) as [[]|e|p]; reflexivity.
Qed.

(** * Schemas one after the other *)
(** The validator knows exactly what [m] declares. *)
Record knows (m : schema) (c : ctx) : Prop := {
  kn_exts : keys (c_exts c) (ext_names m);
  kn_tables : keys (c_tables c) (map tb_name (elems (sc_tables m)));
  kn_table : forall t, In t (elems (sc_tables m)) -> keys (tablectx c (tb_name t)) (members t);
  kn_actions : keys (c_actions c) (action_names m);
  kn_action : forall a, In a (elems (sc_actions m)) -> keys (actionctx c (ac_name a)) (elems (ac_inputs a))
}.

Lemma ext_phase_from es pre c0 : keys (c_exts c0) (map ext_name pre) -> NoDup (map ext_name pre) ->
  (fine (foreach ext_step es c0) <-> NoDup (map ext_name (pre ++ es))) /\
  (forall c, foreach ext_step es c0 = Ok c ->
     keys (c_exts c) (map ext_name (pre ++ es)) /\ c_tables c = c_tables c0 /\ c_actions c = c_actions c0).
Proof.
  intros HK HN.
  destruct (foreach_gen ext_step (fun pre c => keys (c_exts c) (map ext_name pre) /\ c_tables c = c_tables c0 /\ c_actions c = c_actions c0)
    (fresh ext_name) (dup ext_name DuplicateExtension)) with (l := es) (pre := pre) (s := c0) as (G1 & G2 & _).
  - intros p a c (H & _). unfold ext_step. rewrite ext_key_name.
    match goal with |- fine (if _ then _ else ?r) <-> _ => destruct (dup_step (ext_name a) _ _ DuplicateExtension r H) as [D1 _]; rewrite D1 end.
    unfold fresh. split; [tauto|]. intros K; split; [exact K|apply fine_ok].
  - intros p a c c' (H & HT & HA) E. unfold ext_step in E. destruct (has (ext_key a) (c_exts c)); [discriminate|]. injection E as <-.
    cbn. rewrite map_app. split; [|auto]. rewrite ext_key_name. apply keys_put; exact H.
  - intros p a c z (H & _). unfold ext_step. rewrite ext_key_name.
    match goal with |- stops (if _ then _ else ?r) _ <-> _ => destruct (dup_step (ext_name a) _ _ DuplicateExtension r H) as [_ D2]; rewrite D2 end.
    unfold dup. split; [|tauto]. intros [K|[_ K]]; [exact K|destruct (stops_ok _ _ K)].
  - auto.
  - apply each_NoDup; exact HN.
  - rewrite each_NoDup in G1. auto.
Qed.

Lemma tab_phase_from ts pre c0 : keys (c_tables c0) (map tb_name pre) -> (forall t, In t pre -> keys (tablectx c0 (tb_name t)) (members t)) ->
  NoDup (map tb_name pre) -> Forall valid_table pre ->
  (fine (foreach tab_step ts c0) <-> NoDup (map tb_name (pre ++ ts)) /\ Forall valid_table (pre ++ ts)) /\
  (forall c, foreach tab_step ts c0 = Ok c ->
     keys (c_tables c) (map tb_name (pre ++ ts)) /\ (forall t, In t (pre ++ ts) -> keys (tablectx c (tb_name t)) (members t)) /\
     c_exts c = c_exts c0 /\ c_actions c = c_actions c0).
Proof.
  intros HK0 HM0 HN0 HV0.
  destruct (foreach_gen tab_step (fun pre c => keys (c_tables c) (map tb_name pre) /\
      (forall t, In t pre -> keys (tablectx c (tb_name t)) (members t)) /\ c_exts c = c_exts c0 /\ c_actions c = c_actions c0)
    (fun pre t => fresh tb_name pre t /\ valid_table t)
    (fun pre t z => dup tb_name DuplicateTable pre t z \/ fresh tb_name pre t /\ table_bad t z)) with (l := ts) (pre := pre) (s := c0) as (G1 & G2 & G3).
  - intros p a c (HK & _). unfold tab_step.
    match goal with |- fine (if _ then _ else ?r) <-> _ => destruct (dup_step (tb_name a) _ _ DuplicateTable r HK) as [D1 _]; rewrite D1 end.
    destruct (visit_table_spec a (set_current c (tb_name a)) eq_refl) as (V1 & _). rewrite V1. reflexivity.
  - intros p a c c' (HK & HM & HE & HAc) E. unfold tab_step in E. destruct (has (tb_name a) (c_tables c)) eqn:Eh; [discriminate|].
    destruct (visit_table_spec a (set_current c (tb_name a)) eq_refl) as (_ & _ & V3). destruct (V3 c' E) as [(F1 & F2 & F3 & F4) K].
    cbn in F1, F2, F3, F4. apply (keys_has _ _ _ HK) in Eh. split; [|split; [|split]].
    + intros k. rewrite map_app, in_app_iff. cbn. destruct (str_eq_dec k (tb_name a)) as [->|Hne].
      * split; [auto|]. intros _. destruct K as (d & Hd & _). rewrite F3 in Hd. unfold has. rewrite Hd. reflexivity.
      * rewrite <- (HK k). unfold has. rewrite F4 by exact Hne. split; [auto|]. intros [H|[H|[]]]; [exact H|congruence].
    + intros t Ht. apply in_app_or in Ht as [Ht|[<-|[]]].
      * specialize (HM t Ht). unfold tablectx in *. rewrite F4; [exact HM|]. intros Heq. apply Eh. rewrite <- Heq. apply in_map; exact Ht.
      * apply tabkeys_ctx in K. rewrite F3 in K. exact K.
    + congruence.
    + congruence.
  - intros p a c z (HK & _). unfold tab_step.
    match goal with |- stops (if _ then _ else ?r) _ <-> _ => destruct (dup_step (tb_name a) _ _ DuplicateTable r HK) as [_ D2]; rewrite D2 end.
    destruct (visit_table_spec a (set_current c (tb_name a)) eq_refl) as (_ & V2 & _). rewrite V2. reflexivity.
  - auto.
  - apply each_and. rewrite each_NoDup, each_Forall. auto.
  - rewrite each_and, each_NoDup, each_Forall in G1. auto.
Qed.

Lemma act_phase_from acts pre c0 : keys (c_actions c0) (map ac_name pre) ->
  (forall a, In a pre -> keys (actionctx c0 (ac_name a)) (elems (ac_inputs a))) ->
  NoDup (map ac_name pre) -> Forall (fun a => NoDup (elems (ac_inputs a))) pre ->
  (fine (foreach act_step acts c0) <-> NoDup (map ac_name (pre ++ acts)) /\ Forall (fun a => NoDup (elems (ac_inputs a))) (pre ++ acts)) /\
  (forall c, foreach act_step acts c0 = Ok c ->
     keys (c_actions c) (map ac_name (pre ++ acts)) /\
     (forall a, In a (pre ++ acts) -> keys (actionctx c (ac_name a)) (elems (ac_inputs a))) /\
     c_exts c = c_exts c0 /\ c_tables c = c_tables c0).
Proof.
  intros HK0 HM0 HN0 HV0.
  destruct (foreach_gen act_step (fun pre c => keys (c_actions c) (map ac_name pre) /\
      (forall a, In a pre -> keys (actionctx c (ac_name a)) (elems (ac_inputs a))) /\ c_exts c = c_exts c0 /\ c_tables c = c_tables c0)
    (fun pre a => fresh ac_name pre a /\ NoDup (elems (ac_inputs a)))
    (fun pre a z => dup ac_name DuplicateAction pre a z \/
       fresh ac_name pre a /\ first_bad (fresh (fun i => i)) (dup (fun i => i) DuplicateParam) (elems (ac_inputs a)) z))
    with (l := acts) (pre := pre) (s := c0) as (G1 & G2 & G3).
  - intros p a c (HK & _). unfold act_step.
    match goal with |- fine (if _ then _ else ?r) <-> _ => destruct (dup_step (ac_name a) _ _ DuplicateAction r HK) as [D1 _]; rewrite D1 end.
    destruct (visit_action_spec a (set_current c (ac_name a))) as (V1 & _). rewrite V1. reflexivity.
  - intros p a c c' (HK & HM & HE & HTb) E. unfold act_step in E. destruct (has (ac_name a) (c_actions c)) eqn:Eh; [discriminate|].
    destruct (visit_action_spec a (set_current c (ac_name a))) as (_ & _ & V3). destruct (V3 c' E) as [(F1 & F2 & F3 & F4) K].
    cbn in F1, F2, F3, F4. apply (keys_has _ _ _ HK) in Eh. split; [|split; [|split]].
    + intros k. rewrite map_app, in_app_iff. cbn. destruct (str_eq_dec k (ac_name a)) as [->|Hne].
      * split; [auto|]. intros _. destruct K as (d & Hd & _). rewrite F3 in Hd. unfold has. rewrite Hd. reflexivity.
      * rewrite <- (HK k). unfold has. rewrite F4 by exact Hne. split; [auto|]. intros [H|[H|[]]]; [exact H|congruence].
    + intros t Ht. apply in_app_or in Ht as [Ht|[<-|[]]].
      * specialize (HM t Ht). unfold actionctx in *. rewrite F4; [exact HM|]. intros Heq. apply Eh. rewrite <- Heq. apply in_map; exact Ht.
      * apply actkeys_ctx in K. rewrite F3 in K. exact K.
    + congruence.
    + congruence.
  - intros p a c z (HK & _). unfold act_step.
    match goal with |- stops (if _ then _ else ?r) _ <-> _ => destruct (dup_step (ac_name a) _ _ DuplicateAction r HK) as [_ D2]; rewrite D2 end.
    destruct (visit_action_spec a (set_current c (ac_name a))) as (_ & V2 & _). rewrite V2. reflexivity.
  - auto.
  - apply each_and. rewrite each_NoDup, each_Forall. auto.
  - rewrite each_and, each_NoDup, each_Forall in G1. auto.
Qed.

Lemma together_snoc h s :
  elems (sc_tables (together (h ++ [s]))) = elems (sc_tables (together h)) ++ elems (sc_tables s) /\
  elems (sc_actions (together (h ++ [s]))) = elems (sc_actions (together h)) ++ elems (sc_actions s) /\
  elems (sc_exts (together (h ++ [s]))) = elems (sc_exts (together h)) ++ elems (sc_exts s).
Proof. cbn [together sc_tables sc_actions sc_exts elems]. rewrite !flat_map_app. cbn [flat_map]. rewrite !app_nil_r. auto. Qed.

Lemma valid_fk_mono m m' t f : incl (elems (sc_tables m)) (elems (sc_tables m')) -> valid_fk m t f -> valid_fk m' t f.
Proof. intros H (H1 & (p & Hp & H2) & H3). split; [exact H1|]. split; [|exact H3]. exists p. auto. Qed.
Lemma stmt_ok_mono x m m' vars st : incl (action_names m) (action_names m') -> incl (ext_names m) (ext_names m') ->
  stmt_ok x m vars st -> stmt_ok x m' vars st.
Proof.
  intros H1 H2. unfold stmt_ok. destruct (act_parse x st) as [[| | |]|e|p]; auto.
  - intros [H3 H4]. auto.
  - intros (H3 & H4 & H5). auto.
Qed.
Lemma valid_body_mono x m m' a : incl (action_names m) (action_names m') -> incl (ext_names m) (ext_names m') ->
  valid_body x m a -> valid_body x m' a.
Proof. intros H1 H2 H pre st post E. eapply stmt_ok_mono; [exact H1|exact H2|]. exact (H pre st post E). Qed.

Lemma accept_after x h s c : knows (together h) c -> valid_schema x (together h) ->
  (snd (accept_schema x s c) = Ok tt <-> valid_schema x (together (h ++ [s]))) /\
  (snd (accept_schema x s c) = Ok tt -> knows (together (h ++ [s])) (fst (accept_schema x s c))).
Proof.
  intros [K1 K2 K3 K4 K5] [V1 V2 V3 V4 V5 V6 V7].
  destruct (together_snoc h s) as (TT & TA & TE).
  assert (IE : incl (ext_names (together h)) (ext_names (together (h ++ [s])))).
  { unfold ext_names. rewrite TE, map_app. apply incl_appl, incl_refl. }
  assert (IA : incl (action_names (together h)) (action_names (together (h ++ [s])))).
  { unfold action_names. rewrite TA, map_app. apply incl_appl, incl_refl. }
  assert (IT : incl (elems (sc_tables (together h))) (elems (sc_tables (together (h ++ [s]))))).
  { rewrite TT. apply incl_appl, incl_refl. }
  set (m := together h) in *. set (m' := together (h ++ [s])) in *.
  assert (key : (fine (out (accept_schema x s c)) <-> valid_schema x m') /\
                (forall c', out (accept_schema x s c) = Ok c' -> knows m' c')).
  2:{ destruct key as [G1 G2]. split.
      - rewrite <- G1. split; [intros H; exists (fst (accept_schema x s c)); apply snd_out; exact H|]. intros [c' H]. apply out_fst in H. tauto.
      - intros H. apply G2. apply snd_out; exact H. }
  rewrite accept_schema_steps.
  destruct (ext_phase_from (elems (sc_exts s)) (elems (sc_exts m)) c K1 V1) as [E1 E2]. rewrite <- TE in E1, E2.
  destruct (foreach ext_step _ _) as [c1|e|p]; cbn [bind].
  2,3: (split; [|discriminate]; split; [intros [? H]; discriminate|]; intros [H _ _ _ _ _ _]; apply E1 in H; destruct H; discriminate).
  assert (N1 : NoDup (map ext_name (elems (sc_exts m')))) by (apply E1, fine_ok).
  destruct (E2 c1 eq_refl) as (KE1 & KT1 & KA1).
  destruct (tab_phase_from (elems (sc_tables s)) (elems (sc_tables m)) c1) as [F1 F2].
  { rewrite KT1; exact K2. } { intros t Ht. unfold tablectx. rewrite KT1. apply K3; exact Ht. } { exact V2. } { apply Forall_forall; exact V3. }
  rewrite <- TT in F1, F2.
  destruct (foreach tab_step _ _) as [c2|e|p]; cbn [bind].
  2,3: (split; [|discriminate]; split; [intros [? H]; discriminate|]; intros [_ H2 H3 _ _ _ _]; rewrite <- Forall_forall in H3;
        destruct (proj2 F1 (conj H2 H3)); discriminate).
  assert (N2 : NoDup (map tb_name (elems (sc_tables m'))) /\ Forall valid_table (elems (sc_tables m'))) by (apply F1, fine_ok).
  destruct (F2 c2 eq_refl) as (KT2 & KM2 & KE2 & KA2).
  destruct (act_phase_from (elems (sc_actions s)) (elems (sc_actions m)) c2) as [G1 G2].
  { rewrite KA2, KA1; exact K4. } { intros a Ha. unfold actionctx. rewrite KA2, KA1. apply K5; exact Ha. } { exact V4. } { apply Forall_forall; exact V5. }
  rewrite <- TA in G1, G2.
  destruct (foreach act_step _ _) as [c3|e|p]; cbn [bind].
  2,3: (split; [|discriminate]; split; [intros [? H]; discriminate|]; intros [_ _ _ H2 H3 _ _]; rewrite <- Forall_forall in H3;
        destruct (proj2 G1 (conj H2 H3)); discriminate).
  assert (N3 : NoDup (map ac_name (elems (sc_actions m'))) /\ Forall (fun a => NoDup (elems (ac_inputs a))) (elems (sc_actions m'))) by (apply G1, fine_ok).
  destruct (G2 c3 eq_refl) as (KA3 & KM3 & KE3 & KT3).
  assert (TK : tables_known m' c3).
  { split; [apply N2|]. rewrite KT3. split; [exact KT2|]. intros t Ht. specialize (KM2 t Ht). unfold tablectx in *. rewrite KT3. exact KM2. }
  assert (AK : all_known m' c3).
  { split; [exact KA3|]. rewrite KE3, KE2. exact KE1. }
  assert (KN : knows m' c3).
  { destruct TK as (_ & TK2 & TK3). destruct AK as [AK1 AK2]. constructor; assumption. }
  unfold fks_result.
  destruct (foreach_unit_in (fks_step c3) (fun t => Forall (valid_fk m' t) (elems (tb_fks t)))
    (fun t z => first_bad (fun _ f => valid_fk m' t f) (fun _ f z => fk_bad m' t f z) (elems (tb_fks t)) z) (elems (sc_tables s))) as [P1 _].
  { intros t Ht. unfold fks_step. apply foreach_unit; intros f; apply (fk_step_spec m' c3 t f TK); rewrite TT; apply in_or_app; right; exact Ht. }
  destruct (foreach (fks_step c3) _ tt) as [u|e|p]; cbn [bind].
  2,3: (split; [|discriminate]; split; [intros [? H]; discriminate|]; intros [_ _ _ _ _ H _];
        assert (HH : Forall (fun t => Forall (valid_fk m' t) (elems (tb_fks t))) (elems (sc_tables s)));
        [apply Forall_forall; intros t Ht; apply Forall_forall; intros f Hf; apply H; [rewrite TT; apply in_or_app; right; exact Ht|exact Hf]
        |apply P1 in HH; destruct HH; discriminate]).
  assert (N4 : Forall (fun t => Forall (valid_fk m' t) (elems (tb_fks t))) (elems (sc_tables s))) by (apply P1, fine_ok).
  destruct (foreach_unit_in (body_step x c3) (valid_body x m') (body_bad x m') (elems (sc_actions s))) as [Q1 _].
  { intros a Ha. unfold body_step. apply visit_stmts_spec; [exact AK|]. apply KM3. rewrite TA; apply in_or_app; right; exact Ha. }
  destruct (foreach (body_step x c3) _ tt) as [w|e|p]; cbn [bind].
  2,3: (split; [|discriminate]; split; [intros [? H]; discriminate|]; intros [_ _ _ _ _ _ H];
        assert (HH : Forall (valid_body x m') (elems (sc_actions s)));
        [apply Forall_forall; intros a Ha; apply H; rewrite TA; apply in_or_app; right; exact Ha|apply Q1 in HH; destruct HH; discriminate]).
  assert (N5 : Forall (valid_body x m') (elems (sc_actions s))) by (apply Q1, fine_ok).
  rewrite Forall_forall in N4, N5. destruct N2 as [N2 N2']. destruct N3 as [N3 N3']. rewrite Forall_forall in N2', N3'.
  split; [|intros c' E; injection E as <-; exact KN].
  split; [|intros _; apply fine_ok]. intros _. constructor; try assumption.
  - intros t f Ht Hf. rewrite TT in Ht. apply in_app_or in Ht as [Ht|Ht].
    + eapply valid_fk_mono; [exact IT|]. apply V6; assumption.
    + specialize (N4 t Ht). rewrite Forall_forall in N4. apply N4; exact Hf.
  - intros a Ha. rewrite TA in Ha. apply in_app_or in Ha as [Ha|Ha].
    + eapply valid_body_mono; [exact IA|exact IE|]. apply V7; assumption.
    + apply N5; exact Ha.
Qed.

Lemma knows_nothing : knows (together []) new_ctx.
Proof. constructor; try apply keys_nil; intros ? []. Qed.
Lemma valid_nothing x : valid_schema x (together []).
Proof. constructor; try apply NoDup_nil; intros; contradiction. Qed.

Lemma lives_app x a b c : lives x (a ++ b) c = lives x b (lives x a c).
Proof. revert c; induction a as [|n a IH]; intros c; [reflexivity|]. apply IH. Qed.

Definition all_accepted (x : externals) (h : list schema) : Prop :=
  forall p s q, h = p ++ s :: q -> then_accept x (map NSchema p) (NSchema s) = Ok tt.
Lemma history x h :
  (all_accepted x h <-> forall p q, h = p ++ q -> valid_schema x (together p)) /\
  (all_accepted x h -> knows (together h) (lives x (map NSchema h) new_ctx)).
Proof.
  induction h as [|s h IH] using rev_ind.
  - split; [|intros _; apply knows_nothing]. split.
    + intros _ p q E. destruct p; [|discriminate]. apply valid_nothing.
    + intros _ p s q E. destruct p; discriminate.
  - assert (A1 : all_accepted x (h ++ [s]) <-> all_accepted x h /\ then_accept x (map NSchema h) (NSchema s) = Ok tt).
    { split.
      - intros H. split.
        + intros p s' q E. apply (H p s' (q ++ [s])). rewrite E, <- app_assoc. reflexivity.
        + apply (H h s []). reflexivity.
      - intros [H1 H2] p s' q E. destruct q as [|b q] using rev_ind.
        + apply app_inj_tail in E as [-> ->]. exact H2.
        + clear IHq. rewrite app_comm_cons, app_assoc in E. apply app_inj_tail in E as [-> _]. apply (H1 p s' q eq_refl). }
    assert (A2 : (forall p q, h ++ [s] = p ++ q -> valid_schema x (together p)) <->
                 (forall p q, h = p ++ q -> valid_schema x (together p)) /\ valid_schema x (together (h ++ [s]))).
    { split.
      - intros H. split.
        + intros p q E. apply (H p (q ++ [s])). rewrite E, <- app_assoc. reflexivity.
        + apply (H (h ++ [s]) []). rewrite app_nil_r. reflexivity.
      - intros [H1 H2] p q E. destruct q as [|b q] using rev_ind.
        + rewrite app_nil_r in E. subst p. exact H2.
        + clear IHq. rewrite app_assoc in E. apply app_inj_tail in E as [-> _]. apply (H1 p q eq_refl). }
    destruct IH as [IH1 IH2].
    assert (ACC : all_accepted x h -> (then_accept x (map NSchema h) (NSchema s) = Ok tt <-> valid_schema x (together (h ++ [s]))) /\
       (then_accept x (map NSchema h) (NSchema s) = Ok tt -> knows (together (h ++ [s])) (lives x (map NSchema (h ++ [s])) new_ctx))).
    { intros HA. rewrite map_app, lives_app. cbn [map lives accept]. apply accept_after; [apply IH2; exact HA|].
      apply (proj1 IH1 HA h []). rewrite app_nil_r. reflexivity. }
    split.
    + rewrite A1, A2. split.
      * intros [H1 H2]. split; [apply IH1; exact H1|]. apply (ACC H1); exact H2.
      * intros [H1 H2]. apply IH1 in H1. split; [exact H1|]. apply (ACC H1); exact H2.
    + rewrite A1. intros [H1 H2]. apply (ACC H1); exact H2.
Qed.

(** * Names stay taken *)
Definition grows (c c' : ctx) : Prop :=
  (forall k, has k (c_tables c) = true -> has k (c_tables c') = true) /\
  (forall k, has k (c_actions c) = true -> has k (c_actions c') = true) /\
  (forall k, has k (c_exts c) = true -> has k (c_exts c') = true).
Lemma grows_refl c : grows c c. Proof. unfold grows; auto. Qed.
Lemma grows_trans a b c : grows a b -> grows b c -> grows a c.
Proof. unfold grows. intuition. Qed.
Lemma grows_and_then p (k : method) c : grows c (fst p) -> (forall c, grows c (fst (k c))) -> grows c (fst (and_then p k)).
Proof. intros H1 H2. destruct p as [c' [u|e|q]]; cbn [and_then fst] in *; [|exact H1..]. eapply grows_trans; [exact H1|apply H2]. Qed.
Lemma grows_loop {A} (f : A -> method) l : (forall a c, grows c (fst (f a c))) -> forall c, grows c (fst (loop f l c)).
Proof.
  intros H. induction l as [|a l IH]; intros c; cbn [loop]; [apply grows_refl|]. apply grows_and_then; [apply H|exact IH].
Qed.
Lemma has_put_mono {V} k k' (v : V) m : has k m = true -> has k (put k' v m) = true.
Proof. intros H. rewrite has_put, H. apply orb_true_r. Qed.
Lemma grows_tables c k d : grows c (set_tables c (put k d (c_tables c))).
Proof. unfold grows; cbn. split; [|auto]. intros k'. apply has_put_mono. Qed.
Lemma grows_actions c k d : grows c (set_actions c (put k d (c_actions c))).
Proof. unfold grows; cbn. split; [auto|]. split; [|auto]. intros k'. apply has_put_mono. Qed.
Lemma grows_exts c k d : grows c (set_exts c (put k d (c_exts c))).
Proof. unfold grows; cbn. split; [auto|]. split; [auto|]. intros k'. apply has_put_mono. Qed.
Lemma grows_table t c : grows c (fst (accept_table t c)).
Proof.
  unfold accept_table. apply grows_and_then.
  - eapply grows_trans; [apply grows_tables|]. apply grows_loop. intros a c'. destruct (has _ _); [apply grows_refl|]. apply grows_tables.
  - apply grows_loop. intros a c'. destruct (has _ _); [apply grows_refl|]. apply grows_tables.
Qed.
Lemma grows_action a c : grows c (fst (accept_action a c)).
Proof.
  unfold accept_action. eapply grows_trans; [apply grows_actions|]. apply grows_loop. intros i c'. destruct (has _ _); [apply grows_refl|]. apply grows_actions.
Qed.
Lemma grows_current c n : grows c (set_current c n). Proof. unfold grows; cbn; auto. Qed.
Lemma grows_schema x s c : grows c (fst (accept_schema x s c)).
Proof.
  unfold accept_schema. apply grows_and_then.
  { apply grows_loop. intros e c'. destruct (has _ _); [apply grows_refl|apply grows_exts]. }
  intros c1. apply grows_and_then.
  { apply grows_loop. intros t c'. destruct (has _ _); [apply grows_refl|]. eapply grows_trans; [apply grows_current|apply grows_table]. }
  intros c2. apply grows_and_then.
  { apply grows_loop. intros t c'. destruct (has _ _); [apply grows_refl|]. eapply grows_trans; [apply grows_current|apply grows_action]. }
  intros c3. apply grows_and_then.
  { apply grows_loop. intros t c'. apply grows_loop. intros fk c''. apply grows_and_then; [rewrite loop_reads; apply grows_refl|].
    intros c4. apply grows_refl. }
  intros c4. rewrite loop_reads. apply grows_refl.
Qed.
Lemma grows_accept x n c : grows c (fst (accept x n c)).
Proof. destruct n; cbn [accept]; try apply grows_refl; [apply grows_schema|apply grows_table|apply grows_action]. Qed.
Lemma grows_lives x l : forall c, grows c (lives x l c).
Proof. induction l as [|n l IH]; intros c; cbn [lives]; [apply grows_refl|]. eapply grows_trans; [apply grows_accept|apply IH]. Qed.

(** After an accepted call the names are there, and before it they are not. *)
Lemma loop_taken {A} (f : A -> method) (name : A -> str) (M : ctx -> gomap declctx) l :
  (forall a c, grows c (fst (f a c))) ->
  (forall c c' k, grows c c' -> has k (M c) = true -> has k (M c') = true) ->
  (forall a c, snd (f a c) = Ok tt -> has (name a) (M c) = false /\ has (name a) (M (fst (f a c))) = true) ->
  forall c, snd (loop f l c) = Ok tt -> forall a, In a l -> has (name a) (M c) = false /\ has (name a) (M (fst (loop f l c))) = true.
Proof.
  intros G HM H. induction l as [|b l IH]; intros c E a Ha; [destruct Ha|]. cbn [loop] in *.
  destruct (f b c) as [c1 [[]|e|p]] eqn:Ef; cbn [and_then snd fst] in *; try discriminate.
  assert (Hb := H b c). rewrite Ef in Hb. cbn [fst snd] in Hb. specialize (Hb eq_refl).
  assert (Gb := G b c). rewrite Ef in Gb. cbn [fst] in Gb.
  destruct Ha as [<-|Ha].
  - split; [apply Hb|]. eapply HM; [apply grows_loop; exact G|]. apply Hb.
  - destruct (IH c1 E a Ha) as [I1 I2]. split; [|exact I2].
    destruct (has (name a) (M c)) eqn:Eh; [|reflexivity]. apply (HM _ _ _ Gb) in Eh. congruence.
Qed.

Lemma table_puts t c : has (c_current c) (c_tables (fst (accept_table t c))) = true.
Proof.
  assert (H : grows (set_tables c (put (c_current c) [] (c_tables c))) (fst (accept_table t c))).
  { unfold accept_table. apply grows_and_then.
    - apply grows_loop. intros a c'. destruct (has _ _); [apply grows_refl|apply grows_tables].
    - apply grows_loop. intros a c'. destruct (has _ _); [apply grows_refl|apply grows_tables]. }
  apply H. cbn. rewrite has_put, str_eqb_refl. reflexivity.
Qed.
Lemma action_puts a c : has (c_current c) (c_actions (fst (accept_action a c))) = true.
Proof.
  assert (H : grows (set_actions c (put (c_current c) [] (c_actions c))) (fst (accept_action a c))).
  { unfold accept_action. apply grows_loop. intros i c'. destruct (has _ _); [apply grows_refl|apply grows_actions]. }
  apply H. cbn. rewrite has_put, str_eqb_refl. reflexivity.
Qed.

Definition declares (s : schema) (k : str) (c : ctx) : Prop :=
  (In k (map tb_name (elems (sc_tables s))) -> has k (c_tables c) = true) /\
  (In k (action_names s) -> has k (c_actions c) = true) /\ (In k (ext_names s) -> has k (c_exts c) = true).
Definition lacks (s : schema) (k : str) (c : ctx) : Prop :=
  (In k (map tb_name (elems (sc_tables s))) -> has k (c_tables c) = false) /\
  (In k (action_names s) -> has k (c_actions c) = false) /\ (In k (ext_names s) -> has k (c_exts c) = false).

Lemma and_then_ok p (k : method) : snd (and_then p k) = Ok tt -> exists c1, p = (c1, Ok tt) /\ and_then p k = k c1 /\ snd (k c1) = Ok tt.
Proof. destruct p as [c [[]|e|q]]; cbn; intros H; try discriminate. eauto. Qed.
Lemma taken x s c : snd (accept_schema x s c) = Ok tt -> forall k, lacks s k c /\ declares s k (fst (accept_schema x s c)).
Proof.
  intros E k. unfold accept_schema in *.
  set (fe := fun (e : extension) (c : ctx) => if has (ext_key e) (c_exts c) then _ else _) in *.
  set (ft := fun (t : table) (c : ctx) => if has (tb_name t) (c_tables c) then _ else _) in *.
  set (fa := fun (a : action) (c : ctx) => if has (ac_name a) (c_actions c) then _ else _) in *.
  assert (Ge : forall a c, grows c (fst (fe a c))) by (intros a c'; unfold fe; destruct (has _ _); [apply grows_refl|apply grows_exts]).
  assert (Gt : forall a c, grows c (fst (ft a c))).
  { intros a c'; unfold ft; destruct (has _ _); [apply grows_refl|]. eapply grows_trans; [apply grows_current|apply grows_table]. }
  assert (Ga : forall a c, grows c (fst (fa a c))).
  { intros a c'; unfold fa; destruct (has _ _); [apply grows_refl|]. eapply grows_trans; [apply grows_current|apply grows_action]. }
  apply and_then_ok in E as (c1 & E1 & -> & E). apply and_then_ok in E as (c2 & E2 & -> & E).
  apply and_then_ok in E as (c3 & E3 & -> & E).
  assert (G1 : grows c c1) by (pose proof (grows_loop fe (elems (sc_exts s)) Ge c) as G; rewrite E1 in G; exact G).
  assert (G2 : grows c1 c2) by (pose proof (grows_loop ft (elems (sc_tables s)) Gt c1) as G; rewrite E2 in G; exact G).
  assert (G3 : grows c2 c3) by (pose proof (grows_loop fa (elems (sc_actions s)) Ga c2) as G; rewrite E3 in G; exact G).
  match goal with |- _ /\ declares _ _ (fst ?p) => assert (G4 : grows c3 (fst p)); [|set (c4 := fst p) in *; clearbody c4] end.
  { apply grows_and_then; [|intros; rewrite loop_reads; apply grows_refl].
    apply grows_loop. intros t c'. apply grows_loop. intros fk c''. apply grows_and_then; [rewrite loop_reads; apply grows_refl|].
    intros c4. apply grows_refl. }
  assert (T1 : forall a, In a (elems (sc_exts s)) -> has (ext_key a) (c_exts c) = false /\ has (ext_key a) (c_exts c1) = true).
  { intros a Ha. pose proof (loop_taken fe ext_key c_exts (elems (sc_exts s)) Ge) as H. rewrite <- (f_equal fst E1 : fst _ = c1).
    apply H; [intros ? ? ? (_ & _ & G); apply G| |rewrite E1; reflexivity|exact Ha].
    intros b c' Hb. unfold fe in *. destruct (has (ext_key b) (c_exts c')) eqn:Eh; [discriminate|]. split; [reflexivity|]. cbn.
    rewrite has_put, str_eqb_refl. reflexivity. }
  assert (T2 : forall a, In a (elems (sc_tables s)) -> has (tb_name a) (c_tables c1) = false /\ has (tb_name a) (c_tables c2) = true).
  { intros a Ha. pose proof (loop_taken ft tb_name c_tables (elems (sc_tables s)) Gt) as H. rewrite <- (f_equal fst E2 : fst _ = c2).
    apply H; [intros ? ? ? (G & _ & _); apply G| |rewrite E2; reflexivity|exact Ha].
    intros b c' Hb. unfold ft in *. destruct (has (tb_name b) (c_tables c')) eqn:Eh; [discriminate|]. split; [reflexivity|].
    apply (table_puts b (set_current c' (tb_name b))). }
  assert (T3 : forall a, In a (elems (sc_actions s)) -> has (ac_name a) (c_actions c2) = false /\ has (ac_name a) (c_actions c3) = true).
  { intros a Ha. pose proof (loop_taken fa ac_name c_actions (elems (sc_actions s)) Ga) as H. rewrite <- (f_equal fst E3 : fst _ = c3).
    apply H; [intros ? ? ? (_ & G & _); apply G| |rewrite E3; reflexivity|exact Ha].
    intros b c' Hb. unfold fa in *. destruct (has (ac_name b) (c_actions c')) eqn:Eh; [discriminate|]. split; [reflexivity|].
    apply (action_puts b (set_current c' (ac_name b))). }
  assert (XN : In k (ext_names s) -> exists a, In a (elems (sc_exts s)) /\ k = ext_key a).
  { unfold ext_names. rewrite in_map_iff. intros (a & <- & Ha). exists a. split; [exact Ha|]. symmetry. apply ext_key_name. }
  pose proof (grows_trans _ _ _ G1 G2) as G12. pose proof (grows_trans _ _ _ G3 G4) as G34. pose proof (grows_trans _ _ _ G2 G34) as G24.
  split.
  - split; [|split].
    + intros H. apply in_map_iff in H as (a & <- & Ha). apply T2 in Ha as [Ha _]. destruct (has (tb_name a) (c_tables c)) eqn:Eh; [|reflexivity].
      apply G1 in Eh. congruence.
    + intros H. apply in_map_iff in H as (a & <- & Ha). apply T3 in Ha as [Ha _]. destruct (has (ac_name a) (c_actions c)) eqn:Eh; [|reflexivity].
      apply G12 in Eh. congruence.
    + intros H. apply XN in H as (a & Ha & ->). apply T1; exact Ha.
  - split; [|split].
    + intros H. apply in_map_iff in H as (a & <- & Ha). apply G34. apply T2; exact Ha.
    + intros H. apply in_map_iff in H as (a & <- & Ha). apply G4. apply T3; exact Ha.
    + intros H. apply XN in H as (a & Ha & ->). apply G24. apply T1; exact Ha.
Qed.

Lemma names_stay_taken x l1 s0 l2 s k :
  then_accept x l1 (NSchema s0) = Ok tt -> then_accept x (l1 ++ NSchema s0 :: l2) (NSchema s) = Ok tt ->
  (In k (map tb_name (elems (sc_tables s0))) -> In k (map tb_name (elems (sc_tables s))) -> False) /\
  (In k (action_names s0) -> In k (action_names s) -> False) /\ (In k (ext_names s0) -> In k (ext_names s) -> False).
Proof.
  unfold then_accept. rewrite lives_app. cbn [lives accept]. set (c := lives x l1 new_ctx). intros H1 H2.
  destruct (taken x s0 c H1 k) as [_ (D1 & D2 & D3)].
  destruct (taken x s _ H2 k) as [(L1 & L2 & L3) _].
  destruct (grows_lives x l2 (fst (accept_schema x s0 c))) as (G1 & G2 & G3).
  split; [|split].
  - intros A B. apply D1, G1 in A. rewrite L1 in A by exact B. discriminate.
  - intros A B. apply D2, G2 in A. rewrite L2 in A by exact B. discriminate.
  - intros A B. apply D3, G3 in A. rewrite L3 in A by exact B. discriminate.
Qed.

(** * Single nodes *)
Definition named (n : str) (t : table) : table := Table n (tb_cols t) (tb_idx t) (tb_fks t).
Lemma valid_named n t : valid_table (named n t) <-> valid_table t.
Proof. reflexivity. Qed.
Lemma accept_table_spec t c :
  (snd (accept_table t c) = Ok tt <-> valid_table t) /\
  (forall z, stops (snd (accept_table t c)) z <-> table_bad (named (c_current c) t) z) /\
  (snd (accept_table t c) = Ok tt -> c_current (fst (accept_table t c)) = c_current c /\ tabkeys (fst (accept_table t c)) (members t)).
Proof.
  destruct (visit_table_spec (named (c_current c) t) c eq_refl) as (V1 & V2 & V3).
  change (visit_table (named (c_current c) t) c) with (visit_table t c) in *. rewrite <- accept_table_out in *.
  split; [|split].
  - rewrite <- (valid_named (c_current c)), <- V1. split; [intros H; eexists; apply snd_out; exact H|]. intros [c' H]. apply out_fst in H. tauto.
  - intros z. rewrite <- V2. unfold out. destruct (snd (accept_table t c)) as [[]|e|p]; [|reflexivity..]. destruct z; reflexivity.
  - intros H. apply snd_out in H. destruct (V3 _ H) as [(_ & _ & F & _) K]. split; [exact F|exact K].
Qed.
Lemma accept_action_spec a c :
  (snd (accept_action a c) = Ok tt <-> NoDup (elems (ac_inputs a))) /\
  (forall z, stops (snd (accept_action a c)) z <-> first_bad (fresh (fun i => i)) (dup (fun i => i) DuplicateParam) (elems (ac_inputs a)) z).
Proof.
  destruct (visit_action_spec a c) as (V1 & V2 & _). rewrite <- accept_action_out in *. split.
  - rewrite <- V1. split; [intros H; eexists; apply snd_out; exact H|]. intros [c' H]. apply out_fst in H. tauto.
  - intros z. rewrite <- V2. unfold out. destruct (snd (accept_action a c)) as [[]|e|p]; [|reflexivity..]. destruct z; reflexivity.
Qed.
