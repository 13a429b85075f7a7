(** Proofs for C54. *)
From Coq Require Import Permutation Lia.
From Verif Require Import LexSpec Grammar Schema Denote FaultSpec Segments DenoteProof Validator ValidSpec LexerProof ParseKF ParseSpec ParseProof ParseProof2 Outcomes OrderSpec.

Lemma go_slice {A} (l : list A) : slice_of l (go_list l).
Proof. destruct l; [left; split; reflexivity|right; split; [discriminate|reflexivity]]. Qed.
Lemma slice_go {A} (l : list A) s : slice_of l s -> s = go_list l.
Proof. intros [(-> & ->)|(H & ->)]; [reflexivity|]. destruct l; [congruence|reflexivity]. Qed.
Lemma elems_go {A} (l : list A) : elems (go_list l) = l.
Proof. destruct l; reflexivity. Qed.

(** A text that writes a schema is a sequence of declarations, *)
Lemma decls_split ta ac ini ts : w_decls ta ac ini ts -> exists ds, Forall (fun d => w_decl (fst d) (snd d)) ds /\ ts = concat (map snd ds) /\
  tables_in (map fst ds) = ta /\ actions_in (map fst ds) = ac /\ inits_in (map fst ds) = ini.
Proof.
  induction 1 as [|t ts ta ac ini us Ht H (ds & Hd & -> & E1 & E2 & E3)|a ts ta ac ini us Ha H (ds & Hd & -> & E1 & E2 & E3)|i ts ta ac us Hi H (ds & Hd & -> & E1 & E2 & E3)].
  - exists []. repeat split; constructor.
  - exists ((DTable t, ts) :: ds). split; [constructor; assumption|]. cbn. rewrite <- E1, <- E2, <- E3. repeat split.
  - exists ((DAction a, ts) :: ds). split; [constructor; assumption|]. cbn. rewrite <- E1, <- E2, <- E3. repeat split.
  - exists ((DInit i, ts) :: ds). split; [constructor; assumption|]. unfold tables_in, actions_in, inits_in in *. cbn. rewrite E1, E2, E3. repeat split.
Qed.
Lemma inits_le ta ac ini ts : w_decls ta ac ini ts -> (length ini <= 1)%nat.
Proof. induction 1; cbn; auto. Qed.
Lemma writes_split text s : writes text s -> exists n xs ds, arranged n xs ds text /\ (length (inits_in (map fst ds)) <= 1)%nat /\ s = schema_of n xs (map fst ds).
Proof.
  intros (ts & Ht & H). inversion H as [n xs sxs tx ta sta ac ini sac td Hx Hsx Hd Hst Hsa E1 E2]. pose proof (inits_le _ _ _ _ Hd) as L. destruct (decls_split _ _ _ _ Hd) as (ds & Hds & -> & <- & <- & <-).
  exists n, xs, ds. split; [exists ts, tx; auto|]. split; [exact L|]. unfold schema_of. rewrite (slice_go _ _ Hsx), (slice_go _ _ Hst), (slice_go _ _ Hsa). reflexivity.
Qed.
(** and conversely. *)
Lemma split_decls ds : Forall (fun d => w_decl (fst d) (snd d)) ds -> (length (inits_in (map fst ds)) <= 1)%nat ->
  w_decls (tables_in (map fst ds)) (actions_in (map fst ds)) (inits_in (map fst ds)) (concat (map snd ds)).
Proof.
  induction 1 as [|(d, ts) ds Hd H IH]; [constructor|]. cbn [map fst snd concat]. destruct d as [t|a|i]; cbn [w_decl fst snd] in Hd.
  - intros L. apply wd_table; [exact Hd|]. apply IH. exact L.
  - intros L. apply wd_action; [exact Hd|]. apply IH. exact L.
  - cbn [inits_in flat_map app length]. intros L. fold (inits_in (map fst ds)) in *. destruct (inits_in (map fst ds)) as [|x l] eqn:E; [|cbn in L; lia].
    apply (wd_init i ts _ _ _ Hd). apply IH. cbn. lia.
Qed.
Lemma split_writes n xs ds text : arranged n xs ds text -> (length (inits_in (map fst ds)) <= 1)%nat -> writes text (schema_of n xs (map fst ds)).
Proof.
  intros (ts & tx & Ht & Hx & Hds & E) L. exists ts. split; [exact Ht|]. rewrite E. econstructor; eauto using go_slice. apply split_decls; assumption.
Qed.
(** Two init blocks are never accepted. *)
Lemma ninit_app a b : ninit (a ++ b) = (ninit a + ninit b)%nat.
Proof. unfold ninit. rewrite filter_app, app_length. reflexivity. Qed.
Lemma inits_count ds : Forall (fun d => w_decl (fst d) (snd d)) ds -> (length (inits_in (map fst ds)) <= ninit (concat (map snd ds)))%nat.
Proof.
  induction 1 as [|(d, ts) ds Hd H IH]; [cbn; lia|]. cbn [map fst snd concat]. rewrite ninit_app. destruct d as [t|a|i]; cbn [w_decl fst snd inits_in flat_map app length] in *; fold (inits_in (map fst ds)) in *; try lia.
  inversion Hd as [body tb Hb]. subst. cbn [app]. unfold ninit at 1. cbn [filter fixed ty]. change (tt_eqb INIT_ INIT_) with true. cbn [length]. lia.
Qed.
Lemma written_inits n xs ds text s : arranged n xs ds text -> writes text s -> (length (inits_in (map fst ds)) <= 1)%nat.
Proof.
  intros (ts & tx & Ht & Hx & Hds & E) (ts' & Ht' & Hd). destruct (ninit_writes _ _ _ Ht' Hd) as (L & _).
  assert (ts' = ts) as -> by (eapply tokens_of_fun; eassumption). rewrite E, !ninit_app in L. pose proof (inits_count ds Hds). lia.
Qed.
Lemma written_schema n xs ds text s : arranged n xs ds text -> writes text s -> s = schema_of n xs (map fst ds).
Proof. intros Ha Hw. eapply writes_fun; [exact Hw|]. apply split_writes; [exact Ha|]. eapply written_inits; eassumption. Qed.

(** *** Validity and order *)
Lemma valid_reordered x s s' : reordered s s' -> valid_schema x s -> valid_schema x s'.
Proof.
  intros (_ & _ & Ex & Pt & Pa) [V1 V2 V3 V4 V5 V6 V7].
  assert (En : ext_names s' = ext_names s) by (unfold ext_names; rewrite Ex; reflexivity).
  assert (Pn : Permutation (action_names s) (action_names s')) by (apply Permutation_map; exact Pa).
  split.
  - rewrite En. exact V1.
  - eapply Permutation_NoDup; [apply Permutation_map; exact Pt|exact V2].
  - intros t Ht. apply V3. eapply Permutation_in; [apply Permutation_sym; exact Pt|exact Ht].
  - eapply Permutation_NoDup; [exact Pn|exact V4].
  - intros a Ha. apply V5. eapply Permutation_in; [apply Permutation_sym; exact Pa|exact Ha].
  - intros t f Ht Hf. destruct (V6 t f) as (H1 & (p & Hp & H2) & H3); [eapply Permutation_in; [apply Permutation_sym; exact Pt|exact Ht]|exact Hf|].
    split; [exact H1|]. split; [|exact H3]. exists p. split; [eapply Permutation_in; [exact Pt|exact Hp]|exact H2].
  - intros a Ha pre st post E. assert (Ha' : In a (elems (sc_actions s))) by (eapply Permutation_in; [apply Permutation_sym; exact Pa|exact Ha]).
    specialize (V7 a Ha' pre st post E). unfold stmt_ok in *. rewrite En. destruct (act_parse x st) as [[|m args|e args recv|]| |]; try exact V7.
    destruct V7 as (Hm & Hr). split; [eapply Permutation_in; [exact Pn|exact Hm]|exact Hr].
Qed.
Lemma flat_perm {A B} (f : A -> list B) l l' : Permutation l l' -> Permutation (flat_map f l) (flat_map f l').
Proof. apply Permutation_flat_map. Qed.
Lemma schema_reordered n xs l l' : Permutation l l' -> reordered (schema_of n xs l) (schema_of n xs l').
Proof.
  intros P. unfold reordered, schema_of. cbn [sc_owner sc_name sc_exts sc_tables sc_actions]. rewrite !elems_go. repeat split; [apply flat_perm; exact P|]. apply Permutation_app; apply flat_perm; exact P.
Qed.

(** *** More and fewer declarations *)
Lemma stmt_more x s s' vars st : ext_names s' = ext_names s -> incl (action_names s) (action_names s') -> stmt_ok x s vars st -> stmt_ok x s' vars st.
Proof.
  intros En Hi H. unfold stmt_ok in *. rewrite En. destruct (act_parse x st) as [[|m args|e args recv|]| |]; try exact H. destruct H as (Hm & Hr). split; [apply Hi; exact Hm|exact Hr].
Qed.
Lemma valid_more x s s' nt na : sc_exts s' = sc_exts s -> Permutation (elems (sc_tables s')) (nt ++ elems (sc_tables s)) -> Permutation (elems (sc_actions s')) (na ++ elems (sc_actions s)) ->
  NoDup (map tb_name (nt ++ elems (sc_tables s))) -> NoDup (map ac_name (na ++ elems (sc_actions s))) ->
  (forall t, In t nt -> valid_table t /\ forall f, In f (elems (tb_fks t)) -> valid_fk s' t f) ->
  (forall a, In a na -> NoDup (elems (ac_inputs a)) /\ valid_body x s' a) ->
  valid_schema x s -> valid_schema x s'.
Proof.
  intros Ex Pt Pa Nt Na Ht Ha [V1 V2 V3 V4 V5 V6 V7].
  assert (En : ext_names s' = ext_names s) by (unfold ext_names; rewrite Ex; reflexivity).
  assert (It : forall t, In t (elems (sc_tables s')) -> In t nt \/ In t (elems (sc_tables s))) by (intros t H; apply in_app_iff; eapply Permutation_in; eassumption).
  assert (Ia : forall t, In t (elems (sc_actions s')) -> In t na \/ In t (elems (sc_actions s))) by (intros t H; apply in_app_iff; eapply Permutation_in; eassumption).
  assert (Hi : incl (action_names s) (action_names s')).
  { intros m Hm. unfold action_names in *. eapply Permutation_in; [apply Permutation_map, Permutation_sym; exact Pa|]. rewrite map_app. apply in_app_iff. right; exact Hm. }
  split.
  - rewrite En. exact V1.
  - eapply Permutation_NoDup; [apply Permutation_map, Permutation_sym; exact Pt|exact Nt].
  - intros t H. destruct (It t H) as [G|G]; [apply Ht; exact G|auto].
  - eapply Permutation_NoDup; [apply Permutation_map, Permutation_sym; exact Pa|exact Na].
  - intros a H. destruct (Ia a H) as [G|G]; [apply Ha; exact G|auto].
  - intros t f H Hf. destruct (It t H) as [G|G]; [apply (Ht t G); exact Hf|]. destruct (V6 t f G Hf) as (H1 & (p & Hp & H2) & H3). split; [exact H1|]. split; [|exact H3]. exists p. split; [|exact H2].
    eapply Permutation_in; [apply Permutation_sym; exact Pt|]. apply in_app_iff. right; exact Hp.
  - intros a H. destruct (Ia a H) as [G|G]; [apply Ha; exact G|]. intros pre st post E. eapply stmt_more; [exact En|exact Hi|]. exact (V7 a G pre st post E).
Qed.
Lemma valid_fewer x s s' nt na : sc_exts s' = sc_exts s -> Permutation (elems (sc_tables s')) (nt ++ elems (sc_tables s)) -> Permutation (elems (sc_actions s')) (na ++ elems (sc_actions s)) ->
  (forall t f, In t (elems (sc_tables s)) -> In f (elems (tb_fks t)) -> ~ In (fk_table f) (map tb_name nt)) ->
  (forall a st m args, In a (elems (sc_actions s)) -> In st (elems (ac_stmts a)) -> act_parse x st = Ok (ActionCall m args) -> ~ In m (map ac_name na)) ->
  valid_schema x s' -> valid_schema x s.
Proof.
  intros Ex Pt Pa Hf Hm [V1 V2 V3 V4 V5 V6 V7].
  assert (En : ext_names s' = ext_names s) by (unfold ext_names; rewrite Ex; reflexivity).
  assert (It : forall t, In t (elems (sc_tables s)) -> In t (elems (sc_tables s'))) by (intros t H; eapply Permutation_in; [apply Permutation_sym; exact Pt|]; apply in_app_iff; right; exact H).
  assert (Ia : forall t, In t (elems (sc_actions s)) -> In t (elems (sc_actions s'))) by (intros t H; eapply Permutation_in; [apply Permutation_sym; exact Pa|]; apply in_app_iff; right; exact H).
  split.
  - rewrite <- En. exact V1.
  - apply (Permutation_NoDup (Permutation_map _ Pt)) in V2. rewrite map_app in V2. clear -V2. induction (map tb_name nt) as [|y l IH]; [exact V2|]. inversion V2. auto.
  - intros t H. apply V3, It, H.
  - unfold action_names in *. apply (Permutation_NoDup (Permutation_map _ Pa)) in V4. rewrite map_app in V4. clear -V4. induction (map ac_name na) as [|y l IH]; [exact V4|]. inversion V4. auto.
  - intros a H. apply V5, Ia, H.
  - intros t f H G. destruct (V6 t f (It t H) G) as (H1 & (p & Hp & Hn & H2) & H3). split; [exact H1|]. split; [|exact H3]. exists p. split; [|split; assumption].
    apply (Permutation_in _ Pt), in_app_iff in Hp as [Hp|Hp]; [|exact Hp]. exfalso. apply (Hf t f H G). rewrite <- Hn. apply in_map. exact Hp.
  - intros a H pre st post E. pose proof (V7 a (Ia a H) pre st post E) as G. unfold stmt_ok in *. rewrite <- En. destruct (act_parse x st) as [[|m args|e args recv|]| |] eqn:Em; try exact G. destruct G as (G & Hr). split; [|exact Hr].
    unfold action_names in G |- *. apply (Permutation_in _ (Permutation_map _ Pa)) in G. rewrite map_app in G. apply in_app_iff in G as [G|G]; [|exact G]. exfalso. refine (Hm a st m args H _ Em G). rewrite E. apply in_elt.
Qed.
Lemma schema_more n xs l l' k : Permutation l' (k ++ l) ->
  Permutation (elems (sc_tables (schema_of n xs l'))) (tables_in k ++ elems (sc_tables (schema_of n xs l))) /\
  Permutation (elems (sc_actions (schema_of n xs l'))) ((actions_in k ++ inits_in k) ++ elems (sc_actions (schema_of n xs l))).
Proof.
  intros P. unfold schema_of. cbn [sc_tables sc_actions]. rewrite !elems_go. split.
  - eapply Permutation_trans; [apply flat_perm; exact P|]. unfold tables_in. rewrite flat_map_app. reflexivity.
  - assert (P1 : Permutation (actions_in l') (actions_in k ++ actions_in l)) by (eapply Permutation_trans; [apply flat_perm; exact P|unfold actions_in; rewrite flat_map_app; reflexivity]).
    assert (P2 : Permutation (inits_in l') (inits_in k ++ inits_in l)) by (eapply Permutation_trans; [apply flat_perm; exact P|unfold inits_in; rewrite flat_map_app; reflexivity]).
    eapply Permutation_trans; [apply Permutation_app; eassumption|]. rewrite <- !app_assoc. apply Permutation_app_head. rewrite !app_assoc. apply Permutation_app_tail. apply Permutation_app_comm.
Qed.
