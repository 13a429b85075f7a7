(** Validation, concluded: foreign keys, statements, whole schemas. *)
From Verif Require Import Schema Validator ValidSpec ValidProof ValidProof2.

(** * Foreign keys *)
Lemma NoDup_name_inj {A} (name : A -> str) l a b : NoDup (map name l) -> In a l -> In b l -> name a = name b -> a = b.
Proof.
  intros HN Ha Hb E. induction l as [|c l IH]; [destruct Ha|]. cbn in HN. inversion HN as [|? ? Hni HN']; subst.
  destruct Ha as [->|Ha], Hb as [->|Hb]; auto.
  - exfalso; apply Hni; rewrite E; apply in_map; exact Hb.
  - exfalso; apply Hni; rewrite <- E; apply in_map; exact Ha.
Qed.

Definition tables_known (s : schema) (c : ctx) : Prop :=
  NoDup (map tb_name (elems (sc_tables s))) /\ keys (c_tables c) (map tb_name (elems (sc_tables s))) /\
  (forall t, In t (elems (sc_tables s)) -> keys (tablectx c (tb_name t)) (members t)).

Lemma visit_fk_spec s c f : tables_known s c ->
  (fine (visit_fk c f) <->
     (exists p, In p (elems (sc_tables s)) /\ tb_name p = fk_table f /\ incl (elems (fk_parent f)) (members p)) /\
     NoDup (map fk_on (elems (fk_acts f)))) /\
  (forall z, stops (visit_fk c f) z <->
    ((~ In (fk_table f) (map tb_name (elems (sc_tables s))) /\ says TableNotFound (fk_table f) z)
    \/
    (exists p, In p (elems (sc_tables s)) /\ tb_name p = fk_table f /\
       (missing (members p) (fun col => lit "ref(" ++ fk_table f ++ lit "->" ++ col ++ lit ")") (elems (fk_parent f)) z
        \/
        incl (elems (fk_parent f)) (members p) /\
        first_bad (fresh fk_on) (dup fk_on DupFKAction) (elems (fk_acts f)) z)))).
Proof.
  intros (HN & HK & HM). unfold visit_fk. destruct (has (fk_table f) (c_tables c)) eqn:Eh.
  - apply HK in Eh. apply in_map_iff in Eh as (p & Ep & Hp). specialize (HM p Hp) as Hm. rewrite Ep in Hm.
    destruct (missing_spec _ _ (fun col => lit "ref(" ++ fk_table f ++ lit "->" ++ col ++ lit ")") (elems (fk_parent f)) Hm) as [M1 M2].
    destruct (nodup_loop fk_on DupFKAction
      (fun a seen => if has (fk_on a) seen then Err (wrap DupFKAction (fk_on a)) else Ok (put (fk_on a) true seen))
      (elems (fk_acts f)) (fun a m => eq_refl)) as [N1 N2].
    assert (Hu : forall q, In q (elems (sc_tables s)) -> tb_name q = fk_table f -> q = p).
    { intros q Hq Eq. apply (NoDup_name_inj tb_name _ q p HN Hq Hp). congruence. }
    split.
    + rewrite bind_fine. split.
      * intros (u & E1 & E2). rewrite seq_fine in E2. split; [|apply N1; exact E2]. exists p. split; [exact Hp|]. split; [exact Ep|].
        apply M1. exists u; exact E1.
      * intros ((q & Hq & Eq & Hi) & Hd). rewrite (Hu q Hq Eq) in Hi. apply M1 in Hi as [u Hi]. exists u. split; [exact Hi|].
        rewrite seq_fine. apply N1; exact Hd.
    + intros z. rewrite bind_stops, M2. split.
      * intros [H|(u & E1 & E2)].
        { right. exists p. auto. }
        { right. exists p. split; [exact Hp|]. split; [exact Ep|]. right. rewrite seq_stops in E2. split; [apply M1; exists u; exact E1|apply N2; exact E2]. }
      * intros [[H _]|(q & Hq & Eq & H)].
        { exfalso. apply H. rewrite <- Ep. apply in_map; exact Hp. }
        { rewrite (Hu q Hq Eq) in H. destruct H as [H|[H1 H2]]; [left; exact H|right]. apply M1 in H1 as [u H1]. exists u. split; [exact H1|].
          rewrite seq_stops. apply N2; exact H2. }
  - apply (keys_has _ _ _ HK) in Eh. split.
    + split; [intros H; destruct (fine_err _ H)|]. intros ((p & Hp & Ep & _) & _). exfalso. apply Eh. rewrite <- Ep. apply in_map; exact Hp.
    + intros z. rewrite stops_err. unfold says, wrap. split; [intros ->; left; auto|]. intros [[_ H]|(p & Hp & Ep & _)]; [exact H|].
      exfalso. apply Eh. rewrite <- Ep. apply in_map; exact Hp.
Qed.

Definition fk_step (c : ctx) (t : table) (fk : fkey) (_ : unit) : res unit :=
  DO _ <- foreach (fun col _ => if has col (tablectx c (tb_name t)) then Ok tt
       else Err (wrap ColumnNotFound (lit "fk(" ++ tb_name t ++ lit "/" ++ col ++ lit ")"))) (elems (fk_child fk)) tt;
  visit_fk c fk.

Lemma fk_step_spec s c t f : tables_known s c -> In t (elems (sc_tables s)) ->
  (fine (fk_step c t f tt) <-> valid_fk s t f) /\ (forall z, stops (fk_step c t f tt) z <-> fk_bad s t f z).
Proof.
  intros HT Ht. unfold fk_step. pose proof HT as (_ & _ & HM).
  destruct (missing_spec _ _ (fun col => lit "fk(" ++ tb_name t ++ lit "/" ++ col ++ lit ")") (elems (fk_child f)) (HM t Ht)) as [M1 M2].
  destruct (visit_fk_spec s c f HT) as [V1 V2]. split.
  - rewrite bind_fine. unfold valid_fk. rewrite <- V1. rewrite <- M1. split.
    + intros (u & E1 & E2). split; [exists u; exact E1|exact E2].
    + intros [[u E1] E2]. exists u; auto.
  - intros z. rewrite bind_stops, M2. unfold fk_bad. rewrite <- V2. apply or_iff_compat_l. split.
    + intros (u & E1 & E2). split; [apply M1; exists u; exact E1|exact E2].
    + intros [H1 H2]. apply M1 in H1 as [u H1]. exists u; auto.
Qed.

(** Loops whose body is understood only for the listed elements. *)
Lemma foreach_unit_in {A} (f : A -> unit -> res unit) (ok : A -> Prop) (bad : A -> report -> Prop) l :
  (forall a, In a l -> (fine (f a tt) <-> ok a) /\ (forall z, stops (f a tt) z <-> bad a z)) ->
  (fine (foreach f l tt) <-> Forall ok l) /\
  (forall z, stops (foreach f l tt) z <-> first_bad (fun _ => ok) (fun _ => bad) l z).
Proof.
  intros H.
  destruct (foreach_unit f (fun a => fine (f a tt)) (fun a z => stops (f a tt) z) l) as [G1 G2]; [reflexivity|reflexivity|].
  split.
  - rewrite G1, !Forall_forall. split; intros HH a Ha; apply (H a Ha); apply HH; exact Ha.
  - intros z. rewrite G2. unfold first_bad. split; intros (pre & a & post & -> & He & Hb); exists pre, a, post; (split; [reflexivity|]);
      (split; [|apply (H a); [apply in_or_app; right; left; reflexivity|exact Hb]]);
      apply each_Forall; apply each_Forall in He; rewrite Forall_forall in He |- *; intros b Hin; apply (H b); auto; apply in_or_app; left; exact Hin.
Qed.

Definition fks_step (c : ctx) (t : table) (u : unit) : res unit := foreach (fk_step c t) (elems (tb_fks t)) tt.
Lemma fk_phase s c : tables_known s c ->
  (fine (foreach (fks_step c) (elems (sc_tables s)) tt) <-> fks_clean s) /\
  (forall z, stops (foreach (fks_step c) (elems (sc_tables s)) tt) z <-> fks_bad s z).
Proof.
  intros HT.
  destruct (foreach_unit_in (fks_step c) (fun t => Forall (valid_fk s t) (elems (tb_fks t)))
    (fun t z => first_bad (fun _ f => valid_fk s t f) (fun _ f z => fk_bad s t f z) (elems (tb_fks t)) z) (elems (sc_tables s))) as [G1 G2].
  - intros t Ht. unfold fks_step. apply foreach_unit; intros f; apply (fk_step_spec s c t f HT Ht).
  - split; [|exact G2]. rewrite G1. unfold fks_clean. rewrite Forall_forall. split.
    + intros H t f Ht Hf. specialize (H t Ht). rewrite Forall_forall in H. auto.
    + intros H t Ht. rewrite Forall_forall. auto.
Qed.

(** * Statements *)
Lemma check_arg_spec x (d : declctx) (local : gomap bool) inputs vars a :
  keys d inputs -> keys local vars -> incl inputs vars ->
  (fine (check_arg x d local a) <-> arg_ok vars a) /\ (forall z, stops (check_arg x d local a) z <-> arg_bad x vars a z).
Proof.
  intros HD HL HI. destruct a as [p|]; cbn [check_arg].
  2:{ split; [split; [intros _; exact I|intros; apply fine_ok]|]. intros z. split; [intros H; destruct (stops_ok _ _ H)|]. intros (p & E & _); discriminate. }
  set (b1 := has_prefix (lit "$") p && negb (has p d) && negb (has p local)).
  set (b2 := has_prefix (lit "@") p && negb (mem_str p builtin_block_vars)).
  assert (E : arg_ok vars (ABind p) <-> b1 = false /\ b2 = false).
  { cbn [arg_ok]. unfold b1, b2. split.
    - intros [H1 H2]. split.
      + destruct (has_prefix (lit "$") p) eqn:Ep; [|reflexivity]. apply has_prefix_spec in Ep as [w Ew]. apply H1 in Ew.
        apply HL in Ew. rewrite Ew. apply andb_false_r.
      + destruct (has_prefix (lit "@") p) eqn:Ep; [|reflexivity]. apply has_prefix_spec in Ep as [w Ew]. apply H2 in Ew.
        rewrite Ew. reflexivity.
    - intros [H1 H2]. split.
      + intros w Ew. assert (Ep : has_prefix (lit "$") p = true) by (apply has_prefix_spec; exists w; exact Ew).
        rewrite Ep in H1. cbn [andb] in H1. apply andb_false_iff in H1 as [H1|H1]; apply negb_false_iff in H1.
        * apply HI, HD, H1.
        * apply HL, H1.
      + intros w Ew. assert (Ep : has_prefix (lit "@") p = true) by (apply has_prefix_spec; exists w; exact Ew).
        rewrite Ep in H2. cbn [andb] in H2. apply negb_false_iff in H2. apply mem_str_In in H2 as [H2|[]]. symmetry; exact H2. }
  unfold arg_bad. split.
  - rewrite E. destruct b1; [split; [intros H; destruct (fine_err _ H)|intros [H _]; discriminate]|].
    destruct b2; [split; [intros H; destruct (fine_err _ H)|intros [_ H]; discriminate]|]. split; [auto|intros; apply fine_ok].
  - intros z. split.
    + intros H. exists p. split; [reflexivity|]. rewrite E. unfold says.
      destruct b1; [apply stops_err in H; split; [intros [HH _]; discriminate|exact H]|].
      destruct b2; [apply stops_err in H; split; [intros [_ HH]; discriminate|exact H]|]. destruct (stops_ok _ _ H).
    + intros (q & Eq & Hn & Hz). injection Eq as <-. rewrite E in Hn. unfold says in Hz. subst z.
      destruct b1; [reflexivity|]. destruct b2; [reflexivity|]. exfalso. apply Hn. auto.
Qed.

Lemma recv_loop recv : forall (l0 : gomap bool) vars, keys l0 vars ->
  let f := fun r (st : gomap bool * gomap bool) =>
          let (line, local) := st in
          if has r line then Err (wrap DuplicateVariable r) else Ok (put r true line, put r true local) in
  (fine (foreach f recv (([] : gomap bool), l0)) <-> NoDup recv) /\
  (forall st, foreach f recv (([] : gomap bool), l0) = Ok st -> keys (snd st) (vars ++ recv)) /\
  (forall z, stops (foreach f recv (([] : gomap bool), l0)) z <-> first_bad (fresh (fun r => r)) (dup (fun r => r) DuplicateVariable) recv z).
Proof.
  intros l0 vars HV f.
  destruct (foreach_spec f (fun pre st => keys (fst st) pre /\ keys (snd st) (vars ++ pre)) (fresh (fun r => r)) (dup (fun r => r) DuplicateVariable))
    with (l := recv) (s := (([] : gomap bool), l0)) as (G1 & G2 & G3).
  - intros pre r [line local] [HK _]. cbn in HK. unfold f.
    match goal with |- fine (if _ then _ else ?rr) <-> _ => destruct (dup_step r line _ DuplicateVariable rr HK) as [D1 _]; rewrite D1 end.
    unfold fresh. rewrite map_id. split; [tauto|]. intros H; split; [exact H|apply fine_ok].
  - intros pre r [line local] st' [HK HL] E. cbn in HK, HL. unfold f in E. destruct (has r line); [discriminate|]. injection E as <-. cbn [fst snd].
    split; [apply keys_put; exact HK|]. rewrite app_assoc. apply keys_put; exact HL.
  - intros pre r [line local] z [HK _]. cbn in HK. unfold f.
    match goal with |- stops (if _ then _ else ?rr) _ <-> _ => destruct (dup_step r line _ DuplicateVariable rr HK) as [_ D2]; rewrite D2 end.
    unfold dup. rewrite map_id. split; [|tauto]. intros [H|[_ H]]; [exact H|destruct (stops_ok _ _ H)].
  - cbn. split; [apply keys_nil|rewrite app_nil_r; exact HV].
  - rewrite each_NoDup, map_id in G1. split; [exact G1|]. split; [|exact G3]. intros st E. apply (G2 st E).
Qed.

Lemma wrap_ext_fine {A} st (m : res A) : fine (wrap_ext st m) <-> fine m.
Proof. destruct m; cbn; [reflexivity| |reflexivity]. split; intros H; destruct (fine_err _ H). Qed.
Lemma wrap_ext_ok {A} st (m : res A) a : wrap_ext st m = Ok a <-> m = Ok a.
Proof. destruct m; cbn; split; congruence. Qed.
Lemma wrap_ext_stops {A} st (m : res A) z : stops (wrap_ext st m) z <-> passes_on m st z.
Proof.
  destruct m; cbn [wrap_ext passes_on]; [|apply stops_err|apply stops_panic]. split; [intros H; destruct (stops_ok _ _ H)|intros []].
Qed.
Lemma passes_on_ok {A} (m : res A) st z a : m = Ok a -> ~ passes_on m st z.
Proof. intros ->. auto. Qed.

Definition all_known (s : schema) (c : ctx) : Prop :=
  keys (c_actions c) (action_names s) /\ keys (c_exts c) (ext_names s).

Lemma visit_stmt_spec x s c aname inputs local vars st :
  all_known s c -> keys (actionctx c aname) inputs -> keys local vars -> incl inputs vars ->
  (fine (visit_stmt x c aname st local) <-> stmt_ok x s vars st) /\
  (forall l', visit_stmt x c aname st local = Ok l' -> keys l' (vars ++ receivers x st)) /\
  (forall z, stops (visit_stmt x c aname st local) z <-> stmt_bad x s vars st z).
Proof.
  intros (HA & HE) HD HL HI. unfold visit_stmt, stmt_ok, stmt_bad, receivers.
  destruct (act_parse x st) as [q|e|p] eqn:Ea; cbn [wrap_ext bind].
  2:{ split; [split; [intros H; destruct (fine_err _ H)|intros []]|]. split; [discriminate|]. intros z. apply stops_err. }
  2:{ split; [split; [intros [? H]; discriminate|intros []]|]. split; [discriminate|]. intros z. apply stops_panic. }
  destruct q as [|m args|ex args recv|].
  - (* SQL *)
    rewrite bind_fine. setoid_rewrite seq_fine. split; [|split].
    + split.
      * intros (u & E1 & E2). apply wrap_ext_ok in E1. apply wrap_ext_fine in E2. apply fine_unit in E2. destruct u. auto.
      * intros [E1 E2]. exists tt. split; [apply wrap_ext_ok; exact E1|]. apply wrap_ext_fine, fine_unit. exact E2.
    + intros l' E. destruct (wrap_ext st (sql_parse x st)); cbn [bind] in E; try discriminate. apply seq_ok in E. subst l'.
      rewrite app_nil_r. exact HL.
    + intros z. rewrite bind_stops, wrap_ext_stops. apply or_iff_compat_l. setoid_rewrite seq_stops. setoid_rewrite wrap_ext_stops. split.
      * intros ([] & E1 & E2). apply wrap_ext_ok in E1. auto.
      * intros [E1 E2]. exists tt. split; [apply wrap_ext_ok; exact E1|exact E2].
  - (* action call *)
    destruct (foreach_unit (fun a _ => check_arg x (actionctx c aname) local a) (arg_ok vars) (arg_bad x vars) args) as [G1 G2];
      [intros a; apply (check_arg_spec x _ _ inputs vars a HD HL HI)|intros a; apply (check_arg_spec x _ _ inputs vars a HD HL HI)|].
    destruct (has m (c_actions c)) eqn:Eh.
    + apply HA in Eh. rewrite seq_fine, G1. split; [tauto|]. split.
      * intros l' E. apply seq_ok in E. subst l'. rewrite app_nil_r. exact HL.
      * intros z. rewrite seq_stops, G2. tauto.
    + apply (keys_has _ _ _ HA) in Eh. split; [split; [intros H; destruct (fine_err _ H)|tauto]|]. split; [discriminate|].
      intros z. rewrite stops_err. unfold says, wrap. tauto.
  - (* extension call *)
    destruct (foreach_unit (fun a _ => check_arg x (actionctx c aname) local a) (arg_ok vars) (arg_bad x vars) args) as [G1 G2];
      [intros a; apply (check_arg_spec x _ _ inputs vars a HD HL HI)|intros a; apply (check_arg_spec x _ _ inputs vars a HD HL HI)|].
    destruct (recv_loop recv local vars HL) as (R1 & R2 & R3).
    match type of R1 with fine ?r <-> _ => set (loop := r) in * end.
    destruct (has ex (c_exts c)) eqn:Eh.
    + apply HE in Eh. split; [|split].
      * rewrite bind_fine. split.
        { intros (u & E1 & E2). split; [exact Eh|]. split; [apply G1; exists u; exact E1|]. apply R1. apply bind_fine in E2 as (w & E2 & _). exists w; exact E2. }
        { intros (_ & H1 & H2). apply G1 in H1 as [u H1]. apply R1 in H2 as [[w1 w2] H2]. exists u. split; [exact H1|]. rewrite H2. cbn. apply fine_ok. }
      * intros l' E. destruct (foreach (fun a _ => check_arg x (actionctx c aname) local a) args tt); cbn [bind] in E; try discriminate.
        destruct loop as [[w1 w2]|e|p]; cbn [bind] in E; try discriminate. injection E as <-. apply (R2 _ eq_refl).
      * intros z. rewrite bind_stops, G2. split.
        { intros [H|(u & E1 & E2)]; [right; auto|]. right. split; [exact Eh|]. right. split; [apply G1; exists u; exact E1|].
          apply R3. apply bind_stops in E2 as [E2|([w1 w2] & _ & E2)]; [exact E2|destruct (stops_ok _ _ E2)]. }
        { intros [[H _]|(_ & [H|[H1 H2]])]; [tauto|left; exact H|right]. apply G1 in H1 as [u H1]. exists u. split; [exact H1|].
          apply bind_stops. left. apply R3; exact H2. }
    + apply (keys_has _ _ _ HE) in Eh. split; [split; [intros H; destruct (fine_err _ H)|tauto]|]. split; [discriminate|].
      intros z. rewrite stops_err. unfold says, wrap. tauto.
  - split; [split; [auto|intros; apply fine_ok]|]. split; [|intros z; split; [intros H; destruct (stops_ok _ _ H)|intros []]].
    intros l' E. injection E as <-. rewrite app_nil_r. exact HL.
Qed.

Lemma keys_inputs l : forall (m : gomap bool) vars, keys m vars -> keys (fold_left (fun m i => put i true m) l m) (vars ++ l).
Proof.
  induction l as [|i l IH]; intros m vars H; cbn; [rewrite app_nil_r; exact H|].
  change (vars ++ i :: l) with (vars ++ [i] ++ l). rewrite app_assoc. apply IH. apply keys_put; exact H.
Qed.

Lemma visit_stmts_spec x s c a : all_known s c -> keys (actionctx c (ac_name a)) (elems (ac_inputs a)) ->
  (fine (visit_stmts x c a) <-> valid_body x s a) /\ (forall z, stops (visit_stmts x c a) z <-> body_bad x s a z).
Proof.
  intros HK HD. unfold visit_stmts. set (inputs := elems (ac_inputs a)) in *.
  destruct (foreach_spec (visit_stmt x c (ac_name a)) (fun pre local => keys local (inputs ++ concat (map (receivers x) pre)))
    (fun pre st => stmt_ok x s (inputs ++ concat (map (receivers x) pre)) st)
    (fun pre st z => stmt_bad x s (inputs ++ concat (map (receivers x) pre)) st z)) with (l := elems (ac_stmts a))
    (s := fold_left (fun m i => put i true m) inputs ([] : gomap bool)) as (G1 & _ & G3).
  - intros pre st local HL. apply (visit_stmt_spec x s c (ac_name a) inputs local _ st HK HD HL). apply incl_appl, incl_refl.
  - intros pre st local l' HL E. destruct (visit_stmt_spec x s c (ac_name a) inputs local _ st HK HD HL) as (_ & S2 & _); [apply incl_appl, incl_refl|].
    apply S2 in E. rewrite map_app, concat_app. cbn [map concat]. rewrite app_nil_r, app_assoc. exact E.
  - intros pre st local z HL. apply (visit_stmt_spec x s c (ac_name a) inputs local _ st HK HD HL). apply incl_appl, incl_refl.
  - cbn [map concat]. rewrite app_nil_r. apply (keys_inputs inputs [] []). apply keys_nil.
  - split; [rewrite seq_fine; exact G1|]. intros z. rewrite seq_stops. apply G3.
Qed.

(** * Whole schemas *)
Definition body_step (x : externals) (c : ctx) (a : action) (_ : unit) : res unit := visit_stmts x c a.
Lemma validate_steps x s : validate x s =
  (DO c <- foreach ext_step (elems (sc_exts s)) new_ctx;
   DO c <- foreach tab_step (elems (sc_tables s)) c;
   DO c <- foreach act_step (elems (sc_actions s)) c;
   DO _ <- foreach (fks_step c) (elems (sc_tables s)) tt;
   foreach (body_step x c) (elems (sc_actions s)) tt).
Proof. reflexivity. Qed.

Theorem validate_spec x s :
  (validate x s = Ok tt <-> valid_schema x s) /\ (forall z, stops (validate x s) z <-> invalid_schema x s z).
Proof.
  rewrite <- fine_unit, validate_steps.
  destruct (ext_phase (elems (sc_exts s))) as (E1 & E2 & E3).
  change (map ext_name (elems (sc_exts s))) with (ext_names s) in E1. fold (exts_clean s) in E1.
  destruct (foreach ext_step (elems (sc_exts s)) new_ctx) as [c1|e|p]; cbn [bind].
  2,3: (assert (Hn : ~ exts_clean s) by (intros H; apply E1 in H; destruct H; discriminate)).
  2,3: (split; [split; [intros [? H]; discriminate|intros [H1 _ _ _ _ _ _]; contradiction]|]).
  2,3: (intros z; change (stops ?r z) with (stops r z); unfold invalid_schema, exts_bad; rewrite <- E3; split; [intros H; left; destruct z; exact H|]; intros [H|[[H _]|[[H _]|[[H _]|[H _]]]]]; [destruct z; exact H|contradiction..]).
  assert (C1 : exts_clean s) by (apply E1, fine_ok).
  assert (X1 : forall z, ~ exts_bad s z) by (intros z H; apply E3 in H; destruct (stops_ok _ _ H)).
  destruct (E2 c1 eq_refl) as (K1 & T1 & A1).
  destruct (tab_phase (elems (sc_tables s)) c1 T1 A1) as (F1 & F2 & F3).
  assert (F1' : fine (foreach tab_step (elems (sc_tables s)) c1) <-> tables_clean s) by (rewrite F1; unfold tables_clean; rewrite Forall_forall; reflexivity).
  clear F1. fold (tables_bad s) in F3.
  destruct (foreach tab_step (elems (sc_tables s)) c1) as [c2|e|p]; cbn [bind].
  2,3: (assert (Hn : ~ tables_clean s) by (intros H; apply F1' in H; destruct H; discriminate)).
  2,3: (split; [split; [intros [? H]; discriminate|intros [H1 H2 H3 _ _ _ _]; exfalso; apply Hn; split; assumption]|]).
  2,3: (intros z; unfold invalid_schema; rewrite <- (F3 z); specialize (X1 z); split; [intros H; right; left; split; [exact C1|destruct z; exact H]|]; intros [H|[[_ H]|[[_ [H _]]|[[_ [H _]]|[_ [H _]]]]]]; [contradiction|destruct z; exact H|contradiction..]).
  assert (C2 : tables_clean s) by (apply F1', fine_ok).
  assert (X2 : forall z, ~ tables_bad s z) by (intros z H; apply F3 in H; destruct (stops_ok _ _ H)).
  destruct (F2 c2 eq_refl) as (K2 & M2 & HE2 & A2).
  destruct (act_phase (elems (sc_actions s)) c2 A2) as (G1 & G2 & G3).
  assert (G1' : fine (foreach act_step (elems (sc_actions s)) c2) <-> actions_clean s) by (rewrite G1; unfold actions_clean; rewrite Forall_forall; reflexivity).
  clear G1. fold (actions_bad s) in G3.
  destruct (foreach act_step (elems (sc_actions s)) c2) as [c3|e|p]; cbn [bind].
  2,3: (assert (Hn : ~ actions_clean s) by (intros H; apply G1' in H; destruct H; discriminate)).
  2,3: (split; [split; [intros [? H]; discriminate|intros [H1 H2 H3 H4 H5 _ _]; exfalso; apply Hn; split; assumption]|]).
  2,3: (intros z; unfold invalid_schema; rewrite <- (G3 z); specialize (X1 z); specialize (X2 z); split;
    [intros H; right; right; left; split; [exact C1|]; split; [exact C2|destruct z; exact H]|];
    intros [H|[[_ H]|[(_ & _ & H)|[(_ & _ & H & _)|(_ & _ & H & _)]]]]; [contradiction|contradiction|destruct z; exact H|contradiction..]).
  assert (C3 : actions_clean s) by (apply G1', fine_ok).
  assert (X3 : forall z, ~ actions_bad s z) by (intros z H; apply G3 in H; destruct (stops_ok _ _ H)).
  destruct (G2 c3 eq_refl) as (K3 & M3 & HE3 & T3).
  assert (TK : tables_known s c3).
  { split; [apply C2|]. rewrite T3. split; [exact K2|]. intros t Ht. specialize (M2 t Ht). unfold tablectx in *. rewrite T3. exact M2. }
  assert (AK : all_known s c3).
  { split; [exact K3|]. rewrite HE3, HE2. exact K1. }
  destruct (fk_phase s c3 TK) as [P1 P2].
  destruct (foreach (fks_step c3) (elems (sc_tables s)) tt) as [u|e|p]; cbn [bind].
  2,3: (assert (Hn : ~ fks_clean s) by (intros H; apply P1 in H; destruct H; discriminate)).
  2,3: (split; [split; [intros [? H]; discriminate|intros [H1 H2 H3 H4 H5 H6 _]; exfalso; apply Hn; exact H6]|]).
  2,3: (intros z; unfold invalid_schema; rewrite <- (P2 z); specialize (X1 z); specialize (X2 z); specialize (X3 z); split;
    [intros H; right; right; right; left; split; [exact C1|]; split; [exact C2|]; split; [exact C3|destruct z; exact H]|];
    intros [H|[[_ H]|[(_ & _ & H)|[(_ & _ & _ & H)|(_ & _ & _ & H & _)]]]]; [contradiction|contradiction|contradiction|destruct z; exact H|contradiction]).
  assert (C4 : fks_clean s) by (apply P1, fine_ok).
  assert (X4 : forall z, ~ fks_bad s z) by (intros z H; apply P2 in H; destruct (stops_ok _ _ H)).
  destruct (foreach_unit_in (body_step x c3) (valid_body x s) (body_bad x s) (elems (sc_actions s))) as [Q1 Q2].
  { intros a Ha. unfold body_step. apply visit_stmts_spec; [exact AK|apply M3; exact Ha]. }
  split.
  - rewrite Q1, Forall_forall. split; [|intros [_ _ _ _ _ _ H]; exact H]. intros H. destruct C2, C3. constructor; assumption.
  - intros z. rewrite Q2. unfold invalid_schema. specialize (X1 z). specialize (X2 z). specialize (X3 z). specialize (X4 z). split.
    + intros H. do 4 right. auto.
    + intros [H|[[_ H]|[(_ & _ & H)|[(_ & _ & _ & H)|(_ & _ & _ & _ & H)]]]]; [contradiction..|exact H].
Qed.
