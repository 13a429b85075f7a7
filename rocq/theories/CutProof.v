(** What a text that is cut off declares. *)
From Verif Require Import Str LexSpec LexShape LexerProof Grammar Cst Parser ParserProof ParserComplete Schema Visitor Denote DenoteProof ParseKF ParseSpec ParseProof OrderSpec OrderProof Utf8Spec Utf8 Utf8Proof JsonProof JsonCut CutLex.
Local Open Scope N_scope.

(** ** No slash is followed by a star in a program *)
Definition nullable_nt (n : nt) : bool := match n with param_list | fn_arg_list | action_attr_list => true | _ => false end.
Fixpoint nullable (e : ebnf) : bool :=
  match e with Nothing => true | T _ => false | R n => nullable_nt n | Seq a b => nullable a && nullable b | Or a b => nullable a || nullable b | Many _ => true end.
Fixpoint starts (e : ebnf) : bool :=
  match e with Nothing => false | T t => tt_eqb t STAR | R _ => false | Seq a b => starts a || (nullable a && starts b) | Or a b => starts a || starts b | Many a => starts a end.
Fixpoint ends (e : ebnf) : bool :=
  match e with Nothing => false | T t => tt_eqb t DIV | R _ => false | Seq a b => ends b || (nullable b && ends a) | Or a b => ends a || ends b | Many a => ends a end.
Fixpoint apart_ (e : ebnf) : bool :=
  match e with Nothing | T _ | R _ => true | Seq a b => apart_ a && apart_ b && negb (ends a && starts b) | Or a b => apart_ a && apart_ b
  | Many a => apart_ a && negb (ends a && starts a) end.
Definition rule_ok (n : nt) : bool := apart_ (rule n) && negb (starts (rule n)) && negb (ends (rule n)) && (negb (nullable (rule n)) || nullable_nt n).
Lemma rules_ok n : rule_ok n = true. Proof. destruct n; vm_compute; reflexivity. Qed.

Definition first_is (t : tt) (ts : list tok) : Prop := exists x r, ts = x :: r /\ ty x = t.
Definition last_is (t : tt) (ts : list tok) : Prop := exists r x, ts = r ++ [x] /\ ty x = t.
Definition div_star (ts : list tok) : Prop := exists a x y b, ts = a ++ x :: y :: b /\ ty x = DIV /\ ty y = STAR.
Lemma first_app t u v : first_is t (u ++ v) -> first_is t u \/ (u = [] /\ first_is t v).
Proof. intros (x & r & E & Hx). destruct u as [|y u]; [right; split; [reflexivity|exists x, r; auto]|]. injection E as -> _. left. exists x, u. auto. Qed.
Lemma last_app t u v : last_is t (u ++ v) -> last_is t v \/ (v = [] /\ last_is t u).
Proof.
  intros (r & x & E & Hx). assert (Hv : v = [] \/ v <> []) by (destruct v; [left; reflexivity|right; discriminate]). destruct Hv as [->|Hv]; [right; split; [reflexivity|]; rewrite app_nil_r in E; exists r, x; auto|].
  destruct (exists_last Hv) as (v' & y & ->). rewrite app_assoc in E. apply app_inj_tail in E as [_ ->]. left. exists v', x. auto.
Qed.
Lemma div_star_app u v : div_star (u ++ v) -> div_star u \/ div_star v \/ (last_is DIV u /\ first_is STAR v).
Proof.
  intros (a & x & y & b & E & Hx & Hy). apply app_cut in E as [(z & Eu & Ez)|(z & Ea & Ev)].
  - destruct z as [|x' z]; [right; left; exists [], x, y, b; cbn in Ez; auto|]. injection Ez as <- Ez. destruct z as [|y' z].
    + right; right. split; [exists a, x; auto|exists y, b; cbn in Ez; auto].
    + injection Ez as <- _. left. exists a, x, y, z. auto.
  - right; left. exists z, x, y, b. auto.
Qed.
Lemma adjacency e ts : derives e ts -> apart_ e = true -> (ts = [] -> nullable e = true) /\ (first_is STAR ts -> starts e = true) /\ (last_is DIV ts -> ends e = true) /\ ~ div_star ts.
Proof.
  assert (HN : ~ div_star []) by (intros (a & x & y & b & E & _); destruct a; discriminate).
  induction 1 as [|t x Hx|n ts H IH|a b u v Ha IHa Hb IHb|a b u Ha IHa|a b u Hb IHb|a|a u v Ha IHa Hb IHb]; intros HO; cbn [nullable starts ends apart_] in *.
  - split; [reflexivity|]. split; [intros (x & r & E & _); discriminate|]. split; [intros (r & x & E & _); destruct r; discriminate|exact HN].
  - split; [discriminate|]. split; [intros (y & r & E & Hy); injection E as -> _; apply tt_eqb_eq; congruence|].
    split; [intros (r & y & E & Hy); destruct r as [|? [|]]; try discriminate; injection E as ->; apply tt_eqb_eq; congruence|].
    intros (a & y & z & b & E & _). destruct a as [|? [|]]; discriminate.
  - pose proof (rules_ok n) as HR. unfold rule_ok in HR. apply andb_true_iff in HR as [HR R4]. apply andb_true_iff in HR as [HR R3]. apply andb_true_iff in HR as [R1 R2].
    apply negb_true_iff in R2, R3. destruct (IH R1) as (I1 & I2 & I3 & I4). split; [intros E; rewrite (I1 E) in R4; exact R4|].
    split; [intros K; rewrite (I2 K) in R2; discriminate|]. split; [intros K; rewrite (I3 K) in R3; discriminate|exact I4].
  - apply andb_true_iff in HO as [HO H3]. apply andb_true_iff in HO as [H1 H2]. destruct (IHa H1) as (A1 & A2 & A3 & A4), (IHb H2) as (B1 & B2 & B3 & B4).
    split; [intros E; apply app_eq_nil in E as [E1 E2]; rewrite A1, B1 by assumption; reflexivity|].
    split; [intros K; apply first_app in K as [K|[E K]]; [rewrite (A2 K); reflexivity|rewrite (A1 E), (B2 K); apply orb_true_r]|].
    split; [intros K; apply last_app in K as [K|[E K]]; [rewrite (B3 K); reflexivity|rewrite (B1 E), (A3 K); apply orb_true_r]|].
    intros K. apply div_star_app in K as [K|[K|[K1 K2]]]; [exact (A4 K)|exact (B4 K)|]. rewrite (A3 K1), (B2 K2) in H3. discriminate.
  - apply andb_true_iff in HO as [H1 H2]. destruct (IHa H1) as (A1 & A2 & A3 & A4). split; [intros E; rewrite (A1 E); reflexivity|]. split; [intros E; rewrite (A2 E); reflexivity|].
    split; [intros E; rewrite (A3 E); reflexivity|exact A4].
  - apply andb_true_iff in HO as [H1 H2]. destruct (IHb H2) as (A1 & A2 & A3 & A4). split; [intros E; rewrite (A1 E); apply orb_true_r|]. split; [intros E; rewrite (A2 E); apply orb_true_r|].
    split; [intros E; rewrite (A3 E); apply orb_true_r|exact A4].
  - split; [reflexivity|]. split; [intros (x & r & E & _); discriminate|]. split; [intros (r & x & E & _); destruct r; discriminate|exact HN].
  - destruct (IHb HO) as (B1 & B2 & B3 & B4). apply andb_true_iff in HO as [H1 H2]. destruct (IHa H1) as (A1 & A2 & A3 & A4). split; [reflexivity|].
    split; [intros K; apply first_app in K as [K|[E K]]; [exact (A2 K)|exact (B2 K)]|].
    split; [intros K; apply last_app in K as [K|[E K]]; [exact (B3 K)|exact (A3 K)]|].
    intros K. apply div_star_app in K as [K|[K|[K1 K2]]]; [exact (A4 K)|exact (B4 K)|]. rewrite (A3 K1), (B2 K2) in H2. discriminate.
Qed.
Lemma program_div_star ts : program ts -> ~ div_star ts.
Proof. intros H. apply (adjacency _ _ H). reflexivity. Qed.

(** ** A program ends with a semicolon or a closing brace *)
Definition closed (ts : list tok) : Prop := exists r k, ts = r ++ [fixed k] /\ (k = SCOL \/ k = R_BRACE).
Lemma closed_app u v : closed v -> closed (u ++ v).
Proof. intros (r & k & -> & H). exists (u ++ r), k. rewrite app_assoc. auto. Qed.
Lemma closed_cons x v : closed v -> closed (x :: v). Proof. apply (closed_app [x]). Qed.
Lemma closed_series {A} (D : A -> list tok -> Prop) : (forall a ts, D a ts -> closed ts) -> forall l ts u, series D l ts -> closed u -> closed (u ++ ts).
Proof.
  intros HD l ts u H. revert u. induction H as [|a t l us Ha H IH]; intros u Hu; [rewrite app_nil_r; exact Hu|]. rewrite app_assoc. apply IH. apply closed_app. eapply HD; exact Ha.
Qed.
Ltac close := repeat first [apply closed_app; solve [close] | apply closed_cons; solve [close] | exists [], SCOL; split; [reflexivity|tauto] | exists [], R_BRACE; split; [reflexivity|tauto]].
Lemma extension_closed e ts : w_extension e ts -> closed ts.
Proof. intros []; close. Qed.
Lemma decls_closed ta ac ini ts : w_decls ta ac ini ts -> forall u, closed u -> closed (u ++ ts).
Proof.
  induction 1 as [|t ts ta ac ini us Ht H IH|a ts ta ac ini us Ha H IH|i ts ta ac us Hi H IH]; intros u Hu; [rewrite app_nil_r; exact Hu|..]; rewrite app_assoc; apply IH, closed_app.
  - destruct Ht; close.
  - destruct Ha; close.
  - destruct Hi; close.
Qed.
Lemma denotes_closed ts s : denotes ts s -> closed ts.
Proof.
  intros []. rewrite app_assoc. eapply decls_closed; [eassumption|]. eapply closed_series; [exact extension_closed|eassumption|]. close.
Qed.

(** ** The tokens before the cut *)
Lemma shaped_drop ts : shaped ts -> shaped (drop_layout ts).
Proof. unfold shaped, drop_layout. rewrite !Forall_forall. intros H x Hx. apply filter_In in Hx as [Hx _]. auto. Qed.
Lemma drop_app a b : drop_layout (a ++ b) = drop_layout a ++ drop_layout b. Proof. apply filter_app. Qed.
Lemma cut_visible text rest ts ts' s : tokens_of text ts -> tokens_of (text ++ rest) ts' -> denotes (drop_layout ts) s -> exists w, drop_layout ts' = drop_layout ts ++ w.
Proof.
  intros HT HT' HD. destruct (cut_tokens _ _ HT _ _ HT') as [(qs & ->)|(ps & u & qs & ls & u1 & u2 & -> & -> & Eu & N1 & N2 & HS & HL)]; [rewrite drop_app; eauto|].
  assert (E : drop_layout ls = []).
  { assert (HV : drop_layout ls = [] \/ drop_layout ls <> []) by (destruct (drop_layout ls); [left; reflexivity|right; discriminate]). destruct HV as [HV|HV]; [exact HV|].
    destruct (denotes_closed _ _ HD) as (r & k & E & Hk). rewrite drop_app in E. destruct (exists_last HV) as (v & x & Ev). rewrite Ev, app_assoc in E. apply app_inj_tail in E as [_ ->].
    assert (HI : In (fixed k) ls). { assert (HI : In (fixed k) (drop_layout ls)) by (rewrite Ev; apply in_or_app; right; left; reflexivity). apply filter_In in HI. tauto. }
    assert (HE : has_end u1).
    { rewrite (tokens_of_concat _ _ HL). destruct Hk as [-> | ->]; [left|right]; (apply in_concat; eexists; split; [apply in_map; exact HI|left; reflexivity]). }
    rewrite Eu in HS. destruct (cut_token _ _ _ _ HS N1 N2 HL HE) as [E|(b & ->)]; [exact E|]. exfalso.
    assert (HP : program (drop_layout (ps ++ Tok DIV (lit "/") :: Tok STAR (lit "*") :: b))).
    { destruct (writes_valid _ _ (ex_intro _ _ (conj HT HD))) as (ts0 & H0 & HP). rewrite (tokens_of_fun _ _ _ HT H0). exact HP. }
    apply (program_div_star _ HP). rewrite drop_app. eexists _, _, _, _. split; [reflexivity|]. split; reflexivity. }
  rewrite !drop_app, E, app_nil_r. eauto.
Qed.

(** ** Declarations can be told from their beginning *)
Definition tree_of (d : OrderSpec.decl) (c : Cst.decl) : Prop :=
  match c, d with
  | Cst.DTable t, OrderSpec.DTable t' => v_table t = t'
  | Cst.DAction a, OrderSpec.DAction a' => v_action a = Ok a'
  | Cst.DInit s ss, OrderSpec.DInit a => v_init s ss = a
  | _, _ => False
  end.
Lemma tree_fun d d' c : tree_of d c -> tree_of d' c -> d = d'.
Proof. destruct c, d; cbn; try contradiction; destruct d'; cbn; try contradiction; congruence. Qed.
Lemma decl_tree d ts : shaped ts -> w_decl d ts -> exists c, ts = y_decl c /\ wf_decl c /\ tree_of d c.
Proof.
  intros HS. destruct d as [t|a|a]; cbn [w_decl]; intros H.
  - apply (k_table _ _ HS) in H as (c & -> & E & _). exists (Cst.DTable c). split; [reflexivity|]. split; [exact I|exact E].
  - apply (k_action _ _ HS) in H as (c & -> & E & W). exists (Cst.DAction c). split; [reflexivity|]. split; [exact W|exact E].
  - apply (k_init _ _ HS) in H as ((s & ss) & -> & E & W). exists (Cst.DInit s ss). split; [reflexivity|]. split; [exact W|exact E].
Qed.
Lemma decl_code d ts r d' ts' r' : shaped ts -> shaped ts' -> w_decl d ts -> w_decl d' ts' -> ts ++ r = ts' ++ r' -> d = d' /\ ts = ts' /\ r = r'.
Proof.
  intros S S' H H' E. apply (decl_tree _ _ S) in H as (c & -> & W & V). apply (decl_tree _ _ S') in H' as (c' & -> & W' & V').
  pose proof (c_decl c r W I) as P. rewrite E, (c_decl c' r' W' I) in P. injection P as <- <-. split; [eapply tree_fun; eassumption|auto].
Qed.
Lemma ext_code d ts r d' ts' r' : shaped ts -> shaped ts' -> w_extension d ts -> w_extension d' ts' -> ts ++ r = ts' ++ r' -> d = d' /\ ts = ts' /\ r = r'.
Proof.
  intros S S' H H' E. apply (k_extension _ _ S) in H as (c & -> & V & _). apply (k_extension _ _ S') in H' as (c' & -> & V' & _).
  pose proof (c_ext c r I I) as P. rewrite E, (c_ext c' r' I I) in P. injection P as <- <-. split; [congruence|auto].
Qed.
Lemma ext_head e ts : w_extension e ts -> exists r, ts = fixed USE_ :: r. Proof. intros []; eexists; reflexivity. Qed.
Lemma decl_head d ts : shaped ts -> w_decl d ts -> exists x r, ts = x :: r /\ ty x <> USE_.
Proof.
  intros S H. apply (decl_tree _ _ S) in H as (c & -> & _). pose proof (decl_first c []) as F. rewrite app_nil_r in F.
  destruct (y_decl c) as [|x r]; [discriminate|]. exists x, r. split; [reflexivity|]. intros E. unfold la in F. cbn in F. rewrite E in F. discriminate.
Qed.
Lemma decls_begin ds' : forall ds w, Forall (fun d => w_decl (fst d) (snd d)) ds' -> Forall (fun d => w_decl (fst d) (snd d)) ds -> shaped (concat (map snd ds)) ->
  concat (map snd ds) = concat (map snd ds') ++ w -> exists ds2, ds = ds' ++ ds2.
Proof.
  induction ds' as [|[d' t'] ds' IH]; intros ds w F' F S E; [exists ds; reflexivity|]. inversion F' as [|? ? H' F1]; subst. cbn [map concat snd fst] in *.
  assert (S' : shaped t') by (rewrite E, <- app_assoc in S; apply shaped_app in S; tauto).
  destruct ds as [|[d t] ds].
  - cbn in E. symmetry in E. apply app_eq_nil in E as [E _]. apply app_eq_nil in E as [E _]. destruct (decl_head _ _ S' H') as (x & r & X & _). congruence.
  - inversion F as [|? ? H F2]; subst. cbn [map concat snd fst] in *. apply shaped_app in S as [S1 S2]. rewrite <- app_assoc in E.
    destruct (decl_code _ _ _ _ _ _ S1 S' H H' E) as (-> & -> & E2). destruct (IH ds w F1 F2 S2 E2) as (ds2 & ->). exists ds2. reflexivity.
Qed.
Lemma exts_begin xs' tx' : series w_extension xs' tx' -> forall xs tx r' r, series w_extension xs tx -> shaped (tx ++ r) ->
  (forall x q, r = x :: q -> ty x <> USE_) -> tx ++ r = tx' ++ r' ->
  exists xs2 tx2, xs = xs' ++ xs2 /\ tx = tx' ++ tx2 /\ series w_extension xs2 tx2 /\ r' = tx2 ++ r.
Proof.
  induction 1 as [|e t' xs' us' He H IH]; intros xs tx r' r HX S HR E; [exists xs, tx; auto|].
  rewrite <- app_assoc in E. assert (S' : shaped t') by (rewrite E in S; apply shaped_app in S; tauto). destruct HX as [|e2 t xs us He2 HX].
  - exfalso. destruct (ext_head _ _ He) as (q & ->). cbn in E. apply (HR _ _ E). reflexivity.
  - rewrite <- app_assoc in E, S. apply shaped_app in S as [S1 S2]. destruct (ext_code _ _ _ _ _ _ S1 S' He2 He E) as (-> & -> & E2).
    destruct (IH xs us r' r HX S2 HR E2) as (xs2 & tx2 & -> & -> & HX2 & ->). exists xs2, tx2. rewrite <- app_assoc. auto.
Qed.
Lemma decls_no_use ds : Forall (fun d => w_decl (fst d) (snd d)) ds -> shaped (concat (map snd ds)) -> forall x q, concat (map snd ds) = x :: q -> ty x <> USE_.
Proof.
  intros F S x q E. destruct F as [|[d t] ds H F]; [discriminate|]. cbn [map concat snd fst] in *. apply shaped_app in S as [S _].
  destruct (decl_head _ _ S H) as (y & r & -> & Hy). injection E as <- _. exact Hy.
Qed.
Theorem cut_arranged text rest n n' xs xs' ds ds' s : arranged n xs ds (text ++ rest) -> arranged n' xs' ds' text -> writes text s ->
  n = n' /\ exists xs2 ds2, xs = xs' ++ xs2 /\ ds = ds' ++ ds2 /\ (ds' = [] \/ xs2 = []).
Proof.
  intros (ts & tx & HT & HX & HF & E) (ts' & tx' & HT' & HX' & HF' & E') (ts0 & HT0 & HD). rewrite (tokens_of_fun _ _ _ HT0 HT') in HD.
  destruct (cut_visible _ _ _ _ _ HT' HT HD) as (w & EW). pose proof (shaped_drop _ (tokens_of_shape _ _ HT)) as S. rewrite E in EW, S. rewrite E' in EW.
  rewrite <- app_assoc in EW. apply shaped_app in S as [_ S]. injection EW as <- EW. split; [reflexivity|]. rewrite <- app_assoc in EW.
  pose proof S as S0. apply shaped_app in S0 as [_ SD]. destruct (exts_begin _ _ HX' _ _ _ _ HX S (decls_no_use _ HF SD) EW) as (xs2 & tx2 & -> & -> & HX2 & E2).
  exists xs2. destruct HX2 as [|e t xs2 us He HX2].
  - cbn [app] in E2. symmetry in E2. destruct (decls_begin ds' ds w HF' HF SD E2) as (ds2 & ->). exists ds2. split; [reflexivity|]. split; [reflexivity|right; reflexivity].
  - exists ds. destruct ds' as [|[d t'] ds']; [auto|exfalso]. inversion HF' as [|? ? H' F1]; subst. destruct (ext_head _ _ He) as (q & ->). cbn [map concat snd fst] in *.
    assert (S' : shaped t').
    { rewrite EW in S. apply shaped_app in S as [_ S]. apply shaped_app in S as [S _]. apply shaped_app in S. tauto. }
    destruct (decl_head _ _ S' H') as (x & r & -> & Hx). injection E2 as E2 _. rewrite E2 in Hx. apply Hx. reflexivity.
Qed.

(** ** Bytes: a cut within a character *)
Lemma utf8_tail r : scalar r -> exists b t, utf8 r = b :: t /\ ~ (128 <= b < 192) /\ Forall (fun c => 128 <= c < 192) t.
Proof.
  intros H. destruct (utf8_forms r H) as [L|[(q & m & -> & Hm & Hq)|[(p & q & m & -> & Hm & Hq & Hp & L & _)|(o & p & q & m & -> & Hm & Hq & Hp & L)]]].
  - rewrite utf8_1 by exact L. exists r, []. split; [reflexivity|]. split; [lia|constructor].
  - rewrite utf8_2 by assumption. eexists _, _. split; [reflexivity|]. split; [lia|repeat constructor; lia].
  - rewrite utf8_3 by assumption. eexists _, _. split; [reflexivity|]. split; [lia|repeat constructor; lia].
  - rewrite utf8_4 by (try assumption; lia). eexists _, _. split; [reflexivity|]. split; [lia|repeat constructor; lia].
Qed.
Lemma tail_junk x x' : reads x x' -> Forall (fun c => 128 <= c < 192) x -> Forall (fun c => c = 65533) x'.
Proof.
  induction 1 as [|r bs rs Hr H IH|b bs rs Hb H IH]; intros F; [constructor| |].
  - destruct (utf8_tail r Hr) as (b & t & E & N & _). rewrite E in F. inversion F. contradiction.
  - inversion F. constructor; auto.
Qed.
Lemma part_junk r x z x' : scalar r -> utf8 r = x ++ z -> z <> [] -> reads x x' -> Forall (fun c => c = 65533) x'.
Proof.
  intros Hr E Hz H. destruct H as [|r' bs rs Hr' H|b bs rs Hb H]; [constructor| |].
  - exfalso. rewrite <- app_assoc in E. pose proof (decode_utf8 r [] Hr) as D. rewrite app_nil_r, E, (decode_utf8 r' _ Hr') in D. injection D as _ D. apply app_eq_nil in D as [_ D]. contradiction.
  - destruct (utf8_tail r Hr) as (b' & t & E' & _ & F). rewrite E' in E. injection E as <- E. rewrite E in F. apply Forall_app in F as [F _]. constructor; [reflexivity|]. eapply tail_junk; eassumption.
Qed.
(** The characters before the cut stay; the bytes of a character that is cut are read as U+FFFD. *)
Lemma bytes_cut bs t : reads bs t -> forall x y x', bs = x ++ y -> reads x x' -> exists p q j, t = p ++ q /\ x' = p ++ j /\ Forall (fun c => c = 65533) j.
Proof.
  induction 1 as [|r bs rs Hr H IH|b bs rs Hb H IH]; intros x y x' E HX.
  - symmetry in E. apply app_eq_nil in E as [-> ->]. rewrite (reads_fun _ _ _ HX rd_nil). exists [], [], []. auto.
  - apply app_cut in E as [(z & E & ->)|(z & -> & ->)].
    + destruct z as [|c z].
      * rewrite app_nil_r in E. subst x. assert (H1 : reads (utf8 r) [r]) by (rewrite <- (app_nil_r (utf8 r)); apply rd_char; [exact Hr|constructor]).
        rewrite (reads_fun _ _ _ HX H1). exists [r], rs, []. auto.
      * exists [], (r :: rs), x'. split; [reflexivity|]. split; [reflexivity|]. eapply part_junk; [exact Hr|exact E|discriminate|exact HX].
    + rewrite (reads_fun _ _ _ HX (rd_char r z (runes z) Hr (runes_reads z))). destruct (IH z y _ eq_refl (runes_reads z)) as (p & q & j & -> & -> & F). exists (r :: p), q, j. auto.
  - destruct x as [|b' x].
    + rewrite (reads_fun _ _ _ HX rd_nil). exists [], (65533 :: rs), []. auto.
    + injection E as <- E. assert (Hb' : forall r t, scalar r -> b :: x <> utf8 r ++ t) by (intros r t Hr K; apply (Hb r (t ++ y) Hr); rewrite E; change (b :: x ++ y) with ((b :: x) ++ y); rewrite K, app_assoc; reflexivity).
      rewrite (reads_fun _ _ _ HX (rd_bad b x (runes x) Hb' (runes_reads x))). destruct (IH x y _ E (runes_reads x)) as (p & q & j & -> & -> & F). exists (65533 :: p), q, j. auto.
Qed.
Lemma tokens_nonempty x ts : tokens_of x ts -> forall t, In t ts -> tx t <> [].
Proof. induction 1 as [|s t r ts (_ & N & _) _ IH]; intros u H; [destruct H|destruct H as [<-|H]; auto]. Qed.
(** Such characters at the end of a program are in a line comment. *)
Lemma junk_in_comment p j ts s : Forall (fun c => c = 65533) j -> tokens_of (p ++ j) ts -> denotes (drop_layout ts) s ->
  exists p0 p1 ts0, p = p0 ++ p1 /\ tokens_of p0 ts0 /\ drop_layout ts0 = drop_layout ts.
Proof.
  intros F HT HD. assert (HJ : j = [] \/ j <> []) by (destruct j; [left; reflexivity|right; discriminate]). destruct HJ as [->|HJ]; [rewrite app_nil_r in HT; exists p, [], ts; rewrite app_nil_r; auto|].
  destruct (exists_last HJ) as (j' & c & ->). apply Forall_app in F as [F' F]. inversion F as [|? ? Hc _]; subst c. pose proof (tokens_of_concat _ _ HT) as E.
  assert (HN : ts <> []) by (intros ->; destruct p; [|discriminate E]; destruct j'; discriminate E). destruct (exists_last HN) as (ts1 & u & ->).
  rewrite map_app, concat_app in E. cbn [map concat] in E. rewrite app_nil_r in E.
  pose proof (tokens_of_shape _ _ HT) as S. apply Forall_app in S as [_ S]. inversion S as [|? ? SU _]; subst.
  assert (EU : exists v, tx u = v ++ [65533]).
  { assert (UN : tx u <> []) by (apply (tokens_nonempty _ _ HT); apply in_or_app; right; left; reflexivity). destruct (exists_last UN) as (v & c & EV). rewrite EV, !app_assoc in E. apply app_inj_tail in E as [_ <-]. eauto. }
  destruct EU as (v & EV).
  assert (LU : ty u = LINE_COMMENT \/ is_layout (ty u) = false).
  { rewrite EV in SU. destruct (ty u); try (right; reflexivity); try (left; reflexivity); exfalso; cbn in SU.
    - destruct SU as [SU|SU]; destruct v as [|a [|b v]]; discriminate.
    - destruct SU as [SU|SU]; destruct v as [|a [|b v]]; discriminate.
    - destruct SU as (b & SU & _). change (v ++ [65533] = (lit "/*" ++ b ++ lit "*/")) in SU. change (lit "*/") with ([42] ++ [47]) in SU. rewrite !app_assoc in SU. apply app_inj_tail in SU as [_ SU]. discriminate. }
  destruct LU as [LU|LU].
  - rewrite LU in SU. cbn in SU. destruct SU as (b & SU & _). apply app_cut in E as [(z & E1 & E2)|(z & E1 & E2)].
    + exists (concat (map tx ts1)), z, ts1. split; [exact E1|]. split; [eapply tokens_beginning; exact HT|]. rewrite drop_app. cbn. rewrite LU. cbn. rewrite app_nil_r. reflexivity.
    + exfalso. assert (FJ : Forall (fun c => c = 65533) (z ++ tx u)) by (rewrite <- E2; apply Forall_app; auto). rewrite SU in FJ. apply Forall_app in FJ as [_ FJ]. inversion FJ. discriminate.
  - exfalso. destruct (denotes_closed _ _ HD) as (r & k & K & Hk). rewrite drop_app in K. cbn in K. rewrite LU in K. cbn in K. apply app_inj_tail in K as [_ ->].
    destruct Hk as [-> | ->]; destruct v as [|a [|b v]]; discriminate EV.
Qed.
(** A file that was cut at any byte *)
Lemma bytes_arranged bs x y t t' n n' xs xs' ds ds' s : bs = x ++ y -> reads bs t -> reads x t' -> arranged n xs ds t -> arranged n' xs' ds' t' -> writes t' s ->
  n = n' /\ exists xs2 ds2, xs = xs' ++ xs2 /\ ds = ds' ++ ds2 /\ (ds' = [] \/ xs2 = []).
Proof.
  intros E HB HX HA (ts & tx & HT & HX' & HF & EA) (ts' & HT' & HD). rewrite (tokens_of_fun _ _ _ HT' HT) in HD. clear ts' HT'.
  destruct (bytes_cut _ _ HB _ _ _ E HX) as (p & q & j & -> & -> & FJ). destruct (junk_in_comment _ _ _ _ FJ HT HD) as (p0 & p1 & ts0 & -> & HT0 & E0).
  eapply (cut_arranged p0 (p1 ++ q)); [rewrite app_assoc; exact HA| |exists ts0; split; [exact HT0|rewrite E0; exact HD]].
  exists ts0, tx. split; [exact HT0|]. split; [exact HX'|]. split; [exact HF|]. rewrite E0. exact EA.
Qed.
(** The visible tokens can be cut anywhere. *)
Lemma drop_split ts : forall a b, drop_layout ts = a ++ b -> exists t1 t2, ts = t1 ++ t2 /\ drop_layout t1 = a /\ drop_layout t2 = b.
Proof.
  induction ts as [|t ts IH]; intros a b E.
  - cbn in E. symmetry in E. apply app_eq_nil in E as [-> ->]. exists [], []. auto.
  - cbn in E. destruct (negb (is_layout (ty t))) eqn:L.
    + destruct a as [|a0 a]; [exists [], (t :: ts); cbn; rewrite L; auto|]. injection E as <- E. destruct (IH _ _ E) as (t1 & t2 & -> & <- & <-). exists (t :: t1), t2. cbn. rewrite L. auto.
    + destruct (IH _ _ E) as (t1 & t2 & -> & <- & <-). exists (t :: t1), t2. cbn. rewrite L. auto.
Qed.
