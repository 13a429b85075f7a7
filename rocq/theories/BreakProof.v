(** Line ends: what a text with the one kind of line ends writes, the text with the other kind writes. *)
From Verif Require Import Tokens LexSpec LexShape LexerProof Segments LayoutSpec Spacing Grammar Bigram LayoutProof Schema Denote DenoteProof PrintSpec PrintProof ParseSpec BreakSpec.
Local Open Scope N_scope.

(** * Characters *)
Lemma crlf_app a b : crlf (a ++ b) = crlf a ++ crlf b.
Proof. induction a as [|c a IH]; [reflexivity|]. cbn [app crlf]. rewrite IH. destruct (c =? 10); reflexivity. Qed.
Lemma crlf_id t : ~ In 10 t -> crlf t = t.
Proof. induction t as [|c t IH]; intros H; [reflexivity|]. cbn. destruct (N.eqb_spec c 10) as [->|Hc]; [destruct H; left; reflexivity|]. rewrite IH; [reflexivity|]. intros I. apply H. right; exact I. Qed.
Lemma lf_id t : ~ In 10 t -> lf t = t.
Proof.
  induction t as [|c t IH]; intros H; [reflexivity|]. cbn. rewrite IH by (intros I; apply H; right; exact I).
  destruct t as [|d t]; [rewrite andb_false_r; reflexivity|]. destruct (N.eqb_spec d 10) as [->|Hd]; [destruct H; right; left; reflexivity|]. rewrite andb_false_r. reflexivity.
Qed.
Lemma lf_crlf t : lf (crlf t) = t.
Proof.
  induction t as [|c t IH]; [reflexivity|]. cbn [crlf]. destruct (N.eqb_spec c 10) as [->|Hc].
  - change (lf (13 :: 10 :: crlf t)) with (lf (10 :: crlf t)). cbn [lf]. change (10 =? 13) with false. cbn [andb]. rewrite IH. reflexivity.
  - cbn [lf]. rewrite IH. destruct (c =? 13) eqn:E; [|reflexivity]. cbn [andb]. destruct t as [|d t]; [reflexivity|]. cbn [crlf]. destruct (N.eqb_spec d 10) as [->|Hd]; [reflexivity|].
    rewrite (proj2 (N.eqb_neq d 10) Hd). reflexivity.
Qed.
Lemma crlf_inj a b : crlf a = crlf b -> a = b. Proof. intros H. rewrite <- (lf_crlf a), H. apply lf_crlf. Qed.
Lemma crlf_no10 t : ~ In 10 (crlf t) -> crlf t = t.
Proof. intros H. apply crlf_id. intros I. apply H. apply in_split in I as (x & y & ->). rewrite crlf_app. apply in_or_app. right. cbn. tauto. Qed.
Lemma crlf_head c r s : crlf s = c :: r -> exists c0 r0, s = c0 :: r0 /\ (c = c0 \/ c = 13 /\ c0 = 10).
Proof. destruct s as [|c0 r0]; [discriminate|]. cbn. destruct (N.eqb_spec c0 10) as [->|Hc]; intros E; injection E as <- _; eauto 6. Qed.
Lemma head_crlf c r : exists c' r', crlf (c :: r) = c' :: r' /\ (c' = c \/ c' = 13 /\ c = 10).
Proof. cbn. destruct (N.eqb_spec c 10) as [->|Hc]; eauto 6. Qed.
(** In such a text an LF stands behind a CR. *)
Lemma crlf_lf t a b : crlf t = a ++ 10 :: b -> exists a', a = a' ++ [13].
Proof.
  revert a. induction t as [|c t IH]; intros a E; [destruct a; discriminate|]. cbn in E. destruct (N.eqb_spec c 10) as [->|Hc].
  - destruct a as [|x [|y a]]; cbn in E; injection E; intros.
    + discriminate.
    + subst. exists []. reflexivity.
    + subst. destruct (IH a H) as (a' & ->). exists (13 :: 10 :: a'). reflexivity.
  - destruct a as [|x a]; cbn in E; injection E; intros; [congruence|]. subst. destruct (IH a H) as (a' & ->). exists (x :: a'). reflexivity.
Qed.
(** A prefix of it ends in front of, behind or in the middle of a line end. *)
Lemma crlf_split a : forall t b, crlf t = a ++ b ->
  (exists a' b', t = a' ++ b' /\ a = crlf a' /\ b = crlf b') \/ (exists a' b', t = a' ++ 10 :: b' /\ a = crlf a' ++ [13] /\ b = 10 :: crlf b').
Proof.
  intros t. revert a. induction t as [|c t IH]; intros a b E; [destruct a; [left; exists [], []; cbn in *; subst; auto|discriminate]|].
  destruct a as [|x a]; [left; exists [], (c :: t); cbn [app] in *; subst; auto|]. cbn in E. destruct (N.eqb_spec c 10) as [->|Hc].
  - destruct a as [|y a]; cbn in E; injection E; intros; subst.
    + right. exists [], t. auto.
    + destruct (IH _ _ H) as [(a' & b' & -> & -> & ->)|(a' & b' & -> & -> & ->)]; [left|right]; exists (10 :: a'), b'; auto.
  - cbn in E. injection E as -> E. destruct (IH _ _ E) as [(a' & b' & -> & -> & ->)|(a' & b' & -> & -> & ->)]; [left|right]; exists (x :: a'), b'; cbn; rewrite (proj2 (N.eqb_neq x 10) Hc); auto.
Qed.
Lemma crlf_split_at t a x b : x <> 13 -> crlf t = (a ++ [x]) ++ b -> exists a' b', t = a' ++ b' /\ a ++ [x] = crlf a' /\ b = crlf b'.
Proof.
  intros Hx E. destruct (crlf_split _ _ _ E) as [H|(a' & b' & _ & E' & _)]; [exact H|]. apply app_inj_tail in E' as [_ E']. congruence.
Qed.
Lemma ext_break k : extends k 13 = extends k 10. Proof. destruct k; reflexivity. Qed.
Lemma occurs_crlf p t : ~ In 10 p -> ~ In 13 p -> occurs p (crlf t) <-> occurs p t.
Proof.
  intros H10 H13. split.
  - intros (a & b & E). destruct p as [|x p] using rev_ind; [exists [], t; reflexivity|]. clear IHp.
    replace (a ++ (p ++ [x]) ++ b) with (((a ++ p) ++ [x]) ++ b) in E by (rewrite <- !app_assoc; reflexivity).
    assert (Hx : x <> 13) by (intros ->; apply H13, in_or_app; right; left; reflexivity).
    destruct (crlf_split_at t (a ++ p) x b Hx E) as (u & v & -> & Eu & _). rewrite <- app_assoc in Eu.
    destruct (crlf_split a u (p ++ [x])) as [(u1 & u2 & -> & _ & E2)|(u1 & u2 & _ & _ & E2)]; [symmetry; exact Eu| |].
    + exists u1, v. rewrite <- app_assoc. f_equal. rewrite E2, crlf_no10; [reflexivity|]. rewrite <- E2. exact H10.
    + exfalso. apply H10. rewrite E2. left; reflexivity.
  - intros (a & b & ->). exists (crlf a), (crlf b). rewrite !crlf_app, (crlf_id p H10). reflexivity.
Qed.

(** * Tokens *)
Lemma plain_word w : ident w -> ~ In 10 w /\ ~ In 13 w.
Proof. intros H. split; intros I; apply (ident_no_ws _ _ H) in I; discriminate. Qed.
Lemma digits_plain u : Forall (fun x => is_digit x = true) u -> ~ In 10 u /\ ~ In 13 u.
Proof. rewrite Forall_forall. intros H. split; intros I; apply H in I; discriminate. Qed.
(** Only SQL statements, strings and layout have line breaks. *)
Lemma shape_breaks k u : token_shape k u -> is_layout k = false -> k = SQL_STMT \/ k = STRING_LITERAL \/ (~ In 10 u /\ ~ In 13 u).
Proof.
  intros H HL. apply shape_group in H. destruct H as [_ H|_ H|kk c d r Hk|s w Hs -> H|_ _ H|b Hk|c Hk|b Hk|b Hk|H]; auto; try (right; right).
  - apply plain_word; exact H.
  - apply plain_word, sql_word_ident; exact H.
  - destruct (plain_word _ H) as [h1 h2]. cbn in Hs. destruct Hs as [E|[E|[E|[]]]]; injection E as _ <-; split; intros [E'|I]; try discriminate; contradiction.
  - apply digits_plain; exact H.
  - destruct Hk as [-> | ->]; discriminate.
  - subst; discriminate.
  - subst; discriminate.
  - assert (Q : forallb (fun p => forallb (fun c => negb (c =? 10) && negb (c =? 13)) (snd p)) ops = true) by (vm_compute; reflexivity).
    rewrite forallb_forall in Q. specialize (Q _ H). cbn [snd] in Q. rewrite forallb_forall in Q. split; intros I; apply Q in I; discriminate.
Qed.
(** A string ends with its quote, and has an LF only behind a backslash. *)
Lemma strbody_lf b x y : strbody b -> b = x ++ 10 :: y -> exists x', x = x' ++ [92].
Proof.
  intros H. revert x. induction H as [|c s h1 h2 h3 h4 H IH|c s H IH]; intros x E; [destruct x; discriminate| |].
  - destruct x as [|d x]; cbn in E; [injection E as -> _; congruence|]. injection E as <- E. destruct (IH x E) as (x' & ->). exists (c :: x'). reflexivity.
  - destruct x as [|d [|e x]]; cbn in E; [discriminate|injection E as <- _; exists []; reflexivity|]. injection E as <- -> E. destruct (IH x E) as (x' & ->). exists (92 :: e :: x'). reflexivity.
Qed.
Lemma string_crlf s t : token_shape STRING_LITERAL s -> s = crlf t -> ~ In 10 s.
Proof.
  intros (b & -> & Hb) E I. change (lit "'") with [39] in *. apply in_split in I as (x & y & Ex). destruct (crlf_lf t x y) as (x' & ->); [congruence|].
  destruct x' as [|q x']; [discriminate|]. cbn [app] in Ex. injection Ex as <- Ex.
  destruct y as [|e y] using rev_ind; [apply app_inj_tail in Ex as [_ Ex]; discriminate|]. clear IHy.
  replace ((x' ++ [13]) ++ 10 :: y ++ [e]) with (((x' ++ [13]) ++ 10 :: y) ++ [e]) in Ex by (rewrite <- !app_assoc; reflexivity).
  apply app_inj_tail in Ex as [Ex _]. destruct (strbody_lf _ _ _ Hb Ex) as (z & Ez). apply app_inj_tail in Ez as [_ Ez]. discriminate.
Qed.
Lemma string_end s : token_shape STRING_LITERAL s -> exists a, s = a ++ [39].
Proof. intros (b & -> & _). exists (lit "'" ++ b). rewrite <- app_assoc. reflexivity. Qed.

(** Changing the texts of SQL statements. *)
Definition chg (g : str -> str) (t : tok) : tok := if tt_eqb (ty t) SQL_STMT then Tok (ty t) (g (tx t)) else t.
Lemma chg_ty g t : ty (chg g t) = ty t. Proof. unfold chg. destruct (tt_eqb (ty t) SQL_STMT); reflexivity. Qed.
Lemma chg_sql g t : ty t = SQL_STMT -> chg g t = Tok SQL_STMT (g (tx t)). Proof. unfold chg. intros ->. reflexivity. Qed.
Lemma chg_other g t : ty t <> SQL_STMT -> chg g t = t. Proof. unfold chg. intros H. destruct (tt_eqb (ty t) SQL_STMT) eqn:E; [apply tt_eqb_eq in E; contradiction|reflexivity]. Qed.
Lemma tt_sql_dec k : {k = SQL_STMT} + {k <> SQL_STMT}. Proof. apply tt_eq_dec. Qed.
(** Tokens whose text stays: without a line break, or SQL. *)
Definition calm (t : tok) : Prop := ty t = SQL_STMT \/ ~ In 10 (tx t).
Lemma calm_chg t : calm t -> tx (chg crlf t) = crlf (tx t).
Proof.
  intros H. destruct (tt_sql_dec (ty t)) as [E|E]; [rewrite (chg_sql _ _ E); reflexivity|]. rewrite (chg_other _ _ E). destruct H as [H|H]; [contradiction|]. rewrite crlf_id; auto.
Qed.

(** * LF to CR LF *)
Lemma layout_crlf vs s : laid_out vs s -> Forall calm vs -> laid_out (map (chg crlf) vs) (crlf s).
Proof.
  induction 1 as [|t vs s H IH Hc|c vs s Hc H IH|b vs s Hb H IH|b vs s Hb Hn H IH]; intros HF.
  - constructor.
  - inversion HF as [|? ? Ht HF']; subst. cbn [map]. rewrite crlf_app, <- (calm_chg t Ht). apply lo_tok; [apply IH; exact HF'|]. intros c r E. rewrite chg_ty.
    apply crlf_head in E as (c0 & r0 & -> & [-> |[-> ->]]); [eapply Hc; reflexivity|]. rewrite ext_break. eapply Hc; reflexivity.
  - cbn [crlf]. destruct (N.eqb_spec c 10) as [->|N].
    + apply lo_blank; [reflexivity|]. apply lo_blank; [reflexivity|]. apply IH; exact HF.
    + apply lo_blank; [exact Hc|]. apply IH; exact HF.
  - rewrite !crlf_app. change (crlf (lit "/*")) with (lit "/*"). change (crlf (lit "*/")) with (lit "*/"). apply lo_block; [|apply IH; exact HF].
    change (lit "*") with (crlf (lit "*")). rewrite <- crlf_app. rewrite occurs_crlf; [exact Hb|cbn; intros [E|[E|[]]]; discriminate..].
  - rewrite !crlf_app. change (crlf (lit "//")) with (lit "//"). rewrite (crlf_id b).
    + apply lo_line; [exact Hb| |apply IH; exact HF]. intros c r E. apply crlf_head in E as (c0 & r0 & -> & [-> |[-> _]]); [eapply Hn; reflexivity|reflexivity].
    + rewrite Forall_forall in Hb. intros I. apply Hb in I. discriminate.
Qed.

(** * CR LF to LF *)
(** SQL statements of more than a word and a line end. *)
Definition full (t : tok) : Prop := ty t = SQL_STMT -> forall k, sqlkw k -> tx t <> k ++ [13; 10].
Lemma lf_nonempty c r : lf (c :: r) <> [].
Proof. destruct (lf (c :: r)) eqn:E; [|discriminate]. exfalso. revert c E. induction r as [|d r IH]; intros c; cbn [lf]; [rewrite andb_false_r; discriminate|]. destruct ((c =? 13) && (d =? 10)); [apply IH|discriminate]. Qed.
Lemma lf_incl x t : In x (lf t) -> In x t.
Proof.
  induction t as [|c t IH]; [auto|]. cbn [lf]. destruct ((c =? 13) && match t with d :: _ => d =? 10 | [] => false end); intros I; [right; auto|]. destruct I as [->|I]; [left; reflexivity|right; auto].
Qed.
Lemma lf_app_plain a b : ~ In 13 a -> lf (a ++ b) = a ++ lf b.
Proof.
  induction a as [|c a IH]; intros H; [reflexivity|]. cbn [app lf]. destruct (N.eqb_spec c 13) as [->|Hc]; [destruct H; left; reflexivity|]. cbn [andb]. rewrite IH; [reflexivity|]. intros I. apply H; right; exact I.
Qed.
Lemma sql_lf s x : token_shape SQL_STMT s -> (forall k, sqlkw k -> s <> k ++ [13; 10]) -> s = crlf x -> token_shape SQL_STMT (lf s).
Proof.
  intros (k & c & d & r & -> & Hk & Hc & HF) HN E. pose proof (sql_word_ident _ Hk) as Hi. destruct (plain_word _ Hi) as [h10 h13].
  rewrite (lf_app_plain _ _ h13). pose proof HF as HF0. rewrite Forall_forall in HF.
  assert (HL : forall l, incl l (d :: r) -> Forall (fun x => x <> 59 /\ x <> 125) (lf l)) by (intros l Hl; apply Forall_forall; intros y Hy; apply HF, Hl, lf_incl; exact Hy).
  assert (Hsh : forall c' l, is_wsnl c' = true -> l <> [] -> Forall (fun x => x <> 59 /\ x <> 125) l -> token_shape SQL_STMT (k ++ c' :: l)).
  { intros c' l h1 h2 h3. destruct l as [|y l]; [congruence|]. exists k, c', y, l. auto. }
  destruct (N.eqb_spec c 13) as [->|H13].
  - destruct (N.eqb_spec d 10) as [->|H10].
    + change (lf (13 :: 10 :: r)) with (lf (10 :: r)). cbn [lf]. change (10 =? 13) with false. cbn [andb]. apply Hsh; [reflexivity| |apply HL; intros y Hy; right; exact Hy].
      destruct r as [|e r]; [destruct (HN k Hk eq_refl)|apply lf_nonempty].
    + cbn [lf]. rewrite (proj2 (N.eqb_neq d 10) H10). change (13 =? 13) with true. cbn [andb]. apply (Hsh 13 (lf (d :: r))); [reflexivity|apply lf_nonempty|apply HL, incl_refl].
  - assert (Ec : lf (c :: d :: r) = c :: lf (d :: r)) by (cbn [lf]; rewrite (proj2 (N.eqb_neq c 13) H13); reflexivity). rewrite Ec. apply Hsh; [exact Hc|apply lf_nonempty|apply HL, incl_refl].
Qed.
Lemma full_chg vs : Forall full vs -> lexed vs -> (forall t, In t vs -> ty t = SQL_STMT -> exists x, tx t = crlf x) -> lexed (map (chg lf) vs).
Proof.
  intros HF HL HX. unfold lexed. apply Forall_forall. intros u Hu. apply in_map_iff in Hu as (t & <- & Ht). rewrite Forall_forall in HF. unfold lexed in HL. rewrite Forall_forall in HL. destruct (HL _ Ht) as [Hs Hp].
  destruct (tt_sql_dec (ty t)) as [E|E]; [|rewrite (chg_other _ _ E); auto]. rewrite (chg_sql _ _ E). destruct (HX _ Ht E) as (x & Ex). rewrite E in Hs.
  apply sql_tok_good. eapply sql_lf; [exact Hs|apply HF; assumption|exact Ex].
Qed.
Lemma layout_lf vs u : laid_out vs u -> lexed vs -> Forall (fun t => is_layout (ty t) = false) vs ->
  ((forall s, u = crlf s -> laid_out (map (chg lf) vs) s) /\ (forall s, u = 10 :: crlf s -> laid_out (map (chg lf) vs) (10 :: s))) /\
  ((exists s, u = crlf s \/ u = 10 :: crlf s) -> forall t, In t vs -> exists x, tx t = crlf x).
Proof.
  induction 1 as [|t vs s H IH Hc|c vs s Hc H IH|b vs s Hb H IH|b vs s Hb Hn H IH]; intros HL HV.
  - split; [split|].
    + intros [|c s] E; [constructor|]. cbn in E. destruct (c =? 10); discriminate.
    + discriminate.
    + intros _ t [].
  - inversion HL as [|? ? [Hs Hp] HL']; subst. inversion HV as [|? ? Hv HV']; subst. destruct (IH HL' HV') as [[IH1 IH2] IH3]. clear IH.
    assert (K : forall w, tx t ++ s = crlf w -> exists x y, w = x ++ y /\ tx t = crlf x /\ s = crlf y).
    { intros w E. symmetry in E. destruct (crlf_split _ _ _ E) as [Q|(x & y & _ & E1 & E2)]; [exact Q|exfalso].
      destruct (shape_breaks _ _ Hs Hv) as [Hk|[Hk|[_ H13]]].
      - specialize (Hc _ _ E2). rewrite Hk in Hc. discriminate.
      - rewrite Hk in Hs. destruct (string_end _ Hs) as (a & Ea). rewrite Ea in E1. apply app_inj_tail in E1 as [_ E1]. discriminate.
      - apply H13. rewrite E1. apply in_or_app; right; left; reflexivity. }
    assert (Z : forall w, tx t ++ s = 10 :: crlf w -> False).
    { intros w E. destruct (tx t) as [|c w'] eqn:Et; [destruct (shape_nonempty _ _ Hs eq_refl)|]. cbn in E. injection E as -> _.
      destruct (group_head _ _ (shape_group _ _ Hs)) as (a & w2 & Ea & Ha). injection Ea as <- _. cbn in Ha. destruct Ha as [Ha|Ha]; rewrite Ha in Hv; discriminate. }
    assert (X : forall w, tx t ++ s = crlf w -> laid_out (map (chg lf) (t :: vs)) w).
    { intros w E. destruct (K w E) as (x & y & -> & Ex & Ey). cbn [map]. assert (Et : tx (chg lf t) = x).
      { destruct (tt_sql_dec (ty t)) as [Hk|Hk]; [rewrite (chg_sql _ _ Hk); cbn [tx]; rewrite Ex; apply lf_crlf|]. rewrite (chg_other _ _ Hk). rewrite Ex. apply crlf_no10. rewrite <- Ex.
        destruct (shape_breaks _ _ Hs Hv) as [Hk'|[Hk'|[H10 _]]]; [contradiction| |exact H10]. rewrite Hk' in Hs. eapply string_crlf; eassumption. }
      rewrite <- Et. apply lo_tok; [apply IH1; exact Ey|]. intros c r Er. rewrite chg_ty. subst y. destruct (head_crlf c r) as (c' & r' & Eh & Hh). rewrite Eh in Ey. specialize (Hc _ _ Ey).
      destruct Hh as [->|[-> ->]]; [exact Hc|]. rewrite <- ext_break. exact Hc. }
    split; [split; [exact X|]|].
    + intros w E. destruct (Z w E).
    + intros (w & [E|E]); [|destruct (Z w E)]. destruct (K w E) as (x & y & -> & Ex & Ey). intros t0 [<-|Ht0]; [exists x; exact Ex|]. apply IH3; [exists y; left; exact Ey|exact Ht0].
  - destruct (IH HL HV) as [[IH1 IH2] IH3]. clear IH. 
    assert (A : forall w, c :: s = crlf w -> laid_out (map (chg lf) vs) w /\ exists y, s = crlf y \/ s = 10 :: crlf y).
    { intros [|a w] E; [discriminate|]. cbn in E. destruct (N.eqb_spec a 10) as [->|N]; injection E as -> E.
      - split; [apply IH2; exact E|exists w; right; exact E].
      - split; [apply lo_blank; [exact Hc|apply IH1; exact E]|exists w; left; exact E]. }
    split; [split|].
    + intros w E. apply A; exact E.
    + intros w E. injection E as -> E. apply lo_blank; [reflexivity|apply IH1; exact E].
    + intros (w & [E|E]); apply IH3; [apply (A w E)|]. injection E as _ E. exists w. left; exact E.
  - destruct (IH HL HV) as [[IH1 IH2] IH3]. clear IH.
    assert (A : forall w, lit "/*" ++ b ++ lit "*/" ++ s = crlf w -> laid_out (map (chg lf) vs) w /\ exists y, s = crlf y).
    { intros w E. symmetry in E. replace (lit "/*" ++ b ++ lit "*/" ++ s) with (((lit "/*" ++ b ++ [42]) ++ [47]) ++ s) in E by (rewrite <- !app_assoc; reflexivity).
      apply crlf_split_at in E as (x & y & -> & Ex & ->); [|discriminate]. rewrite <- !app_assoc in Ex. symmetry in Ex.
      change (lit "/*" ++ b ++ [42] ++ [47]) with ((lit "/" ++ [42]) ++ (b ++ lit "*/")) in Ex.
      apply crlf_split_at in Ex as (x1 & x2 & -> & E1 & E2); [|discriminate].
      assert (E1' : x1 = lit "/*") by (apply crlf_inj; symmetry; exact E1). subst x1. symmetry in E2.
      assert (exists b', b = crlf b' /\ x2 = b' ++ lit "*/") as (b' & -> & ->).
      { destruct (crlf_split _ _ _ E2) as [(p & q & -> & -> & Eq)|(p & q & _ & _ & Eq)]; [|discriminate]. exists p. split; [reflexivity|]. f_equal. apply crlf_inj. symmetry. exact Eq. }
      split; [|exists y; reflexivity]. rewrite <- !app_assoc. apply lo_block; [|apply IH1; reflexivity].
      change (lit "*") with (crlf (lit "*")) in Hb. rewrite <- crlf_app, occurs_crlf in Hb; [exact Hb|cbn; intros [E|[E|[]]]; discriminate..]. }
    split; [split|].
    + intros w E. apply A; exact E.
    + intros w E. discriminate E.
    + intros (w & [E|E]); [|discriminate E]. apply IH3. destruct (A w E) as (_ & y & Ey). exists y; left; exact Ey.
  - destruct (IH HL HV) as [[IH1 IH2] IH3]. clear IH.
    assert (Hb' : ~ In 10 (lit "//" ++ b) /\ ~ In 13 (lit "//" ++ b)).
    { rewrite Forall_forall in Hb. split; intros I; (apply in_app_or in I as [I|I]; [cbn in I; destruct I as [I|[I|[]]]; discriminate|apply Hb in I; discriminate]). }
    assert (A : forall w, lit "//" ++ b ++ s = crlf w -> laid_out (map (chg lf) vs) w /\ exists y, s = crlf y).
    { intros w E. symmetry in E. rewrite app_assoc in E. destruct (crlf_split _ _ _ E) as [(x & y & -> & Ex & ->)|(x & y & _ & Ex & _)].
      - assert (x = lit "//" ++ b) as -> by (apply crlf_inj; rewrite <- Ex; symmetry; apply crlf_id; apply Hb'). split; [|exists y; reflexivity]. rewrite <- app_assoc. apply lo_line; [exact Hb| |apply IH1; reflexivity].
        intros c r ->. destruct (head_crlf c r) as (c' & r' & Eh & Hh). specialize (Hn _ _ Eh). destruct Hh as [->|[-> ->]]; [exact Hn|reflexivity].
      - exfalso. apply (proj2 Hb'). rewrite Ex. apply in_or_app; right; left; reflexivity. }
    split; [split|].
    + intros w E. apply A; exact E.
    + intros w E. discriminate E.
    + intros (w & [E|E]); [|discriminate E]. apply IH3. destruct (A w E) as (_ & y & Ey). exists y; left; exact Ey.
Qed.
Lemma sql_crlf s : token_shape SQL_STMT s -> token_shape SQL_STMT (crlf s).
Proof.
  intros (k & c & d & r & -> & Hk & Hc & HF). pose proof (sql_word_ident _ Hk) as Hi. destruct (plain_word _ Hi) as [h10 _].
  rewrite crlf_app, (crlf_id _ h10). rewrite Forall_forall in HF.
  assert (HI : forall l x, In x (crlf l) -> x = 13 \/ In x l).
  { induction l as [|a l IH]; [auto|]. intros x. cbn. destruct (N.eqb_spec a 10) as [->|N].
    - intros [<-|[<-|I]]; [left; reflexivity|right; left; reflexivity|]. destruct (IH _ I); auto.
    - intros [<-|I]; [right; left; reflexivity|]. destruct (IH _ I); auto. }
  assert (HL : forall l, incl l (d :: r) -> Forall (fun x => x <> 59 /\ x <> 125) (crlf l)).
  { intros l Hl. apply Forall_forall. intros y Hy. destruct (HI _ _ Hy) as [->|I]; [split; discriminate|apply HF, Hl; exact I]. }
  assert (HN : exists y q, crlf (d :: r) = y :: q) by (cbn; destruct (d =? 10); eauto). destruct HN as (y & q & Ey).
  pose proof (HL _ (incl_refl _)) as HQ. rewrite Ey in HQ.
  assert (Ec : crlf (c :: d :: r) = if c =? 10 then 13 :: 10 :: y :: q else c :: y :: q) by (rewrite <- Ey; reflexivity). rewrite Ec. destruct (N.eqb_spec c 10) as [->|N].
  - exists k, 13, 10, (y :: q). split; [reflexivity|]. split; [exact Hk|]. split; [reflexivity|]. constructor; [split; discriminate|exact HQ].
  - exists k, c, y, q. auto.
Qed.
Lemma lexed_crlf vs : lexed vs -> lexed (map (chg crlf) vs).
Proof.
  intros HL. unfold lexed. apply Forall_forall. intros u Hu. apply in_map_iff in Hu as (t & <- & Ht). unfold lexed in HL. rewrite Forall_forall in HL. destruct (HL _ Ht) as [Hs Hp].
  destruct (tt_sql_dec (ty t)) as [E|E]; [|rewrite (chg_other _ _ E); auto]. rewrite (chg_sql _ _ E). rewrite E in Hs. apply sql_tok_good, sql_crlf. exact Hs.
Qed.

(** * What the tokens say *)
Definition nosql (ts : list tok) : Prop := Forall (fun t => ty t <> SQL_STMT) ts.
Lemma nosql_app a b : nosql a -> nosql b -> nosql (a ++ b). Proof. intros H1 H2. apply Forall_app; auto. Qed.
Ltac ns := unfold nosql in *; repeat (first [assumption | apply Forall_nil | apply Forall_app; split | apply Forall_cons; [cbn [ty fixed]; first [discriminate | intuition congruence]|]]).
Lemma nosql_chg g ts : nosql ts -> map (chg g) ts = ts.
Proof. induction 1 as [|t ts H HF IH]; [reflexivity|]. cbn. rewrite (chg_other _ _ H), IH. reflexivity. Qed.
Lemma fits_nosql i ts : fits i ts -> forallb (fun t => negb (tt_eqb t SQL_STMT)) (i_fst i) = true -> forallb (fun p => negb (tt_eqb (snd p) SQL_STMT)) (i_prs i) = true -> nosql ts.
Proof.
  intros HF H1 H2. apply Forall_forall. intros t Ht E. rewrite forallb_forall in H1, H2. apply in_split in Ht as (a & b & ->). destruct a as [|x a] using rev_ind.
  - pose proof (H1 _ (f_fst _ _ HF _ _ eq_refl)) as Q. rewrite E in Q. discriminate.
  - clear IHa. assert (HA : adjacent ((a ++ [x]) ++ t :: b) x t) by (exists a, b; rewrite <- app_assoc; reflexivity).
    pose proof (H2 _ (f_prs _ _ HF _ _ HA)) as Q. cbn [snd] in Q. rewrite E in Q. discriminate.
Qed.
Lemma call_nosql ts : derives (R call_stmt) ts -> nosql ts.
Proof. intros H. eapply fits_nosql; [exact (kinds_fit _ _ H)|vm_compute; reflexivity..]. Qed.
Lemma annotation_nosql ts : derives (R annotation_decl) ts -> nosql ts.
Proof. intros H. eapply fits_nosql; [exact (kinds_fit _ _ H)|vm_compute; reflexivity..]. Qed.
Lemma nosql_series {A} (D : A -> list tok -> Prop) l ts : (forall a ts, D a ts -> nosql ts) -> series D l ts -> nosql ts.
Proof. intros HD. induction 1 as [|a u l us H HS IH]; [constructor|apply nosql_app; eauto]. Qed.
Lemma nosql_listed {A} (D : A -> list tok -> Prop) l ts : (forall a ts, D a ts -> nosql ts) -> listed D l ts -> nosql ts.
Proof. intros HD. induction 1 as [a u H|a u l us H HS IH]; [eauto|]. apply nosql_app; [eauto|]. ns. Qed.
Lemma nosql_name a ts : w_name a ts -> nosql ts. Proof. unfold w_name. intros ->. ns. Qed.
Lemma nosql_value a ts : w_value a ts -> nosql ts. Proof. intros [-> | ->]; ns. Qed.
Lemma nosql_attribute a ts : w_attribute a ts -> nosql ts.
Proof. intros H. destruct H as [| | |v ts H| | | |]; unfold in_parens; try (apply nosql_value in H); ns. Qed.
Lemma nosql_column a ts : w_column a ts -> nosql ts.
Proof. intros [n k t l s u Ht Hl _]. apply (nosql_series _ _ _ nosql_attribute) in Hl. destruct Ht; ns. Qed.
Lemma nosql_index a ts : w_index a ts -> nosql ts.
Proof. intros [n k t l u Ht Hl]. apply (nosql_listed _ _ _ nosql_name) in Hl. destruct Ht; ns. Qed.
Lemma nosql_fkaction a ts : w_fkaction a ts -> nosql ts.
Proof. intros [on do t o u Ht Ho Hu]. destruct Ht, Ho as [-> | ->], Hu; ns. Qed.
Lemma nosql_fkey a ts : w_fkey a ts -> nosql ts.
Proof.
  intros [k r ch tc t pa tp acts sacts ta Hk Hr Hc Hp Ha _]. apply (nosql_listed _ _ _ nosql_name) in Hc, Hp. apply (nosql_series _ _ _ nosql_fkaction) in Ha.
  unfold in_parens. destruct Hk as [-> | ->], Hr as [-> | ->]; ns.
Qed.
Lemma nosql_members is fs ts : w_members is fs ts -> nosql ts.
Proof. induction 1 as [|i t is fs u H HM IH|i t is fs u H HM IH]; [constructor|apply nosql_index in H|apply nosql_fkey in H]; ns. Qed.
Lemma nosql_table a ts : w_table a ts -> nosql ts.
Proof. intros [n cs tc is sis fs sfs tm o Hc Hm _ _ Ho]. apply (nosql_listed _ _ _ nosql_column) in Hc. apply nosql_members in Hm. destruct Ho as [-> | ->]; ns. Qed.
Lemma nosql_extension a ts : w_extension a ts -> nosql ts.
Proof.
  intros [n b|n l t b Hl]; [ns|]. apply (nosql_listed w_config) in Hl; [ns|]. intros x u [m v w Hw]. apply nosql_value in Hw. ns.
Qed.
Lemma nosql_params l ts : w_params l ts -> nosql ts.
Proof.
  assert (P : forall l ts, listed w_param l ts -> nosql ts) by (intros l0 ts0; apply nosql_listed; intros x u ->; ns).
  intros [|l0 ts0 H|l0 ts0 H]; [constructor|eauto|]. apply P in H. ns.
Qed.
Lemma nosql_annots l ts : series w_annotation l ts -> nosql ts.
Proof. apply nosql_series. intros a u [H _]. apply annotation_nosql; exact H. Qed.

Section Edit.
  Variable g : str -> str.
  Hypothesis g_plain : forall u, ~ In 10 u -> g u = u.
  Hypothesis g_end : forall u, g (u ++ lit ";") = g u ++ lit ";".
  Let G := map (chg g).
  Lemma stmt_chg st ts : w_stmt st ts -> Forall calm ts -> w_stmt (g st) (G ts).
  Proof.
    intros [s|us H] HF.
    - rewrite g_end. cbn. constructor.
    - pose proof (call_nosql _ H) as HN. unfold G. rewrite (nosql_chg g _ HN). rewrite g_plain; [constructor; exact H|].
      unfold chars. intros I. apply in_concat in I as (x & Hx & I). apply in_map_iff in Hx as (t & <- & Ht). unfold nosql in HN. rewrite Forall_forall in HF, HN.
      destruct (HF _ Ht) as [E|E]; [exact (HN _ Ht E)|contradiction].
  Qed.
  Lemma series_chg {A} (D : A -> list tok -> Prop) (f : A -> A) l ts : (forall a ts, D a ts -> Forall calm ts -> D (f a) (G ts)) -> series D l ts -> Forall calm ts -> series D (map f l) (G ts).
  Proof.
    intros HD. induction 1 as [|a u l us H HS IH]; intros HF; [constructor|]. apply Forall_app in HF as [H1 H2]. unfold G in *. rewrite map_app. cbn. constructor; auto.
  Qed.
  Lemma body_chg l ts : w_body l ts -> Forall calm ts -> w_body (map g l) (G ts).
  Proof. intros [Hn H] HF. split; [destruct l; [congruence|discriminate]|]. apply series_chg; [exact stmt_chg|exact H|exact HF]. Qed.
  Lemma action_chg a ts : w_action a ts -> Forall calm ts -> w_action (edit_action g a) (G ts).
  Proof.
    intros [n anns sanns tn ins sins ti l pub mut aux body tb Ha Hsa Hi Hsi Hl H1 H2 H3 H4 H5 Hb] HF.
    pose proof (nosql_annots _ _ Ha) as N1. pose proof (nosql_params _ _ Hi) as N2.
    assert (N3 : nosql (map fixed l)). { destruct Hl as [HW _]. revert HW. clear. induction 1 as [|x l H HW IH]; [constructor|]. constructor; [|exact IH]. cbn. cbn in H. intros ->. intuition discriminate. }
    unfold edit_action. cbn [ac_name ac_annots ac_inputs ac_public ac_mut ac_aux ac_stmts option_map]. unfold G. rewrite !map_app, (nosql_chg _ _ N1), (nosql_chg _ _ N2), (nosql_chg _ _ N3).
    cbn [map]. econstructor; try eassumption. apply body_chg; [exact Hb|]. rewrite !Forall_app in HF. tauto.
  Qed.
  Lemma init_chg a ts : w_init a ts -> Forall calm ts -> w_init (edit_action g a) (G ts).
  Proof.
    intros [body tb Hb] HF. unfold edit_action. cbn [ac_name ac_annots ac_inputs ac_public ac_mut ac_aux ac_stmts option_map]. unfold G. rewrite !map_app. cbn [map].
    constructor. apply body_chg; [exact Hb|]. rewrite !Forall_app in HF. tauto.
  Qed.
  Lemma decls_chg ta ac ini ts : w_decls ta ac ini ts -> Forall calm ts -> w_decls ta (map (edit_action g) ac) (map (edit_action g) ini) (G ts).
  Proof.
    induction 1 as [|t u ta ac ini us H HD IH|a u ta ac ini us H HD IH|i u ta ac us H HD IH]; intros HF; [constructor|..]; apply Forall_app in HF as [F1 F2]; specialize (IH F2); unfold G in *; rewrite map_app; cbn [map].
    - rewrite (nosql_chg _ _ (nosql_table _ _ H)). constructor; assumption.
    - constructor; [apply action_chg; assumption|exact IH].
    - constructor; [apply init_chg; assumption|exact IH].
  Qed.
  Lemma slice_map {A} (f : A -> A) l s : slice_of l s -> slice_of (map f l) (option_map (map f) s).
  Proof. intros [[-> ->]|[H ->]]; [left; auto|right]. split; [destruct l; [congruence|discriminate]|reflexivity]. Qed.
  Theorem denotes_chg ts s : denotes ts s -> Forall calm ts -> denotes (G ts) (edit_statements g s).
  Proof.
    intros [n xs sxs tx ta sta ac ini sac td Hx Hsx Hd Hst Hsa] HF. unfold edit_statements. cbn [sc_owner sc_name sc_tables sc_actions sc_exts]. unfold G.
    rewrite !map_app, (nosql_chg _ tx) by (eapply nosql_series; [exact nosql_extension|exact Hx]). cbn [map]. econstructor; [exact Hx|exact Hsx| |exact Hst|].
    - apply decls_chg; [exact Hd|]. rewrite !Forall_app in HF. tauto.
    - rewrite <- map_app. apply slice_map; exact Hsa.
  Qed.
End Edit.

(** Programs stay programs: the grammar looks at kinds only. *)
Lemma derives_chg g e ts : derives e ts -> derives e (map (chg g) ts).
Proof. induction 1; cbn; rewrite ?map_app; try (constructor; assumption). constructor. rewrite chg_ty. assumption. Qed.

Lemma edit_id s : edit_statements (fun x => x) s = s.
Proof.
  destruct s as [o n t a x]. unfold edit_statements. cbn. f_equal. destruct a as [a|]; [|reflexivity]. cbn. f_equal. rewrite <- map_id. apply map_ext. intros [n0 an i p m ax st]. unfold edit_action. cbn. f_equal.
  destruct st as [st|]; [|reflexivity]. cbn. rewrite map_id. reflexivity.
Qed.
Lemma edit_twice f g s : edit_statements g (edit_statements f s) = edit_statements (fun x => g (f x)) s.
Proof.
  destruct s as [o n t a x]. unfold edit_statements. cbn. f_equal. destruct a as [a|]; [|reflexivity]. cbn. f_equal. rewrite map_map. apply map_ext. intros [n0 an i p m ax st]. unfold edit_action. cbn. f_equal.
  destruct st as [st|]; [|reflexivity]. cbn. rewrite map_map. reflexivity.
Qed.
