(** How often the lexer looks at a character. *)
From Coq Require Import ZArith Lia.
From Verif Require Import Str Tokens LexSpec LexRules LexerProof LexShape Grammar Bigram AtnData Atn AtnLexer ScanSpec AtnLexerTable AtnLexerProof Work.
Local Open Scope nat_scope.

Lemma strbody_cut b : strbody b -> forall b' x, strbody b' -> b ++ (39%N :: x) = b' ++ [39%N] -> x = [].
Proof.
  induction 1 as [|c b H1 H2 H3 H4 Hb IH|c b Hb IH]; intros b' x Hb' E.
  - destruct Hb' as [|c' s' G1 G2 G3 G4 G|c' s' G]; cbn in E; [congruence| |discriminate E]. injection E as E0 _. congruence.
  - destruct Hb' as [|c' s' G1 G2 G3 G4 G|c' s' G]; cbn in E; injection E as E0 E; [congruence| |congruence]. eapply IH; eassumption.
  - destruct Hb' as [|c' s' G1 G2 G3 G4 G|c' s' G]; cbn in E; [discriminate E| |]; injection E as E0 E; [congruence|]. eapply IH; eassumption.
Qed.
Lemma prefix_of {T} (a b c d : list T) : a ++ b = c ++ d -> length a <= length c -> exists e, c = a ++ e.
Proof. intros E L. destruct (app_le a b c d E L) as (e & -> & _). eauto. Qed.

(** A word, or the beginning of one *)
Definition wordlike (s : str) : Prop := s = [] \/ ident s.
Lemma ident_prefix a b : ident (a ++ b) -> wordlike a.
Proof.
  intros (c & w & E & Hc & Hw). destruct a as [|x a]; [left; reflexivity|]. injection E as -> E. right. exists c, a. split; [reflexivity|]. split; [exact Hc|]. rewrite <- E in Hw. apply Forall_app in Hw. apply Hw.
Qed.
Lemma lower_letter c : is_letter (lower1 c) = true -> is_letter c = true.
Proof.
  unfold lower1, is_letter. destruct ((65 <=? c)%N && (c <=? 90)%N) eqn:E; [reflexivity|]. rewrite E. intros H. exact H.
Qed.
Lemma lower_letters s : forallb is_letter (lower s) = true -> forallb is_letter s = true.
Proof. unfold lower. induction s as [|c s IH]; cbn [map forallb]; [auto|]. rewrite !andb_true_iff. intros (H & Hs). split; [apply lower_letter; exact H|auto]. Qed.
Lemma letters_ident s : s <> [] -> forallb is_letter s = true -> ident s.
Proof.
  destruct s as [|c s]; [congruence|]. intros _. cbn [forallb]. rewrite andb_true_iff. intros (H & Hs). exists c, s. split; [reflexivity|]. split; [exact H|].
  rewrite forallb_forall in Hs. rewrite Forall_forall. intros x Hx. unfold is_wordch. rewrite (Hs x Hx). reflexivity.
Qed.
Lemma sqlkw_ident s : sqlkw s -> ident s.
Proof.
  intros H. apply letters_ident; [intros ->; revert H; unfold sqlkw; cbn; intuition discriminate|]. apply lower_letters. unfold sqlkw, sql_words in H. cbn [In] in H. repeat destruct H as [<-|H]; try reflexivity. destruct H.
Qed.
(** The literals are words, or of one or two characters. *)
Lemma literal_word k w : literal_of k = Some w -> ident w \/ length w <= 2.
Proof.
  intros E. assert (G : match w with c :: w' => is_letter c && forallb is_wordch w' | [] => false end || (length w <=? 2) = true) by (destruct k; try discriminate E; injection E as <-; reflexivity).
  apply orb_true_iff in G as [G|G]; [left|right; apply Nat.leb_le; exact G]. destruct w as [|c w']; [discriminate G|]. apply andb_true_iff in G as (G1 & G2). exists c, w'. split; [reflexivity|]. split; [exact G1|]. rewrite forallb_forall in G2. rewrite Forall_forall. exact G2.
Qed.

(** What can be continued to a token has, but for its last character, a token at its beginning; strings and block comments are the exceptions. *)
Lemma promise_kept v : promising v -> 2 < length v ->
  (exists u c, (v = u \/ v = u ++ [c]) /\ exists k, token_shape k u) \/ (exists b w, v ++ w = lit "'" ++ b ++ lit "'" /\ strbody b) \/ (exists x, v = lit "/*" ++ x) .
Proof.
  intros (k & w & H) L. unfold token_shape in H.
  assert (Word : forall a, ident (v ++ a) -> exists u c, (v = u \/ v = u ++ [c]) /\ exists k, token_shape k u).
  { intros a Ha. exists v, 0%N. split; [left; reflexivity|]. exists IDENTIFIER. destruct (ident_prefix _ _ Ha) as [->|G]; [cbn in L; lia|exact G]. }
  destruct (literal_of k) as [x|] eqn:El.
  - subst x. destruct (literal_word _ _ El) as [G|G]; [left; eauto|rewrite app_length in G; lia].
  - assert (Kw : forall x, In x sql_words -> lower (v ++ w) = x -> ident (v ++ w)) by (intros x Hx E; apply sqlkw_ident; unfold sqlkw; rewrite E; exact Hx).
    destruct k; try discriminate El; try (destruct H; fail).
    1-5: left; eapply Word, Kw; [|exact H]; cbn; tauto.
    + left; eapply Word; exact H.
    + destruct H as (x & E & Hx). destruct v as [|c v]; [cbn in L; lia|]. injection E as -> E. rewrite <- E in Hx. apply ident_prefix in Hx as [->|Hx]; [cbn in L; lia|]. left. exists (35%N :: v), 0%N. split; [auto|]. exists INDEX_NAME. exists v. auto.
    + destruct H as (x & E & Hx). destruct v as [|c v]; [cbn in L; lia|]. injection E as -> E. rewrite <- E in Hx. apply ident_prefix in Hx as [->|Hx]; [cbn in L; lia|]. left. exists (36%N :: v), 0%N. split; [auto|]. exists PARAM_OR_VAR. exists v. auto.
    + destruct H as (x & E & Hx). destruct v as [|c v]; [cbn in L; lia|]. injection E as -> E. rewrite <- E in Hx. apply ident_prefix in Hx as [->|Hx]; [cbn in L; lia|]. left. exists (64%N :: v), 0%N. split; [auto|]. exists BLOCK_VAR_OR_ANNOTATION. exists v. auto.
    + left. exists v, 0%N. split; [auto|]. exists UNSIGNED_NUMBER_LITERAL. destruct H as (_ & H). apply Forall_app in H. split; [destruct v; [cbn in L; lia|discriminate]|apply H].
    + right; left. destruct H as (b & E & Hb). eauto.
    + left. apply (Word w). apply sqlkw_ident. exact H.
    + left. destruct H as (kw & c & d & r & E & Hk & Hc & Hr).
      destruct (Nat.le_gt_cases (length v) (length kw)) as [L1|L1].
      * destruct (prefix_of v w kw _ E L1) as (e & ->). apply (Word e). apply sqlkw_ident. exact Hk.
      * destruct (app_le kw (c :: d :: r) v w (eq_sym E) ltac:(lia)) as (e & -> & E'). destruct e as [|c' e]; [rewrite app_nil_r in L1; lia|]. injection E' as <- E'.
        destruct e as [|d' e]; [exists kw, c; split; [auto|]; exists IDENTIFIER; apply sqlkw_ident; exact Hk|]. injection E' as <- E'. exists (kw ++ c :: d :: e), 0%N. split; [auto|]. exists SQL_STMT. exists kw, c, d, e. split; [reflexivity|]. split; [exact Hk|]. split; [exact Hc|]. change (d :: r) with ([d] ++ r) in Hr. rewrite E' in Hr. rewrite app_assoc in Hr. apply Forall_app in Hr. apply Hr.
    + destruct H as [H|H]; apply (f_equal (@length _)) in H; rewrite app_length in H; cbn in H; lia.
    + destruct H as [H|H]; apply (f_equal (@length _)) in H; rewrite app_length in H; cbn in H; lia.
    + right; right. destruct H as (b & E & _). destruct v as [|c1 [|c2 v]]; [cbn in L; lia|cbn in L; lia|]. injection E as -> -> _. exists v. reflexivity.
    + destruct H as (b & E & Hb). destruct v as [|c1 [|c2 v]]; [cbn in L; lia|cbn in L; lia|]. injection E as -> -> E. left. exists (47%N :: 47%N :: v), 0%N. split; [auto|]. exists LINE_COMMENT. exists v. split; [reflexivity|]. rewrite <- E in Hb. apply Forall_app in Hb. apply Hb.
Qed.

Lemma quote_shape k u : token_shape k (39%N :: u) -> exists b, 39%N :: u = lit "'" ++ b ++ lit "'" /\ strbody b.
Proof.
  intros H. unfold token_shape in H. destruct (literal_of k) as [x|] eqn:El; [exfalso; subst x; destruct k; discriminate El|].
  assert (Kw : sqlkw (39%N :: u) -> False) by (intros G; apply sqlkw_ident in G as (c & w & E & Hc & _); injection E as <- _; discriminate Hc).
  destruct k; try discriminate El; try (destruct H; fail).
  1-5: exfalso; apply Kw; unfold sqlkw; rewrite H; cbn; tauto.
  - destruct H as (c & w & E & Hc & _). injection E as <- _. discriminate Hc.
  - destruct H as (w & E & _). discriminate E.
  - destruct H as (w & E & _). discriminate E.
  - destruct H as (w & E & _). discriminate E.
  - destruct H as (_ & H). inversion H as [|x l Hx]. discriminate Hx.
  - exact H.
  - destruct (Kw H).
  - destruct H as (kw & c & d & r & E & Hk & _). destruct kw as [|x kw]; [destruct (sqlkw_ident _ Hk) as (? & ? & G & _); discriminate G|]. injection E as <- _. apply sqlkw_ident in Hk as (x & w & G & Hx & _). injection G as <- _. discriminate Hx.
  - destruct H; discriminate.
  - destruct H; discriminate.
  - destruct H as (w & E & _). discriminate E.
  - destruct H as (w & E & _). discriminate E.
Qed.
Lemma slash_shape k u : token_shape k (47%N :: u) -> u = [] \/ (exists u', u = 47%N :: u') \/ exists b, 47%N :: u = lit "/*" ++ b ++ lit "*/" /\ (forall x y, b ++ lit "*/" = x ++ lit "*/" ++ y -> y = []).
Proof.
  intros H. unfold token_shape in H. destruct (literal_of k) as [x|] eqn:El; [left; subst x; destruct k; try discriminate El; injection El as <-; reflexivity|].
  assert (Kw : sqlkw (47%N :: u) -> False) by (intros G; apply sqlkw_ident in G as (c & w & E & Hc & _); injection E as <- _; discriminate Hc).
  destruct k; try discriminate El; try (destruct H; fail).
  1-5: exfalso; apply Kw; unfold sqlkw; rewrite H; cbn; tauto.
  - destruct H as (c & w & E & Hc & _). injection E as <- _. discriminate Hc.
  - destruct H as (w & E & _). discriminate E.
  - destruct H as (w & E & _). discriminate E.
  - destruct H as (w & E & _). discriminate E.
  - destruct H as (_ & H). inversion H as [|x l Hx]. discriminate Hx.
  - destruct H as (w & E & _). discriminate E.
  - destruct (Kw H).
  - destruct H as (kw & c & d & r & E & Hk & _). destruct kw as [|x kw]; [destruct (sqlkw_ident _ Hk) as (? & ? & G & _); discriminate G|]. injection E as <- _. apply sqlkw_ident in Hk as (x & w & G & Hx & _). injection G as <- _. discriminate Hx.
  - destruct H; discriminate.
  - destruct H; discriminate.
  - right; right. exact H.
  - destruct H as (w & E & _). injection E as ->. right; left. eauto.
Qed.
(** A token is given up at most one character too late, unless it is a slash before a star. *)
Definition slash_star (t : tok) (rest : str) : Prop := tx t = lit "/" /\ exists r, rest = 42%N :: r.
Lemma overshoot s t rest v r : first_token s t rest -> s = v ++ r -> promising v -> length v <= length (tx t) + 1 \/ slash_star t rest.
Proof.
  intros (Es & Hne & Hsh & Hmax & _) Ev Hp. destruct (Nat.le_gt_cases (length v) 2) as [L|L]; [left; destruct (tx t); [congruence|cbn; lia]|].
  destruct (Nat.le_gt_cases (length v) (length (tx t))) as [L0|L0]; [left; lia|].
  destruct (app_le (tx t) rest v r ltac:(congruence) ltac:(lia)) as (e & Ee & Er).
  destruct (promise_kept v Hp L) as [(u & c & Hu & k & Hk)|[(b & w & Eb & Hb)|(x & ->)]].
  - left. destruct Hu as [->| ->]; [apply (Hmax k u r Ev) in Hk; lia|]. rewrite <- app_assoc in Ev. apply (Hmax k u _ Ev) in Hk. rewrite app_length. cbn. lia.
  - exfalso. destruct (tx t) as [|c0 u] eqn:Et; [congruence|]. rewrite Ee in Eb. injection Eb as -> Eb. destruct (quote_shape _ _ Hsh) as (b' & E' & Hb'). injection E' as ->.
    rewrite <- !app_assoc in Eb. cbn in Eb. pose proof (strbody_cut b' Hb' b _ Hb Eb) as N. apply app_eq_nil in N as (-> & _). rewrite app_nil_r in Ee. subst v. lia.
  - destruct (tx t) as [|c0 u] eqn:Et; [congruence|]. injection Ee as <- Ee. destruct (slash_shape _ _ Hsh) as [->|[(u' & ->)|(b & E & Hb)]]; [|discriminate Ee|].
    + right. split; [exact Et|]. cbn in Ee. subst e. rewrite Er. cbn. eauto.
    + exfalso. injection E as ->. cbn in Ee. injection Ee as Ee. destruct Hp as (k & w & Hk). destruct (slash_shape _ _ Hk) as [G|[(u' & G)|(b' & E' & Hb')]]; [discriminate G|discriminate G|].
      injection E' as E'. rewrite Ee in E'. change (((b ++ [42%N; 47%N]) ++ e) ++ w = b' ++ [42%N; 47%N]) in E'. rewrite <- !app_assoc in E'. specialize (Hb' b (e ++ w) (eq_sym E')). apply app_eq_nil in Hb' as (-> & _).
      rewrite app_nil_r in Ee. subst x. cbn in L0. lia.
Qed.

(** *** All tokens *)
(** [looked s n]: scanning [s] to its end looks at a character [n] times. *)
Definition given_up (v r : str) : Prop := promising v /\ match r with [] => True | c :: _ => ~ promising (v ++ [c]) end.
Inductive looked : str -> nat -> Prop :=
| lk_end : looked [] 1
| lk_token t rest v r n : first_token (v ++ r) t rest -> given_up v r -> looked rest n -> looked (v ++ r) (length v + 1 + n)
| lk_error v r n : v ++ r <> [] -> (forall k u x, v ++ r = u ++ x -> ~ token_shape k u) -> given_up v r -> looked (tl r) n -> looked (v ++ r) (length v + 1 + n).
Lemma skipn_exact {T} (a b : list T) : skipn (length a) (a ++ b) = b.
Proof. rewrite skipn_app, Nat.sub_diag, skipn_all. reflexivity. Qed.
Lemma skipn_past {T} (a b : list T) : skipn (S (length a)) (a ++ b) = tl b.
Proof. rewrite skipn_app. replace (S (length a) - length a) with 1 by lia. rewrite skipn_all2 by lia. destruct b; reflexivity. Qed.
Lemma reads_looked fuel : forall s, length s <= fuel -> code_points s -> exists n, reads_fuel lexer_atn fuel init0 s = Some n /\ looked s n.
Proof.
  induction fuel as [|f IH]; intros s Hlen Hcp.
  - destruct s; [|cbn in Hlen; lia]. exists 1. split; [reflexivity|constructor].
  - destruct s as [|c s]; [exists 1; split; [reflexivity|constructor]|]. cbn [reads_fuel].
    remember (c :: s) as z eqn:Ez. assert (Hz : z <> []) by (subst; discriminate).
    destruct (exec_init z Hcp) as (m & v' & rest' & Es & Hm & Hp & Hnp & [(v & r & k & acts & Hs & Hf & Hmax & Heq & Hch)|[Hno Heq]]); rewrite Heq.
    + assert (Hv : v <> []) by exact (shape_nonempty k v (proj1 Hf)). assert (Er : skipn (length v) z = r) by (rewrite Hs; apply skipn_exact).
      assert (Hl : length r <= f) by (rewrite Hs, app_length in Hlen; destruct v; [congruence|cbn in Hlen; lia]).
      destruct (IH r Hl) as (n & En & Hn); [rewrite <- Er; apply code_points_skipn; exact Hcp|]. rewrite Er, En. eexists. split; [reflexivity|].
      rewrite Es, Hm. replace (S (length v') + n) with (length v' + 1 + n) by lia. apply (lk_token (Tok k v) r); [|split; assumption|exact Hn].
      rewrite <- Es. unfold first_token; cbn [ty tx]. split; [exact Hs|]. split; [exact Hv|]. split; [apply Hf|]. split; [|apply Hf]. exact Hmax.
    + assert (Er : skipn (S m) z = tl rest') by (rewrite Es, Hm; apply skipn_past).
      destruct (IH (tl rest')) as (n & En & Hn); [rewrite <- Er, skipn_length; lia|rewrite <- Er; apply code_points_skipn; exact Hcp|]. rewrite Er, En. eexists. split; [reflexivity|].
      rewrite Es, Hm. replace (S (length v') + n) with (length v' + 1 + n) by lia. rewrite Es in Hz, Hno. apply lk_error; [exact Hz|exact Hno|split; assumption|exact Hn].
Qed.
Lemma lexer_looked s : code_points s -> exists n, lexer_reads s = Some n /\ looked s n.
Proof. intros H. destruct (reads_looked (length s) s ltac:(lia) H) as (n & E & Hn). exists n. split; [exact E|exact Hn]. Qed.

(** At most half the square *)
Lemma looked_quadratic s n : looked s n -> 2 * n <= (length s + 1) * (length s + 2).
Proof.
  induction 1 as [|t rest v r n Ht Hg H IH|v r n Hz Hno Hg H IH]; [cbn; lia| |].
  - destruct Ht as (E & Hne & _). apply (f_equal (@length _)) in E. rewrite !app_length in *. assert (0 < length (tx t)) by (destruct (tx t); [congruence|cbn; lia]). nia.
  - destruct r as [|c r]; cbn [tl] in *.
    + rewrite app_nil_r in *. cbn [length] in *. assert (0 < length v) by (destruct v; [congruence|cbn; lia]). nia.
    + rewrite app_length in *. cbn [length] in *. nia.
Qed.
(** Where no slash comes before a star, at most three times its length *)
Lemma looked_linear (Q : str -> Prop) : (forall s t rest, Q s -> first_token s t rest -> ~ slash_star t rest /\ Q rest) ->
  (forall v r, Q (v ++ r) -> (forall k u x, v ++ r = u ++ x -> ~ token_shape k u) -> v ++ r <> [] -> Q (tl r)) ->
  forall s n, looked s n -> Q s -> n <= 3 * length s + 1.
Proof.
  intros HT HE. induction 1 as [|t rest v r n Ht Hg H IH|v r n Hz Hno Hg H IH]; intros HQ; [cbn; lia| |].
  - destruct (HT _ _ _ HQ Ht) as (Hss & HQ'). specialize (IH HQ'). destruct (overshoot _ _ _ v r Ht eq_refl (proj1 Hg)) as [G|G]; [|destruct (Hss G)].
    destruct Ht as (E & Hne & _). apply (f_equal (@length _)) in E. rewrite !app_length in *. assert (0 < length (tx t)) by (destruct (tx t); [congruence|cbn; lia]). lia.
  - specialize (IH (HE _ _ HQ Hno Hz)). destruct r as [|c r]; cbn [tl] in *.
    + rewrite app_nil_r in *. cbn [length] in *. assert (0 < length v) by (destruct v; [congruence|cbn; lia]). lia.
    + rewrite app_length in *. cbn [length] in *. lia.
Qed.

(** Every comment that is opened is closed. *)
Definition closing (s : str) : Prop := forall a b, s = a ++ lit "/*" ++ b -> occurs (lit "*/") b.
Lemma first_close r : occurs (lit "*/") r -> exists b y, r = b ++ lit "*/" ++ y /\ forall x y, b ++ lit "*/" = x ++ lit "*/" ++ y -> y = [].
Proof.
  induction r as [|c r IH]; intros (x & z & E); [destruct x; discriminate E|].
  destruct (list_eq_dec N.eq_dec (firstn 2 (c :: r)) (lit "*/")) as [D|D].
  - exists [], (skipn 2 (c :: r)). split; [rewrite <- (firstn_skipn 2 (c :: r)) at 1; rewrite D; reflexivity|]. intros x' y' E'. apply (f_equal (@length _)) in E'. rewrite !app_length in E'. destruct y'; [reflexivity|cbn in E'; lia].
  - destruct x as [|c' x]; [exfalso; apply D; rewrite E; reflexivity|]. injection E as <- E. destruct IH as (b & y & -> & Hb); [exists x, z; exact E|]. exists (c :: b), y. split; [reflexivity|].
    intros x' y' E'. destruct x' as [|c' x']; [|injection E' as <- E'; exact (Hb _ _ E')]. exfalso. apply D. cbn in E'. injection E' as -> E'. destruct b as [|d b]; [discriminate E'|]. injection E' as -> _. reflexivity.
Qed.
Lemma closing_linear s n : looked s n -> closing s -> n <= 3 * length s + 1.
Proof.
  apply looked_linear.
  - intros z t rest HQ (E & Hne & Hsh & Hmax & _). split.
    + intros (Et & r & Er). rewrite Et, Er in E. destruct (HQ [] r E) as (x & y & Ex).
      destruct (first_close r) as (b & y' & Eb & Hb); [exists x, y; exact Ex|]. specialize (Hmax BLOCK_COMMENT (lit "/*" ++ b ++ lit "*/") y'). rewrite E, Eb, <- !app_assoc in Hmax. specialize (Hmax eq_refl). cbn [token_shape literal_of] in Hmax.
      assert (G : length (lit "/*" ++ b ++ lit "*/") <= length (tx t)) by (apply Hmax; exists b; auto). rewrite Et, !app_length in G. cbn in G. lia.
    + intros a b Ea. apply (HQ (tx t ++ a) b). rewrite E, Ea, <- app_assoc. reflexivity.
  - intros v r HQ _ _ a b Ea. destruct r as [|c r]; [destruct a; discriminate Ea|]. cbn in Ea. apply (HQ (v ++ c :: a) b). rewrite Ea, <- app_assoc. reflexivity.
Qed.
(** No division is directly followed by a star in a program. *)
Lemma no_div_star ts x y : program ts -> adjacent ts x y -> ty x = DIV -> ty y = STAR -> False.
Proof.
  intros Hp Ha Ex Ey. pose proof (f_prs _ _ (kinds_fit _ _ Hp) _ _ Ha) as G. rewrite Ex, Ey in G. apply pmem_in in G. revert G. vm_compute. discriminate.
Qed.
Lemma star_shape k u : token_shape k (42%N :: u) -> k = STAR.
Proof.
  intros H. unfold token_shape in H. destruct (literal_of k) as [x|] eqn:El; [subst x; destruct k; try discriminate El; reflexivity|].
  assert (Kw : sqlkw (42%N :: u) -> False) by (intros G; apply sqlkw_ident in G as (c & w & E & Hc & _); injection E as <- _; discriminate Hc).
  destruct k; try discriminate El; try (destruct H; fail); exfalso.
  1-5: apply Kw; unfold sqlkw; rewrite H; cbn; tauto.
  - destruct H as (c & w & E & Hc & _). injection E as <- _. discriminate Hc.
  - destruct H as (w & E & _). discriminate E.
  - destruct H as (w & E & _). discriminate E.
  - destruct H as (w & E & _). discriminate E.
  - destruct H as (_ & H). inversion H as [|x l Hx]. discriminate Hx.
  - destruct H as (w & E & _). discriminate E.
  - destruct (Kw H).
  - destruct H as (kw & c & d & r & E & Hk & _). destruct kw as [|x kw]; [destruct (sqlkw_ident _ Hk) as (? & ? & G & _); discriminate G|]. injection E as <- _. apply sqlkw_ident in Hk as (x & w & G & Hx & _). injection G as <- _. discriminate Hx.
  - destruct H; discriminate.
  - destruct H; discriminate.
  - destruct H as (w & E & _). discriminate E.
  - destruct H as (w & E & _). discriminate E.
Qed.
Lemma div_shape t : token_shape (ty t) (tx t) -> prio t -> tx t = lit "/" -> ty t = DIV.
Proof.
  intros H Hp E. rewrite E in H. unfold token_shape in H. destruct (literal_of (ty t)) as [x|] eqn:El; [subst x; destruct (ty t); try discriminate El; reflexivity|].
  exfalso. assert (K : token_shape (ty t) (lit "/")) by (unfold token_shape; rewrite El; exact H). clear H Hp E.
  destruct (ty t); try discriminate El; unfold token_shape, literal_of in K; try (destruct K; fail); try discriminate K.
  - destruct K as (c & w & E & Hc & _). injection E as <- _. discriminate Hc.
  - destruct K as (w & E & _). discriminate E.
  - destruct K as (w & E & _). discriminate E.
  - destruct K as (w & E & _). discriminate E.
  - destruct K as (_ & H). inversion H as [|x l Hx]. discriminate Hx.
  - destruct K as (w & E & _). discriminate E.
  - apply sqlkw_ident in K as (x & w & G & Hx & _). injection G as <- _. discriminate Hx.
  - destruct K as (kw & c & d & r & E & Hk & _). apply (f_equal (@length _)) in E. rewrite app_length in E. cbn in E. lia.
  - destruct K; discriminate.
  - destruct K; discriminate.
  - destruct K as (w & E & _). discriminate E.
  - destruct K as (w & E & _). discriminate E.
Qed.
Lemma program_linear s n ts : looked s n -> tokens_of s ts -> program (drop_layout ts) -> n <= 3 * length s + 1.
Proof.
  intros Hl Ht Hp. apply (looked_linear (fun z => exists us, tokens_of z us /\ forall x y, adjacent us x y -> ty x = DIV -> ty y = STAR -> False)) with (n := n); [| |exact Hl|].
  - clear. intros z t rest (us & Hus & Hn) Hf. destruct Hus as [|z' t' rest' us' Hf' Hus]; [destruct Hf as (E & Hne & _); destruct (tx t); [congruence|discriminate E]|].
    destruct (first_token_fun _ _ _ _ _ Hf Hf') as (<- & <-). split.
    + intros (Et & r & ->). inversion Hus as [|z2 t2 rest2 us2 Hf2 Hus2]; subst. apply (Hn t t2); [exists [], us2; reflexivity|apply div_shape; [apply Hf|intros k; apply Hf|exact Et]|].
      destruct Hf2 as (E2 & Hne2 & Hsh2 & _). destruct (tx t2) as [|c u]; [congruence|]. injection E2 as <- _. eapply star_shape; exact Hsh2.
    + exists us'. split; [exact Hus|]. intros x y (a & b & ->). apply Hn. exists (t :: a), b. reflexivity.
  - clear. intros v r (us & Hus & _) Hno Hz. exfalso. inversion Hus as [E|z t rest us' (E & _ & Hsh & _) _ E2]; subst; [congruence|]. exact (Hno _ _ _ E Hsh).
  - exists ts. split; [exact Ht|]. intros x y (a & b & ->) Ex Ey. apply (no_div_star _ x y Hp); [|exact Ex|exact Ey]. unfold drop_layout. rewrite filter_app. cbn [filter]. rewrite Ex, Ey. cbn. eexists _, _. reflexivity.
Qed.

(** *** Comments that are opened and never closed *)
Fixpoint openers (k : nat) : str := match k with O => [] | S k => lit "/* " ++ openers k end.
Lemma openers_len k : length (openers k) = 3 * k.
Proof. induction k as [|k IH]; [reflexivity|]. cbn [openers]. rewrite app_length, IH. cbn. lia. Qed.
Lemma openers_points k : code_points (openers k).
Proof. induction k as [|k IH]; [constructor|]. cbn. repeat constructor; try (intros E; discriminate E). exact IH. Qed.
Lemma openers_open k : forall x y, openers k <> x ++ lit "*/" ++ y.
Proof.
  induction k as [|k IH]; intros x y E; [destruct x; discriminate E|]. destruct x as [|a [|b [|c x]]]; cbn in E; try discriminate E. injection E as _ _ _ E. exact (IH _ _ E).
Qed.
Lemma openers_close k : forall x y, openers k ++ lit "*/" = x ++ lit "*/" ++ y -> y = [].
Proof.
  induction k as [|k IH]; intros x y E; [apply (f_equal (@length _)) in E; rewrite !app_length in E; destruct y; [reflexivity|cbn in E; lia]|].
  destruct x as [|a [|b [|c x]]]; cbn in E; try discriminate E. injection E as _ _ _ E. exact (IH _ _ E).
Qed.
Lemma openers_promise k : promising (openers (S k)).
Proof.
  exists BLOCK_COMMENT, (lit "*/"). exists (32%N :: openers k). split; [reflexivity|]. intros x y E. destruct x as [|a x]; [discriminate E|]. injection E as _ E. exact (openers_close _ _ _ E).
Qed.
Lemma all_of v r : promising (v ++ r) -> given_up v r -> r = [].
Proof.
  intros H (_ & G). destruct r as [|c r]; [reflexivity|]. exfalso. apply G. apply (promising_prefix _ r). rewrite <- app_assoc. exact H.
Qed.
Lemma one_token c s n : (exists k, token_shape k [c]) -> (forall k u w, c :: s = c :: u ++ w -> token_shape k (c :: u) -> u = []) -> looked (c :: s) n ->
  exists m v r, looked s m /\ c :: s = v ++ r /\ given_up v r /\ n = length v + 1 + m.
Proof.
  intros (k & Hk) Hone H. inversion H as [|t rest v r m Ht Hg Hm E En|v r m Hz Hno Hg Hm E En].
  - rewrite E in Ht. destruct Ht as (Es & Hne & Hsh & _). destruct (tx t) as [|d u]; [congruence|]. injection Es as <- Es. assert (u = []) by (apply (Hone (ty t) u rest); [rewrite Es; reflexivity|exact Hsh]). subst u. cbn in Es. subst rest. exists m, v, r. auto.
  - exfalso. rewrite E in Hno. exact (Hno k [c] s eq_refl Hk).
Qed.
Lemma blank_shape k u : token_shape k (32%N :: u) -> u = [].
Proof.
  intros H. unfold token_shape in H. destruct (literal_of k) as [x|] eqn:El; [subst x; destruct k; discriminate El|].
  assert (Kw : sqlkw (32%N :: u) -> False) by (intros G; apply sqlkw_ident in G as (c & w & E & Hc & _); injection E as <- _; discriminate Hc).
  destruct k; try discriminate El; try (destruct H; fail).
  1-5: exfalso; apply Kw; unfold sqlkw; rewrite H; cbn; tauto.
  - destruct H as (c & w & E & Hc & _). injection E as <- _. discriminate Hc.
  - destruct H as (w & E & _). discriminate E.
  - destruct H as (w & E & _). discriminate E.
  - destruct H as (w & E & _). discriminate E.
  - destruct H as (_ & H). inversion H as [|x l Hx]. discriminate Hx.
  - destruct H as (w & E & _). discriminate E.
  - destruct (Kw H).
  - destruct H as (kw & c & d & r & E & Hk & _). destruct kw as [|x kw]; [destruct (sqlkw_ident _ Hk) as (? & ? & G & _); discriminate G|]. injection E as <- _. apply sqlkw_ident in Hk as (x & w & G & Hx & _). injection G as <- _. discriminate Hx.
  - destruct H as [H|H]; [discriminate H|]. injection H as ->. reflexivity.
  - destruct H; discriminate.
  - destruct H as (w & E & _). discriminate E.
  - destruct H as (w & E & _). discriminate E.
Qed.
Lemma openers_step k n : looked (openers (S k)) n -> exists m, looked (openers k) m /\ 3 * k + 4 + m <= n.
Proof.
  intros H. pose proof (openers_promise k) as Hp. destruct (one_token 47%N (42%N :: 32%N :: openers k) n) as (m1 & v & r & H1 & E1 & Hg & ->).
  - exists DIV. reflexivity.
  - intros j u w E Hj. destruct (slash_shape _ _ Hj) as [->|[(u' & ->)|(b & Eb & _)]]; [reflexivity|discriminate E|]. exfalso. injection E as E. injection Eb as ->.
    apply (openers_open (S k) (47%N :: 42%N :: b) w). cbn [openers]. change (lit "/* " ++ openers k) with (47%N :: 42%N :: 32%N :: openers k). rewrite E. cbn. rewrite <- app_assoc. reflexivity.
  - exact H.
  - change (47%N :: 42%N :: 32%N :: openers k) with (openers (S k)) in E1. rewrite E1 in Hp. rewrite (all_of _ _ Hp Hg), app_nil_r in E1.
    destruct (one_token 42%N (32%N :: openers k) m1) as (m2 & v2 & r2 & H2 & _ & _ & ->); [exists STAR; reflexivity| |exact H1|].
    { intros j u w _ Hj. pose proof (star_shape _ _ Hj) as ->. injection Hj as ->. reflexivity. }
    destruct (one_token 32%N (openers k) m2) as (m3 & v3 & r3 & H3 & _ & _ & ->); [exists WS; right; reflexivity| |exact H2|].
    { intros j u w _ Hj. exact (blank_shape _ _ Hj). }
    exists m3. split; [exact H3|]. rewrite <- E1, openers_len. lia.
Qed.
Lemma openers_many k : forall n, looked (openers k) n -> 3 * k * k <= 2 * n.
Proof.
  induction k as [|k IH]; intros n H; [lia|]. destruct (openers_step k n H) as (m & Hm & L). specialize (IH m Hm). nia.
Qed.
