(** The tokens of a text that is cut off. *)
From Verif Require Import Str LexSpec LexShape LexerProof Grammar Denote JsonCut.
Local Open Scope N_scope.

Lemma first_fun s t r t' r' : first_token s t r -> first_token s t' r' -> t = t' /\ r = r'.
Proof.
  intros H H'. apply next_token_spec in H as [H E], H' as [H' E']. rewrite H in H'. injection H' as Hk Hl.
  assert (Ht : tx t = tx t') by (rewrite <- (firstn_app_l (tx t) r), <- E, E', Hl; apply firstn_app_l).
  split; [destruct t, t'; cbn in *; congruence|]. rewrite E, Ht in E'. apply app_inv_head in E'. exact E'.
Qed.
Lemma first_shorter t r y : first_token ((tx t ++ r) ++ y) t (r ++ y) -> first_token (tx t ++ r) t r.
Proof.
  intros (E & HN & HS & HL & HP). split; [reflexivity|]. split; [exact HN|]. split; [exact HS|]. split; [|exact HP].
  intros k u r' Eu Hk. eapply (HL k u (r' ++ y)); [|exact Hk]. rewrite Eu, app_assoc. reflexivity.
Qed.
(** The tokens before the cut stay; a token that is cut is read anew. *)
Lemma cut_tokens x ts' : tokens_of x ts' -> forall y ts, tokens_of (x ++ y) ts ->
  (exists qs, ts = ts' ++ qs) \/
  (exists ps u qs ls u1 u2, ts = ps ++ u :: qs /\ ts' = ps ++ ls /\ tx u = u1 ++ u2 /\ u1 <> [] /\ u2 <> [] /\ token_shape (ty u) (tx u) /\ tokens_of u1 ls).
Proof.
  induction 1 as [|x t' r' ts' HF HT IH]; intros y ts H; [left; exists ts; reflexivity|].
  inversion H as [E0 E1|s t r ts2 HF2 HT2 E1 E2].
  - symmetry in E0. apply app_eq_nil in E0 as [-> _]. destruct HF as (E & HN & _). symmetry in E. apply app_eq_nil in E as [E _]. congruence.
  - subst s ts. pose proof HF2 as (E & _ & HS & _). symmetry in E. pose proof E as E'. apply app_cut in E as [(z & Et & Ey)|(z & Ex & Er)].
    + destruct z as [|c z].
      * rewrite app_nil_r in Et. cbn [app] in Ey. subst y x.
        assert (HF3 : first_token (tx t) t []). { rewrite <- (app_nil_r (tx t)) at 1. apply (first_shorter t [] r). rewrite app_nil_r. exact HF2. }
        destruct (first_fun _ _ _ _ _ HF HF3) as [-> ->]. destruct (IH r ts2 HT2) as [(qs & ->)|(ps & u & qs & ls & u1 & u2 & -> & -> & B)]; [left; exists qs; reflexivity|].
        right. exists (t :: ps), u, qs, ls, u1, u2. split; [reflexivity|]. split; [reflexivity|exact B].
      * right. exists [], t, ts2, (t' :: ts'), x, (c :: z). split; [reflexivity|]. split; [reflexivity|]. split; [exact Et|]. split; [|split; [discriminate|split; [exact HS|econstructor; eassumption]]].
        destruct HF as (E1 & HN & _). intros ->. symmetry in E1. apply app_eq_nil in E1 as [E1 _]. congruence.
    + subst x r. assert (HF3 : first_token (tx t ++ z) t z) by (apply (first_shorter t z y); exact HF2).
      destruct (first_fun _ _ _ _ _ HF HF3) as [-> ->]. destruct (IH y ts2 HT2) as [(qs & ->)|(ps & u & qs & ls & u1 & u2 & -> & -> & B)]; [left; exists qs; reflexivity|].
      right. exists (t :: ps), u, qs, ls, u1, u2. split; [reflexivity|]. split; [reflexivity|exact B].
Qed.
(** Whole tokens at the beginning. *)
Lemma tokens_beginning s ps qs : tokens_of s (ps ++ qs) -> tokens_of (concat (map tx ps)) ps.
Proof.
  revert s. induction ps as [|t ps IH]; intros s H; [constructor|]. cbn [app] in H. inversion H as [|s' t' r ts' HF HT E1 E2]; subst. cbn [map concat].
  econstructor; [|eapply IH; exact HT]. pose proof (tokens_of_concat _ _ HT) as E. rewrite map_app, concat_app in E.
  apply (first_shorter t _ (concat (map tx qs))). destruct HF as (E1 & HF). rewrite <- app_assoc, <- E. split; [reflexivity|]. rewrite <- E1. exact HF.
Qed.

(** Texts with a semicolon or a closing brace in the middle of a token. *)
Lemma strbody_end b b' r : strbody b -> strbody b' -> b ++ [39] = b' ++ 39 :: r -> r = [].
Proof.
  intros H. revert b' r. induction H as [|c s N1 N2 N3 N4 H IH|c s H IH]; intros b' r H' E.
  - destruct H' as [|c' s' M1 M2 M3 M4 H'|c' s' H']; [injection E as <-; reflexivity|injection E as <- _; congruence|discriminate].
  - destruct H' as [|c' s' M1 M2 M3 M4 H'|c' s' H']; [injection E as -> _; congruence|injection E as <- E; eapply IH; eassumption|injection E as -> _; congruence].
  - destruct H' as [|c' s' M1 M2 M3 M4 H'|c' s' H']; [discriminate|injection E as <- _; congruence|injection E as <- E; eapply IH; eassumption].
Qed.
Lemma word_no c : is_wordch c = true -> c <> 59 /\ c <> 125.
Proof. unfold is_wordch, is_letter, is_digit. intros H. split; intros ->; discriminate. Qed.
Lemma ident_no w : ident w -> Forall (fun c => c <> 59 /\ c <> 125) w.
Proof.
  intros (c & r & -> & Hc & Hr). constructor; [apply word_no; unfold is_wordch; rewrite Hc; reflexivity|]. eapply Forall_impl; [|exact Hr]. intros a; apply word_no.
Qed.
Lemma lower_no s w : lower s = w -> Forall (fun c => 97 <= c <= 122) w -> Forall (fun c => c <> 59 /\ c <> 125) s.
Proof.
  intros <- H. unfold lower in H. rewrite Forall_map in H. eapply Forall_impl; [|exact H]. intros c Hc. cbn in Hc. unfold lower1 in Hc. split; intros ->; cbn in Hc; lia.
Qed.
Ltac letters := repeat (constructor; [cbn; lia|]); constructor.
Lemma sqlkw_no s : sqlkw s -> Forall (fun c => c <> 59 /\ c <> 125) s.
Proof. intros H. unfold sqlkw, sql_words in H. cbn in H. destruct H as [H|[H|[H|[H|[H|[]]]]]]; symmetry in H; (eapply lower_no; [exact H|letters]). Qed.
Definition has_end (s : list N) : Prop := In 59 s \/ In 125 s.
Lemma no_end s : Forall (fun c => c <> 59 /\ c <> 125) s -> ~ has_end s.
Proof. rewrite Forall_forall. intros H [K|K]; destruct (H _ K); congruence. Qed.
Lemma shape_quote k w : token_shape k (39 :: w) -> k = STRING_LITERAL.
Proof.
  intros H. unfold token_shape in H. destruct k; cbn [literal_of] in H; try discriminate H; try reflexivity; exfalso.
  all: try (destruct H as (c & r & E & Hc & _); injection E as <- _; discriminate).
  all: try (destruct H as (c & E & _); discriminate).
  all: try (destruct H as [E|E]; discriminate).
  all: try (destruct H as [_ H]; inversion H; discriminate).
  all: try contradiction.
  - unfold sqlkw, sql_words in H. cbn in H. intuition discriminate.
  - destruct H as (k & c & d & r & E & Hk & _). destruct k as [|a k]; [unfold sqlkw, sql_words in Hk; cbn in Hk; intuition discriminate|].
    injection E as <- _. unfold sqlkw, sql_words in Hk. cbn in Hk. intuition discriminate.
Qed.
Lemma sqlkw_head c w : sqlkw (c :: w) -> is_letter c = true.
Proof.
  intros H. unfold sqlkw, sql_words in H. cbn in H. assert (HL : is_letter (lower1 c) = true) by (repeat destruct H as [H|H]; try (injection H as <-; reflexivity); destruct H).
  unfold lower1, is_letter in *. destruct ((65 <=? c) && (c <=? 90)) eqn:EU; [reflexivity|rewrite EU in HL; exact HL].
Qed.
Lemma shape_head k c w : token_shape k (c :: w) -> literal_of k = Some (c :: w) \/ is_letter c = true \/ (c = 35 \/ c = 36 \/ c = 64) \/ is_digit c = true \/
  (c = 39 /\ k = STRING_LITERAL) \/ (is_wsnl c = true /\ w = []) \/ (c = 47 /\ (k = BLOCK_COMMENT \/ k = LINE_COMMENT)).
Proof.
  intros H. unfold token_shape in H. destruct (literal_of k) as [l|] eqn:EL; [left; congruence|]. right. destruct k; try discriminate EL; try contradiction.
  all: try (left; apply (sqlkw_head c w); unfold sqlkw, sql_words; rewrite H; cbn; tauto).
  all: try (destruct H as (a & E & _); injection E as -> _; tauto).
  - destruct H as (a & r & E & Ha & _). injection E as -> _. tauto.
  - destruct H as [_ H]. inversion H; tauto.
  - left. eapply sqlkw_head; exact H.
  - destruct H as (k & a & d & r & E & Hk & _). destruct k as [|x k]; [unfold sqlkw, sql_words in Hk; cbn in Hk; intuition discriminate|]. injection E as <- _. left.
    eapply sqlkw_head; exact Hk.
  - destruct H as [H|H]; injection H as -> ->; right; right; right; right; left; split; reflexivity.
  - destruct H as [H|H]; injection H as -> ->; right; right; right; right; left; split; reflexivity.
Qed.
Lemma literal_head k c w : literal_of k = Some (c :: w) -> (c = 47 -> k = DIV /\ w = []) /\ (c = 42 -> k = STAR /\ w = []).
Proof. intros H. destruct k; try discriminate H; injection H as <- <-; split; intros E; try discriminate E; split; reflexivity. Qed.
Lemma shape_slash k w : token_shape k (47 :: w) -> (k = DIV /\ w = []) \/ k = BLOCK_COMMENT \/ k = LINE_COMMENT.
Proof.
  intros H. destruct (shape_head k 47 w H) as [E|[E|[E|[E|[[E _]|[[E _]|[_ E]]]]]]]; try discriminate E; [left; apply (literal_head _ _ _ E); reflexivity|lia|right; exact E].
Qed.
Lemma shape_star k w : token_shape k (42 :: w) -> k = STAR /\ w = [].
Proof.
  intros H. destruct (shape_head k 42 w H) as [E|[E|[E|[E|[[E _]|[[E _]|[E _]]]]]]]; try discriminate E; [apply (literal_head _ _ _ E); reflexivity|lia].
Qed.
Lemma literal_end k w : literal_of k = Some w -> has_end w -> length w = 1%nat.
Proof. intros H. destruct k; try discriminate H; injection H as <-; intros [K|K]; cbn in K; try reflexivity; intuition discriminate. Qed.

(** Only strings and comments can be cut after a semicolon or a closing brace; a cut string is no token, a cut block comment begins with
    a slash and a star, a cut line comment is one. *)
Lemma cut_token k u1 u2 ls : token_shape k (u1 ++ u2) -> u1 <> [] -> u2 <> [] -> tokens_of u1 ls -> has_end u1 ->
  drop_layout ls = [] \/ exists b, ls = Tok DIV (lit "/") :: Tok STAR (lit "*") :: b.
Proof.
  intros HS N1 N2 HT HE. assert (HA : has_end (u1 ++ u2)) by (destruct HE; [left|right]; apply in_or_app; auto).
  assert (LW : forall w, lower (u1 ++ u2) = w -> Forall (fun c => 97 <= c <= 122) w -> False) by (intros w E F; exact (no_end _ (lower_no _ _ E F) HA)).
  destruct (literal_of k) as [w|] eqn:EL.
  { exfalso. unfold token_shape in HS. rewrite EL in HS. rewrite HS in HA. pose proof (literal_end _ _ EL HA) as L. rewrite <- HS, app_length in L.
    destruct u1; [congruence|]. destruct u2; [congruence|]. cbn in L. lia. }
  unfold token_shape in HS. rewrite EL in HS. destruct k; try discriminate EL; try contradiction.
  all: try (exfalso; eapply LW; [exact HS|letters]).
  - exfalso. exact (no_end _ (ident_no _ HS) HA).
  - exfalso. destruct HS as (w & E & Hw). rewrite E in HA. apply no_end in HA; [exact HA|]. constructor; [split; discriminate|apply ident_no; exact Hw].
  - exfalso. destruct HS as (w & E & Hw). rewrite E in HA. apply no_end in HA; [exact HA|]. constructor; [split; discriminate|apply ident_no; exact Hw].
  - exfalso. destruct HS as (w & E & Hw). rewrite E in HA. apply no_end in HA; [exact HA|]. constructor; [split; discriminate|apply ident_no; exact Hw].
  - exfalso. destruct HS as [_ F]. apply no_end in HA; [exact HA|]. eapply Forall_impl; [|exact F]. intros c Hc. unfold is_digit in Hc. split; intros ->; discriminate.
  - (* string *) exfalso. destruct HS as (b & E & Hb). inversion HT as [|s t r ts HF HT' E1 E2]; subst; [congruence|]. destruct HF as (E1 & HN & HSh & _).
    destruct u1 as [|c u1]; [congruence|]. injection E as -> E. destruct (tx t) as [|c' w] eqn:Et; [congruence|]. injection E1 as <- E1.
    pose proof (shape_quote _ _ HSh) as EK. rewrite EK in HSh. destruct HSh as (b' & E2 & Hb'). injection E2 as E2. subst w u1.
    rewrite <- !app_assoc in E. symmetry in E. cbn [app] in E. apply (strbody_end b b' (r ++ u2) Hb Hb') in E. apply app_eq_nil in E as [_ E]. congruence.
  - exfalso. exact (no_end _ (sqlkw_no _ HS) HA).
  - exfalso. destruct HS as (k & c & d & r & E & Hk & Hc & HF). rewrite E in HA. apply no_end in HA; [exact HA|]. apply Forall_app. split; [apply sqlkw_no; exact Hk|].
    constructor; [apply is_wsnl_sql; exact Hc|exact HF].
  - exfalso. destruct HS as [E|E]; rewrite E in HA; destruct HA as [[A|[]]|[A|[]]]; discriminate.
  - exfalso. destruct HS as [E|E]; rewrite E in HA; destruct HA as [[A|[]]|[A|[]]]; discriminate.
  - (* block comment *) destruct HS as (b & E & Hb). destruct u1 as [|c u1]; [congruence|]. injection E as -> E. destruct u1 as [|c u1]; [destruct HE as [[A|[]]|[A|[]]]; discriminate|].
    injection E as -> E. right. inversion HT as [|s t r ts HF HT' E1 E2]; subst. pose proof HF as (E1 & HN & HSh & HL & _).
    assert (HBC : forall w r, 47 :: 42 :: u1 = w ++ r -> ~ token_shape BLOCK_COMMENT w).
    { intros w r' Ew (b' & -> & _). injection Ew as Ew. subst u1. rewrite <- !app_assoc in E. symmetry in E. cbn [app] in E.
      change (42 :: 47 :: r' ++ u2) with (lit "*/" ++ (r' ++ u2)) in E. apply Hb in E. apply app_eq_nil in E as [_ E]. congruence. }
    destruct (tx t) as [|c w] eqn:Et; [congruence|]. injection E1 as <- E1. destruct (shape_slash _ _ HSh) as [[K ->]|[K|K]].
    + cbn [app] in E1. subst r. inversion HT' as [|s' t2 r2 ts2 HF2 HT2 E3 E4]; subst. destruct HF2 as (E3 & HN2 & HSh2 & _).
      destruct (tx t2) as [|c w] eqn:Et2; [congruence|]. injection E3 as <- E3. destruct (shape_star _ _ HSh2) as [K2 ->]. exists ts2.
      destruct t as [kt xt], t2 as [kt2 xt2]. cbn in *. subst. reflexivity.
    + exfalso. rewrite K in HSh. apply (HBC (47 :: w) r); [cbn [app]; rewrite <- E1; reflexivity|exact HSh].
    + exfalso. rewrite K in HSh. destruct HSh as (b' & E2 & _). injection E2 as ->. discriminate.
  - (* line comment *) left. destruct HS as (b & E & Hb). destruct u1 as [|c u1]; [congruence|]. injection E as -> E. destruct u1 as [|c u1]; [destruct HE as [[A|[]]|[A|[]]]; discriminate|].
    injection E as -> E. inversion HT as [|s t r ts HF HT' E1 E2]; subst. pose proof HF as (E1 & HN & HSh & HL & _).
    assert (HLC : token_shape LINE_COMMENT (47 :: 47 :: u1)) by (exists u1; split; [reflexivity|]; apply Forall_app in Hb; tauto).
    specialize (HL LINE_COMMENT (47 :: 47 :: u1) [] ltac:(rewrite app_nil_r; reflexivity) HLC). assert (ER : r = []).
    { apply (f_equal (@length N)) in E1. rewrite app_length in E1. destruct r; [reflexivity|cbn in E1, HL; lia]. }
    subst r. assert (HT0 : ts = []) by (inversion HT' as [|? ? ? ? (X & Y & _)]; [reflexivity|]; symmetry in X; apply app_eq_nil in X as [X _]; congruence). subst ts.
    rewrite app_nil_r in E1. rewrite <- E1 in HSh. unfold drop_layout. cbn [filter]. destruct (shape_slash _ _ HSh) as [[_ K]|[K|K]]; [discriminate|rewrite K; reflexivity|rewrite K; reflexivity].
Qed.
