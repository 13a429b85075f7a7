(** Which characters may follow a token without becoming part of it. *)
From Verif Require Import Tokens LexSpec LexShape LexerProof Segments LayoutSpec.
Local Open Scope N_scope.

Ltac bd := repeat rewrite ?orb_true_iff, ?andb_true_iff, ?negb_true_iff, ?orb_false_iff, ?andb_false_iff,
  ?N.leb_le, ?N.eqb_eq, ?N.leb_gt, ?N.eqb_neq, ?orb_false_r in *.

(** * Groups of token kinds *)
Definition wordk (k : tt) : bool :=
  match literal_of k with Some (a :: _) => is_letter a | _ => tt_eqb k IDENTIFIER end.
Definition sqlk (k : tt) : bool :=
  match k with SELECT_ | INSERT_ | UPDATE_ | DELETE_ | WITH_ | SQL_KEYWORDS => true | _ => false end.
Definition ops : list (tt * str) :=
  concat (map (fun k => match literal_of k with Some (a :: w) => if is_letter a then [] else [(k, a :: w)] | _ => [] end) all_tt).
Definition sigils : list (tt * N) := [(INDEX_NAME, 35); (PARAM_OR_VAR, 36); (BLOCK_VAR_OR_ANNOTATION, 64)].

Inductive group (k : tt) (u : str) : Prop :=
| g_word : wordk k = true -> ident u -> group k u
| g_sql : sqlk k = true -> sqlkw u -> group k u
| g_stmt kk c d r : k = SQL_STMT -> u = kk ++ c :: d :: r -> sqlkw kk -> is_wsnl c = true -> Forall (fun x => x <> 59 /\ x <> 125) (d :: r) -> group k u
| g_sigil s w : In (k, s) sigils -> u = s :: w -> ident w -> group k u
| g_num : k = UNSIGNED_NUMBER_LITERAL -> u <> [] -> Forall (fun x => is_digit x = true) u -> group k u
| g_str b : k = STRING_LITERAL -> u = 39 :: b ++ [39] -> strbody b -> group k u
| g_space c : k = WS \/ k = TERMINATOR -> u = [c] -> is_wsnl c = true -> group k u
| g_block b : k = BLOCK_COMMENT -> u = 47 :: 42 :: b ++ [42; 47] -> (forall x y, b ++ [42; 47] = x ++ [42; 47] ++ y -> y = []) -> group k u
| g_line b : k = LINE_COMMENT -> u = 47 :: 47 :: b -> Forall (fun x => x <> 10 /\ x <> 13) b -> group k u
| g_op : In (k, u) ops -> group k u.

Lemma ident_ok w : match w with c :: r => is_letter c && forallb is_wordch r | [] => false end = true -> ident w.
Proof.
  destruct w as [|c r]; [discriminate|]. intros H. apply andb_prop in H as [H1 H2]. exists c, r. split; [reflexivity|]. split; [exact H1|].
  apply Forall_forall. intros x Hx. rewrite forallb_forall in H2. apply H2; exact Hx.
Qed.
Lemma ident_iff w : ident w <-> match w with c :: r => is_letter c && forallb is_wordch r | [] => false end = true.
Proof.
  split; [|apply ident_ok]. intros (c & r & -> & H1 & H2). rewrite H1. cbn. apply forallb_forall. rewrite Forall_forall in H2. exact H2.
Qed.

Lemma shape_group k u : token_shape k u -> group k u.
Proof.
  intros H. unfold token_shape in H.
  destruct k; cbn [literal_of] in H;
    try (subst u; apply g_word; [reflexivity|apply ident_ok; reflexivity]);
    try (subst u; apply g_op; vm_compute; tauto).
  - apply g_sql; [reflexivity|]. unfold sqlkw. rewrite H. cbn; tauto.
  - apply g_sql; [reflexivity|]. unfold sqlkw. rewrite H. cbn; tauto.
  - apply g_sql; [reflexivity|]. unfold sqlkw. rewrite H. cbn; tauto.
  - apply g_sql; [reflexivity|]. unfold sqlkw. rewrite H. cbn; tauto.
  - apply g_sql; [reflexivity|]. unfold sqlkw. rewrite H. cbn; tauto.
  - apply g_word; [reflexivity|exact H].
  - destruct H as (w & -> & H). eapply (g_sigil _ _ 35 w); [cbn; tauto|reflexivity|exact H].
  - destruct H as (w & -> & H). eapply (g_sigil _ _ 36 w); [cbn; tauto|reflexivity|exact H].
  - destruct H as (w & -> & H). eapply (g_sigil _ _ 64 w); [cbn; tauto|reflexivity|exact H].
  - apply g_num; [reflexivity|apply H..].
  - destruct H as (b & -> & H). eapply (g_str _ _ b); [reflexivity|reflexivity|exact H].
  - apply g_sql; [reflexivity|exact H].
  - destruct H as (kk & c & d & r & -> & H1 & H2 & H3). eapply g_stmt; eauto.
  - destruct H as [-> | ->]; [apply (g_space _ _ 9)|apply (g_space _ _ 32)]; auto.
  - destruct H as [-> | ->]; [apply (g_space _ _ 10)|apply (g_space _ _ 13)]; auto.
  - destruct H as (b & -> & H). eapply (g_block _ _ b); [reflexivity|reflexivity|exact H].
  - destruct H as (b & -> & H). eapply (g_line _ _ b); [reflexivity|reflexivity|exact H].
Qed.

(** * First characters *)
Definition fcls (c : N) : nat :=
  if is_letter c then 0%nat else if is_digit c then 1%nat else if c =? 39 then 2%nat else if is_wsnl c then 3%nat
  else if c =? 35 then 4%nat else if c =? 36 then 5%nat else if c =? 64 then 6%nat else if c =? 47 then 7%nat else 8%nat.

Lemma sql_word_ident kk : sqlkw kk -> ident kk.
Proof.
  intros H. apply ident_ok. unfold sqlkw, lower in H. cbn in H.
  assert (L : forall c d, lower1 c = d -> is_letter d = true -> 97 <= d <= 122 -> is_letter c = true).
  { intros c d Hd Hl _. unfold lower1 in Hd. destruct ((65 <=? c) && (c <=? 90)) eqn:E; [unfold is_letter; rewrite E; reflexivity|].
    rewrite Hd. exact Hl. }
  assert (W : forall c, is_letter c = true -> is_wordch c = true) by (intros c E; unfold is_wordch; rewrite E; reflexivity).
  repeat (destruct H as [H|H]; [destruct kk as [|? kk]; [discriminate H|]; cbn in H; symmetry in H;
     repeat match goal with
     | H : _ :: _ = _ :: _ |- _ => injection H as ? H
     | H : [] = map _ ?k |- _ => destruct k; [clear H|discriminate H]
     | H : map _ ?k = [] |- _ => destruct k; [clear H|discriminate H]
     | H : map _ ?k = _ :: _ |- _ => destruct k; [discriminate H|cbn in H]
     end;
     repeat match goal with H : lower1 _ = _ |- _ => apply L in H; [|reflexivity|lia] end;
     cbn; repeat match goal with H : is_letter _ = true |- _ => rewrite ?H, ?(W _ H); clear H end; reflexivity|]).
  destruct H.
Qed.

Lemma group_head k u : group k u -> exists a w, u = a :: w /\
  match fcls a with
  | 0 => wordk k = true /\ ident u \/ sqlk k = true /\ sqlkw u \/ k = SQL_STMT
  | 1 => k = UNSIGNED_NUMBER_LITERAL
  | 2 => k = STRING_LITERAL
  | 3 => k = WS \/ k = TERMINATOR
  | 4 => k = INDEX_NAME \/ k = HASH
  | 5 => k = PARAM_OR_VAR \/ k = DOLLAR
  | 6 => k = BLOCK_VAR_OR_ANNOTATION \/ k = AT
  | 7 => k = BLOCK_COMMENT \/ k = LINE_COMMENT \/ k = DIV
  | _ => In (k, u) ops
  end%nat.
Proof.
  assert (I : forall w, ident w -> exists a r, w = a :: r /\ fcls a = 0%nat).
  { intros w (a & r & -> & H & _). exists a, r. split; [reflexivity|]. unfold fcls. rewrite H. reflexivity. }
  intros []; subst.
  - destruct (I _ H0) as (a & r & -> & E). exists a, r. rewrite E. auto.
  - destruct (I _ (sql_word_ident _ H0)) as (a & r & -> & E). exists a, r. rewrite E. auto.
  - destruct (I _ (sql_word_ident _ H1)) as (a & r0 & -> & E). exists a. eexists. rewrite E. cbn. auto.
  - exists s, w. split; [reflexivity|]. cbn in H. destruct H as [H|[H|[H|[]]]]; injection H as <- <-; cbn; auto.
  - destruct u as [|a u]; [congruence|]. exists a, u. split; [reflexivity|]. inversion H1 as [|? ? Ha _]; subst. unfold fcls. rewrite Ha.
    destruct (is_letter a) eqn:E; [|reflexivity]. exfalso. unfold is_letter, is_digit in *. bd; lia.
  - exists 39. eexists. split; [reflexivity|]. cbn. reflexivity.
  - exists c, []. split; [reflexivity|]. unfold fcls. rewrite H1. unfold is_wsnl, is_blank, is_nl in H1.
    assert (Hc : c = 9 \/ c = 32 \/ c = 10 \/ c = 13) by (bd; lia). destruct Hc as [-> |[-> |[-> | ->]]]; cbn; tauto.
  - exists 47. eexists. split; [reflexivity|]. cbn. auto.
  - exists 47. eexists. split; [reflexivity|]. cbn. auto.
  - assert (P : forallb (fun p => match snd p with
        | a :: w => match fcls a with 4 => tt_eqb (fst p) HASH | 5 => tt_eqb (fst p) DOLLAR | 6 => tt_eqb (fst p) AT | 7 => tt_eqb (fst p) DIV
                    | 0 | 1 | 2 | 3 => false | _ => true end%nat
        | [] => false end) ops = true) by (vm_compute; reflexivity).
    rewrite forallb_forall in P. specialize (P _ H). cbn [fst snd] in P. destruct u as [|a w]; [discriminate|]. exists a, w. split; [reflexivity|].
    destruct (fcls a) as [|[|[|[|[|[|[|[|]]]]]]]]; try discriminate; try apply tt_eqb_eq in P; auto.
Qed.

Lemma app_split {A} (u : list A) c r kk d r2 : u ++ c :: r = kk ++ d :: r2 ->
  (exists x, kk = u ++ c :: x) \/ (u = kk /\ c = d /\ r = r2) \/ (exists x, u = kk ++ d :: x).
Proof.
  revert kk. induction u as [|a u IH]; intros [|b kk] E; cbn in E; injection E; intros; subst.
  - right; left. auto.
  - left. exists kk. reflexivity.
  - right; right. exists u. reflexivity.
  - apply IH in H as [(x & ->)|[(-> & -> & ->)|(x & ->)]]; [left; exists x; reflexivity|right; left; auto|right; right; exists x; reflexivity].
Qed.
Lemma ident_app_wordch u c r : ident (u ++ c :: r) -> u <> [] -> is_wordch c = true.
Proof.
  intros (a & w & E & _ & H) Hu. destruct u as [|b u]; [congruence|]. injection E as -> <-. apply Forall_app in H as [_ H]. inversion H; assumption.
Qed.
Lemma ident_no_ws w c : ident w -> In c w -> is_wsnl c = false.
Proof.
  intros (a & r & -> & H1 & H2) [->|Hc].
  - unfold is_letter, is_wsnl, is_blank, is_nl in *. bd; lia.
  - rewrite Forall_forall in H2. specialize (H2 _ Hc). unfold is_wordch, is_letter, is_digit, is_wsnl, is_blank, is_nl in *. bd; lia.
Qed.
Lemma strbody_end b : strbody b -> forall c r b2, strbody b2 -> b ++ 39 :: c :: r = b2 ++ [39] -> False.
Proof.
  induction 1 as [|x s H1 H2 H3 H4 HS IH|x s HS IH]; intros c r b2 Hb E.
  - destruct Hb; cbn in E; try discriminate; injection E; intros; subst; congruence.
  - destruct Hb; cbn in E; injection E; intros; subst; try congruence; try (destruct s; discriminate); eauto.
  - destruct Hb as [|y s2 ? ? ? ? Hs2|y s2 Hs2]; cbn in E.
    + discriminate.
    + injection E; intros; subst; congruence.
    + injection E. intros E2 ->. exact (IH _ _ _ Hs2 E2).
Qed.

Lemma wordk_extends k c : wordk k = true -> is_wordch c = true -> extends k c = true.
Proof. intros H Hc. destruct k; try discriminate H; cbn; rewrite ?Hc; reflexivity. Qed.
Lemma sqlk_extends k c : sqlk k = true -> is_wordch c || is_wsnl c = true -> extends k c = true.
Proof. intros H Hc. destruct k; try discriminate H; exact Hc. Qed.

Fixpoint strip (u w : str) : option str :=
  match u, w with
  | [], _ => Some w
  | a :: u', b :: w' => if a =? b then strip u' w' else None
  | _ :: _, [] => None
  end.
Lemma strip_app u r : strip u (u ++ r) = Some r.
Proof. induction u as [|a u IH]; [reflexivity|]. cbn. rewrite N.eqb_refl. exact IH. Qed.
Lemma ops_extends k u k' c r : In (k, u) ops -> In (k', u ++ c :: r) ops -> extends k c = true.
Proof.
  assert (P : forallb (fun p => forallb (fun q => match strip (snd p) (snd q) with Some (c :: _) => extends (fst p) c | _ => true end) ops) ops = true)
    by (vm_compute; reflexivity).
  intros H H'. rewrite forallb_forall in P. specialize (P _ H). rewrite forallb_forall in P. specialize (P _ H'). cbn [fst snd] in P.
  rewrite strip_app in P. exact P.
Qed.

Ltac sigil_tac Ha Ha' Hs Hs' Hne :=
  destruct Ha as [-> | ->]; destruct Ha' as [-> | ->];
  [ destruct Hs as (?w & -> & ?Hw); let E := fresh "E" in destruct Hs' as (?w & E & ?Hw'); cbn in E; injection E as <-;
    eapply ident_app_wordch; [eassumption|match goal with H : ident ?w |- ?w <> [] => destruct H as (? & ? & -> & _); discriminate end]
  | exfalso; destruct Hs as (?w & -> & ?Hw); cbn in Hs'; injection Hs' as Hs'; symmetry in Hs'; exact (app_cons_not_nil _ _ _ Hs')
  | cbn in Hs; rewrite Hs in Hs'; let E := fresh "E" in destruct Hs' as (?w & E & (? & ? & -> & ? & _)); cbn in E; injection E as -> _; assumption
  | exfalso; cbn in Hs, Hs'; rewrite Hs in Hs'; discriminate ].

(** No rule describes a proper extension of a token, unless the next character may extend it. *)
Theorem no_merge k u k' c r : token_shape k u -> (forall j, token_shape j u -> (tt_num k <= tt_num j)%nat) ->
  token_shape k' (u ++ c :: r) -> extends k c = true.
Proof.
  intros Hs Hp Hs'. pose proof (shape_group _ _ Hs) as G. pose proof (shape_group _ _ Hs') as G'.
  assert (IDSQL : sqlkw u -> wordk k = true -> False).
  { intros Hq Hw. assert (E : k = IDENTIFIER \/ literal_of k = Some u).
    { unfold wordk in Hw. unfold token_shape in Hs. destruct (literal_of k) eqn:El; [right; congruence|left; apply tt_eqb_eq; exact Hw]. }
    destruct E as [->|E]; [apply sqlkw_shape in Hq as (j & Hj & Hlt); specialize (Hp _ Hj); lia|].
    clear -Hq E. destruct k; cbn in E; try discriminate; injection E as <-; cbn in Hq; repeat destruct Hq as [Hq|Hq]; try discriminate; destruct Hq. }
  destruct (group_head _ _ G) as (a & w & Eu & Ha). destruct (group_head _ _ G') as (a' & w' & Eu' & Ha').
  assert (a' = a) by (rewrite Eu in Eu'; injection Eu'; congruence). subst a'. assert (Hne : u <> []) by (rewrite Eu; discriminate).
  destruct (fcls a) as [|[|[|[|[|[|[|[|n]]]]]]]] eqn:Ef.
  - (* words *)
    destruct Ha' as [[_ Hi]|[[_ Hi]|Hk']].
    1, 2: assert (Hi' : ident (u ++ c :: r)) by (try exact Hi; apply sql_word_ident; exact Hi); clear Hi;
      pose proof (ident_app_wordch _ _ _ Hi' Hne) as Hc;
      destruct Ha as [[Hw _]|[[Hw _]|Hk]];
      [apply wordk_extends; assumption|apply sqlk_extends; [assumption|rewrite Hc; reflexivity]|
       subst k; destruct Hs as (kk & x & d & r2 & -> & _ & Hx & _);
       rewrite (ident_no_ws _ x Hi') in Hx; [discriminate|rewrite <- app_assoc; apply in_or_app; right; left; reflexivity]].
    subst k'. destruct Hs' as (kk & x & d & r2 & E & Hq & Hx & HF).
    pose proof (app_split _ _ _ _ _ _ E) as [(y & ->)|[(-> & -> & _)|(y & Ey)]].
    + pose proof (ident_app_wordch _ _ _ (sql_word_ident _ Hq) Hne) as Hc.
      destruct Ha as [[Hw _]|[[Hw _]|Hk]]; [apply wordk_extends; assumption|apply sqlk_extends; [assumption|rewrite Hc; reflexivity]|].
      subst k. destruct Hs as (k2 & x2 & d2 & r3 & -> & _ & Hx2 & _).
      rewrite (ident_no_ws _ x2 (sql_word_ident _ Hq)) in Hx2; [discriminate|]. rewrite <- app_assoc. apply in_or_app; right; left; reflexivity.
    + destruct Ha as [[Hw _]|[[Hw _]|Hk]]; [destruct (IDSQL Hq Hw)|apply sqlk_extends; [assumption|rewrite Hx; apply orb_true_r]|].
      subst k. destruct Hs as (k2 & x2 & d2 & r3 & -> & _ & Hx2 & _).
      rewrite (ident_no_ws _ x2 (sql_word_ident _ Hq)) in Hx2; [discriminate|]. apply in_or_app; right; left; reflexivity.
    + assert (Hxu : In x u) by (rewrite Ey; apply in_or_app; right; left; reflexivity).
      destruct Ha as [[_ Hi]|[[_ Hi]|Hk]].
      * rewrite (ident_no_ws _ x Hi Hxu) in Hx. discriminate.
      * rewrite (ident_no_ws _ x (sql_word_ident _ Hi) Hxu) in Hx. discriminate.
      * subst k. rewrite Ey, <- app_assoc in E. apply app_inv_head in E. cbn in E. injection E as E. cbn.
        assert (Hc : In c (d :: r2)) by (rewrite <- E; apply in_or_app; right; left; reflexivity).
        rewrite Forall_forall in HF. destruct (HF _ Hc) as [h1 h2]. apply N.eqb_neq in h1, h2. rewrite h1, h2. reflexivity.
  - subst. destruct Hs' as [_ H]. apply Forall_app in H as [_ H]. inversion H; assumption.
  - subst k k'. exfalso. destruct Hs as (b & Hb & HS). destruct Hs' as (b2 & Hb2 & HS2). rewrite Hb in Hb2. cbn in Hb2. injection Hb2 as E.
    rewrite <- app_assoc in E. cbn in E. eapply strbody_end; [exact HS| exact HS2|exact E].
  - exfalso. assert (L : length (u ++ c :: r) = 1%nat) by (destruct Ha' as [-> | ->]; destruct Hs' as [-> | ->]; reflexivity).
    rewrite app_length in L. cbn in L. destruct u; cbn in L; [congruence|lia].
  - sigil_tac Ha Ha' Hs Hs' Hne.
  - sigil_tac Ha Ha' Hs Hs' Hne.
  - sigil_tac Ha Ha' Hs Hs' Hne.
  - destruct Ha as [->|[->| ->]]; destruct Ha' as [->|[->| ->]].
    + exfalso. destruct Hs as (b & -> & _). destruct Hs' as (b2 & E & H). cbn in E. injection E as E. symmetry in E.
      rewrite <- app_assoc in E. cbn in E. specialize (H b (c :: r) E). discriminate.
    + exfalso. destruct Hs as (b & -> & _). destruct Hs' as (b2 & E & H). cbn in E. discriminate.
    + exfalso. destruct Hs as (b & -> & _). cbn in Hs'. discriminate.
    + exfalso. destruct Hs as (b & -> & _). destruct Hs' as (b2 & E & H). cbn in E. discriminate.
    + destruct Hs as (b & -> & _). destruct Hs' as (b2 & E & H). cbn in E. injection E as <-. apply Forall_app in H as [_ H]. inversion H as [|? ? [h1 h2] _]; subst.
      cbn. unfold is_nl. apply N.eqb_neq in h1, h2. rewrite h1, h2. reflexivity.
    + exfalso. destruct Hs as (b & -> & _). cbn in Hs'. discriminate.
    + cbn in Hs. subst u. destruct Hs' as (b2 & E & H). cbn in E. injection E as -> _. reflexivity.
    + cbn in Hs. subst u. destruct Hs' as (b2 & E & H). cbn in E. injection E as -> _. reflexivity.
    + cbn in Hs, Hs'. subst u. discriminate.
  - apply (ops_extends k u k' c r); assumption.
Qed.

(** * Texts made of tokens *)
(** No token may be extended by the character that follows it. *)
Inductive apart : list tok -> Prop :=
| ap_nil : apart []
| ap_one t : apart [t]
| ap_more t t' ts c w : tx t' = c :: w -> extends (ty t) c = false -> apart (t' :: ts) -> apart (t :: t' :: ts).

Lemma apart_head t rest c r : token_shape (ty t) (tx t) -> prio t -> extends (ty t) c = false -> rest = c :: r -> first_token (tx t ++ rest) t rest.
Proof.
  intros Hs Hp He ->. split; [reflexivity|]. split; [eapply shape_nonempty; exact Hs|]. split; [exact Hs|]. split; [|exact Hp].
  intros k u r' E Hk. destruct (le_lt_dec (length u) (length (tx t))) as [|Hlt]; [assumption|exfalso].
  assert (exists x, u = tx t ++ x) as (x & ->).
  { apply (f_equal (firstn (length u))) in E. rewrite firstn_app, firstn_all2 in E by lia. rewrite (firstn_app (length u) u r'), Nat.sub_diag, firstn_all in E. cbn in E.
    rewrite app_nil_r in E. eexists. symmetry. exact E. }
  destruct x as [|c' x]; [rewrite app_nil_r in Hlt; lia|]. rewrite <- app_assoc in E. apply app_inv_head in E. cbn in E. injection E as <- _.
  rewrite (no_merge _ _ _ _ _ Hs Hp Hk) in He. discriminate.
Qed.
Lemma last_head t : token_shape (ty t) (tx t) -> prio t -> first_token (tx t) t [].
Proof.
  intros Hs Hp. split; [rewrite app_nil_r; reflexivity|]. split; [eapply shape_nonempty; exact Hs|]. split; [exact Hs|]. split; [|exact Hp].
  intros k u r' E Hk. rewrite E, app_length. lia.
Qed.
Theorem apart_tokens ts : lexed ts -> apart ts -> tokens_of (concat (map tx ts)) ts.
Proof.
  intros HL HA. induction HA as [|t|t t' ts c w E He HA IH]; [constructor|..].
  - destruct (lexed_head _ _ HL) as [Hs Hp]. cbn. rewrite app_nil_r. econstructor; [apply last_head; assumption|constructor].
  - destruct (lexed_head _ _ HL) as [Hs Hp]. inversion HL as [|? ? _ HL']; subst. specialize (IH HL'). cbn [map concat].
    econstructor; [|exact IH]. eapply apart_head; [exact Hs|exact Hp|exact He|]. cbn. rewrite E. reflexivity.
Qed.

(** * The converse *)
Lemma sqlk_dec k : {sqlk k = true} + {sqlk k = false}. Proof. destruct (sqlk k); auto. Qed.
Lemma first_not_extends s t c r : first_token s t (c :: r) -> sqlk (ty t) = false -> (ty t = DIV -> c <> 42) -> extends (ty t) c = false.
Proof.
  intros (E & Hne & Hs & Hlong & Hp) Hq Hd. destruct (extends (ty t) c) eqn:Ex; [exfalso|reflexivity].
  assert (L : forall k, ~ token_shape k (tx t ++ [c])).
  { intros k Hk. specialize (Hlong k (tx t ++ [c]) r). rewrite app_length in Hlong. cbn in Hlong. assert (length (tx t) + 1 <= length (tx t))%nat; [|lia].
    apply Hlong; [rewrite E, <- app_assoc; reflexivity|exact Hk]. }
  assert (WL : ident (tx t) -> is_wordch c = true -> ident (tx t ++ [c])).
  { intros (a & w & -> & Ha & Hw) Hc. exists a, (w ++ [c]). split; [reflexivity|]. split; [exact Ha|]. apply Forall_snoc; auto. }
  assert (WW : wordk (ty t) = true -> ident (tx t)).
  { intros Hw. destruct (shape_group _ _ Hs); try assumption; exfalso; clear -Hw Hq H; try congruence; try (rewrite H in Hw; discriminate Hw).
    - cbn in H. destruct H as [H|[H|[H|[]]]]; injection H as H _; rewrite <- H in Hw; discriminate.
    - destruct H as [H|H]; rewrite H in Hw; discriminate.
    - assert (P : forallb (fun p => negb (wordk (fst p))) ops = true) by (vm_compute; reflexivity). rewrite forallb_forall in P.
      specialize (P _ H). cbn [fst] in P. rewrite Hw in P. discriminate. }
  destruct t as [k u]; cbn [ty tx] in *.
  destruct k; cbn [extends] in Ex; try discriminate Hq; try discriminate Ex;
    try (apply (L IDENTIFIER); apply WL; [apply WW; reflexivity|cbn in Ex; try (apply andb_prop in Ex as [_ Ex]); exact Ex]);
    cbn in Hs; try subst u.
  - apply (L PARAM_OR_VAR). exists [c]. split; [reflexivity|]. exists c, []. auto.
  - apply (L INDEX_NAME). exists [c]. split; [reflexivity|]. exists c, []. auto.
  - apply (L BLOCK_VAR_OR_ANNOTATION). exists [c]. split; [reflexivity|]. exists c, []. auto.
  - apply N.eqb_eq in Ex. subst c. apply (L EQ). reflexivity.
  - apply orb_prop in Ex as [Ex|Ex]; apply N.eqb_eq in Ex; subst c; [|apply Hd; reflexivity]. apply (L LINE_COMMENT). exists []. split; [reflexivity|constructor].
  - apply N.eqb_eq in Ex. subst c. apply (L PIPE2). reflexivity.
  - apply orb_prop in Ex as [Ex|Ex]; [apply orb_prop in Ex as [Ex|Ex]|]; apply N.eqb_eq in Ex; subst c; [apply (L LT2)|apply (L LT_EQ)|apply (L SQL_NOT_EQ2)]; reflexivity.
  - apply orb_prop in Ex as [Ex|Ex]; apply N.eqb_eq in Ex; subst c; [apply (L GT_EQ)|apply (L GT2)]; reflexivity.
  - destruct Hs as (w & -> & Hw). apply (L INDEX_NAME). exists (w ++ [c]). split; [reflexivity|]. destruct Hw as (a & w' & -> & Ha & Hw).
    exists a, (w' ++ [c]). split; [reflexivity|]. split; [exact Ha|]. apply Forall_snoc; auto.
  - destruct Hs as (w & -> & Hw). apply (L PARAM_OR_VAR). exists (w ++ [c]). split; [reflexivity|]. destruct Hw as (a & w' & -> & Ha & Hw).
    exists a, (w' ++ [c]). split; [reflexivity|]. split; [exact Ha|]. apply Forall_snoc; auto.
  - destruct Hs as (w & -> & Hw). apply (L BLOCK_VAR_OR_ANNOTATION). exists (w ++ [c]). split; [reflexivity|]. destruct Hw as (a & w' & -> & Ha & Hw).
    exists a, (w' ++ [c]). split; [reflexivity|]. split; [exact Ha|]. apply Forall_snoc; auto.
  - apply (L UNSIGNED_NUMBER_LITERAL). split; [destruct u; discriminate|]. apply Forall_snoc; split; [apply Hs|exact Ex].
  - destruct Hs as (kk & x & d & r2 & -> & h1 & h2 & h3). apply (L SQL_STMT). exists kk, x, d, (r2 ++ [c]). split; [rewrite <- app_assoc; reflexivity|].
    split; [exact h1|]. split; [exact h2|]. change (d :: r2 ++ [c]) with ((d :: r2) ++ [c]). apply Forall_snoc. split; [exact h3|].
    bd. lia.
  - destruct Hs as (b & -> & Hb). apply (L LINE_COMMENT). exists (b ++ [c]). split; [reflexivity|]. apply Forall_snoc. split; [exact Hb|]. unfold is_nl in Ex. bd. lia.
Qed.
(** Texts whose tokens never meet a doubtful neighbour: no bare SQL word, no "/" before "*". *)
Definition clear_tokens (ts : list tok) : Prop :=
  Forall (fun t => sqlk (ty t) = false) ts /\ forall a t t' b, ts = a ++ t :: t' :: b -> ty t = DIV -> forall w, tx t' <> 42 :: w.
Theorem tokens_apart s ts : tokens_of s ts -> clear_tokens ts -> apart ts.
Proof.
  intros H. induction H as [|s t rest ts Hf Ht IH]; intros [HQ HD]; [constructor|]. inversion HQ as [|? ? Hq HQ']; subst.
  assert (IHa : apart ts). { apply IH. split; [exact HQ'|]. intros a t1 t2 b ->. apply (HD (t :: a) t1 t2 b). reflexivity. }
  destruct ts as [|t' ts]; [constructor|]. pose proof (tokens_of_concat _ _ Ht) as Er. pose proof (tokens_of_shape _ _ Ht) as HS. inversion HS as [|? ? Hs' _]; subst.
  destruct (tx t') as [|c w] eqn:E; [destruct (shape_nonempty _ _ Hs' eq_refl)|].
  eapply ap_more; [exact E| |exact IHa]. cbn in Hf. rewrite E in Hf. cbn in Hf. eapply first_not_extends; [exact Hf|exact Hq|].
  intros Hk ->. exact (HD [] t t' ts eq_refl Hk w E).
Qed.
