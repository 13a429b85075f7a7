(** Texts with the same visible tokens are exactly the layouts of those tokens. *)
From Verif Require Import Tokens LexSpec LexShape LexerProof Segments LayoutSpec Spacing Grammar Bigram.
Local Open Scope N_scope.

Lemma no_close b : ~ occurs (lit "*/") (b ++ lit "*") <-> (forall x y, b ++ lit "*/" = x ++ lit "*/" ++ y -> y = []).
Proof.
  split.
  - intros H x y E. destruct y as [|c y _] using rev_ind; [reflexivity|]. exfalso. apply H. exists x, y.
    change (lit "*/") with ([42] ++ [47]) in E at 1. rewrite !app_assoc in E. apply app_inj_tail in E as [E _]. rewrite <- app_assoc in E. exact E.
  - intros H (x & y & E). specialize (H x (y ++ [47])). assert (y ++ [47] = []); [|destruct y; discriminate].
    apply H. change (b ++ lit "*/") with (b ++ [42] ++ [47]). rewrite app_assoc. change [42] with (lit "*"). rewrite E, <- !app_assoc. reflexivity.
Qed.
Definition spaced (vs : list tok) (s : str) (ts : list tok) : Prop :=
  s = concat (map tx ts) /\ lexed ts /\ apart ts /\ drop_layout ts = vs.
Lemma spaced_cons t ts vs s : token_shape (ty t) (tx t) -> prio t -> spaced vs s ts -> (forall c r, s = c :: r -> extends (ty t) c = false) ->
  spaced (if is_layout (ty t) then vs else t :: vs) (tx t ++ s) (t :: ts).
Proof.
  intros Hs Hp (-> & HL & HA & HD) Hc. split; [reflexivity|]. split; [constructor; [split|]; assumption|]. split.
  - destruct ts as [|t' ts]; [constructor|]. destruct (lexed_head _ _ HL) as [Hs' _]. destruct (tx t') as [|c w] eqn:E; [destruct (shape_nonempty _ _ Hs' eq_refl)|].
    eapply ap_more; [exact E| |exact HA]. eapply Hc. cbn. rewrite E. reflexivity.
  - cbn. destruct (is_layout (ty t)) eqn:E; cbn; rewrite <- HD; reflexivity.
Qed.

Lemma prio_by_class t : token_shape (ty t) (tx t) -> is_layout (ty t) = true -> prio t.
Proof.
  intros Hs Hl k Hk. destruct t as [j u]; cbn [ty tx] in *. destruct (group_head _ _ (shape_group _ _ Hs)) as (a & w & E & Ha).
  destruct (group_head _ _ (shape_group _ _ Hk)) as (a' & w' & E' & Ha'). assert (a' = a) by congruence. subst a'.
  destruct (fcls a) as [|[|[|[|[|[|[|[|n]]]]]]]].
  - exfalso. destruct Ha as [[H _]|[[H _]|H]]; destruct j; discriminate.
  - subst j. discriminate.
  - subst j. discriminate.
  - destruct Ha as [-> | ->]; destruct Ha' as [-> | ->]; cbn; try lia. cbn in Hs, Hk. destruct Hs as [-> | ->]; destruct Hk; discriminate.
  - destruct Ha as [-> | ->]; discriminate.
  - destruct Ha as [-> | ->]; discriminate.
  - destruct Ha as [-> | ->]; discriminate.
  - destruct Ha as [->|[->| ->]]; destruct Ha' as [->|[->| ->]]; try discriminate; cbn; try lia.
    + exfalso. destruct Hs as (b & -> & _). cbn in Hk. discriminate.
    + exfalso. destruct Hs as (b & -> & _). destruct Hk as (b2 & Eb & _). discriminate.
    + exfalso. destruct Hs as (b & -> & _). cbn in Hk. discriminate.
  - exfalso. clear -Ha Hl. assert (P : forallb (fun p => negb (is_layout (fst p))) ops = true) by (vm_compute; reflexivity).
    rewrite forallb_forall in P. specialize (P _ Ha). cbn [fst] in P. rewrite Hl in P. discriminate.
Qed.

(** A layout of tokens has these visible tokens. *)
Theorem layout_tokens vs s : laid_out vs s -> lexed vs -> Forall (fun t => is_layout (ty t) = false) vs ->
  exists ts, tokens_of s ts /\ drop_layout ts = vs.
Proof.
  intros H HL HV. assert (exists ts, spaced vs s ts) as (ts & -> & H1 & H2 & H3); [|exists ts; split; [apply apart_tokens|]; assumption].
  induction H as [|t vs s H IH Hc|c vs s Hc H IH|b vs s Hb H IH|b vs s Hb Hn H IH].
  - exists []. repeat split; constructor.
  - inversion HL as [|? ? [Hs Hp] HL']; subst. inversion HV as [|? ? Hv HV']; subst. destruct (IH HL' HV') as (ts & Hts).
    exists (t :: ts). pose proof (spaced_cons t ts vs s Hs Hp Hts Hc) as R. rewrite Hv in R. exact R.
  - destruct (IH HL HV) as (ts & Hts). set (t := Tok (if is_blank c then WS else TERMINATOR) [c]).
    assert (Hs : token_shape (ty t) (tx t)).
    { unfold t. cbn [ty tx]. unfold is_wsnl, is_blank, is_nl in *. destruct ((c =? 9) || (c =? 32)) eqn:E.
      - apply orb_prop in E as [E|E]; apply N.eqb_eq in E; subst; [left|right]; reflexivity.
      - rewrite ?E in Hc. cbn in Hc. apply orb_prop in Hc as [Hc|Hc]; apply N.eqb_eq in Hc; subst; [left|right]; reflexivity. }
    assert (Hl : is_layout (ty t) = true) by (cbn; destruct (is_blank c); reflexivity).
    exists (t :: ts). pose proof (spaced_cons t ts vs s Hs (prio_by_class _ Hs Hl) Hts) as R. rewrite Hl in R. apply R.
    intros; cbn; destruct (is_blank c); reflexivity.
  - destruct (IH HL HV) as (ts & Hts). set (t := Tok BLOCK_COMMENT (lit "/*" ++ b ++ lit "*/")).
    assert (Hs : token_shape (ty t) (tx t)) by (exists b; split; [reflexivity|apply no_close; exact Hb]).
    exists (t :: ts). pose proof (spaced_cons t ts vs s Hs (prio_by_class _ Hs eq_refl) Hts) as R. cbn [is_layout ty t] in R. unfold t in R. cbn [tx] in R.
    rewrite <- !app_assoc in R. apply R. reflexivity.
  - destruct (IH HL HV) as (ts & Hts). set (t := Tok LINE_COMMENT (lit "//" ++ b)).
    assert (Hs : token_shape (ty t) (tx t)).
    { exists b; split; [reflexivity|]. revert Hb. apply Forall_impl. unfold is_nl. intros x Hx. bd. exact Hx. }
    exists (t :: ts). pose proof (spaced_cons t ts vs s Hs (prio_by_class _ Hs eq_refl) Hts) as R. cbn [is_layout ty t] in R. unfold t in R. cbn [tx] in R.
    rewrite <- !app_assoc in R. apply R. intros c r E. cbn. rewrite (Hn c r E). reflexivity.
Qed.

(** A text whose tokens keep apart is a layout of its visible tokens. *)
Lemma apart_tail t ts : apart (t :: ts) -> apart ts. Proof. intros H. inversion H; subst; [constructor|assumption]. Qed.
Lemma apart_next t ts c r : apart (t :: ts) -> concat (map tx ts) = c :: r -> extends (ty t) c = false.
Proof. intros H E. inversion H as [|?|? t' ts' c' w Et He HA]; subst; [discriminate|]. cbn in E. rewrite Et in E. injection E as <- _. exact He. Qed.
Theorem apart_layout ts : lexed ts -> apart ts -> laid_out (drop_layout ts) (concat (map tx ts)).
Proof.
  intros HL. induction HL as [|[k u] ts [Hs Hp] HL IH]; intros HA; [constructor|]. specialize (IH (apart_tail _ _ HA)).
  pose proof (fun c r E => apart_next _ _ c r HA E) as Hn. cbn [ty tx] in *. cbn [map concat]. unfold drop_layout in *. cbn [filter ty].
  destruct (is_layout k) eqn:E; cbn [negb]; [|apply (lo_tok (Tok k u)); assumption].
  destruct k; try discriminate.
  - destruct Hs as [-> | ->]; apply lo_blank; auto.
  - destruct Hs as [-> | ->]; apply lo_blank; auto.
  - destruct Hs as (b & -> & Hb). cbn [tx]. rewrite <- !app_assoc. apply lo_block; [|exact IH]. apply no_close. exact Hb.
  - destruct Hs as (b & -> & Hb). cbn [tx]. rewrite <- !app_assoc. apply lo_line; [| |exact IH].
    + revert Hb. apply Forall_impl. unfold is_nl. intros x Hx. bd. exact Hx.
    + intros c r Ec. specialize (Hn c r Ec). cbn in Hn. destruct (is_nl c); [reflexivity|discriminate].
Qed.
Lemma tokens_lexed s ts : tokens_of s ts -> lexed ts.
Proof.
  intros H. unfold lexed. apply Forall_forall. intros t Ht. pose proof (tokens_of_shape _ _ H) as HS. pose proof (tokens_of_prio _ _ H) as HP.
  rewrite Forall_forall in HS, HP. split; [apply HS; exact Ht|exact (HP t Ht)].
Qed.

(** * Programs *)
Lemma star_only t w : token_shape (ty t) (tx t) -> tx t = 42 :: w -> ty t = STAR.
Proof.
  intros Hs E. destruct (group_head _ _ (shape_group _ _ Hs)) as (a & w' & E' & Ha). assert (a = 42) by congruence. subst a. cbn in Ha.
  assert (P : forallb (fun p => match snd p with 42 :: _ => tt_eqb (fst p) STAR | _ => true end) ops = true) by (vm_compute; reflexivity).
  rewrite forallb_forall in P. specialize (P _ Ha). cbn [fst snd] in P. rewrite E in P. apply tt_eqb_eq; exact P.
Qed.
Lemma program_no_sqlk vs : program vs -> Forall (fun t => sqlk (ty t) = false) vs.
Proof.
  intros H. pose proof (derives_syms (fun k => negb (sqlk k)) eq_refl _ _ H eq_refl) as F. revert F. apply Forall_impl. intros t Ht. apply negb_true_iff; exact Ht.
Qed.
Lemma program_visible vs : program vs -> Forall (fun t => is_layout (ty t) = false) vs.
Proof.
  intros H. pose proof (derives_syms (fun k => negb (is_layout k)) eq_refl _ _ H eq_refl) as F. revert F. apply Forall_impl. intros t Ht. apply negb_true_iff; exact Ht.
Qed.
Lemma no_div_star vs x y : program vs -> adjacent vs x y -> ty x = DIV -> ty y = STAR -> False.
Proof.
  intros H HA Hx Hy. pose proof (f_prs _ _ (kinds_fit _ _ H) _ _ HA) as P. rewrite Hx, Hy in P. apply pmem_in in P. vm_compute in P. discriminate.
Qed.
Lemma program_clear ts : lexed ts -> program (drop_layout ts) -> clear_tokens ts.
Proof.
  intros HL HP. split.
  - pose proof (program_no_sqlk _ HP) as F. apply Forall_forall. intros t Ht. rewrite Forall_forall in F. destruct (is_layout (ty t)) eqn:E.
    + destruct (ty t); try discriminate; reflexivity.
    + apply F. unfold drop_layout. apply filter_In. rewrite E. auto.
  - intros a t t' b -> Hd w Hw. assert (Hs : token_shape (ty t') (tx t')) by (eapply lexed_in; [|exact HL]; apply in_or_app; right; right; left; reflexivity).
    pose proof (star_only _ _ Hs Hw) as Hk. eapply (no_div_star _ t t'); [exact HP| |exact Hd|exact Hk].
    unfold drop_layout. rewrite filter_app. cbn. rewrite Hd, Hk. cbn. eexists _, _. reflexivity.
Qed.

(** The texts with the visible tokens of a program are exactly its layouts. *)
Theorem program_layouts vs s : program vs -> lexed vs -> ((exists ts, tokens_of s ts /\ drop_layout ts = vs) <-> laid_out vs s).
Proof.
  intros HP HL. split.
  - intros (ts & Ht & <-). pose proof (tokens_lexed _ _ Ht) as HL'. rewrite (tokens_of_concat _ _ Ht). apply apart_layout; [exact HL'|].
    eapply tokens_apart; [exact Ht|]. apply program_clear; assumption.
  - intros H. apply layout_tokens; [exact H|exact HL|]. apply program_visible; exact HP.
Qed.

(** * Editing the layout of a valid text *)
Lemma gap_layout g vs s : gap g -> laid_out vs s -> laid_out vs (g ++ s).
Proof.
  intros H Hs. induction H as [|c g Hc H IH|b g Hb H IH|b n g Hb Hn H IH]; [exact Hs|..].
  - apply lo_blank; assumption.
  - rewrite <- !app_assoc. apply lo_block; assumption.
  - rewrite <- !app_assoc. cbn [app]. apply lo_line; [exact Hb| |].
    + intros c r E. injection E as <- _. exact Hn.
    + apply lo_blank; [|exact IH]. unfold is_wsnl. rewrite Hn. apply orb_true_r.
Qed.
(** A gap may be put here: after token [t], before it nothing else is asked. *)
Definition may_follow (t : tok) (g : str) : Prop := forall c r, g = c :: r -> extends (ty t) c = false.
(** Tokens [x], then text [s] laying out [vs]. *)
Lemma layout_prefix x : forall vs s, lexed x -> apart x -> laid_out vs s ->
  (forall x' t, x = x' ++ [t] -> may_follow t s) -> laid_out (drop_layout x ++ vs) (concat (map tx x) ++ s).
Proof.
  induction x as [|t x IH]; intros vs s HL HA Hs Hf; [exact Hs|]. inversion HL as [|? ? [Ht Hp] HL']; subst.
  assert (R : laid_out (drop_layout x ++ vs) (concat (map tx x) ++ s)).
  { apply IH; [exact HL'|eapply apart_tail; exact HA|exact Hs|]. intros x' t' ->. apply (Hf (t :: x') t'). reflexivity. }
  assert (Hn : forall c r, concat (map tx x) ++ s = c :: r -> extends (ty t) c = false).
  { intros c r E. destruct x as [|t' x]; [apply (Hf [] t eq_refl c r E)|]. cbn in E.
    destruct (lexed_head _ _ HL') as [Hs' _]. destruct (tx t') as [|c' w] eqn:Et; [destruct (shape_nonempty _ _ Hs' eq_refl)|].
    cbn in E. injection E as <- _. eapply apart_next; [exact HA|]. cbn. rewrite Et. reflexivity. }
  cbn [map concat]. rewrite <- app_assoc. unfold drop_layout in *. cbn [filter]. destruct t as [k u]. cbn [ty tx] in *.
  destruct (is_layout k) eqn:E; cbn [negb]; [|cbn [app]; apply (lo_tok (Tok k u)); assumption].
  destruct k; try discriminate.
  - destruct Ht as [-> | ->]; apply lo_blank; auto.
  - destruct Ht as [-> | ->]; apply lo_blank; auto.
  - destruct Ht as (b & -> & Hb). cbn [tx]. rewrite <- !app_assoc. apply lo_block; [|exact R]. apply no_close. exact Hb.
  - destruct Ht as (b & -> & Hb). cbn [tx]. rewrite <- !app_assoc. apply lo_line; [| |exact R].
    + revert Hb. apply Forall_impl. unfold is_nl. intros c Hc. bd. exact Hc.
    + intros c r Ec. specialize (Hn c r Ec). cbn in Hn. destruct (is_nl c); [reflexivity|discriminate].
Qed.
Lemma apart_app x y : apart (x ++ y) -> apart x /\ apart y.
Proof.
  induction x as [|t x IH]; intros H; [split; [constructor|exact H]|]. cbn in H. destruct (IH (apart_tail _ _ H)) as [H1 H2]. split; [|exact H2].
  destruct x as [|t' x]; [constructor|]. inversion H; subst. econstructor; eassumption.
Qed.
(** Inserting a gap at a token boundary keeps the visible tokens. *)
Theorem insert_gap x y g : tokens_of (concat (map tx (x ++ y))) (x ++ y) -> program (drop_layout (x ++ y)) -> gap g ->
  (forall x' t, x = x' ++ [t] -> may_follow t g) ->
  exists ts, tokens_of (concat (map tx x) ++ g ++ concat (map tx y)) ts /\ drop_layout ts = drop_layout (x ++ y).
Proof.
  intros Ht HP Hg Hf. pose proof (tokens_lexed _ _ Ht) as HL. pose proof (tokens_apart _ _ Ht (program_clear _ HL HP)) as HA.
  destruct (apart_app _ _ HA) as [HAx HAy]. unfold lexed in HL. rewrite Forall_app in HL. destruct HL as [HLx HLy].
  apply layout_tokens.
  - unfold drop_layout. rewrite filter_app. apply layout_prefix; [exact HLx|exact HAx|apply gap_layout; [exact Hg|apply apart_layout; assumption]|].
    intros x' t -> c r E. destruct g as [|c' g]; [|cbn in E; injection E as <- _; eapply Hf; reflexivity].
    cbn in E. rewrite <- app_assoc in HA. apply apart_app in HA as [_ HA]. eapply apart_next; [exact HA|exact E].
  - unfold lexed. rewrite Forall_forall. intros t Hin. apply filter_In in Hin as [Hin _]. apply (tokens_lexed _ _) in Ht. eapply lexed_in; eassumption.
  - apply program_visible; exact HP.
Qed.
(** Removing a run of layout tokens keeps the visible tokens unless the neighbours would merge. *)
Theorem remove_layout x l y : tokens_of (concat (map tx (x ++ l ++ y))) (x ++ l ++ y) -> program (drop_layout (x ++ l ++ y)) ->
  Forall (fun t => is_layout (ty t) = true) l ->
  (forall x' t, x = x' ++ [t] -> may_follow t (concat (map tx y))) ->
  exists ts, tokens_of (concat (map tx x) ++ concat (map tx y)) ts /\ drop_layout ts = drop_layout (x ++ l ++ y).
Proof.
  intros Ht HP Hl Hf. pose proof (tokens_lexed _ _ Ht) as HL. pose proof (tokens_apart _ _ Ht (program_clear _ HL HP)) as HA.
  destruct (apart_app _ _ HA) as [HAx HAy]. destruct (apart_app _ _ HAy) as [_ HAy']. unfold lexed in HL. rewrite !Forall_app in HL. destruct HL as (HLx & _ & HLy).
  apply layout_tokens.
  - assert (E : drop_layout l = []). { clear -Hl. induction Hl as [|t l H Hl IH]; [reflexivity|]. cbn. rewrite H. exact IH. }
    unfold drop_layout in *. rewrite !filter_app, E. cbn [app]. apply layout_prefix; [exact HLx|exact HAx|apply apart_layout; assumption|exact Hf].
  - unfold lexed. rewrite Forall_forall. intros t Hin. apply filter_In in Hin as [Hin _]. apply (tokens_lexed _ _) in Ht. eapply lexed_in; eassumption.
  - apply program_visible; exact HP.
Qed.
