(** Continuing a text: the tokens read before the first error, as text, with more text after it. *)
From Coq Require Import ZArith Lia.
From Verif Require Import Str Tokens LexSpec Lexer LexerProof Grammar Bigram LayoutSpec Spacing Segments LayoutProof PrintProof ParseSpec Atn AtnParser AtnParserProof.
Local Open Scope N_scope.

(** *** A text for every type of token a program has *)
Definition sample_text (k : tt) : str :=
  match literal_of k with
  | Some w => w
  | None => match k with INDEX_NAME => lit "#a" | PARAM_OR_VAR => lit "$a" | BLOCK_VAR_OR_ANNOTATION => lit "@a" | UNSIGNED_NUMBER_LITERAL => lit "0" | STRING_LITERAL => lit "''" | SQL_STMT => lit "select a" | _ => lit "a" end
  end.
Definition sample (t : tok) : tok := Tok (ty t) (sample_text (ty t)).
Lemma sample_good k : sqlk k = false -> is_layout k = false -> lexed [Tok k (sample_text k)].
Proof.
  intros H1 H2. assert (G : forallb (fun k => sqlk k || is_layout k || match lex (sample_text k) with Some [t] => tt_eqb (ty t) k | _ => false end) all_tt = true) by (vm_compute; reflexivity).
  rewrite forallb_forall in G. specialize (G k). assert (Hin : In k all_tt) by (eapply nth_error_In; apply tt_num_nth). specialize (G Hin). rewrite H1, H2 in G. cbn [orb] in G.
  destruct (lex (sample_text k)) as [[|t [|]]|] eqn:E; try discriminate G. apply tt_eqb_eq in G. apply lex_spec in E. pose proof (tokens_of_concat _ _ E) as C. cbn in C. rewrite app_nil_r in C. apply tokens_lexed in E.
  destruct t as [k' u]. cbn [ty tx] in *. subst. exact E.
Qed.
Lemma kinds_sample ts : AtnParser.kinds (map sample ts) = AtnParser.kinds ts. Proof. unfold AtnParser.kinds. rewrite map_map. reflexivity. Qed.
(** Only the types count. *)
Lemma program_kinds ts ts' : AtnParser.kinds ts = AtnParser.kinds ts' -> program ts -> program ts'.
Proof. intros E H. apply parser_accepts_iff. apply parser_accepts_iff in H. unfold parser_accepts in *. rewrite <- E. exact H. Qed.
Lemma sampled u rest : program (u ++ rest) -> program (u ++ map sample rest) /\ lexed (map sample rest).
Proof.
  intros H. split; [eapply program_kinds; [|exact H]; unfold AtnParser.kinds; rewrite !map_app; f_equal; symmetry; apply kinds_sample|].
  pose proof (program_no_sqlk _ H) as HQ. pose proof (program_visible _ H) as HV. apply Forall_app in HQ as (_ & HQ), HV as (_ & HV). clear H.
  induction rest as [|t rest IH]; [constructor|]. inversion HQ as [|? ? Hq HQ']; inversion HV as [|? ? Hv HV']; subst. cbn [map]. pose proof (sample_good _ Hq Hv) as G. inversion G; subst. constructor; [assumption|]. apply IH; assumption.
Qed.

(** *** Laying out what comes next *)
Lemma spread_rest vs : lexed vs -> Forall (fun t => sqlk (ty t) = false) vs -> Forall (fun t => is_layout (ty t) = false) vs -> (forall x y, adjacent vs x y -> ty x = SQL_STMT -> ty y = SCOL) -> laid_out vs (spread_text vs).
Proof.
  intros HL HQ HV HS.
  induction vs as [|t vs IH]; [constructor|]. inversion HL as [|? ? [Ht Hp] HL']; inversion HQ as [|? ? Hq HQ']; inversion HV as [|? ? Hv HV']; subst.
  assert (R : laid_out vs (spread_text vs)). { apply IH; auto. intros x y (a & b & ->). apply HS. exists (t :: a), b. reflexivity. }
  unfold spread_text in *. cbn [map concat]. unfold spread at 1. destruct (tt_eqb (ty t) SQL_STMT) eqn:E.
  - apply tt_eqb_eq in E. rewrite app_nil_r. apply lo_tok; [exact R|]. intros c r Ec. destruct vs as [|y vs]; [discriminate Ec|].
    assert (Hy : ty y = SCOL) by (eapply HS; [exists [], vs; reflexivity|exact E]). destruct (lexed_head _ _ HL') as [Hsy _]. rewrite Hy in Hsy. cbn in Hsy.
    cbn [map concat] in Ec. unfold spread at 1 in Ec. rewrite Hsy in Ec. cbn in Ec. injection Ec as <- _. rewrite E. reflexivity.
  - rewrite <- app_assoc. apply lo_tok; [apply lo_blank; [reflexivity|exact R]|]. intros c r Ec. cbn in Ec. injection Ec as <- _.
    destruct (ty t); try discriminate; reflexivity.
Qed.
Lemma tokens_prefix : forall x y s, tokens_of s (x ++ y) -> tokens_of (concat (map tx x)) x.
Proof.
  induction x as [|t x IH]; intros y s H; [constructor|]. cbn [app] in H. inversion H as [|? ? rest ? Hf Ht]; subst. cbn [map concat]. econstructor; [|eapply IH; exact Ht].
  pose proof (tokens_of_concat _ _ Ht) as E. rewrite map_app, concat_app in E. destruct Hf as (H1 & H2 & H3 & H4 & H5). split; [reflexivity|]. split; [exact H2|]. split; [exact H3|]. split; [|exact H5].
  intros k u r Eu Hk. apply (H4 k u (r ++ concat (map tx y))); [|exact Hk]. rewrite H1, E, app_assoc, Eu, <- app_assoc. reflexivity.
Qed.
Lemma clear_prefix x y : clear_tokens (x ++ y) -> clear_tokens x.
Proof. intros (H1 & H2). apply Forall_app in H1 as (H1 & _). split; [exact H1|]. intros a t t' b ->. apply (H2 a t t' (b ++ y)). rewrite <- app_assoc. reflexivity. Qed.
Theorem continued_text x y s rest : tokens_of s (x ++ y) -> program (drop_layout x ++ rest) -> exists c, syntactically_valid (concat (map tx x) ++ c).
Proof.
  intros Ht HP. apply sampled in HP as (HP & HL). set (vs := map sample rest) in *.
  assert (Hx : lexed x) by (eapply tokens_lexed, tokens_prefix; exact Ht). assert (Hvis : Forall (fun t => is_layout (ty t) = false) vs) by (apply program_visible, Forall_app in HP; tauto).
  assert (Hvq : Forall (fun t => sqlk (ty t) = false) vs) by (apply program_no_sqlk, Forall_app in HP; tauto).
  assert (Hd : drop_layout (x ++ vs) = drop_layout x ++ vs).
  { unfold drop_layout. rewrite filter_app. f_equal. clear -Hvis. induction Hvis as [|t l Hl _ IH]; [reflexivity|]. cbn. rewrite Hl. cbn. rewrite IH. reflexivity. }
  assert (Hc : clear_tokens x) by (apply (clear_prefix x vs); apply program_clear; [apply Forall_app; auto|rewrite Hd; exact HP]).
  pose proof (tokens_apart _ _ (tokens_prefix _ _ _ Ht) Hc) as Ha.
  assert (HS : forall a b, adjacent (drop_layout x ++ vs) a b -> ty a = SQL_STMT -> ty b = SCOL) by (intros a b; apply sql_then_semicolon; exact HP).
  assert (Hs : laid_out vs (spread_text vs)).
  { apply spread_rest; [exact HL|exact Hvq|exact Hvis|]. intros a b (l & r & E). apply HS. exists (drop_layout x ++ l), r. rewrite E, <- app_assoc. reflexivity. }
  assert (Fin : forall c, laid_out vs c -> (forall x' t, x = x' ++ [t] -> may_follow t c) -> syntactically_valid (concat (map tx x) ++ c)).
  { intros c Hlo Hm. pose proof (layout_prefix x vs c Hx Ha Hlo Hm) as G. apply program_layouts in G as (ts & G1 & G2); [|exact HP|].
    - exists ts. rewrite G2. auto.
    - apply Forall_app. split; [|exact HL]. eapply lexed_visible. eapply tokens_prefix. exact Ht. }
  assert (Hlast : x = [] \/ exists x' t, x = x' ++ [t]) by (destruct x using rev_ind; eauto).
  destruct Hlast as [Hlast|(x' & t & El)].
  { exists (spread_text vs). apply Fin; [exact Hs|]. intros x' t E. rewrite E in Hlast. destruct x'; discriminate Hlast. }
  assert (Hin : sqlk (ty t) = false) by (destruct Hc as (Hq & _); rewrite El in Hq; apply Forall_app in Hq as (_ & Hq); inversion Hq; assumption).
  destruct (tt_eqb (ty t) SQL_STMT) eqn:E.
  - apply tt_eqb_eq in E. exists (spread_text vs). apply Fin; [exact Hs|]. intros x1 t1 E1. rewrite El in E1. apply app_inj_tail in E1 as (_ & <-).
    intros c r Ec. unfold spread_text in Ec. destruct vs as [|y0 vs0]; [discriminate Ec|]. assert (Hy : ty y0 = SCOL).
    { apply (HS t y0); [|exact E]. exists (drop_layout x'), vs0. rewrite El. unfold drop_layout. rewrite filter_app. cbn. rewrite E. cbn. rewrite <- app_assoc. reflexivity. }
    destruct (lexed_head _ _ HL) as [Hsy _]. rewrite Hy in Hsy. cbn in Hsy. cbn [map concat] in Ec. unfold spread at 1 in Ec. rewrite Hsy in Ec. cbn in Ec. injection Ec as <- _. rewrite E. reflexivity.
  - exists (10 :: spread_text vs). apply Fin; [apply lo_blank; [reflexivity|exact Hs]|]. intros x1 t1 E1. rewrite El in E1. apply app_inj_tail in E1 as (_ & <-).
    intros c r Ec. injection Ec as <- _. destruct (ty t); try discriminate; reflexivity.
Qed.
(** The place of a visible token. *)
Lemma split_visible : forall ts u r, drop_layout ts = u ++ r -> exists x y, ts = x ++ y /\ drop_layout x = u /\ drop_layout y = r /\ match y with t :: _ => is_layout (ty t) = false | [] => True end.
Proof.
  induction ts as [|t ts IH]; intros u r E.
  - destruct u; [|discriminate E]. cbn in E. subst r. exists [], []. repeat split.
  - unfold drop_layout in E. cbn [filter] in E. fold (drop_layout ts) in E. destruct (is_layout (ty t)) eqn:El; cbn [negb] in E.
    + destruct (IH u r E) as (x & y & -> & H1 & H2 & H3). exists (t :: x), y. split; [reflexivity|]. split; [unfold drop_layout; cbn [filter]; rewrite El; exact H1|]. auto.
    + destruct u as [|t' u].
      * cbn in E. exists [], (t :: ts). split; [reflexivity|]. split; [reflexivity|]. split; [unfold drop_layout; cbn [filter]; rewrite El; exact E|exact El].
      * cbn in E. injection E as <- E. destruct (IH u r E) as (x & y & -> & H1 & H2 & H3). exists (t :: x), y. split; [reflexivity|]. split; [unfold drop_layout; cbn [filter]; rewrite El; cbn; f_equal; exact H1|]. auto.
Qed.
