(** Words with two spellings: C68. *)
From Verif Require Import LexSpec Lexer LexerProof Segments LayoutSpec Spacing LayoutProof PrintSpec PrintProof Grammar Schema Denote FaultSpec Validator ValidSpec ValidProof3 Sample ParseKF ParseSpec ParseProof Outcomes PropSyntax PropParse SpellSpec SpellProof.

Lemma same_schema_same_outcome w t t' s m : writes t s -> writes t' s -> parse_kf w t [] m = parse_kf w t' [] m.
Proof.
  intros H H'.
  assert (G : forall t, writes t s -> (exists z, invalid_schema (w_ext w) s z /\ parse_kf w t [] m = Outcome (Some s) [report_error z]) \/ (valid_schema (w_ext w) s /\ parse_kf w t [] m = Outcome (Some s) [])).
  { clear. intros t Ht. pose proof (C05_what_the_text_writes_is_returned w t m s Ht) as E. destruct (C18_every_outcome w t m) as [(_ & Eo)|[(e & _ & Eo)|[(s1 & z & Hw & Hi & Eo)|(s1 & (Hw & Hv) & Eo)]]]; rewrite Eo in *; cbn in E; try discriminate E; injection E as ->; eauto. }
  destruct (G _ H) as [(z & Hz & ->)|(Hv & ->)], (G _ H') as [(z' & Hz' & ->)|(Hv' & ->)]; try reflexivity.
  - rewrite (invalid_fun _ _ _ _ Hz Hz'). reflexivity.
  - destruct (valid_not_invalid _ _ _ Hv' Hz).
  - destruct (valid_not_invalid _ _ _ Hv Hz').
Qed.

(** C68.  [ts] and [ts'] are the tokens of the texts; the second text writes each in any of its ways. *)
Theorem C68_same_outcome : forall w m d text text' ts ts' s, tokens_of text ts -> tokens_of text' ts' -> respelled d (drop_layout ts) (drop_layout ts') ->
  writes text s -> parse_kf w text [] m = parse_kf w text' [] m.
Proof.
  intros w m d text text' ts ts' s Ht Ht' R H. apply (same_schema_same_outcome _ _ _ s); [exact H|]. destruct H as (us & Hu & HD). rewrite (tokens_of_fun _ _ _ Hu Ht) in HD. exists ts'. split; [exact Ht'|]. eapply kept_denotes; eassumption.
Qed.
Print Assumptions C68_same_outcome.
Theorem C68_still_a_program : forall d text text' ts ts', tokens_of text ts -> tokens_of text' ts' -> respelled d (drop_layout ts) (drop_layout ts') ->
  syntactically_valid text -> syntactically_valid text'.
Proof.
  intros d text text' ts ts' Ht Ht' R (us & Hu & HP). rewrite (tokens_of_fun _ _ _ Hu Ht) in HP. exists ts'. split; [exact Ht'|]. eapply kept_program; eassumption.
Qed.
Print Assumptions C68_still_a_program.
(** "fk" for "foreign_key", "ref" for "references" and back, anywhere in any text: the same result, and the same outcome unless the text is no program. *)
Theorem C68_synonyms_everywhere : forall w m text text' ts ts', tokens_of text ts -> tokens_of text' ts' -> respelled false (drop_layout ts) (drop_layout ts') ->
  (syntactically_valid text <-> syntactically_valid text') /\ o_result (parse_kf w text [] m) = o_result (parse_kf w text' [] m) /\
  (syntactically_valid text -> parse_kf w text [] m = parse_kf w text' [] m).
Proof.
  intros w m text text' ts ts' Ht Ht' R. pose proof (resp_sym _ _ (lexed_visible _ _ Ht) R) as R'.
  assert (V : syntactically_valid text <-> syntactically_valid text') by (split; [exact (C68_still_a_program _ _ _ _ _ Ht Ht' R)|exact (C68_still_a_program _ _ _ _ _ Ht' Ht R')]).
  assert (G : syntactically_valid text -> parse_kf w text [] m = parse_kf w text' [] m).
  { intros Hv. destruct (C18_every_outcome w text m) as [(N & _)|[(e & Hm & Eo)|[(s1 & z & Hw & _)|(s1 & (Hw & _) & _)]]].
    - destruct (N Hv).
    - assert (Hm' : misdeclared text' e).
      { destruct Hm as (us & Hu & HP & HF). rewrite (tokens_of_fun _ _ _ Hu Ht) in HP, HF. exists ts'. split; [exact Ht'|]. split; [eapply kept_program; eassumption|eapply kept_fault; eassumption]. }
      rewrite Eo, (misdeclared_outcome _ _ _ _ Hm'). reflexivity.
    - exact (C68_same_outcome _ _ _ _ _ _ _ _ Ht Ht' R Hw).
    - eapply C68_same_outcome; eassumption. }
  split; [exact V|]. split; [|exact G].
  destruct (C18_every_outcome w text m) as [(N & Eo)|[(e & (us & Hu & HP & _) & _)|[(s1 & z & (us & Hu & HD) & _)|(s1 & (Hw & _) & _)]]].
  - assert (N' : ~ syntactically_valid text') by tauto. rewrite Eo. destruct (C18_every_outcome w text' m) as [(_ & ->)|[(e & (us & Hu & HP & _) & _)|[(s1 & z & Hw & _)|(s1 & (Hw & _) & _)]]]; [reflexivity| | |]; destruct N'; [exists us; split; assumption| |]; eapply writes_valid; exact Hw.
  - rewrite G; [reflexivity|]. exists us. split; assumption.
  - rewrite G; [reflexivity|]. apply (writes_valid _ s1). exists us. split; assumption.
  - rewrite G; [reflexivity|]. eapply writes_valid; exact Hw.
Qed.
Print Assumptions C68_synonyms_everywhere.
(** And a text can be written in all these ways: the tokens written out, with blanks between them, have the same outcome. *)
Lemma respelled_lexed d ts us : lexed ts -> respelled d ts us -> lexed us.
Proof.
  intros L R. induction R as [|x ys ts us E R IH]; [constructor|]. inversion L as [|? ? Hx L']; subst. apply Forall_app. split; [|exact (IH L')]. destruct x as [t s]. unfold spelled in E. cbn [ty] in E.
  destruct t; try (subst ys; constructor; [exact Hx|constructor]); try (destruct d; subst ys; repeat constructor; apply Hx);
    try (destruct E as [-> | ->]; constructor; try constructor; eapply fixed_good; reflexivity); (destruct E as [-> |(_ & ->)]; constructor; try exact Hx; constructor; try constructor; eapply fixed_good; reflexivity).
Qed.
Theorem C68_can_be_respelled : forall w m d text ts us s, tokens_of text ts -> writes text s -> respelled d (drop_layout ts) us ->
  parse_kf w (spread_text us) [] m = parse_kf w text [] m.
Proof.
  intros w m d text ts us s Ht H R. pose proof (respelled_lexed _ _ _ (lexed_visible _ _ Ht) R) as HL. pose proof H as (ts1 & Ht1 & HD1). rewrite (tokens_of_fun _ _ _ Ht1 Ht) in HD1. pose proof (kept_denotes _ _ _ _ HD1 R) as HD.
  pose proof (denotes_program _ _ HD HL) as HP. destruct (proj2 (program_layouts _ _ HP HL) (spread_layout _ HP HL)) as (vs & Hv & E).
  apply (same_schema_same_outcome _ _ _ s); [|exact H]. exists vs. split; [exact Hv|]. rewrite E. exact HD.
Qed.
Print Assumptions C68_can_be_respelled.
(** Not so for "do": leaving it out can turn a wrong text into a program. *)
Definition many_do : str := lit "database d; table t { a int, fk (a) ref t (a) on_update do do cascade }".
Definition no_do : str := lit "database d; table t { a int, fk (a) ref t (a) on_update cascade }".
Lemma lex_tokens text ts : lex text = Some ts -> tokens_of text ts. Proof. apply lex_spec. Qed.
Ltac respell := vm_compute; repeat (first
  [ apply rs_nil
  | apply (rs_cons _ _ [_; _]); [solve [cbn; auto]|]
  | apply (rs_cons _ _ [_]); [solve [cbn; auto]|]
  | apply (rs_cons _ _ []); [solve [cbn; auto]|] ]).
Theorem C68_do_everywhere_refuted : ~ (forall text text' ts ts', tokens_of text ts -> tokens_of text' ts' -> respelled true (drop_layout ts) (drop_layout ts') ->
  syntactically_valid text' -> syntactically_valid text).
Proof.
  intros H. assert (V : syntactically_valid many_do).
  { destruct (lex many_do) as [ts|] eqn:E1; [|vm_compute in E1; discriminate E1]. destruct (lex no_do) as [ts'|] eqn:E2; [|vm_compute in E2; discriminate E2].
    apply (H many_do no_do ts ts'); [apply lex_spec, E1|apply lex_spec, E2| |].
    - vm_compute in E1, E2. injection E1 as <-. injection E2 as <-. respell.
    - destruct (parse_kf sample_world no_do [] Default) as [[s|] l] eqn:E; [|vm_compute in E; discriminate E]. apply result_writes in E. eapply writes_valid. exact E. }
  destruct (C18_every_outcome sample_world many_do Default) as [(N & _)|[(e & _ & E)|[(s & z & _ & _ & E)|(s & _ & E)]]]; [exact (N V)| | |]; vm_compute in E; discriminate E.
Qed.
Print Assumptions C68_do_everywhere_refuted.

(** A case *)
Definition spell_a : str := lit "database d; table t { a int, fk (a) references t (a) on_update do cascade on_delete restrict }".
Definition spell_b : str := lit "database d; table t { a int, foreign_key(a) ref t(a) on_update cascade // and
 on_delete do restrict }".
Definition tokens (text : str) : list tok := match lex text with Some ts => ts | None => [] end.
Lemma tokens_right text : (if lex text then True else False) -> tokens_of text (tokens text).
Proof. unfold tokens. destruct (lex text) as [ts|] eqn:E; [intros _; apply lex_spec; exact E|intros []]. Qed.
Example C68_case : tokens_of spell_a (tokens spell_a) /\ tokens_of spell_b (tokens spell_b) /\ respelled true (drop_layout (tokens spell_a)) (drop_layout (tokens spell_b)) /\
  map ty (tokens spell_a) <> map ty (tokens spell_b) /\ exists s, parse_kf sample_world spell_a [] Default = Outcome (Some s) [].
Proof.
  split; [apply tokens_right; vm_compute; exact I|]. split; [apply tokens_right; vm_compute; exact I|]. split; [respell|]. split; [vm_compute; discriminate|]. eexists. vm_compute. reflexivity.
Qed.
