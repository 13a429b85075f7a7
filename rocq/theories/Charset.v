(** The strings of a schema are made of characters of the text and ASCII. *)
From Verif Require Import Str LexSpec LexerProof Grammar Schema Denote Segments JsonSpec ParseSpec.
Local Open Scope N_scope.

Section Charset.
  Variable Q : N -> Prop.
  Hypothesis HQ : forall c, c < 128 -> Q c.
  Definition tokq (ts : list tok) : Prop := Forall (fun t => Forall Q (tx t)) ts.
  Lemma q_ascii l : forallb (fun c => c <? 128) l = true -> Forall Q l.
  Proof. intros H. apply Forall_forall. intros c Hc. apply HQ. rewrite forallb_forall in H. apply N.ltb_lt, H, Hc. Qed.
  Lemma tok_part seg ts : part seg ts -> tokq ts -> tokq seg.
  Proof. intros (a & b & ->) H. unfold tokq in *. rewrite !Forall_app in H. tauto. Qed.
  Lemma tok_in t ts : In t ts -> tokq ts -> Forall Q (tx t).
  Proof. intros Hi H. unfold tokq in H. rewrite Forall_forall in H. exact (H t Hi). Qed.
  Lemma q_chars ts : tokq ts -> Forall Q (chars ts).
  Proof. unfold chars. induction 1; cbn; [constructor|]. apply Forall_app. auto. Qed.
  Lemma sall_of {A} (P : A -> Prop) l s : slice_of l s -> Forall P l -> sall P s.
  Proof. intros [[-> ->]|[_ ->]] H; cbn; auto. Qed.
  Lemma q_series {A} (D : A -> list tok -> Prop) (P : A -> Prop) l ts : (forall a ts, D a ts -> tokq ts -> P a) -> series D l ts -> tokq ts -> Forall P l.
  Proof.
    intros HD H HT. apply Forall_forall. intros a Ha. destruct (series_part _ _ _ a H Ha) as (seg & Hp & Hs).
    apply (HD a seg Hs). eapply tok_part; eassumption.
  Qed.
  Lemma q_listed {A} (D : A -> list tok -> Prop) (P : A -> Prop) l ts : (forall a ts, D a ts -> tokq ts -> P a) -> listed D l ts -> tokq ts -> Forall P l.
  Proof.
    intros HD H HT. apply Forall_forall. intros a Ha. destruct (listed_part _ _ _ a H Ha) as (seg & Hp & Hs).
    apply (HD a seg Hs). eapply tok_part; eassumption.
  Qed.
  Ltac part_of H := (eapply tok_part; [|exact H]; part_tac).
  Lemma q_tok k n ts : In (Tok k n) ts -> tokq ts -> Forall Q n.
  Proof. intros Hi H. exact (tok_in _ _ Hi H). Qed.
  Lemma q_name n ts : w_name n ts -> tokq ts -> Forall Q n.
  Proof. intros -> H. eapply q_tok; [|exact H]; left; reflexivity. Qed.
  Lemma q_param n ts : w_param n ts -> tokq ts -> Forall Q n.
  Proof. intros -> H. eapply q_tok; [|exact H]; left; reflexivity. Qed.
  Lemma q_value n ts : w_value n ts -> tokq ts -> Forall Q n.
  Proof. intros [->| ->] H; (eapply q_tok; [|exact H]; left; reflexivity). Qed.
  Ltac asc := apply q_ascii; reflexivity.
  Lemma q_attribute a ts : w_attribute a ts -> tokq ts -> all_attribute (Forall Q) a.
  Proof.
    intros H HT. destruct H as [| | |v ts Hv|n|n|n|n]; (split; [asc|]); cbn [at_value]; intros u E; try discriminate; injection E as <-.
    1: (eapply q_value; [exact Hv|]; unfold in_parens in HT; part_of HT).
    all: eapply q_tok; [|exact HT]; cbn; eauto.
  Qed.
  Lemma q_type t ts : w_type t ts -> Forall Q t.
  Proof. intros []; asc. Qed.
  Lemma q_column c ts : w_column c ts -> tokq ts -> all_column (Forall Q) c.
  Proof.
    intros [n ty t l s u Hty Hs Hsl] HT. split; [eapply q_tok; [|exact HT]; left; reflexivity|]. split; [eapply q_type; exact Hty|].
    eapply sall_of; [exact Hsl|]. eapply q_series; [apply q_attribute|exact Hs|part_of HT].
  Qed.
  Lemma q_index i ts : w_index i ts -> tokq ts -> all_index (Forall Q) i.
  Proof.
    intros [n k t l u Hk Hl] HT. split; [|split].
    - assert (H : Forall Q (lit "#" ++ n)) by (eapply q_tok; [|exact HT]; left; reflexivity). apply Forall_app in H. apply H.
    - eapply q_listed; [apply q_name|exact Hl|part_of HT].
    - destruct Hk; asc.
  Qed.
  Lemma q_fkaction a ts : w_fkaction a ts -> all_fkaction (Forall Q) a.
  Proof. intros [on_ do_ t o u He Ho Hf]. split; [destruct He|destruct Hf]; asc. Qed.
  Lemma q_fkey k ts : w_fkey k ts -> tokq ts -> all_fkey (Forall Q) k.
  Proof.
    intros [kw r ch tc t pa tp acts sacts ta Hk Hr Hc Hp Ha Hs] HT. split; [|split; [|split]].
    - eapply q_listed; [apply q_name|exact Hc|unfold in_parens in HT; part_of HT].
    - eapply q_listed; [apply q_name|exact Hp|part_of HT].
    - eapply q_tok; [|exact HT]. rewrite !in_app_iff. right; left. right; left. reflexivity.
    - eapply sall_of; [exact Hs|]. eapply q_series; [intros a us Hu _; eapply q_fkaction; exact Hu|exact Ha|part_of HT].
  Qed.
  Lemma q_table t ts : w_table t ts -> tokq ts -> all_table (Forall Q) t.
  Proof.
    intros [n cs tc is_ sis fs sfs tm o Hc Hm Hi Hf Ho] HT. split; [eapply q_tok; [|exact HT]; right; left; reflexivity|].
    assert (HM : tokq tm) by part_of HT. destruct (members_part _ _ _ Hm) as [P1 P2]. split; [|split].
    - eapply q_listed; [apply q_column|exact Hc|part_of HT].
    - eapply sall_of; [exact Hi|]. apply Forall_forall. intros i Hin. destruct (P1 i Hin) as (seg & Hp & Hw). eapply q_index; [exact Hw|]. eapply tok_part; eassumption.
    - eapply sall_of; [exact Hf|]. apply Forall_forall. intros i Hin. destruct (P2 i Hin) as (seg & Hp & Hw). eapply q_fkey; [exact Hw|]. eapply tok_part; eassumption.
  Qed.
  Lemma q_config c ts : w_config c ts -> tokq ts -> all_config (Forall Q) c.
  Proof.
    intros [n v t Hv] HT. split; [eapply q_tok; [|exact HT]; left; reflexivity|eapply q_value; [exact Hv|part_of HT]].
  Qed.
  Lemma q_extension e ts : w_extension e ts -> tokq ts -> all_extension (Forall Q) e.
  Proof.
    intros [n a|n l t a Hl] HT.
    - split; [eapply q_tok; [|exact HT]; right; left; reflexivity|]. split; [exact I|]. eapply q_tok; [|exact HT]. cbn; auto.
    - split; [eapply q_tok; [|exact HT]; right; left; reflexivity|]. split; [eapply q_listed; [apply q_config|exact Hl|part_of HT]|].
      eapply q_tok; [|exact HT]. rewrite !in_app_iff. right; right. cbn; auto.
  Qed.
  Lemma q_stmt s ts : w_stmt s ts -> tokq ts -> Forall Q s.
  Proof.
    intros [s'|ts' Hd] HT; [|apply q_chars; exact HT]. apply Forall_app. split; [eapply q_tok; [|exact HT]; left; reflexivity|asc].
  Qed.
  Lemma q_annotation s ts : w_annotation s ts -> tokq ts -> Forall Q s.
  Proof. intros [_ E] HT. apply q_chars in HT. rewrite E in HT. apply Forall_app in HT. apply HT. Qed.
  Lemma q_body l ts : w_body l ts -> tokq ts -> Forall (Forall Q) l.
  Proof. intros [_ H] HT. eapply q_series; [apply q_stmt|exact H|exact HT]. Qed.
  Lemma q_action a ts : w_action a ts -> tokq ts -> all_action (Forall Q) a.
  Proof.
    intros [n anns sanns tn ins sins ti l pub mut aux body tb Ha Hsa Hp Hsp Hw Hpub Hv Hnv Ho Hno Hb] HT.
    split; [eapply q_tok; [|exact HT]; rewrite !in_app_iff; right; left; right; left; reflexivity|].
    split; [eapply sall_of; [exact Hsa|]; eapply q_series; [apply q_annotation|exact Ha|part_of HT]|].
    split.
    { eapply sall_of; [exact Hsp|]. assert (HI : tokq ti) by part_of HT. destruct Hp as [|l' us Hl|l' us Hl]; [constructor| |].
      - eapply q_listed; [apply q_param|exact Hl|exact HI].
      - eapply q_listed; [apply q_param|exact Hl|part_of HI]. }
    split.
    { cbn [ac_mut]. destruct (in_dec tt_eq_dec VIEW_ l) as [Hi|Hi]; [rewrite (Hv Hi)|rewrite (Hnv Hi)]; asc. }
    split.
    { cbn [ac_aux]. destruct (in_dec tt_eq_dec OWNER_ l) as [Hi|Hi]; [rewrite (Ho Hi)|rewrite (Hno Hi); exact I]. cbn [sall]. constructor; [asc|constructor]. }
    eapply q_body; [exact Hb|part_of HT].
  Qed.
  Lemma q_init a ts : w_init a ts -> tokq ts -> all_action (Forall Q) a.
  Proof.
    intros [body tb Hb] HT. split; [asc|]. split; [exact I|]. split; [exact I|]. split; [asc|]. split; [exact I|]. eapply q_body; [exact Hb|part_of HT].
  Qed.
  Theorem q_schema ts s : denotes ts s -> tokq ts -> all_schema (Forall Q) s.
  Proof.
    intros [n xs sxs tx ta sta ac ini sac td Hx Hsx Hd Hst Hsa] HT. destruct (decls_part _ _ _ _ Hd) as (P1 & P2 & P3).
    assert (HD : tokq td) by part_of HT.
    split; [constructor|]. split; [eapply q_tok; [|exact HT]; right; left; reflexivity|]. split; [|split].
    - eapply sall_of; [exact Hst|]. apply Forall_forall. intros i Hin. destruct (P1 i Hin) as (seg & Hp & Hw). eapply q_table; [exact Hw|]. eapply tok_part; eassumption.
    - eapply sall_of; [exact Hsa|]. apply Forall_app. split; apply Forall_forall; intros i Hin.
      + destruct (P2 i Hin) as (seg & Hp & Hw). eapply q_action; [exact Hw|]. eapply tok_part; eassumption.
      + destruct (P3 i Hin) as (seg & Hp & Hw). eapply q_init; [exact Hw|]. eapply tok_part; eassumption.
    - eapply sall_of; [exact Hsx|]. eapply q_series; [apply q_extension|exact Hx|part_of HT].
  Qed.
  Theorem writes_charset text s : writes text s -> Forall Q text -> all_schema (Forall Q) s.
  Proof.
    intros (ts & Ht & HD) HT. eapply q_schema; [exact HD|]. apply tokens_of_concat in Ht. rewrite Ht in HT. unfold tokq, drop_layout.
    apply Forall_forall. intros t Hin. apply filter_In in Hin as [Hin _]. apply Forall_forall. intros c Hc. rewrite Forall_forall in HT. apply HT.
    apply in_concat. exists (Tokens.tx t). split; [apply in_map; exact Hin|exact Hc].
  Qed.
End Charset.
