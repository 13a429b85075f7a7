(** Properties of the keyword look-ups: C30.  [f] is unicode.ToLower. *)
From Verif Require Import Str Types TypesSpec TypesProof.
Local Open Scope N_scope.

Lemma in_column w t : In (w, t) column_types <-> exists a b, w = lit a /\ t = lit b /\ column_word a b.
Proof.
  split.
  - intros H. cbn in H. repeat (destruct H as [H|H]; [injection H as <- <-; eexists _, _; (split; [|split; [|constructor]]); reflexivity|]). destruct H.
  - intros (a & b & -> & -> & H). destruct H; cbn; tauto.
Qed.
Lemma in_attribute w t : In (w, t) attribute_types <-> exists a b, w = lit a /\ t = lit b /\ attribute_word a b.
Proof.
  split.
  - intros H. cbn in H. repeat (destruct H as [H|H]; [injection H as <- <-; eexists _, _; (split; [|split; [|constructor]]); reflexivity|]). destruct H.
  - intros (a & b & -> & -> & H). destruct H; cbn; tauto.
Qed.
Lemma in_index w t : In (w, t) index_types <-> exists a b, w = lit a /\ t = lit b /\ index_word a b.
Proof.
  split.
  - intros H. cbn in H. repeat (destruct H as [H|H]; [injection H as <- <-; eexists _, _; (split; [|split; [|constructor]]); reflexivity|]). destruct H.
  - intros (a & b & -> & -> & H). destruct H; cbn; tauto.
Qed.
(** What a look-up must do: found exactly for spellings of documented words, an error with the string otherwise. *)
Definition looks_up (word : string -> string -> Prop) (msg : string) (g : list N -> found) : Prop :=
  (forall s t, g s = inl t <-> exists a b, t = lit b /\ word a b /\ spelling s (lit a)) /\
  (forall s, (forall a b, word a b -> ~ spelling s (lit a)) <-> g s = inr (lit msg ++ s)).
Lemma looks_up_get m (msg : string) (word : string -> string -> Prop) f : table_ok m -> unicode_lower f ->
  (forall w t, In (w, t) m <-> exists a b, w = lit a /\ t = lit b /\ word a b) -> looks_up word msg (get m (lit msg) f).
Proof.
  intros HT Hf HI. split.
  - intros s t. rewrite get_found by assumption. split.
    + intros (w & Hi & Hs). apply HI in Hi as (a & b & -> & -> & Hw). eauto.
    + intros (a & b & -> & Hw & Hs). exists (lit a). split; [apply HI; eauto|exact Hs].
  - intros s. rewrite get_error by assumption. split.
    + intros H w t Hi. apply HI in Hi as (a & b & -> & -> & Hw). eauto.
    + intros H a b Hw. apply (H (lit a) (lit b)). apply HI. eauto.
Qed.
Theorem C30_lookups_exact : forall f, unicode_lower f ->
  looks_up column_word "invalid column type: " (get_column_type f) /\
  looks_up attribute_word "invalid attribute type: " (get_attribute_type f) /\
  looks_up index_word "invalid index type: " (get_index_type f).
Proof.
  intros f Hf. split; [|split]; apply looks_up_get; auto using column_ok, attribute_ok, index_ok, in_column, in_attribute, in_index.
Qed.
Print Assumptions C30_lookups_exact.
(** For ASCII strings: exactly the case variants. *)
Theorem C30_ascii_case_variants : forall f s t, unicode_lower f -> Forall (fun c => c < 128) s ->
  (get_column_type f s = inl t <-> exists a b, t = lit b /\ column_word a b /\ ascii_spelling s (lit a)) /\
  (get_attribute_type f s = inl t <-> exists a b, t = lit b /\ attribute_word a b /\ ascii_spelling s (lit a)) /\
  (get_index_type f s = inl t <-> exists a b, t = lit b /\ index_word a b /\ ascii_spelling s (lit a)).
Proof.
  intros f s t Hf HA. destruct (C30_lookups_exact f Hf) as ([H1 _] & [H2 _] & [H3 _]). rewrite H1, H2, H3.
  split; [|split]; (split; intros (a & b & E & Hw & Hs); exists a, b; eauto using spells_ascii, ascii_spells).
Qed.
Print Assumptions C30_ascii_case_variants.
(** Words and types correspond one to one. *)
Theorem C30_one_to_one :
  (forall a b c d, column_word a b -> column_word c d -> (a = c <-> b = d)) /\
  (forall a b c d, attribute_word a b -> attribute_word c d -> (a = c <-> b = d)) /\
  (forall a b c d, index_word a b -> index_word c d -> (a = c <-> b = d)).
Proof. split; [|split]; intros a b c d [] []; split; congruence. Qed.
Print Assumptions C30_one_to_one.
(** No string is a spelling of two words, so the look-ups of different spellings of different words differ. *)
Theorem C30_injective : forall f s s' t, unicode_lower f -> get_attribute_type f s = inl t -> get_attribute_type f s' = inl t ->
  exists a b, attribute_word a b /\ spelling s (lit a) /\ spelling s' (lit a).
Proof.
  intros f s s' t Hf H H'. apply (C30_lookups_exact f Hf) in H as (a & b & -> & Hw & Hs). apply (C30_lookups_exact f Hf) in H' as (c & d & E & Hw' & Hs').
  assert (E' : b = d) by (destruct Hw, Hw'; try reflexivity; discriminate). destruct C30_one_to_one as (_ & H & _). apply (H a b c d Hw Hw') in E'. subst c. eauto.
Qed.
Print Assumptions C30_injective.
(** A concrete unicode.ToLower, and U+0130 accepted for i. *)
Definition sample_lower (c : N) : N :=
  if (65 <=? c) && (c <=? 90) then c + 32 else if c =? 304 then 105 else if c =? 8490 then 107 else c.
Example C30_case : unicode_lower sample_lower.
Proof.
  unfold sample_lower. split; [|split; [reflexivity|split; [reflexivity|]]].
  - intros c H. destruct ((65 <=? c) && (c <=? 90)); [reflexivity|]. destruct (N.eqb_spec c 304); [lia|]. destruct (N.eqb_spec c 8490); lia.
  - intros c H H1 H2. destruct (N.leb_spec 65 c), (N.leb_spec c 90); cbn [andb]; try lia; destruct (N.eqb_spec c 304), (N.eqb_spec c 8490); lia.
Qed.
Example C30_case_found : get_column_type sample_lower (lit "BlOb") = inl (lit "blob") /\ get_attribute_type sample_lower (lit "MinLen") = inl (lit "min_length") /\
  get_index_type sample_lower (lit "INDEX") = inl (lit "btree") /\ get_column_type sample_lower (lit "bool") = inr (lit "invalid column type: bool").
Proof. vm_compute. repeat split. Qed.
Theorem C30_only_ascii_refuted : ~ forall f s t, unicode_lower f -> get_column_type f s = inl t -> Forall (fun c => c < 128) s.
Proof.
  intros H. specialize (H sample_lower (196 :: 176 :: lit "nt") (lit "int") C30_case eq_refl). inversion H as [|? ? HC _]. discriminate.
Qed.
Print Assumptions C30_only_ascii_refuted.
