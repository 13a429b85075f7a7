(** JSON of what Parse returns. *)
From Verif Require Import Str Schema Utf8Spec Utf8 Utf8Proof JsonSpec GoJson JsonProof JsonUnique ParseBytes ParseKF ParseSpec ParseProof Outcomes NameSpec PrintSpec PrintProof Charset.
Local Open Scope N_scope.

Theorem writes_scalar text s : writes text s -> Forall scalar text -> all_schema (Forall scalar) s.
Proof. intros H HT. eapply writes_charset; [|exact H|exact HT]. intros c Hc. left; lia. Qed.
(** Nothing is lost between characters and bytes. *)
Theorem parse_bytes_result w bs l m s : o_result (parse_bytes w bs l m) = Some s ->
  exists s', o_result (parse_kf w (runes bs) l m) = Some s' /\ s = map_schema bytes_of s' /\ s' = map_schema runes s.
Proof.
  unfold parse_bytes. cbn [o_result]. destruct (o_result (parse_kf w (runes bs) l m)) as [s'|] eqn:E; cbn; intros H; [|discriminate]. injection H as <-.
  exists s'. split; [reflexivity|]. split; [reflexivity|]. rewrite comp_schema. symmetry. apply (id_schema _ (Forall scalar)).
  - intros a Ha. apply runes_bytes_of. exact Ha.
  - destruct l as [|e l].
    + eapply writes_scalar; [|apply runes_scalar].
      destruct (parse_kf w (runes bs) [] m) as [[s2|] l'] eqn:E2; cbn in E; [injection E as <-|discriminate]. eapply result_writes; exact E2.
    + exfalso. unfold parse_kf in E. destruct (parse_tree (runes bs)); discriminate.
Qed.

(** Schemas some text writes are equal when alike. *)
Lemma plain_column_eq a a' : plain_column a -> plain_column a' -> column_like a a' -> a = a'.
Proof.
  destruct a as [n t s], a' as [n' t' s']. intros [_ H] [_ H'] (E1 & E2 & E3). cbn in *. subst.
  f_equal. eapply (loosely_eq eq (fun _ => True)); eauto using Forall_forall; apply Forall_forall; auto.
Qed.
Lemma all_true {A} (l : list A) : Forall (fun _ => True) l.
Proof. induction l; constructor; auto. Qed.
Lemma not_empty {A} (s : slice A) : elems s <> [] -> s <> Some [].
Proof. intros H E. subst s. apply H. reflexivity. Qed.
Lemma plain_table_eq a a' : plain_table a -> plain_table a' -> table_like a a' -> a = a'.
Proof.
  destruct a as [n c i f], a' as [n' c' i' f']. intros (G & H1 & H2 & H3 & _) (G' & H1' & H2' & H3' & _) (E1 & E2 & E3 & E4). cbn in *. subst.
  destruct G as (_ & _ & G & _), G' as (_ & _ & G' & _). cbn in *. f_equal.
  - eapply (loosely_eq column_like plain_column); eauto using plain_column_eq, not_empty.
  - eapply (loosely_eq eq (fun _ => True)); eauto using all_true.
  - eapply (loosely_eq eq (fun _ => True)); eauto using all_true.
Qed.
Definition tidy_action (a : action) : Prop := nil_if_empty (ac_annots a) /\ elems (ac_stmts a) <> [].
Lemma tidy_action_eq a a' : tidy_action a -> tidy_action a' -> action_like a a' -> a = a'.
Proof.
  destruct a, a'. intros (H1 & H2) (H1' & H2') (E1 & E2 & E3 & E4 & E5 & E6 & E7). cbn in *. subst. f_equal.
  - eapply (loosely_eq eq (fun _ => True)); eauto using all_true.
  - eapply (loosely_eq eq (fun _ => True)); eauto using all_true, not_empty.
Qed.
Lemma plain_schema_eq a a' : plain_schema a -> plain_schema a' -> schema_like a a' -> a = a'.
Proof.
  destruct a as [o n t ac e], a' as [o' n' t' ac' e'].
  intros (_ & _ & N1 & _ & N2 & T & N3 & x & y & Ex & _ & A1 & A2) (_ & _ & N1' & _ & N2' & T' & N3' & x' & y' & Ex' & _ & A1' & A2') (E1 & E2 & E3 & E4 & E5).
  cbn in *. subst.
  assert (TA : forall l l', Forall plain_action l -> Forall plain_init l' -> Forall tidy_action (l ++ l')).
  { intros l l' Hl Hl'. apply Forall_app. split; [eapply Forall_impl; [|exact Hl]|eapply Forall_impl; [|exact Hl']].
    - intros z (Hg & Hn & _). split; [exact Hn|]. apply Hg.
    - intros z ((b & Hb & ->) & _). split; [discriminate|exact Hb]. }
  f_equal.
  - eapply (loosely_eq table_like plain_table); eauto using plain_table_eq.
  - eapply (loosely_eq action_like tidy_action); eauto using tidy_action_eq; [rewrite Ex|rewrite Ex']; apply TA; assumption.
  - eapply (loosely_eq eq (fun _ => True)); eauto using all_true.
Qed.
(** Equal JSON of two results: equal schemas. *)
Theorem json_same_schema bf n n' : same_type n n' -> to_json bf n = to_json bf n' -> node_like (map_node runes n) (map_node runes n').
Proof.
  intros HT E. destruct (to_json_reads bf n) as (_ & J & _), (to_json_reads bf n') as (_ & J' & _). rewrite E in J.
  apply document_inj; [|eapply json_text_fun; eassumption]. destruct n, n'; cbn in *; tauto.
Qed.
Theorem json_same_valid bf n n' : same_type n n' -> all_node valid_utf8 n -> all_node valid_utf8 n' -> to_json bf n = to_json bf n' -> node_like n n'.
Proof.
  intros HT V V' E. apply json_same_schema in E; [|exact HT]. apply (like_node bytes_of) in E. rewrite !comp_node in E.
  rewrite !(id_node _ valid_utf8) in E; auto; intros a Ha; apply bytes_of_runes; exact Ha.
Qed.
Theorem json_same_result bf w w' bs bs' l l' m m' s s' :
  o_result (parse_bytes w bs l m) = Some s -> o_result (parse_bytes w' bs' l' m') = Some s' ->
  to_json bf (NSchema s) = to_json bf (NSchema s') -> s = s'.
Proof.
  assert (C : forall w bs l m s, o_result (parse_bytes w bs l m) = Some s -> plain_schema (map_schema runes s) /\ s = map_schema bytes_of (map_schema runes s)).
  { clear. intros w bs l m s H. apply parse_bytes_result in H as (s1 & H & E & E'). rewrite <- E'. split; [|exact E].
    apply writes_plain. exists (runes bs). destruct l as [|e l].
    - destruct (parse_kf w (runes bs) [] m) as [r l'] eqn:E2. cbn in H. subst r. eapply result_writes; exact E2.
    - exfalso. unfold parse_kf in H. destruct (parse_tree (runes bs)); discriminate. }
  intros H H' E. apply C in H as [P ES]. apply C in H' as [P' ES']. apply json_same_schema in E; [|exact I]. cbn [map_node node_like] in E.
  apply plain_schema_eq in E; [|assumption|assumption]. rewrite ES, ES', E. reflexivity.
Qed.
