(** Annotations written and read: C66. *)
From Verif Require Import Tokens LexSpec Spacing Schema Annotation AnnotSpec AnnotProof AnnWrite PropAnnot.
Local Open Scope N_scope.

Lemma between_start c r : between (c :: r) -> forall b, ~ starts_attribute (c :: b).
Proof.
  intros H b (n & v & r' & s1 & s2 & E & [Hn Hw] & _). inversion H as [|? ? Hc _]; subst. destruct n as [|a n]; [congruence|]. cbn in E. injection E as <- _. inversion Hw as [|? ? Ha _]; subst.
  cbn in Hc. repeat (destruct Hc as [<-|Hc]; [discriminate Ha|]). destruct Hc.
Qed.
Lemma between_app a b : between (a ++ b) <-> between a /\ between b. Proof. apply Forall_app. Qed.
Lemma spread_attributes l body : spread l body -> Forall writable l -> attributes_in body l.
Proof.
  induction 1 as [g Hg|g n s1 s2 v l rest Hg H1 H2 HS IH HR]; intros HW.
  - constructor. intros a b ->. apply between_app in Hg as [_ Hb]. destruct b as [|c b]; [|exact (between_start _ _ Hb b)].
    intros (n & v & r & s1 & s2 & E & [Hn _] & _). destruct n; [congruence|discriminate].
  - inversion HW as [|? ? [Hn Hv] HW']; subst. cbn [fst snd] in *. eapply (ai_one _ g (n ++ s1 ++ lit "=" ++ s2 ++ v ++ rest) n v rest l); [reflexivity| | |apply IH; exact HW'].
    + exists s1, s2. split; [reflexivity|]. split; [exact Hn|]. split; [exact H1|]. split; [exact H2|]. destruct Hv as [Hv|Hv]; [left; split; [exact Hv|]|right; exact Hv].
      intros c r ->. destruct HR as [HR|(c' & r' & E & HR)]; [discriminate|]. injection E as <- _. inversion HR as [|? ? Hc _]; subst. cbn in Hc. repeat (destruct Hc as [<-|Hc]; [reflexivity|]). destruct Hc.
    + intros a b -> Hb. apply between_app in Hg as [_ Hg]. destruct b as [|c b]; [congruence|]. apply (between_start _ _ Hg).
Qed.
Lemma spread_more l body c : spread l body -> between [c] -> spread l (c :: body).
Proof.
  intros H Hc. apply Forall_inv in Hc. destruct H as [g Hg|g n s1 s2 v l rest Hg H1 H2 HS HR].
  - constructor. constructor; assumption.
  - apply (spread_cons (c :: g)); try assumption. constructor; assumption.
Qed.
Lemma attr_list_spread l : spread l (attr_list l).
Proof.
  induction l as [|[n v] l IH]; [constructor; constructor|]. destruct l as [|nv l].
  - cbn [attr_list]. assert (E : n ++ lit "=" ++ v = [] ++ n ++ [] ++ lit "=" ++ [] ++ v ++ []) by (cbn; rewrite app_nil_r; reflexivity). rewrite E. constructor; try constructor; auto. constructor.
  - change (attr_list ((n, v) :: nv :: l)) with ([] ++ n ++ [] ++ lit "=" ++ [] ++ v ++ (44 :: attr_list (nv :: l))). constructor; [constructor..| |].
    + apply spread_more; [exact IH|]. constructor; [cbn; tauto|constructor].
    + right. exists 44, (attr_list (nv :: l)). split; [reflexivity|]. constructor; [cbn; tauto|constructor].
Qed.
Lemma attr_list_empty l : Forall writable l -> l <> [] -> attr_list l <> [].
Proof. intros HW Hl. destruct l as [|[n v] l]; [congruence|]. inversion HW as [|? ? [[Hn _] _] _]; subst. cbn in Hn. destruct n; [congruence|]. cbn. destruct l; discriminate. Qed.

(** White space and commas around the attributes do not matter. *)
Theorem C66_spread_out : forall target l body, ~ In 40 target -> Forall writable l -> spread l body -> target <> [] \/ body <> [] ->
  parse_annotation (target ++ lit "(" ++ body ++ lit ")") = AnnOk (AnnotationValue target l).
Proof.
  intros t l body Ht HW HS HN. apply C25_result_exactly. exists body. split; [|apply spread_attributes; assumption]. split; [reflexivity|]. split; [exact Ht|].
  rewrite !app_length. cbn [length lit]. destruct t; destruct body; cbn [length]; try lia. destruct HN; congruence.
Qed.
Print Assumptions C66_spread_out.
(** What is written is read back. *)
Theorem C66_written_reads_back : forall target l, ~ In 40 target -> Forall writable l -> target <> [] \/ l <> [] ->
  parse_annotation (annotation_text target l) = AnnOk (AnnotationValue target l).
Proof.
  intros t l Ht HW HN. apply C66_spread_out; [exact Ht|exact HW|apply attr_list_spread|]. destruct HN as [HN|HN]; [left; exact HN|right; apply attr_list_empty; assumption].
Qed.
Print Assumptions C66_written_reads_back.
(** And what is read can be written: the results of ParseAnnotation are exactly these. *)
Theorem C66_results_exactly : forall target l, (exists s, parse_annotation s = AnnOk (AnnotationValue target l)) <-> ~ In 40 target /\ Forall writable l.
Proof.
  intros t l. split.
  - intros (s & H). destruct (C25_attributes_shape _ _ _ H) as (body & (_ & Ht & _) & _ & HF). split; [exact Ht|exact HF].
  - intros [Ht HW]. exists (t ++ lit "(" ++ (32 :: attr_list l) ++ lit ")"). apply C66_spread_out; [exact Ht|exact HW| |right; discriminate].
    apply spread_more; [apply attr_list_spread|]. constructor; [cbn; tauto|constructor].
Qed.
Print Assumptions C66_results_exactly.
(** So writing what was read and reading it again changes nothing. *)
Theorem C66_read_again : forall s target l, parse_annotation s = AnnOk (AnnotationValue target l) -> target <> [] \/ l <> [] ->
  parse_annotation (annotation_text target l) = parse_annotation s.
Proof. intros s t l H HN. rewrite H. destruct (proj1 (C66_results_exactly t l) (ex_intro _ s H)) as [Ht HW]. apply C66_written_reads_back; assumption. Qed.
Print Assumptions C66_read_again.
(** Different annotations are written differently. *)
Theorem C66_one_text_one_annotation : forall t l t' l', ~ In 40 t -> ~ In 40 t' -> Forall writable l -> Forall writable l' -> annotation_text t l = annotation_text t' l' -> t = t' /\ l = l'.
Proof.
  intros t l t' l' Ht Ht' HW HW' E. destruct (list_eq_dec N.eq_dec t []) as [Et|Et].
  - destruct l as [|nv l].
    + subst t. unfold annotation_text in E. cbn in E. destruct t' as [|c t']; [|cbn in E; injection E as <- _; destruct Ht'; left; reflexivity]. split; [reflexivity|].
      destruct l' as [|nv l']; [reflexivity|exfalso]. cbn [app] in E. apply (attr_list_empty _ HW'); [discriminate|]. destruct (attr_list (nv :: l')) as [|c r]; [reflexivity|]. cbn in E. injection E as _ E. destruct r; discriminate.
    + pose proof (C66_written_reads_back t (nv :: l) Ht HW ltac:(right; discriminate)) as H1. rewrite E in H1.
      assert (HN : t' <> [] \/ l' <> []). { destruct t'; [|left; discriminate]. right. intros ->. vm_compute in H1. discriminate. }
      pose proof (C66_written_reads_back t' l' Ht' HW' HN) as H2. rewrite H2 in H1. injection H1 as -> ->. auto.
  - pose proof (C66_written_reads_back t l Ht HW (or_introl Et)) as H1. rewrite E in H1.
    assert (HN : t' <> [] \/ l' <> []). { destruct t'; [|left; discriminate]. right. intros ->. vm_compute in H1. discriminate. }
    pose proof (C66_written_reads_back t' l' Ht' HW' HN) as H2. rewrite H2 in H1. injection H1 as -> ->. auto.
Qed.
Print Assumptions C66_one_text_one_annotation.

Example C66_case : annotation_text (lit "kgw") [(lit "authn", lit "'a, b=(1)'"); (lit "n", lit "007")] = lit "kgw(authn='a, b=(1)',n=007)" /\
  Forall writable [(lit "authn", lit "'a, b=(1)'"); (lit "n", lit "007")] /\ spread [(lit "a", lit "1"); (lit "b", lit "''")] (lit " a =1 ,, b= '' ") /\
  parse_annotation (lit "kgw(authn='a, b=(1)',n=007)") = AnnOk (AnnotationValue (lit "kgw") [(lit "authn", lit "'a, b=(1)'"); (lit "n", lit "007")]).
Proof.
  split; [reflexivity|]. split; [|split; [|vm_compute; reflexivity]].
  - assert (W : forall s, match s with [] => false | _ => forallb is_wordch s end = true -> word s). { intros [|c s] H; [discriminate|]. split; [discriminate|]. apply Forall_forall. intros x Hx. rewrite forallb_forall in H. apply H; exact Hx. }
    constructor; [split; [apply W; reflexivity|]|constructor; [split; [apply W; reflexivity|]|constructor]].
    + right. exists (lit "a, b=(1)"). split; [reflexivity|]. repeat constructor; discriminate.
    + left. split; [discriminate|]. repeat constructor.
  - apply (spread_cons (lit " ") (lit "a") (lit " ") [] (lit "1") [(lit "b", lit "''")] (lit " ,, b= '' ")).
    1-3: repeat constructor; cbn; tauto.
    + apply (spread_cons (lit " ,, ") (lit "b") [] (lit " ") (lit "''") [] (lit " ")); [repeat constructor; cbn; tauto..| |].
      * constructor. repeat constructor; try (cbn; tauto).
      * right. exists 32, []. split; [reflexivity|]. repeat constructor; try (cbn; tauto).
    + right. eexists _, _. split; [reflexivity|]. repeat constructor; try (cbn; tauto).
Qed.
(** Refuted: that every result, written, is read back: "( )" is read as no target and no attributes, "()" is refused. *)
Theorem C66_refuted_every_result : parse_annotation (lit "( )") = AnnOk (AnnotationValue [] []) /\ parse_annotation (annotation_text [] []) = AnnErr.
Proof. split; vm_compute; reflexivity. Qed.
Print Assumptions C66_refuted_every_result.
