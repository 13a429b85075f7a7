(** What ParseAnnotation makes of the annotations ParseKF stores. *)
From Verif Require Import Tokens LexSpec Schema Denote Grammar Cst Parser ParserGrammar DenoteProof Segments ParseSpec Utf8 Utf8Proof Annotation AnnotSpec AnnotProof.
Local Open Scope N_scope.

(** Every annotation declaration writes a target and attributes. *)
Lemma commas_listed l : forall c, listed w_attr (map (fun a => (ca_name a, match ca_value a with LNum s => s | LStr s => s end)) (c :: l)) (y_attr c ++ commas y_attr l).
Proof.
  assert (H1 : forall c, w_attr (ca_name c, match ca_value c with LNum s => s | LStr s => s end) (y_attr c)).
  { intros [n [s|s]]; cbn; constructor; [left|right]; reflexivity. }
  induction l as [|d l IH]; intros c; cbn [map].
  - replace (y_attr c ++ commas y_attr []) with (y_attr c) by (cbn; rewrite app_nil_r; reflexivity). constructor. apply H1.
  - change (commas y_attr (d :: l)) with (fixed COMMA :: y_attr d ++ commas y_attr l). constructor; [apply H1|apply IH].
Qed.
Theorem annotation_call ts : derives (R annotation_decl) ts -> lexed ts -> exists t l, w_call t l ts.
Proof.
  intros Hd HL. apply r_annot in Hd as (c & -> & _).
  2: { apply shaped_ok. eapply Forall_impl; [|exact HL]. cbn. tauto. }
  destruct c as [t a l]. pose proof (lexed_head _ _ HL) as [(w & E & _) _]. cbn in E. subst t. eexists w, _. unfold y_annot. cbn [cn_target cn_first cn_rest app].
  rewrite app_assoc. constructor. apply commas_listed.
Qed.

(** ASCII characters are their own bytes, others are bytes from 128 on. *)
Lemma encode_ascii c : c < 128 -> encode1 c = [c].
Proof. intros H. unfold encode1. destruct (N.ltb_spec c 128); [reflexivity|lia]. Qed.
Lemma encode_high c : 128 <= c -> Forall (fun b => 128 <= b) (encode1 c).
Proof.
  intros H. unfold encode1. destruct (N.ltb_spec c 128); [lia|].
  assert (P : forall k x, 128 <= k -> 128 <= k + x) by (intros; lia).
  destruct (c <? 2048); [apply Forall_cons; [apply P; lia|apply Forall_cons; [apply P; lia|constructor]]|].
  destruct ((1114111 <? c) || ((55296 <=? c) && (c <=? 57343))); [apply Forall_cons; [lia|apply Forall_cons; [lia|apply Forall_cons; [lia|constructor]]]|].
  destruct (c <? 65536); repeat (apply Forall_cons; [apply P; lia|]); constructor.
Qed.
Lemma bytes_ascii s : Forall (fun c => c < 128) s -> bytes_of s = s.
Proof. induction 1 as [|c s Hc Hs IH]; [reflexivity|]. unfold bytes_of in *. cbn. rewrite encode_ascii, IH by exact Hc. reflexivity. Qed.
(** An ASCII byte occurs exactly where the character does. *)
Lemma in_bytes c s : c < 128 -> (In c (bytes_of s) <-> In c s).
Proof.
  intros Hc. induction s as [|x s IH]; [reflexivity|]. change (bytes_of (x :: s)) with (encode1 x ++ bytes_of s). rewrite in_app_iff, IH.
  destruct (N.ltb_spec x 128) as [H|H].
  - rewrite encode_ascii by exact H. cbn. tauto.
  - split; [|intros [->|Hi]; [lia|auto]]. intros [Hi|Hi]; [|right; exact Hi]. pose proof (encode_high x H) as HF. rewrite Forall_forall in HF. apply HF in Hi. lia.
Qed.
Lemma digit_ascii c : is_digit c = true -> c < 128.
Proof. unfold is_digit. intros H. apply andb_prop in H as [_ H]. apply N.leb_le in H. lia. Qed.
Lemma wordch_ascii c : is_wordch c = true -> c < 128.
Proof.
  unfold is_wordch, is_letter. intros H. rewrite !orb_true_iff, !andb_true_iff, !N.leb_le, N.eqb_eq in H. destruct H as [[H|H]|H]; [lia|apply digit_ascii; exact H|lia].
Qed.
Lemma ident_word n : ident n -> word n.
Proof.
  intros (c & w & -> & Hc & Hw). split; [discriminate|]. constructor; [|exact Hw]. unfold is_wordch. rewrite Hc. reflexivity.
Qed.
Lemma word_bytes n : word n -> bytes_of n = n.
Proof. intros [_ H]. apply bytes_ascii. eapply Forall_impl; [|exact H]. intros c; apply wordch_ascii. Qed.
Lemma number_bytes n : number n -> bytes_of n = n.
Proof. intros [_ H]. apply bytes_ascii. eapply Forall_impl; [|exact H]. intros c; apply digit_ascii. Qed.
Lemma not_in_Forall (b : str) : Forall (fun c => c <> 39 /\ c <> 10) b <-> ~ In 39 b /\ ~ In 10 b.
Proof. rewrite Forall_forall. split; [intros H; split; intros Hi; apply H in Hi; tauto|]. intros [H1 H2] c Hc. split; intros ->; auto. Qed.
(** Being simple is the same for the characters and for their bytes. *)
Lemma quoted_bytes b : bytes_of (lit "'" ++ b ++ lit "'") = lit "'" ++ bytes_of b ++ lit "'".
Proof. rewrite !bytes_of_app. reflexivity. Qed.
Lemma simple_bytes k v : k = UNSIGNED_NUMBER_LITERAL \/ k = STRING_LITERAL -> token_shape k v -> (simple_value (bytes_of v) <-> simple_value v).
Proof.
  intros [->| ->] Hs.
  - assert (Hn : number v) by exact Hs. rewrite number_bytes by exact Hn. tauto.
  - destruct Hs as (b & -> & _). rewrite quoted_bytes.
    assert (HN : forall b, ~ number (lit "'" ++ b ++ lit "'")).
    { intros x [_ H]. inversion H as [|? ? H' _]. discriminate. }
    assert (HS : forall b, simple_text (lit "'" ++ b ++ lit "'") <-> ~ In 39 b /\ ~ In 10 b).
    { intros x. split.
      - intros (y & E & Hy). apply app_inv_head in E. apply app_inj_tail in E as [-> _]. apply not_in_Forall; exact Hy.
      - intros H. exists x. split; [reflexivity|apply not_in_Forall; exact H]. }
    unfold simple_value. pose proof (HN b). pose proof (HN (bytes_of b)). rewrite !HS, !in_bytes by lia. tauto.
Qed.

(** The text between the parentheses. *)
Definition attr_text (nv : str * str) : str := fst nv ++ lit "=" ++ snd nv.
Fixpoint attrs_text (l : list (str * str)) : str :=
  match l with [] => [] | [a] => attr_text a | a :: l' => attr_text a ++ lit "," ++ attrs_text l' end.
Lemma chars_app a b : chars (a ++ b) = chars a ++ chars b.
Proof. unfold chars. rewrite map_app. apply concat_app. Qed.
Lemma chars_attr a ts : w_attr a ts -> chars ts = attr_text a.
Proof. intros H. inversion H as [n v u Hv]; subst. unfold attr_text, chars. cbn [fst snd map concat tx]. destruct Hv as [->| ->]; cbn; rewrite app_nil_r; reflexivity. Qed.
Lemma chars_attrs l ts : listed w_attr l ts -> chars ts = attrs_text l.
Proof.
  induction 1 as [a ts H|a ts l us H HL IH]; [apply chars_attr; exact H|]. rewrite chars_app. change (chars (fixed COMMA :: us)) with (lit "," ++ chars us).
  rewrite IH, (chars_attr _ _ H). destruct l; [apply listed_ne in HL; congruence|reflexivity].
Qed.
Lemma chars_call t l ts : w_call t l ts -> chars ts = lit "@" ++ t ++ lit "(" ++ attrs_text l ++ lit ")".
Proof.
  intros H. inversion H as [t' l' us HL]; subst. change (chars (Tok BLOCK_VAR_OR_ANNOTATION (lit "@" ++ t) :: fixed L_PAREN :: us ++ [fixed R_PAREN]))
    with ((lit "@" ++ t) ++ lit "(" ++ chars (us ++ [fixed R_PAREN])). rewrite chars_app, (chars_attrs _ _ HL), <- app_assoc. reflexivity.
Qed.

(** Attributes one after the other are all found. *)
Lemma no_attr_comma s : ~ starts_attribute (44 :: s).
Proof.
  intros (n & v & r & sp1 & sp2 & E & [Hn Hw] & _). destruct n as [|c n]; [congruence|]. injection E as <- _. inversion Hw as [|? ? H _]. discriminate.
Qed.
Lemma finds_all l : Forall (fun nv => word (fst nv) /\ simple_value (snd nv)) l -> attributes_in (attrs_text l) l.
Proof.
  induction 1 as [|[n v] l [Hn Hv] Hl IH]; [apply attributes_nil; reflexivity|].
  assert (HA : forall r, (forall c r', r = c :: r' -> is_digit c = false) -> attribute_at (attr_text (n, v) ++ r) n v r).
  { intros r Hr. exists [], []. split; [unfold attr_text; cbn [fst snd]; rewrite <- !app_assoc; reflexivity|]. split; [exact Hn|]. split; [constructor|]. split; [constructor|].
    destruct Hv as [Hv|Hv]; [left; split; [exact Hv|exact Hr]|right; exact Hv]. }
  destruct l as [|b l].
  - change (attrs_text [(n, v)]) with (attr_text (n, v)). rewrite <- (app_nil_r (attr_text (n, v))). eapply attributes_hit; [apply HA; discriminate|].
    exists []. split; [reflexivity|apply attributes_nil; reflexivity].
  - change (attrs_text ((n, v) :: b :: l)) with (attr_text (n, v) ++ 44 :: attrs_text (b :: l)). eapply attributes_hit; [apply HA; intros c r' E; injection E as <- _; reflexivity|].
    exists (b :: l). split; [reflexivity|]. apply attributes_skip; [apply no_attr_comma|exact IH].
Qed.
Definition pair_bytes (nv : str * str) : list N * list N := (bytes_of (fst nv), bytes_of (snd nv)).
Lemma attrs_bytes l : bytes_of (attrs_text l) = attrs_text (map pair_bytes l).
Proof.
  assert (H1 : forall a, bytes_of (attr_text a) = attr_text (pair_bytes a)) by (intros [n v]; unfold attr_text; rewrite !bytes_of_app; reflexivity).
  induction l as [|a [|b l] IH]; [reflexivity|apply H1|]. change (attrs_text (a :: b :: l)) with (attr_text a ++ lit "," ++ attrs_text (b :: l)).
  rewrite !bytes_of_app, IH, H1. reflexivity.
Qed.
(** Shapes of the written attributes. *)
Lemma attrs_lexed l ts : listed w_attr l ts -> lexed ts ->
  Forall (fun nv => ident (fst nv) /\ exists k, (k = UNSIGNED_NUMBER_LITERAL \/ k = STRING_LITERAL) /\ token_shape k (snd nv)) l.
Proof.
  assert (H1 : forall a ts, w_attr a ts -> lexed ts -> ident (fst a) /\ exists k, (k = UNSIGNED_NUMBER_LITERAL \/ k = STRING_LITERAL) /\ token_shape k (snd a)).
  { intros a us H HL. inversion H as [n v u Hv]; subst. split; [exact (proj1 (lexed_head _ _ HL))|]. inversion HL as [|? ? _ HL1]; subst. inversion HL1 as [|? ? _ HL2]; subst.
    cbn [snd]. destruct Hv as [->| ->]; eexists; (split; [|exact (proj1 (lexed_head _ _ HL2))]); cbn [ty]; auto. }
  induction 1 as [a ts H|a ts l us H HL IH]; intros HX; [constructor; [eapply H1; eassumption|constructor]|].
  apply Forall_app in HX as [HX1 HX2]. inversion HX2 as [|? ? _ HX3]; subst. constructor; [eapply H1; eassumption|apply IH; exact HX3].
Qed.

(** ParseAnnotation of the stored text. *)
Lemma call_form_of t l ts an : w_call t l ts -> lexed ts -> chars ts = lit "@" ++ an ->
  call_form (bytes_of an) t (attrs_text (map pair_bytes l)) /\ bytes_of t = t /\ word t.
Proof.
  intros HC HL E. rewrite (chars_call _ _ _ HC) in E. apply app_inv_head in E. subst an. inversion HC as [t' l' us HA]; subst.
  pose proof (lexed_head _ _ HL) as [(w & Ew & Hw) _]. apply app_inv_head in Ew. subst w. apply ident_word in Hw. pose proof (word_bytes _ Hw) as Eb.
  split; [|auto]. unfold call_form. rewrite !bytes_of_app, Eb, attrs_bytes. split; [reflexivity|]. split.
  - intros Hi. destruct Hw as [_ Hw]. rewrite Forall_forall in Hw. apply Hw in Hi. discriminate.
  - rewrite !app_length. destruct Hw as [Hw _]. destruct t; [congruence|]. cbn. lia.
Qed.
Lemma call_form_fun s t b t' b' : call_form s t b -> call_form s t' b' -> t = t' /\ b = b'.
Proof.
  intros (E & H & _) (E' & H' & _). pose proof (proj2 (split_paren_some s t (b ++ lit ")")) (conj E H)) as X.
  rewrite (proj2 (split_paren_some s t' (b' ++ lit ")")) (conj E' H')) in X. injection X as -> X. apply app_inj_tail in X as [-> _]. auto.
Qed.
Theorem stored_annotation t l ts an : w_call t l ts -> lexed ts -> chars ts = lit "@" ++ an ->
  (exists l', parse_annotation (bytes_of an) = AnnOk (AnnotationValue t l')) /\
  (parse_annotation (bytes_of an) = AnnOk (AnnotationValue t (map pair_bytes l)) <-> Forall (fun nv => simple_value (snd nv)) l).
Proof.
  intros HC HL E. destruct (call_form_of _ _ _ _ HC HL E) as (HF & Eb & Hw). split.
  - exists (find_all (S (length (attrs_text (map pair_bytes l)))) (attrs_text (map pair_bytes l))). apply parse_annotation_ok. eexists. split; [exact HF|].
    apply (find_all_iff _ _ _ (Nat.lt_succ_diag_r _)). reflexivity.
  - inversion HC as [t' l' us HA]; subst. assert (HS : lexed us).
    { inversion HL as [|? ? _ H1]; subst. inversion H1 as [|? ? _ H2]; subst. apply Forall_app in H2 as [H2 _]. exact H2. }
    apply (attrs_lexed _ _ HA) in HS. rewrite parse_annotation_ok. split.
    + intros (body & HF' & HI). destruct (call_form_fun _ _ _ _ _ HF HF') as [_ <-]. apply attributes_shape in HI. rewrite Forall_map in HI.
      rewrite Forall_forall in *. intros nv Hin. specialize (HS nv Hin) as (_ & k & Hk & Hsh). apply (simple_bytes k _ Hk Hsh). apply (HI nv Hin).
    + intros HV. eexists. split; [exact HF|]. apply finds_all. rewrite Forall_map. rewrite Forall_forall in *. intros nv Hin.
      destruct (HS nv Hin) as (Hi & k & Hk & Hsh). split.
      * cbn. rewrite word_bytes; apply ident_word; exact Hi.
      * apply (simple_bytes k _ Hk Hsh). apply HV; exact Hin.
Qed.
(** Where annotations come from. *)
Theorem annotations_written text s a an : writes text s -> In a (elems (sc_actions s)) -> In an (elems (ac_annots a)) ->
  exists all ts t l, tokens_of text all /\ part ts (drop_layout all) /\ w_call t l ts /\ lexed ts /\ chars ts = lit "@" ++ an.
Proof.
  intros (all & HT & HD) Ha Han. destruct (denotes_parts _ _ HD) as (_ & _ & _ & ac & ini & E & _ & HA & HI). pose proof (lexed_visible _ _ HT) as HL.
  rewrite E in Ha. apply in_app_or in Ha as [Ha|Ha].
  - destruct (HA a Ha) as (seg & Hp & HW). inversion HW as [n anns sanns tn ins sins ti l pub mut aux body tb HS HSL]; subst. cbn [ac_annots] in Han. rewrite (slice_elems _ _ HSL) in Han.
    destruct (series_part _ _ _ an HS Han) as (ts & Hp' & Hd & Ec).
    assert (HP : part ts (drop_layout all)) by (eapply part_trans; [apply part_l; exact Hp'|exact Hp]).
    pose proof (lexed_part _ _ HP HL) as HL'. destruct (annotation_call ts Hd HL') as (t & l0 & HC). exists all, ts, t, l0. auto.
  - destruct (HI a Ha) as (seg & Hp & HW). inversion HW; subst. destruct Han.
Qed.
