(** Properties of ParseAnnotation: C24, C25. *)
From Verif Require Import Tokens LexSpec Schema Denote Segments ParseKF ParseSpec Utf8 Utf8Proof ParseProof Annotation AnnotSpec AnnotProof AnnotParse Sample.
Local Open Scope N_scope.

(** C24.  [bytes_of] is the Go string of a sequence of characters. *)
Theorem C24_stored_annotation_reads_back : forall w text s a an, accepted w text s ->
  In a (elems (sc_actions s)) -> In an (elems (ac_annots a)) ->
  exists all ts target l,
    tokens_of text all /\ part ts (drop_layout all) /\ chars ts = lit "@" ++ an /\ w_call target l ts /\
    (Forall (fun nv => simple_value (snd nv)) l ->
     parse_annotation (bytes_of an) = AnnOk (AnnotationValue (bytes_of target) (map (fun nv => (bytes_of (fst nv), bytes_of (snd nv))) l))).
Proof.
  intros w text s a an [HW _] Ha Han. destruct (annotations_written _ _ _ _ HW Ha Han) as (all & ts & t & l & H1 & H2 & H3 & H4 & H5).
  exists all, ts, t, l. repeat (split; [assumption|]). intros HV. destruct (call_form_of _ _ _ _ H3 H4 H5) as (_ & -> & _).
  apply (stored_annotation _ _ _ _ H3 H4 H5). exact HV.
Qed.
Print Assumptions C24_stored_annotation_reads_back.
(** In any case the target is right and there is no error; and the condition on the values is the exact one. *)
Theorem C24_exactly_simple_values : forall target l ts an, w_call target l ts -> lexed ts -> chars ts = lit "@" ++ an ->
  (exists l', parse_annotation (bytes_of an) = AnnOk (AnnotationValue (bytes_of target) l')) /\
  (parse_annotation (bytes_of an) = AnnOk (AnnotationValue (bytes_of target) (map (fun nv => (bytes_of (fst nv), bytes_of (snd nv))) l))
   <-> Forall (fun nv => simple_value (snd nv)) l).
Proof. intros t l ts an H H' E. destruct (call_form_of _ _ _ _ H H' E) as (_ & -> & _). exact (stored_annotation _ _ _ _ H H' E). Qed.
Print Assumptions C24_exactly_simple_values.
(** An escaped quote: an accepted text whose annotation is not read back. *)
Definition escaped_text : str := lit "database d; @kgw(a='x\'y=1', b=2) action t() public { select 1; }".
Definition escaped_schema : schema :=
  Schema [] (lit "d") None (Some [Action (lit "t") (Some [lit "kgw(a='x\'y=1',b=2)"]) None true (lit "update") None (Some [lit "select 1;"])]) None.
Lemma escaped_accepted : accepted sample_world escaped_text escaped_schema.
Proof. apply (parse_accepts _ _ Default). vm_compute. reflexivity. Qed.
Lemma escaped_read : parse_annotation (bytes_of (lit "kgw(a='x\'y=1',b=2)")) =
  AnnOk (AnnotationValue (lit "kgw") [(lit "a", lit "'x\'"); (lit "y", lit "1"); (lit "b", lit "2")]).
Proof. vm_compute. reflexivity. Qed.
Theorem C24_escaped_quote_refuted : ~ forall w text s a an, accepted w text s -> In a (elems (sc_actions s)) -> In an (elems (ac_annots a)) ->
  exists all ts target l, tokens_of text all /\ part ts (drop_layout all) /\ chars ts = lit "@" ++ an /\ w_call target l ts /\
    parse_annotation (bytes_of an) = AnnOk (AnnotationValue (bytes_of target) (map (fun nv => (bytes_of (fst nv), bytes_of (snd nv))) l)).
Proof.
  intros H. destruct (H _ _ _ _ (lit "kgw(a='x\'y=1',b=2)") escaped_accepted (or_introl eq_refl) (or_introl eq_refl)) as (all & ts & t & l & HT & HP & HC & HW & E).
  pose proof (lexed_part _ _ HP (lexed_visible _ _ HT)) as HL. rewrite escaped_read in E. injection E as _ E.
  inversion HW as [t' l' us HA]; subst. assert (HS : lexed us).
  { inversion HL as [|? ? _ H1]; subst. inversion H1 as [|? ? _ H2]; subst. apply Forall_app in H2 as [H2 _]. exact H2. }
  apply (attrs_lexed _ _ HA) in HS. destruct l as [|[n v] l]; [discriminate|]. injection E as _ Ev _.
  inversion HS as [|? ? (_ & k & Hk & Hsh) _]; subst. cbn [snd] in *.
  assert (EV : v = lit "'x\'").
  { assert (HB : forall b s, Forall (fun c => c < 128) b -> bytes_of s = b -> s = b).
    { clear. intros b s Hb E. assert (HA : Forall (fun c => c < 128) s).
      { apply Forall_forall. intros c Hc. destruct (N.ltb_spec c 128) as [|Hge]; [assumption|exfalso].
        apply in_split in Hc as (x & y & ->). rewrite bytes_of_app in E. change (bytes_of (c :: y)) with (encode1 c ++ bytes_of y) in E.
        pose proof (encode_high c Hge) as HF. destruct (encode1 c) as [|d r] eqn:Ed.
        - unfold encode1 in Ed. destruct (c <? 128), (c <? 2048), ((1114111 <? c) || ((55296 <=? c) && (c <=? 57343))), (c <? 65536); discriminate.
        - inversion HF as [|? ? Hd _]; subst. rewrite Forall_forall in Hb. assert (Hin : In d (bytes_of x ++ (d :: r) ++ bytes_of y)) by (apply in_or_app; right; left; reflexivity).
          apply Hb in Hin. lia. }
      rewrite (bytes_ascii _ HA) in E. exact E. }
    apply HB; [|symmetry; exact Ev]. repeat (apply Forall_cons; [reflexivity|]). apply Forall_nil. }
  subst v. destruct Hk as [->| ->].
  - destruct Hsh as [_ Hsh]. inversion Hsh as [|? ? Hx _]. discriminate.
  - destruct Hsh as (b & Eb & Hb). destruct b as [|b1 [|b2 [|b3 [|b4 b]]]]; try discriminate. injection Eb as <- <-.
    inversion Hb as [|c s _ _ _ _ Hb2 E1|c s Hb2 E1]; subst. inversion Hb2; subst; congruence.
Qed.
Print Assumptions C24_escaped_quote_refuted.
(** A case with several attributes and a non-ASCII value: what is stored, and what is read back. *)
Definition annotated_text : str := lit "database d; @kgw( authn = 'wéb (1)', n=007 ) @x(y='') action t() public { select 1; }".
Example C24_case : option_map (fun s => map (fun a => elems (ac_annots a)) (elems (sc_actions s))) (o_result (parse_kf sample_world annotated_text [] Default)) =
    Some [[lit "kgw(authn='wéb (1)',n=007)"; lit "x(y='')"]] /\
  parse_annotation (bytes_of (lit "kgw(authn='wéb (1)',n=007)")) = AnnOk (AnnotationValue (lit "kgw") [(lit "authn", bytes_of (lit "'wéb (1)'")); (lit "n", lit "007")]) /\
  parse_annotation (bytes_of (lit "x(y='')")) = AnnOk (AnnotationValue (lit "x") [(lit "y", lit "''")]).
Proof. split; [vm_compute; reflexivity|]. split; vm_compute; reflexivity. Qed.
Example C24_case_simple : Forall (fun nv => simple_value (snd nv)) [(lit "authn", lit "'wéb (1)'"); (lit "n", lit "007")].
Proof.
  apply Forall_cons; [right; exists (lit "wéb (1)"); split; [reflexivity|]|apply Forall_cons; [left; split; [discriminate|]|apply Forall_nil]].
  - apply Forall_forall. intros c Hc. cbn in Hc. repeat (destruct Hc as [<-|Hc]; [split; discriminate|]). destruct Hc.
  - repeat (apply Forall_cons; [reflexivity|]). apply Forall_nil.
Qed.

(** C25 *)
Theorem C25_never_panics : forall s, parse_annotation s <> AnnPanic.
Proof. exact parse_annotation_no_panic. Qed.
Print Assumptions C25_never_panics.
Theorem C25_error_exactly : forall s, parse_annotation s = AnnErr <-> (length s < 3)%nat \/ ~ In 40 s \/ last s 0 <> 41.
Proof. exact parse_annotation_err. Qed.
Print Assumptions C25_error_exactly.
(** Otherwise: the target before the first "(", and the attributes of the text between it and the final ")". *)
Theorem C25_result_exactly : forall s target l, parse_annotation s = AnnOk (AnnotationValue target l) <->
  exists body, call_form s target body /\ attributes_in body l.
Proof. exact parse_annotation_ok. Qed.
Print Assumptions C25_result_exactly.
(** Names are words, values numbers or simple texts, occurring in this order without overlap. *)
Inductive in_order : str -> list (str * str) -> Prop :=
| io_nil s : in_order s []
| io_cons a n b v c l : in_order c l -> in_order (a ++ n ++ b ++ v ++ c) ((n, v) :: l).
Theorem C25_attributes_shape : forall s target l, parse_annotation s = AnnOk (AnnotationValue target l) ->
  exists body, call_form s target body /\ in_order body l /\ Forall (fun nv => word (fst nv) /\ (number (snd nv) \/ simple_text (snd nv))) l.
Proof.
  intros s t l H. apply parse_annotation_ok in H as (body & HF & HA). exists body. split; [exact HF|]. split; [|eapply attributes_shape; exact HA].
  clear -HA. induction HA as [|s sk here n v r l E (sp1 & sp2 & -> & _) HS HL IH]; [constructor|]. rewrite E.
  replace (sk ++ n ++ sp1 ++ lit "=" ++ sp2 ++ v ++ r) with (sk ++ n ++ (sp1 ++ lit "=" ++ sp2) ++ v ++ r) by (rewrite <- !app_assoc; reflexivity). constructor. exact IH.
Qed.
Print Assumptions C25_attributes_shape.
Example C25_cases :
  parse_annotation (lit "a(") = AnnErr /\ parse_annotation (lit "abc)") = AnnErr /\ parse_annotation (lit "a()b") = AnnErr /\
  parse_annotation (lit "a()") = AnnOk (AnnotationValue (lit "a") []) /\
  parse_annotation (lit "a b(, x = 12a, = 3, y_1='q' z='p") = AnnErr /\
  parse_annotation (lit "a b(, x = 12a, = 3, y_1='q' z='p)") = AnnOk (AnnotationValue (lit "a b") [(lit "x", lit "12"); (lit "y_1", lit "'q'")]).
Proof. vm_compute. repeat split. Qed.
