(** All the messages of a text, in order: C52. *)
From Coq Require Import ZArith Lia Bool.
From Verif Require Import Str Tokens LexSpec LexerProof Lexer Grammar Schema ParseSpec ParseKF ParseProof Outcomes AtnData Atn ScanSpec PlaceSpec AtnLexer AtnLexerProof AtnParser AtnParserTable GoParser ParserCode PredictSpec GoParserTable Predict LexPos LexPosProof MessageSpec Message MessageRun MessageProof
  Recovery RecoveryTable RecoveryProof PlaceRun Fetch FetchProof FetchProof2 FetchSpec FetchProof3 FetchText PropAtn PropRecovery PropFirst PropPlace PropMessage PropParse.
Local Open Scope Z_scope.
Local Opaque fetching_run recovering_run listener_gets message said.
Local Notation frun f ts := (fetching_run parser_atn rule_functions adaptive_predict predict_at predict_seen (default_strategy parser_atn) f ts).

(** C52 *)
(** [gets text ms]: lexing and parsing [text] gives the error listener the messages [ms], in this order.  Every text has one
    such list. *)
Theorem C52_every_text_gets_its_messages : forall text, code_points text -> exists ms, gets text ms /\ forall ms', gets text ms' -> ms' = ms.
Proof.
  intros text Hcp. destruct (scan_of text Hcp) as (l & eof & ts & S). destruct (C47_the_parser_ends (drop_layout ts)) as (r & _ & f & Hf). destruct (fetching_ends _ _ _ Hf) as (rs & Hr & _).
  exists (merged (message text (said text)) l rs 0). split; [exists f; rewrite (gets_is _ _ _ _ (sc_places _ _ _ _ S)), (sc_given _ _ _ _ S), Hr; reflexivity|].
  intros ms' H. destruct (gets_run _ _ _ _ _ S H) as (f' & rs' & Hr' & -> & _). pose proof (frun_more f (f + f') _ _ ltac:(lia) Hr ltac:(discriminate)) as E1. pose proof (frun_more f' (f + f') _ _ ltac:(lia) Hr' ltac:(discriminate)) as E2.
  rewrite E1 in E2. injection E2 as ->. reflexivity.
Qed.
Print Assumptions C52_every_text_gets_its_messages.

(** The text is scanned into [its]; the parser is given the tokens among them and reports [rs]. *)
Definition read (text : str) (its : list item) (ts : list tok) (rs : list report) : Prop := scanned text its /\ tokens_among its ts /\ reported (drop_layout ts) rs.
Theorem C52_every_text_is_read_in_one_way : forall text, code_points text -> exists its ts rs, read text its ts rs /\ forall its' ts' rs', read text its' ts' rs' -> its' = its /\ ts' = ts /\ rs' = rs.
Proof.
  intros text Hcp. destruct (scan_of text Hcp) as (l & eof & ts & S). destruct (C47_the_parser_ends (drop_layout ts)) as (rs & Hr). exists (items l), ts, rs. split; [exact (conj (sc_scanned _ _ _ _ S) (conj (sc_among _ _ _ _ S) Hr))|].
  intros its' ts' rs' (H1 & H2 & H3). destruct (scan_its _ _ _ _ _ _ Hcp S H1 H2) as (-> & ->). split; [reflexivity|]. split; [reflexivity|]. pose proof (C47_one_result _ _ _ H3 Hr) as E. injection E as ->. reflexivity.
Qed.
Print Assumptions C52_every_text_is_read_in_one_way.

Lemma read_run text its ts rs ms : code_points text -> read text its ts rs -> gets text ms -> exists l eof, scan text l eof ts /\ its = items l /\
  exists hs, ms = merged (message text (said text)) l hs 0 /\ map fst hs = rs /\ falls (count l) (map snd hs) 0 /\ Forall (fun x => (snd x <= r_left (fst x) <= snd x + 2)%nat) hs /\ match hs with (r, h) :: _ => (r_left r <= S h)%nat | [] => True end.
Proof.
  intros Hcp (H1 & H2 & H3) Hg. destruct (scan_of text Hcp) as (l & eof & ts' & S). destruct (scan_its _ _ _ _ _ _ Hcp S H1 H2) as (-> & ->). exists l, eof. split; [exact S|]. split; [reflexivity|].
  destruct (gets_run _ _ _ _ _ S Hg) as (f & hs & _ & E & Hr & G). exists hs. split; [exact E|]. split; [|exact G]. pose proof (C47_one_result _ _ _ H3 Hr) as E'. injection E' as ->. reflexivity.
Qed.
(** The messages are those of the lexing errors and those of the parser's reports, each once, each in their own order. *)
Theorem C52_each_error_has_its_message : forall text its ts rs ms, code_points text -> read text its ts rs -> gets text ms ->
  exists es, complaints [] its es /\ interleaved es (map (message text (said text)) rs) ms.
Proof.
  intros text its ts rs ms Hcp Hr Hg. destruct (read_run _ _ _ _ _ Hcp Hr Hg) as (l & eof & S & -> & hs & -> & <- & Hf & _). exists (lexer_messages l). split; [|apply merged_is; exact Hf].
  apply (scan_complaints _ _ _ _ l [] S). rewrite app_nil_r. reflexivity.
Qed.
Print Assumptions C52_each_error_has_its_message.
(** A report comes after the lexing errors that stand before its token, and before those behind the second token after it
    (the first report: behind the next token). *)
Theorem C52_order : forall text its ts rs1 r rs2 ms, code_points text -> read text its ts (rs1 ++ r :: rs2) -> gets text ms ->
  exists a b ea eb u v, its = a ++ b /\ starts_visible b /\ (visible_in b <= r_left r <= visible_in b + 2)%nat /\ (rs1 = [] -> (r_left r <= visible_in b + 1)%nat) /\
  complaints [] a ea /\ complaints (concat (map text_of a)) b eb /\
  ms = u ++ message text (said text) r :: v /\ interleaved ea (map (message text (said text)) rs1) u /\ interleaved eb (map (message text (said text)) rs2) v.
Proof.
  intros text its ts rs1 r rs2 ms Hcp Hr Hg. destruct (read_run _ _ _ _ _ Hcp Hr Hg) as (l & eof & S & -> & hs & -> & Eh & Hf & Hall & Hfirst).
  apply map_eq_app in Eh as (h1 & h2 & -> & E1 & E2). apply map_eq_cons in E2 as ((r', h) & h3 & -> & Er & E3). cbn [fst] in Er. subst r' rs1 rs2.
  destruct (merged_at (message text (said text)) r h h3 h1 l Hf) as (a & b & u & v & El & Hb & Hs & Em & I1 & I2). pose proof (sc_ok _ _ _ _ S) as Hok. pose proof El as El'. rewrite El in Hok. apply ok_app in Hok as (Ha & Hbo).
  destruct (scan_complaints _ _ _ _ a b S El) as (C1 & C2). exists (items a), (items b), (lexer_messages a), (lexer_messages b), u, v. split; [rewrite El; apply items_app|]. split; [apply ok_start; assumption|]. rewrite (ok_visible b Hbo), Hb.
  apply Forall_app in Hall as (_ & Hall). apply Forall_inv in Hall. cbn [fst snd] in Hall. split; [lia|]. split; [intros E; destruct h1; [|discriminate E]; cbn [app] in Hfirst; lia|]. auto 6.
Qed.
Print Assumptions C52_order.
(** A report's message: the place of its token and words on one line. *)
Theorem C52_reports_say_where : forall text its ts rs r, code_points text -> read text its ts rs -> In r rs ->
  exists a b L C words, its = a ++ b /\ starts_visible b /\ visible_in b = r_left r /\ stands (concat (map text_of a)) L C /\ wording text r = Some words /\ on_one_line words /\
  message text (said text) r = lit "line " ++ decimal L ++ lit ":" ++ decimal C ++ lit " " ++ words.
Proof.
  intros text its ts rs r Hcp (H1 & H2 & Hr) Hin. destruct (scan_of text Hcp) as (l & eof & ts' & S). destruct (scan_its _ _ _ _ _ _ Hcp S H1 H2) as (-> & ->). destruct (worded_in ts' rs r Hr Hin) as (_ & _ & _ & m & _ & _ & _ & Ew & Ho & _).
  pose proof Hr as (_ & f & Hf). apply reports_inside in Hf. rewrite Forall_forall in Hf. specialize (Hf r Hin). destruct (scan_place _ _ _ _ r S Hf) as (a & b & El & Hc & Hs & Hst).
  pose proof (sc_ok _ _ _ _ S) as Hok. rewrite El in Hok. apply ok_app in Hok as (_ & Hbo). rewrite <- (scan_words _ _ _ _ r S) in Ew.
  exists (items a), (items b), (line (offending l eof r)), (column (offending l eof r)), m. split; [rewrite El; apply items_app|]. split; [exact Hs|]. split; [rewrite (ok_visible b Hbo); exact Hc|]. split; [exact Hst|]. split; [exact Ew|]. split; [exact Ho|].
  rewrite (scan_message _ _ _ _ r _ S), (said_is _ _ _ Ew). reflexivity.
Qed.
Print Assumptions C52_reports_say_where.

(** C51 for texts with lexing errors too: the words of every report, and what the first report names. *)
Theorem C52_reports_are_worded : forall text its ts rs r, code_points text -> read text its ts rs -> In r rs ->
  exists a b y m, ts = a ++ b ++ y /\ length (drop_layout y) = r_left r /\ starts_shown y /\ wording text r = Some m /\ on_one_line m /\
  (m = says_no_viable (text_up_to b y) \/
   exists ks, ks <> [] /\ (m = says_extraneous (token_text y) ks \/ m = says_mismatched (token_text y) ks \/ m = says_missing (token_text y) ks)).
Proof.
  intros text its ts rs r Hcp (H1 & H2 & Hr) Hin. destruct (scan_of text Hcp) as (l & eof & ts' & S). destruct (scan_its _ _ _ _ _ _ Hcp S H1 H2) as (-> & ->). rewrite (scan_words _ _ _ _ r S). exact (worded_in ts' rs r Hr Hin).
Qed.
Print Assumptions C52_reports_are_worded.
Theorem C52_first_report_names_what_can_come : forall text its ts r rs, code_points text -> read text its ts (r :: rs) ->
  exists x y, ts = x ++ y /\ length (drop_layout y) = r_left r /\ starts_shown y /\
  ((exists a b, x = a ++ b /\ (length (drop_layout b) <= 1)%nat /\ starts_shown (b ++ y) /\ wording text r = Some (says_no_viable (text_up_to b y))) \/
   exists ks skipped, ks <> [] /\ (length skipped <= 1)%nat /\ (forall k, In k ks -> can_be_next (drop_layout x ++ skipped) k) /\
    (wording text r = Some (says_extraneous (token_text y) ks) \/ wording text r = Some (says_mismatched (token_text y) ks) \/
     wording text r = Some (says_missing (token_text y) ks) /\
       forall k, In k ks -> exists k', k = Some k' /\ forall t, ty t = k' ->
         match y with t' :: _ => begins_a_program (drop_layout x ++ skipped ++ [t; t']) | [] => program (drop_layout x ++ skipped ++ [t]) end)).
Proof.
  intros text its ts r rs Hcp (H1 & H2 & Hr). destruct (scan_of text Hcp) as (l & eof & ts' & S). destruct (scan_its _ _ _ _ _ _ Hcp S H1 H2) as (-> & ->). rewrite (scan_words _ _ _ _ r S). exact (first_worded ts' r rs Hr).
Qed.
Print Assumptions C52_first_report_names_what_can_come.

Lemma no_complaints before its es : complaints before its es -> es = [] -> filter is_seen its = its.
Proof. induction 1 as [|? ? ? ? ? ? _ IH|]; intros E; [reflexivity| |discriminate E]. cbn. rewrite IH; auto. Qed.
Lemma scanned_tokens text its : scanned text its -> forall ts, its = map (fun t => Seen (tt_num (ty t)) (is_layout (ty t)) (tx t)) ts -> tokens_of text ts.
Proof.
  induction 1 as [|s t rest l Hf _ IH|s u rest l _ _ _ _]; intros ts E; destruct ts as [|t' ts]; try discriminate E; [constructor|]. cbn [map] in E. injection E as E1 E2 E3 E4.
  assert (t = t') as <-. { destruct t as [k u], t' as [k' u']; cbn in *. f_equal; [|congruence]. apply tt_eqb_eq. unfold tt_eqb. apply Nat.eqb_eq. congruence. } econstructor; [exact Hf|]. apply IH. exact E4.
Qed.
Lemma tokens_scanned text ts : tokens_of text ts -> scanned text (map (fun t => Seen (tt_num (ty t)) (is_layout (ty t)) (tx t)) ts).
Proof. induction 1; [constructor|]. econstructor; eassumption. Qed.
Lemma all_complaints ts : forall before, complaints before (map (fun t => Seen (tt_num (ty t)) (is_layout (ty t)) (tx t)) ts) [].
Proof. induction ts as [|t ts IH]; intros before; constructor. apply IH. Qed.
Lemma all_among ts : tokens_among (map (fun t => Seen (tt_num (ty t)) (is_layout (ty t)) (tx t)) ts) ts.
Proof. unfold tokens_among. induction ts as [|t ts IH]; [reflexivity|]. cbn. rewrite IH. reflexivity. Qed.
(** Nothing is reported exactly for the texts of the language. *)
Theorem C52_no_message_iff_valid : forall text ms, code_points text -> gets text ms -> (ms = [] <-> syntactically_valid text).
Proof.
  intros text ms Hcp Hg. destruct (C52_every_text_is_read_in_one_way text Hcp) as (its & ts & rs & Hr & Hone). destruct (C52_each_error_has_its_message _ _ _ _ _ Hcp Hr Hg) as (es & He & Hi). pose proof Hr as (H1 & H2 & H3). split.
  - intros ->. inversion Hi; subst. assert (rs = []) as -> by (destruct rs; [reflexivity|discriminate]). exists ts. split; [|apply (C47_reported_iff_not_a_program _ _ H3); reflexivity].
    apply (scanned_tokens _ _ H1). unfold tokens_among in H2. rewrite (no_complaints _ _ _ He eq_refl) in H2. exact H2.
  - intros (ts' & Ht & HP). destruct (C47_the_parser_ends (drop_layout ts')) as (rs' & Hr'). destruct (Hone _ _ _ (conj (tokens_scanned _ _ Ht) (conj (all_among ts') Hr'))) as (E1 & E2 & E3). subst ts' rs' its.
    apply (C47_reported_iff_not_a_program _ _ H3) in HP. subst rs. rewrite (complaints_one _ _ _ He _ (all_complaints ts [])) in Hi. inversion Hi. reflexivity.
Qed.
Print Assumptions C52_no_message_iff_valid.

Lemma complaints_app before a b es : complaints before (a ++ b) es -> exists ea eb, es = ea ++ eb /\ complaints before a ea /\ complaints (before ++ concat (map text_of a)) b eb.
Proof.
  revert before es. induction a as [|i a IH]; intros before es H; cbn [app map concat] in *; [exists [], es; rewrite app_nil_r; repeat split; [constructor|exact H]|].
  inversion H; subst; match goal with H : complaints _ (a ++ b) _ |- _ => destruct (IH _ _ H) as (ea & eb & -> & C1 & C2) end; rewrite <- app_assoc in C2; [exists ea, eb; repeat split; [constructor; exact C1|exact C2]|].
  eexists (_ :: ea), eb. split; [reflexivity|]. split; [constructor; eassumption|exact C2].
Qed.
Lemma first_complaint before its e es : complaints before its (e :: es) -> exists a u b L C, its = a ++ Skipped u :: b /\ forallb is_seen a = true /\ stands (before ++ concat (map text_of a)) L C /\ e = unreadable L C u.
Proof.
  remember (e :: es) as m eqn:Em. induction 1 as [|before k h t its ms _ IH|before u its ms L C Hs _ _]; [discriminate Em| |].
  - destruct (IH Em) as (a & u & b & L & C & -> & Ha & Hst & ->). exists (Seen k h t :: a), u, b, L, C. cbn [app map concat forallb is_seen text_of]. rewrite app_assoc. auto.
  - injection Em as <- <-. exists [], u, its, L, C. cbn. rewrite app_nil_r. auto.
Qed.
Lemma complaint_in before its es : complaints before its es -> es = [] -> forall a u b, its <> a ++ Skipped u :: b.
Proof. intros H E a u b ->. subst es. apply complaints_app in H as (ea & eb & E & _ & H). symmetry in E. apply app_eq_nil in E as (_ & ->). inversion H. Qed.
Lemma visible_app a b : visible_in (a ++ b) = (visible_in a + visible_in b)%nat. Proof. unfold visible_in. rewrite filter_app, app_length. reflexivity. Qed.
(** The first message is that of the first lexing error, and then the first wrong token stands before it at most with one more
    token between; or it is that of the first wrong token (C48), and then all lexing errors stand behind it. *)
Theorem C52_first_message : forall text its ts rs m0 ms, code_points text -> read text its ts rs -> gets text (m0 :: ms) ->
  (exists a u b L C, its = a ++ Skipped u :: b /\ forallb is_seen a = true /\ stands (concat (map text_of a)) L C /\ m0 = unreadable L C u /\ forall r rs', rs = r :: rs' -> (r_left r <= visible_in b + 1)%nat) \/
  (exists r rs', rs = r :: rs' /\ m0 = message text (said text) r /\ forall a u b, its = a ++ Skipped u :: b -> (visible_in b < r_left r)%nat).
Proof.
  intros text its ts rs m0 ms Hcp Hr Hg. destruct rs as [|r rs].
  - left. destruct (C52_each_error_has_its_message _ _ _ _ _ Hcp Hr Hg) as (es & He & Hi). inversion Hi; subst. destruct (first_complaint _ _ _ _ He) as (a0 & u & b & L & C & E & Ha & Hs & ->). exists a0, u, b, L, C.
    split; [exact E|]. split; [exact Ha|]. split; [exact Hs|]. split; [reflexivity|]. discriminate.
  - destruct (C52_order text its ts [] r rs _ Hcp Hr Hg) as (a & b & ea & eb & u & v & E & Hs & Hl & Hf & C1 & C2 & Em & I1 & _). specialize (Hf eq_refl). clear Hg Hr. generalize dependent (message text (said text)). intros M Em I1. cbn [map] in I1. destruct u as [|m1 u]; cbn [app] in Em; injection Em as -> ->.
    + right. exists r, rs. split; [reflexivity|]. split; [reflexivity|]. inversion I1; subst. intros a0 u0 b0 E0. apply app_eq_app in E0 as (c & [(Ea & Eb)|(Ea & Eb)]).
      * destruct c as [|i c]; [|exfalso; cbn [app] in Eb; injection Eb as <- ->; exact (complaint_in _ _ _ C1 eq_refl a0 u0 c Ea)]. cbn [app] in Eb. subst b. cbn in Hs. discriminate Hs.
      * subst b a0. destruct c as [|i c]; cbn [app] in Hs, Hl; [discriminate Hs|]. cbn in Hs. unfold visible_in in *. cbn [filter] in Hl. rewrite Hs in Hl. cbn [length] in Hl. rewrite filter_app, app_length in Hl. cbn [filter visible] in Hl. lia.
    + left. inversion I1; subst. destruct (first_complaint _ _ _ _ C1) as (a1 & u1 & b1 & L & C & -> & Ha & Hst & ->). exists a1, u1, (b1 ++ b), L, C. split; [rewrite <- app_assoc; reflexivity|]. split; [exact Ha|]. split; [exact Hst|]. split; [reflexivity|].
      intros r' rs' Er. injection Er as <- <-. rewrite visible_app. lia.
Qed.
Print Assumptions C52_first_message.

Lemma concat_long {T} (f : T -> str) l : Forall (fun i => f i <> []) l -> (length l <= length (concat (map f l)))%nat.
Proof. induction 1 as [|x l H _ IH]; [reflexivity|]. cbn [map concat length]. rewrite app_length. destruct (f x); [congruence|]. cbn [length]. lia. Qed.
Lemma counted its : forall before es ts, complaints before its es -> tokens_among its ts -> length its = (length es + length ts)%nat.
Proof.
  unfold tokens_among. induction its as [|i its IH]; intros before es ts H Ht; inversion H; subst; cbn [filter is_seen length] in *; [destruct ts; [reflexivity|discriminate Ht]| |].
  - destruct ts as [|t0 ts]; [discriminate Ht|]. cbn [map] in Ht. injection Ht as _ _ _ Ht. cbn [length]. rewrite (IH _ _ _ ltac:(eassumption) Ht). lia.
  - rewrite (IH _ _ _ ltac:(eassumption) Ht). reflexivity.
Qed.
Theorem C52_no_more_messages_than_characters : forall text ms, code_points text -> gets text ms -> (length ms <= length text + 1)%nat.
Proof.
  intros text ms Hcp Hg. destruct (C52_every_text_is_read_in_one_way text Hcp) as (its & ts & rs & Hr & _). destruct (C52_each_error_has_its_message _ _ _ _ _ Hcp Hr Hg) as (es & He & Hi). destruct Hr as (H1 & H2 & H3). apply il_length in Hi. rewrite map_length in Hi.
  apply C47_no_more_reports_than_tokens in H3. destruct (C39_no_character_lost _ _ H1) as (Et & Hn). apply concat_long in Hn. rewrite <- Et in Hn. rewrite (counted _ _ _ _ He H2) in Hn. assert (length (drop_layout ts) <= length ts)%nat by apply filter_len. lia.
Qed.
Print Assumptions C52_no_more_messages_than_characters.

(** The error of Parse on a text that is not of the language, when the listener gets what [gets] says: the first message, and
    how many messages there are. *)
Theorem C52_parse_error_text : forall w text its ts rs es m, code_points text -> ~ syntactically_valid text -> gets text (messages w text) -> read text its ts rs -> complaints [] its es ->
  exists m0 ms, messages w text = m0 :: ms /\
  list_text (o_listener (parse_kf w text [] m)) = lit "syntax error: " ++ m0 ++ lit " (with " ++ decimal (length es + length rs) ++ lit "+ errors)".
Proof.
  intros w text its ts rs es m Hcp Hv Hg Hr He. destruct (C52_each_error_has_its_message _ _ _ _ _ Hcp Hr Hg) as (es' & He' & Hi). rewrite (complaints_one _ _ _ He' _ He) in Hi. clear es' He'.
  destruct (messages w text) as [|m0 ms] eqn:E; [destruct Hv; apply (C52_no_message_iff_valid text [] Hcp Hg); reflexivity|]. exists m0, ms. split; [reflexivity|]. rewrite (C36_syntax_error_text w text m m0 ms Hv E). apply il_length in Hi. cbn [length] in Hi. rewrite map_length in Hi. rewrite Hi. reflexivity.
Qed.
Print Assumptions C52_parse_error_text.
(** Such a world exists, for any imported statement parsers. *)
Theorem C52_the_listener_can_be_so : forall w text, code_points text -> ~ syntactically_valid text -> exists w', w_ext w' = w_ext w /\ gets text (messages w' text).
Proof.
  intros w text Hcp Hv. destruct (C52_every_text_gets_its_messages text Hcp) as (ms & Hg & _). destruct ms as [|m0 ms]; [destruct Hv; apply (C52_no_message_iff_valid text [] Hcp Hg); reflexivity|]. exists (World (w_ext w) (fun _ => (m0, ms))). split; [reflexivity|exact Hg].
Qed.
Print Assumptions C52_the_listener_can_be_so.

Local Transparent fetching_run recovering_run listener_gets message said.
(** The message of a lexing error shows the text as it is, line ends too; those of the parser do not (C51). *)
Definition open_string : str := lit "database d; 'a" ++ [10%N] ++ lit "b".
Theorem C52_messages_on_one_line_refuted : exists text ms m, code_points text /\ gets text ms /\ In m ms /\ ~ on_one_line m.
Proof.
  exists open_string, [lit "line 1:12 token recognition error at: ''a" ++ [10%N] ++ lit "'"; lit "line 2:0 extraneous input 'b' expecting {<EOF>, 'use', 'table', 'action', 'init', BLOCK_VAR_OR_ANNOTATION}"]. eexists.
  split; [repeat constructor; intros E; discriminate E|]. split; [exists 300%nat; vm_compute; reflexivity|]. split; [left; reflexivity|]. intros H. destruct (H 10%N) as (_ & E & _); [|exact (E eq_refl)]. apply in_or_app. right. left. reflexivity.
Qed.
Print Assumptions C52_messages_on_one_line_refuted.
(** Messages do not always come in the order of the text: to report a token the parser may have looked at the next one, and the lexer
    has complained about what stands between them. *)
Definition crooked : str := lit "database d; ~ action a( { } ` table".
Definition crooked_messages : list str :=
  [lit "line 1:12 extraneous input '~' expecting {<EOF>, 'use', 'table', 'action', 'init', BLOCK_VAR_OR_ANNOTATION}";
   lit "line 1:24 missing ')' at '{'";
   lit "line 1:28 token recognition error at: '`'";
   lit "line 1:26 mismatched input '}' expecting {IDENTIFIER, PARAM_OR_VAR, SQL_STMT}";
   lit "line 1:35 mismatched input '<EOF>' expecting IDENTIFIER"].
Example C52_case : code_points crooked /\ gets crooked crooked_messages.
Proof. split; [repeat constructor; intros E; discriminate E|exists 300%nat; vm_compute; reflexivity]. Qed.
Theorem C52_messages_in_the_order_of_the_text_refuted : exists text u L C w C' w' v, code_points text /\
  gets text (u ++ (lit "line " ++ decimal L ++ lit ":" ++ decimal C ++ lit " " ++ w) :: (lit "line " ++ decimal L ++ lit ":" ++ decimal C' ++ lit " " ++ w') :: v) /\ (C' < C)%nat.
Proof.
  exists crooked, (firstn 2 crooked_messages), 1%nat, 28%nat, (lit "token recognition error at: '`'"), 26%nat, (lit "mismatched input '}' expecting {IDENTIFIER, PARAM_OR_VAR, SQL_STMT}"), (skipn 4 crooked_messages).
  split; [exact (proj1 C52_case)|]. split; [|lia]. exact (proj2 C52_case).
Qed.
Print Assumptions C52_messages_in_the_order_of_the_text_refuted.
(** So the hypotheses of the theorems above are met by it. *)
Example C52_case_read : exists its ts rs, read crooked its ts rs /\ gets crooked crooked_messages.
Proof. destruct (C52_every_text_is_read_in_one_way crooked (proj1 C52_case)) as (its & ts & rs & Hr & _). exists its, ts, rs. split; [exact Hr|exact (proj2 C52_case)]. Qed.
