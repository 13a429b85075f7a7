(** What the messages of syntax errors say: C51. *)
From Coq Require Import ZArith Lia.
From Verif Require Import Str Tokens LexSpec Lexer LexerProof Grammar Schema ParseSpec ParseKF Denote Sample Atn AtnLexer AtnParser AtnParserTable AtnParserProof AtnLexerProof GoParser ParserCode PredictSpec GoParserTable GoParserProof Predict PredictTable PredictProof
  Recovery FirstTable FirstRun FirstProof FirstProof2 FirstProof3 FirstNames FirstText ScanSpec LexPos PlaceSpec LexPosProof MessageSpec Message MessageRun MessageProof PropAtn PropTree PropCode PropRecovery PropFirst PropPlace PropParse.
Local Open Scope Z_scope.

(** A type of token (None: the end of file) that can come after some tokens. *)
Definition can_be_next (before : list tok) (k : option tt) : Prop :=
  match k with None => program before | Some k => forall t, ty t = k -> begins_a_program (before ++ [t]) end.

Lemma words_of text ts r : code_points text -> tokens_of text ts -> wording text r = wording_of (map ev ts) r.
Proof.
  intros Hcp Ht. apply C39_tables_give_the_tokens in Ht; [|exact Hcp]. apply lexer_places_events in Ht. unfold wording. rewrite Ht. f_equal.
  fold ev. generalize (Place 1 0). clear Ht. induction ts as [|t ts IH]; intros p; [reflexivity|]. cbn [map tagged fst filter is_token]. rewrite IH. reflexivity.
Qed.
Lemma prefix_plain w : forallb plain w = true -> forall u v, forallb plain u = true -> forallb plain v = true -> forallb plain (w ++ u ++ v) = true.
Proof. intros H u v Hu Hv. rewrite !forallb_app, H, Hu, Hv. reflexivity. Qed.
(** Expected tokens in words *)
Lemma says_expecting x y r l : starts_shown y -> length (drop_layout y) = r_left r -> r_detail r = Expecting l -> l <> [] -> Forall (fun t => nameable t = true) l ->
  let ks := types l in
  (r_kind r = Unwanted -> wording_of (map ev (x ++ y)) r = Some (says_extraneous (token_text y) ks)) /\
  (r_kind r = Mismatch -> wording_of (map ev (x ++ y)) r = Some (says_mismatched (token_text y) ks)) /\
  (r_kind r = Missing -> wording_of (map ev (x ++ y)) r = Some (says_missing (token_text y) ks)) /\
  on_one_line (says_extraneous (token_text y) ks) /\ on_one_line (says_mismatched (token_text y) ks) /\ on_one_line (says_missing (token_text y) ks).
Proof.
  intros Hy Hn Hd Hne Hl. cbv zeta. destruct (token_string_is l Hne Hl) as (E & _ & _ & Hp). unfold wording_of. rewrite Hd, <- Hn, (display_is x y Hy), E. pose proof (quoted_plain (token_text y)) as Hq.
  do 3 (split; [intros ->; reflexivity|]). split; [|split]; apply plain_line; unfold says_extraneous, says_mismatched, says_missing; rewrite !forallb_app, Hp, Hq; reflexivity.
Qed.
Lemma says_since a b y r : starts_shown (b ++ y) -> starts_shown y -> length (drop_layout y) = r_left r -> r_kind r = NoViableAlt -> r_detail r = Since (length (drop_layout (b ++ y))) ->
  wording_of (map ev (a ++ b ++ y)) r = Some (says_no_viable (text_up_to b y)).
Proof.
  intros Hb Hy Hn Hk Hd. unfold wording_of. rewrite Hk, Hd, <- Hn, (between_is a b y Hb Hy), escape_is. unfold says_no_viable, text_up_to. do 3 f_equal.
  destruct (b ++ y) as [|t l] eqn:E; [reflexivity|]. cbn in Hb. unfold drop_layout at 1. cbn [filter]. rewrite Hb. reflexivity.
Qed.
Lemma no_viable_line s : on_one_line (says_no_viable s).
Proof. apply plain_line. unfold says_no_viable. rewrite forallb_app, quoted_plain. reflexivity. Qed.

Lemma worded_in ts rs r : reported (drop_layout ts) rs -> In r rs ->
  exists a b y m, ts = a ++ b ++ y /\ length (drop_layout y) = r_left r /\ starts_shown y /\ wording_of (map ev ts) r = Some m /\ on_one_line m /\
  (m = says_no_viable (text_up_to b y) \/
   exists ks, ks <> [] /\ (m = says_extraneous (token_text y) ks \/ m = says_mismatched (token_text y) ks \/ m = says_missing (token_text y) ks)).
Proof.
  intros (_ & f & Hr) Hin. pose proof (reports_worded _ _ _ Hr) as Hw. apply PlaceRun.reports_inside in Hr. rewrite Forall_forall in Hr, Hw. specialize (Hr r Hin). specialize (Hw r Hin). clear Hin.
  unfold wording_ok in Hw.
  assert (Exp : r_kind r = Unwanted \/ r_kind r = Mismatch \/ r_kind r = Missing -> (exists l, r_detail r = Expecting l /\ l <> [] /\ Forall (fun t => nameable t = true) l) ->
    exists a b y m, ts = a ++ b ++ y /\ length (drop_layout y) = r_left r /\ starts_shown y /\ wording_of (map ev ts) r = Some m /\ on_one_line m /\
    (m = says_no_viable (text_up_to b y) \/ exists ks, ks <> [] /\ (m = says_extraneous (token_text y) ks \/ m = says_mismatched (token_text y) ks \/ m = says_missing (token_text y) ks))).
  { intros Hk (l & Hd & Hne & Hl). destruct (split_left ts (r_left r) Hr) as (x & y & -> & Hn & Hy). destruct (says_expecting x y r l Hy Hn Hd Hne Hl) as (S1 & S2 & S3 & O1 & O2 & O3). destruct (token_string_is l Hne Hl) as (_ & Ht' & _).
    exists x, []. cbn [app]. destruct Hk as [Hk|[Hk|Hk]]; eexists y, _; (split; [reflexivity|]; split; [exact Hn|]; split; [exact Hy|]); (split; [auto|]); (split; [eassumption|]); right; exists (types l); auto. }
  destruct (r_kind r) eqn:Hk; destruct (r_detail r) as [l|n|j] eqn:Hd; try contradiction; try (apply Exp; [tauto|]; exists l; tauto).
  destruct (split_left ts n ltac:(tauto)) as (a & z & -> & Hz & Hsz). destruct (split_left z (r_left r) ltac:(lia)) as (b & y & -> & Hn & Hy). exists a, b, y, (says_no_viable (text_up_to b y)).
  split; [reflexivity|]. split; [exact Hn|]. split; [exact Hy|]. split; [apply says_since; try assumption; rewrite Hz; exact Hd|]. split; [apply no_viable_line|left; reflexivity].
Qed.
(** C51 *)
(** Every report is put into words (nothing panics), on one line, in one of four forms; the text it shows is that of the token
    it is at, or ends with it. *)
Theorem C51_every_message_is_worded : forall text ts rs r, code_points text -> tokens_of text ts -> reported (drop_layout ts) rs -> In r rs ->
  exists a b y m, ts = a ++ b ++ y /\ length (drop_layout y) = r_left r /\ starts_shown y /\ wording text r = Some m /\ on_one_line m /\
  (m = says_no_viable (text_up_to b y) \/
   exists ks, ks <> [] /\ (m = says_extraneous (token_text y) ks \/ m = says_mismatched (token_text y) ks \/ m = says_missing (token_text y) ks)).
Proof. intros text ts rs r Hcp Ht Hr Hin. rewrite (words_of _ _ _ Hcp Ht). exact (worded_in ts rs r Hr Hin). Qed.
Print Assumptions C51_every_message_is_worded.

Lemma next_of u mid wt k0 p m k : kinds wt = mid -> (forall ts, completes parser_atn k0 p m ts -> completes parser_atn [] 0 (nrm parser_atn (start_of parser_atn 0)) (kinds u ++ mid ++ ts)) -> can_come k0 p m (number k) -> can_be_next (u ++ wt) k.
Proof.
  intros <- Hb [(E & C)|(Hw & w & Hw' & C)]; apply Hb in C.
  - destruct k as [k|]; [cbn [number] in E; lia|]. cbn [can_be_next]. apply parser_accepts_iff, accepts_completes. rewrite kinds_app, <- app_assoc. exact C.
  - destruct k as [k|]; [|destruct Hw as (Hw & _); cbn in Hw; lia]. cbn [can_be_next number] in *. intros t <-. destruct (typed w Hw') as (l & <-). exists l. apply parser_accepts_iff, accepts_completes. rewrite !kinds_app, <- !app_assoc. exact C.
Qed.
Lemma next_two u mid wt k0 p m k y : kinds wt = mid -> (forall ts, completes parser_atn k0 p m ts -> completes parser_atn [] 0 (nrm parser_atn (start_of parser_atn 0)) (kinds u ++ mid ++ ts)) -> after_it k0 p m (number k) (pla y) ->
  exists k', k = Some k' /\ forall t, ty t = k' -> match y with t' :: _ => begins_a_program (u ++ wt ++ [t; t']) | [] => program (u ++ wt ++ [t]) end.
Proof.
  intros <- Hb (Hw & H). destruct k as [k|]; [|destruct Hw as (Hw & _); cbn in Hw; lia]. exists k. split; [reflexivity|]. intros t <-. destruct H as [(E & C)|(Hy & w & Hw' & C)]; apply Hb in C.
  - destruct y as [|t' y]; [|pose proof (kind_range (ty t')) as G; change (pla (t' :: y)) with (Z.of_nat (tt_num (ty t'))) in E; lia]. apply parser_accepts_iff, accepts_completes. rewrite !kinds_app, <- !app_assoc. exact C.
  - destruct y as [|t' y]; [destruct Hy as (Hy & _); cbn in Hy; lia|]. destruct (typed w Hw') as (l & <-). exists l. apply parser_accepts_iff, accepts_completes. rewrite !kinds_app, <- !app_assoc. exact C.
Qed.
Lemma first_worded : forall ts r rs, reported (drop_layout ts) (r :: rs) ->
  exists x y, ts = x ++ y /\ length (drop_layout y) = r_left r /\ starts_shown y /\
  ((exists a b, x = a ++ b /\ (length (drop_layout b) <= 1)%nat /\ starts_shown (b ++ y) /\ wording_of (map ev ts) r = Some (says_no_viable (text_up_to b y))) \/
   exists ks skipped, ks <> [] /\ (length skipped <= 1)%nat /\ (forall k, In k ks -> can_be_next (drop_layout x ++ skipped) k) /\
    (wording_of (map ev ts) r = Some (says_extraneous (token_text y) ks) \/ wording_of (map ev ts) r = Some (says_mismatched (token_text y) ks) \/
     wording_of (map ev ts) r = Some (says_missing (token_text y) ks) /\
       forall k, In k ks -> exists k', k = Some k' /\ forall t, ty t = k' ->
         match y with t' :: _ => begins_a_program (drop_layout x ++ skipped ++ [t; t']) | [] => program (drop_layout x ++ skipped ++ [t]) end)).
Proof.
  intros ts r rs H. pose proof H as (_ & f & Hf). pose proof (reports_worded _ _ _ Hf) as Hw. apply Forall_inv in Hw. apply first_report in Hf as (why0 & Hf & He). apply fails_at in Hf as ((u & r0 & rest & E & Hn & _ & Hs) & _).
  apply split_visible in E as (x & y & -> & Eu & Ey & Hy). exists x, y. assert (Hn' : length (drop_layout y) = r_left r) by (rewrite Ey; exact Hn). split; [reflexivity|]. split; [exact Hn'|]. split; [exact Hy|].
  destruct (report_names _ _ _ _ Hs He) as [(n & Hk & Hd & Hle)|(Hk & l & mid & k0 & p & m & Hd & Hne & Hm & Hmw & Hb & HC & HM)].
  - left. destruct (split_left (x ++ y) n) as (a & z & Ez & Hz & Hsz). { unfold wording_ok in Hw. rewrite Hk, Hd in Hw. tauto. }
    assert (G : exists b, x = a ++ b /\ z = b ++ y).
    { apply app_eq_app in Ez as (c & [(E1 & E2)|(E1 & E2)]); [exists c; auto|]. exists []. rewrite app_nil_r. destruct c as [|t c]; [rewrite app_nil_r in E1; auto|]. exfalso. subst y. unfold starts_shown in Hy. cbn [app] in Hy.
      unfold drop_layout in Hn'. cbn [filter app] in Hn'. rewrite Hy in Hn'. cbn [negb length] in Hn'. rewrite filter_app, app_length in Hn'. unfold drop_layout in Hz. rewrite <- Ey in Hle. unfold drop_layout in Hle. cbn [filter app] in Hle. rewrite Hy in Hle. cbn [negb length] in Hle. rewrite filter_app, app_length in Hle. lia. }
    destruct G as (b & -> & ->). exists a, b. split; [reflexivity|]. split; [|split; [exact Hsz|]].
    + rewrite <- Ey in Hle. rewrite <- Hz in Hle. unfold drop_layout in Hle. rewrite filter_app, app_length in Hle. unfold drop_layout. lia.
    + rewrite <- app_assoc. apply says_since; try assumption. rewrite Hz. exact Hd.
  - right. assert (Hl : Forall (fun t => nameable t = true) l). { unfold wording_ok in Hw. rewrite Hd in Hw. destruct Hk as [Hk|[Hk|Hk]]; rewrite Hk in Hw; tauto. }
    destruct (typed mid Hmw) as (wt & Ewt). destruct (token_string_is l Hne Hl) as (_ & Hkne & Hkin & _). destruct (says_expecting x y r l Hy Hn' Hd Hne Hl) as (S1 & S2 & S3 & _). exists (types l), wt. split; [exact Hkne|].
    assert (Hlen : length wt = length mid) by (rewrite <- Ewt; unfold kinds; rewrite map_length; reflexivity). split; [lia|]. rewrite Eu.
    split; [intros k Hk'; eapply next_of; [exact Ewt|exact Hb|apply HC; apply Hkin; exact Hk']|]. destruct Hk as [Hk|[Hk|Hk]]; [left; auto|right; left; auto|]. right. right. split; [auto|]. intros k Hk'.
    destruct (next_two _ _ _ _ _ _ k r0 Ewt Hb (HM Hk _ (Hkin k Hk'))) as (k' & -> & G). exists k'. split; [reflexivity|]. intros t Ek. specialize (G t Ek). rewrite <- Ey in G.
    destruct y as [|t' y]; [exact G|]. cbn in Hy. unfold drop_layout in G. cbn [filter] in G. rewrite Hy in G. exact G.
Qed.
(** The first message.  [x] is the text before the place of the error (C48); the types of token named as expected can all come
    next there, or at one token more from there (the same for all of them: after a wrong word in the place of one of several
    key words, the generated code goes on as if it had been there).  A token called missing can come there, and then the
    token found. *)
Theorem C51_first_message_names_what_can_come : forall text ts r rs, code_points text -> tokens_of text ts -> reported (drop_layout ts) (r :: rs) ->
  exists x y, ts = x ++ y /\ length (drop_layout y) = r_left r /\ starts_shown y /\
  ((exists a b, x = a ++ b /\ (length (drop_layout b) <= 1)%nat /\ starts_shown (b ++ y) /\ wording text r = Some (says_no_viable (text_up_to b y))) \/
   exists ks skipped, ks <> [] /\ (length skipped <= 1)%nat /\ (forall k, In k ks -> can_be_next (drop_layout x ++ skipped) k) /\
    (wording text r = Some (says_extraneous (token_text y) ks) \/ wording text r = Some (says_mismatched (token_text y) ks) \/
     wording text r = Some (says_missing (token_text y) ks) /\
       forall k, In k ks -> exists k', k = Some k' /\ forall t, ty t = k' ->
         match y with t' :: _ => begins_a_program (drop_layout x ++ skipped ++ [t; t']) | [] => program (drop_layout x ++ skipped ++ [t]) end)).
Proof. intros text ts r rs Hcp Ht H. rewrite (words_of _ _ _ Hcp Ht). exact (first_worded ts r rs H). Qed.
Print Assumptions C51_first_message_names_what_can_come.
Lemma said_is text r m : wording text r = Some m -> said text r = m.
Proof. unfold said. intros ->. reflexivity. Qed.
(** The error of Parse on a text whose tokens are no program: the line and column of the first wrong place (C49), and the
    message there. *)
Theorem C51_parse_error_text : forall w text ts r rs m, code_points text -> tokens_of text ts -> reported (drop_layout ts) (r :: rs) ->
  messages w text = map (message text (said text)) (r :: rs) ->
  exists x y L C words, ts = x ++ y /\ stands (concat (map tx x)) L C /\ (exists more, syntactically_valid (concat (map tx x) ++ more)) /\ wording text r = Some words /\ on_one_line words /\
  list_text (o_listener (parse_kf w text [] m)) =
    lit "syntax error: line " ++ decimal L ++ lit ":" ++ decimal C ++ lit " " ++ words ++ lit " (with " ++ decimal (S (length rs)) ++ lit "+ errors)".
Proof.
  intros w text ts r rs m Hcp Ht Hr Hm. destruct (C49_parse_error_names_the_first_wrong_place w text ts r rs (said text) m Hcp Ht Hr Hm) as (x & y & L & C & E & _ & Hs & El & Hmore & _).
  destruct (C51_every_message_is_worded text ts _ r Hcp Ht Hr (or_introl eq_refl)) as (_ & _ & _ & words & _ & _ & _ & Ew & Ho & _).
  exists x, y, L, C, words. rewrite (said_is _ _ _ Ew) in El. split; [exact E|]. split; [exact Hs|]. split; [exact Hmore|]. split; [exact Ew|]. split; [exact Ho|exact El].
Qed.
Print Assumptions C51_parse_error_text.

Definition tokens_all (s : str) : list tok := match lex s with Some ts => ts | None => [] end.
(** Not everything that can come is named: after a type, a constraint can come. *)
Definition after_type : str := lit "database a; table t { id int ; }".
Theorem C51_named_is_all_that_can_come_refuted : exists text ts r rs x y ks k, code_points text /\ tokens_of text ts /\ reported (drop_layout ts) (r :: rs) /\ ts = x ++ y /\ length (drop_layout y) = r_left r /\ starts_shown y /\
  wording text r = Some (says_extraneous (token_text y) ks) /\ can_be_next (drop_layout x) k /\ ~ In k ks.
Proof.
  exists after_type, (tokens_all after_type), (Report Unwanted 2 (Expecting [6; 7; 7])), [], (firstn 15 (tokens_all after_type)), (skipn 15 (tokens_all after_type)), [Some R_BRACE; Some COMMA], (Some PRIMARY_).
  split; [repeat constructor; intros E; discriminate E|]. split; [apply lex_spec; vm_compute; reflexivity|]. split; [split; [discriminate|]; exists 300%nat; vm_compute; reflexivity|]. split; [symmetry; apply firstn_skipn|]. split; [vm_compute; reflexivity|]. split; [vm_compute; reflexivity|].
  split; [vm_compute; reflexivity|]. split; [|intros [E|[E|[]]]; discriminate E]. intros t Et. exists [fixed R_BRACE].
  assert (H : reported (tokens_in (lit "database a; table t { id int primary }")) []) by (split; [discriminate|]; exists 300%nat; vm_compute; reflexivity).
  pose proof (proj1 (C47_reported_iff_not_a_program _ _ H) eq_refl) as HP. eapply program_kinds; [|exact HP]. destruct t as [k s]. cbn [ty] in Et. subst k. vm_compute. reflexivity.
Qed.
Print Assumptions C51_named_is_all_that_can_come_refuted.
(** What is named cannot always come at the place itself: after the name of an index comes its kind, and only then the
    parenthesis that the message asks for. *)
Definition wrong_kind : str := lit "database a; table t { id int, #i btree(a) }".
Theorem C51_named_can_come_here_refuted : exists text ts r rs x y ks k, code_points text /\ tokens_of text ts /\ reported (drop_layout ts) (r :: rs) /\ ts = x ++ y /\ length (drop_layout y) = r_left r /\ starts_shown y /\
  wording text r = Some (says_extraneous (token_text y) ks) /\ In k ks /\ ~ can_be_next (drop_layout x) k.
Proof.
  exists wrong_kind, (tokens_all wrong_kind), (Report Unwanted 5 (Expecting [3])), [Report Mismatch 5 (Expecting [49; 51; 52])], (firstn 18 (tokens_all wrong_kind)), (skipn 18 (tokens_all wrong_kind)), [Some L_PAREN], (Some L_PAREN).
  split; [repeat constructor; intros E; discriminate E|]. split; [apply lex_spec; vm_compute; reflexivity|]. split; [split; [discriminate|]; exists 300%nat; vm_compute; reflexivity|]. split; [symmetry; apply firstn_skipn|]. split; [vm_compute; reflexivity|]. split; [vm_compute; reflexivity|].
  split; [vm_compute; reflexivity|]. split; [left; reflexivity|]. intros G. specialize (G (fixed L_PAREN) eq_refl).
  assert (H0 : reported (drop_layout (firstn 18 (tokens_all wrong_kind)) ++ [fixed L_PAREN]) [Report Missing 1 (Expecting [49; 51; 52]); Report Mismatch 0 (Expecting [73])]). { split; [discriminate|]. exists 300%nat. vm_compute. reflexivity. }
  destruct (C48_first_report_is_the_first_wrong_token _ _ _ H0) as (b & a & E & Hn & _ & Ha). destruct a as [|t [|]]; try discriminate Hn. apply app_inj_tail in E as (<- & <-). apply Ha. exact G.
Qed.
Print Assumptions C51_named_can_come_here_refuted.

(** Cases. *)
Example C51_case : wording two_lines (Report Missing 6 (Expecting [2])) = Some (lit "missing ';' at 'table'") /\
  wording two_lines (Report Missing 6 (Expecting [2])) = Some (says_missing (lit "table") [Some SCOL]) /\
  message two_lines (said two_lines) (Report Missing 6 (Expecting [2])) = lit "line 2:2 missing ';' at 'table'".
Proof. repeat split; vm_compute; reflexivity. Qed.
Example C51_case_btree : wording wrong_kind (Report Unwanted 5 (Expecting [3])) = Some (lit "extraneous input 'btree' expecting '('") /\
  wording wrong_kind (Report Mismatch 5 (Expecting [49; 51; 52])) = Some (lit "mismatched input 'btree' expecting {'primary', 'unique', 'index'}").
Proof. split; vm_compute; reflexivity. Qed.
(** Layout between the tokens of a prediction is shown, on one line. *)
Definition comma_lines : str := lit "database a; table t { id int ," ++ [10%N; 9%N] ++ lit "; }".
Example C51_case_no_viable : reported (drop_layout (tokens_all comma_lines)) [Report NoViableAlt 2 (Since 3)] /\
  wording comma_lines (Report NoViableAlt 2 (Since 3)) = Some (lit "no viable alternative at input ',\n\t;'").
Proof. split; [split; [discriminate|]; exists 300%nat|]; vm_compute; reflexivity. Qed.
Example C51_case_end : wording (lit "") (Report Mismatch 0 (Expecting [31])) = Some (lit "mismatched input '<EOF>' expecting 'database'").
Proof. vm_compute. reflexivity. Qed.
