(** The first syntax error does not depend on what stands behind it: C62. *)
From Coq Require Import ZArith Lia Bool.
From Verif Require Import Str Tokens LexSpec LexerProof Lexer Grammar Schema ParseSpec ParseKF ParseProof Outcomes AtnData Atn ScanSpec PlaceSpec AtnLexer AtnLexerProof AtnParser AtnParserTable GoParser ParserCode PredictSpec GoParserTable Predict LexPos LexPosProof MessageSpec Message MessageRun MessageProof
  Recovery RecoveryTable RecoveryProof PlaceRun Fetch FetchProof FetchProof2 FetchSpec FetchProof3 FetchText PropAtn PropRecovery PropFirst PropPlace PropMessage PropParse PropFetch StableRun StableText.
Local Open Scope nat_scope.
Local Opaque fetching_run recovering_run listener_gets message Message.said.

(** C62 *)
(** Tokens: the first report is at one of the first tokens [x], not the last of them.  With anything else behind [x], the first
    report is at the same token, of the same kind, and expects the same tokens (or has looked since the same token). *)
Theorem C62_first_report_stays : forall x y1 y2 r rs, reported (x ++ y1) (r :: rs) -> length y1 + 2 <= r_left r ->
  exists r' rs', reported (x ++ y2) (r' :: rs') /\ r_kind r' = r_kind r /\ r_left r' + length y1 = r_left r + length y2 /\
  match r_detail r with Since n => exists n', r_detail r' = Since n' /\ n' + length y1 = n + length y2 | d => r_detail r' = d end.
Proof.
  intros x y1 y2 r rs H L. destruct (C47_the_parser_ends (x ++ y2)) as (rs2 & H2). pose proof H as (_ & f0 & Hf0). pose proof (reports_inside _ _ _ _ _ _ _ _ Hf0) as Hin. pose proof (reports_worded _ _ _ Hf0) as Hw. apply Forall_inv in Hin, Hw. rewrite app_length in Hin.
  pose proof H2 as H2'. apply gives_run in H as (f1 & H1), H2' as (f2 & H3). specialize (H1 (f1 + f2) ltac:(lia)). specialize (H3 (f1 + f2) ltac:(lia)).
  destruct (first_moved _ _ _ _ _ _ _ H1 L ltac:(lia) H3) as (rs' & ->). exists (moved_report y1 y2 r), rs'. split; [exact H2|]. unfold moved_report. cbn [r_kind r_left r_detail]. split; [reflexivity|]. split; [unfold moved; lia|].
  unfold wording_ok in Hw. destruct (r_kind r), (r_detail r) as [l|n|j]; try contradiction; cbn [moved_detail]; try reflexivity. exists (moved y1 y2 n). split; [reflexivity|]. unfold moved. lia.
Qed.
Print Assumptions C62_first_report_stays.

(** Texts: two texts whose scans begin with the same items [a], among them the token of the first report and the next one.
    The message of the first report (with its line and column) is the same. *)
Theorem C62_first_syntax_message_stays : forall text1 text2 a b1 b2 ts1 r1 rs1, code_points text1 -> code_points text2 ->
  read text1 (a ++ b1) ts1 (r1 :: rs1) -> visible_in b1 + 2 <= r_left r1 -> scanned text2 (a ++ b2) ->
  exists ts2 r2 rs2, read text2 (a ++ b2) ts2 (r2 :: rs2) /\ r_left r2 + visible_in b1 = r_left r1 + visible_in b2 /\
  message text2 (Message.said text2) r2 = message text1 (Message.said text1) r1.
Proof.
  intros text1 text2 a b1 b2 ts1 r1 rs1 Hc1 Hc2 Hr1 L Hs2. pose proof Hr1 as (Hs1 & Ha1 & Hp1).
  destruct (C52_every_text_is_read_in_one_way text2 Hc2) as (its & ts2 & rs2 & Hr2 & _). pose proof Hr2 as (Hs2' & Ha2 & Hp2). pose proof (scanned_one _ _ _ Hc2 Hs2' Hs2) as ->. clear Hs2'.
  destruct (among_app _ _ _ Ha1) as (ta & tb1 & -> & Aa & Ab1). destruct (among_app _ _ _ Ha2) as (ta' & tb2 & -> & Aa' & Ab2). pose proof (tokens_one _ _ _ Aa' Aa) as ->. clear Aa'.
  pose proof (among_visible _ _ Ab1) as V1. pose proof (among_visible _ _ Ab2) as V2.
  assert (Ed : forall u v, drop_layout (u ++ v) = drop_layout u ++ drop_layout v) by (intros; apply filter_app).
  pose proof Hp1 as Hp1'. rewrite Ed in Hp1'. destruct (C62_first_report_stays _ _ (drop_layout tb2) _ _ Hp1' ltac:(lia)) as (r2 & rs2' & H2 & Hk & Hl & Hd).
  rewrite <- Ed in H2. pose proof (C47_one_result _ _ _ Hp2 H2) as E. injection E as ->. exists (ta ++ tb2), r2, rs2'. split; [exact Hr2|]. split; [lia|].
  assert (I1 : In r1 (r1 :: rs1)) by (left; reflexivity). assert (I2 : In r2 (r2 :: rs2')) by (left; reflexivity).
  destruct (C52_reports_say_where _ _ _ _ _ Hc1 Hr1 I1) as (p1 & q1 & L1 & C1 & w1 & E1 & S1 & W1 & St1 & Ew1 & _ & ->).
  destruct (C52_reports_say_where _ _ _ _ _ Hc2 Hr2 I2) as (p2 & q2 & L2 & C2 & w2 & E2 & S2 & W2 & St2 & Ew2 & _ & ->).
  (* the place *)
  assert (Q : forall p q b, p ++ q = a ++ b -> starts_visible q -> visible_in b < visible_in q -> exists c, a = p ++ c /\ q = c ++ b /\ starts_visible c /\ visible_in c = visible_in q - visible_in b).
  { intros p q b E Hq Lq. apply app_eq_app in E as (c & [(-> & ->)|(-> & ->)]).
    - exfalso. rewrite visible_app in Lq. lia.
    - exists c. split; [reflexivity|]. split; [reflexivity|]. rewrite visible_app in *. split; [|lia]. destruct c; [exact I|exact Hq]. }
  destruct (Q _ _ _ (eq_sym E1) S1 ltac:(lia)) as (c1 & Ec1 & -> & Sc1 & Vc1). destruct (Q _ _ _ (eq_sym E2) S2 ltac:(lia)) as (c2 & Ec2 & -> & Sc2 & Vc2).
  pose proof (split_once _ _ _ _ _ Ec1 Ec2 Sc1 Sc2 ltac:(lia)) as ->. destruct (C49_one_place _ _ _ _ _ St1 St2) as (<- & <-).
  (* the words *)
  assert (Ew : w2 = w1); [|rewrite Ew; reflexivity].
  destruct (scan_of text1 Hc1) as (l1 & eof1 & ts1' & Sc). destruct (scan_its _ _ _ _ _ _ Hc1 Sc Hs1 Ha1) as (_ & <-). rewrite (scan_words _ _ _ _ r1 Sc) in Ew1.
  destruct (scan_of text2 Hc2) as (l2 & eof2 & ts2' & Sd). destruct (scan_its _ _ _ _ _ _ Hc2 Sd Hs2 Ha2) as (_ & <-). rewrite (scan_words _ _ _ _ r2 Sd) in Ew2.
  assert (N : forall l, showns (map ev l) = length (drop_layout l)) by (intros; apply ev_count).
  pose proof Hp1 as (_ & f0 & Hf0). pose proof (reports_inside _ _ _ _ _ _ _ _ Hf0) as Hin. pose proof (reports_worded _ _ _ Hf0) as Hw. apply Forall_inv in Hin, Hw.
  pose proof (worded_before ta tb1 tb2 r1) as G. cbv zeta in G. rewrite !N in G. specialize (G ltac:(lia)).
  assert (So : since_ok (length (drop_layout tb1)) (length (drop_layout (ta ++ tb1))) r1). { unfold since_ok. unfold wording_ok in Hw. destruct (r_detail r1) as [e|n|j]; auto. destruct (r_kind r1); try contradiction. lia. }
  specialize (G So r2 Hk ltac:(lia)). rewrite G in Ew2; [congruence|]. unfold since_ok in So. destruct (r_detail r1) as [e|n|j]; try exact Hd. destruct Hd as (n' & -> & Hn). f_equal. lia.
Qed.
Print Assumptions C62_first_syntax_message_stays.

(** The first message of all, if nothing unreadable stands between the wrong token and the next one. *)
Theorem C62_first_message_stays : forall text1 text2 a b1 b2 ts1 r1 rs1 ms1 ms2, code_points text1 -> code_points text2 ->
  read text1 (a ++ b1) ts1 (r1 :: rs1) -> visible_in b1 + 2 <= r_left r1 -> scanned text2 (a ++ b2) ->
  (forall x u y, a = x ++ Skipped u :: y -> visible_in (y ++ b1) + 1 <> r_left r1) ->
  gets text1 ms1 -> gets text2 ms2 -> exists m ms1' ms2', ms1 = m :: ms1' /\ ms2 = m :: ms2'.
Proof.
  intros text1 text2 a b1 b2 ts1 r1 rs1 ms1 ms2 Hc1 Hc2 Hr1 L Hs2 Hgap G1 G2. destruct (C62_first_syntax_message_stays _ _ _ _ _ _ _ _ Hc1 Hc2 Hr1 L Hs2) as (ts2 & r2 & rs2 & Hr2 & Hl & Hm).
  assert (Q : forall x u y b, x ++ Skipped u :: y = a ++ b -> visible_in b <= visible_in y -> exists y', a = x ++ Skipped u :: y' /\ y = y' ++ b \/ visible_in y = visible_in b /\ exists v, b = v ++ Skipped u :: y).
  { intros x u y b E Ly. apply app_eq_app in E as (c & [(-> & Eb)|(-> & Eb)]); [exists []; right; split; [|exists c; exact Eb]; subst b; rewrite visible_app in Ly; unfold visible_in in *; cbn [filter visible] in *; rewrite filter_app, app_length; cbn [filter visible]; lia|].
    destruct c as [|i c]; [cbn [app] in Eb; subst b; exists []; right; split; [reflexivity|exists []; reflexivity]|]. cbn [app] in Eb. injection Eb as <- ->. exists c. left. auto. }
  assert (Ne : forall t its ts rs ms r, code_points t -> read t its ts rs -> rs = r :: tl rs -> gets t ms -> exists m ms', ms = m :: ms').
  { intros t its ts rs ms r Hc Hr Ers Hg. destruct ms as [|m ms]; [|eauto]. exfalso. destruct (C52_each_error_has_its_message _ _ _ _ _ Hc Hr Hg) as (es & _ & Hi). apply il_length in Hi. rewrite map_length, Ers in Hi. cbn [length] in Hi. lia. }
  destruct (Ne _ _ _ _ _ _ Hc1 Hr1 eq_refl G1) as (m1 & ms1' & ->). destruct (Ne _ _ _ _ _ _ Hc2 Hr2 eq_refl G2) as (m2 & ms2' & ->). clear Ne.
  exists m1, ms1', ms2'. split; [reflexivity|]. f_equal.
  destruct (C52_first_message _ _ _ _ _ _ Hc1 Hr1 G1) as [(x1 & u1 & d1 & L1 & C1 & E1 & F1 & St1 & -> & B1)|(r & rs' & E1 & -> & B1)];
  destruct (C52_first_message _ _ _ _ _ _ Hc2 Hr2 G2) as [(x2 & u2 & d2 & L2 & C2 & E2 & F2 & St2 & -> & B2)|(r' & rs'' & E2 & -> & B2)].
  - specialize (B1 _ _ eq_refl). specialize (B2 _ _ eq_refl). destruct (Q _ _ _ _ (eq_sym E1) ltac:(lia)) as (y1 & [(A1 & ->)|(A1 & _)]); [|lia]. destruct (Q _ _ _ _ (eq_sym E2) ltac:(lia)) as (y2 & [(A2 & ->)|(A2 & _)]); [|lia].
    assert (E : x1 = x2 /\ u1 = u2).
    { rewrite A1 in A2. clear - A2 F1 F2. revert x2 A2 F2. induction x1 as [|i x1 IH]; intros [|j x2] E F2; cbn [app forallb] in *; [injection E as <- _; auto| | |].
      - injection E as <- _. discriminate F2.
      - injection E as -> _. discriminate F1.
      - injection E as <- E. apply andb_prop in F1 as (_ & F1), F2 as (_ & F2). destruct (IH F1 _ E F2) as (-> & ->). auto. }
    destruct E as (<- & <-). destruct (C49_one_place _ _ _ _ _ St1 St2) as (<- & <-). reflexivity.
  - injection E2 as <- <-. specialize (B1 _ _ eq_refl). destruct (Q _ _ _ _ (eq_sym E1) ltac:(lia)) as (y1 & [(A1 & ->)|(A1 & _)]); [|lia]. exfalso. pose proof (Hgap _ _ _ A1) as Hg. specialize (B2 x1 u1 (y1 ++ b2)). rewrite A1, <- app_assoc in B2. specialize (B2 eq_refl). rewrite visible_app in *. lia.
  - injection E1 as <- <-. specialize (B2 _ _ eq_refl). destruct (Q _ _ _ _ (eq_sym E2) ltac:(lia)) as (y2 & [(A2 & ->)|(A2 & _)]); [|lia]. exfalso. pose proof (Hgap _ _ _ A2) as Hg. specialize (B1 x2 u2 (y2 ++ b1)). rewrite A2, <- app_assoc in B1. specialize (B1 eq_refl). rewrite visible_app in *. lia.
  - injection E1 as <- <-. injection E2 as <- <-. exact Hm.
Qed.
Print Assumptions C62_first_message_stays.
(** So the error of Parse begins in the same way, up to the number of errors. *)
Theorem C62_parse_error_begins_the_same : forall w text1 text2 a b1 b2 ts1 r1 rs1 m, code_points text1 -> code_points text2 ->
  read text1 (a ++ b1) ts1 (r1 :: rs1) -> visible_in b1 + 2 <= r_left r1 -> scanned text2 (a ++ b2) ->
  (forall x u y, a = x ++ Skipped u :: y -> visible_in (y ++ b1) + 1 <> r_left r1) ->
  gets text1 (messages w text1) -> gets text2 (messages w text2) -> exists e n1 n2,
  list_text (o_listener (parse_kf w text1 [] m)) = lit "syntax error: " ++ e ++ lit " (with " ++ decimal n1 ++ lit "+ errors)" /\
  list_text (o_listener (parse_kf w text2 [] m)) = lit "syntax error: " ++ e ++ lit " (with " ++ decimal n2 ++ lit "+ errors)".
Proof.
  intros w text1 text2 a b1 b2 ts1 r1 rs1 m Hc1 Hc2 Hr1 L Hs2 Hgap G1 G2. destruct (C62_first_message_stays _ _ _ _ _ _ _ _ _ _ Hc1 Hc2 Hr1 L Hs2 Hgap G1 G2) as (e & ms1 & ms2 & E1 & E2).
  assert (K : forall t ms, code_points t -> gets t (messages w t) -> messages w t = e :: ms -> exists n, list_text (o_listener (parse_kf w t [] m)) = lit "syntax error: " ++ e ++ lit " (with " ++ decimal n ++ lit "+ errors)").
  { intros t ms Hc Hg E. destruct (C52_every_text_is_read_in_one_way t Hc) as (its & ts & rs & Hr & _). destruct (C52_each_error_has_its_message _ _ _ _ _ Hc Hr Hg) as (es & He & _).
    assert (Hv : ~ syntactically_valid t). { intros H. apply (C52_no_message_iff_valid t _ Hc Hg) in H. rewrite E in H. discriminate H. }
    destruct (C52_parse_error_text w t its ts rs es m Hc Hv Hg Hr He) as (m0 & ms' & E' & Et). rewrite E in E'. injection E' as <- _. exists (length es + length rs). exact Et. }
  destruct (K _ _ Hc1 G1 E1) as (n1 & H1), (K _ _ Hc2 G2 E2) as (n2 & H2). exists e, n1, n2. auto.
Qed.
Print Assumptions C62_parse_error_begins_the_same.

(** A case: C47's missing semicolon, with two continuations of "database a table t". *)
Definition seen_tokens (ts : list tok) : list item := map (fun t => Seen (tt_num (ty t)) (is_layout (ty t)) (tx t)) ts.
Definition all_tokens (s : str) : list tok := match lex s with Some l => l | None => [] end.
Lemma read_tokens s ts rs : lex s = Some ts -> reported (drop_layout ts) rs -> read s (seen_tokens ts) ts rs.
Proof. intros H Hr. split; [apply tokens_scanned, lex_spec; exact H|]. split; [apply all_among|exact Hr]. Qed.
Definition case_one : str := lit "database a table t { id int }".
Definition case_two : str := lit "database a table t , ' : ; )".
Definition case_a : list tok := all_tokens (lit "database a table t ").
Example C62_case : exists b1 b2 ts1 r1 rs1, code_points case_one /\ code_points case_two /\ read case_one (seen_tokens case_a ++ b1) ts1 (r1 :: rs1) /\ visible_in b1 + 2 <= r_left r1 /\
  r1 = Report Missing 6 (Expecting [2%Z]) /\ scanned case_two (seen_tokens case_a ++ b2) /\ message case_one (Message.said case_one) r1 = lit "line 1:11 missing ';' at 'table'".
Proof.
  assert (H1 : code_points case_one) by (apply Forall_forall; intros c Hc; assert (G : forallb (fun c => N.leb c 1114111) case_one = true) by (vm_compute; reflexivity); rewrite forallb_forall in G; apply N.leb_le; auto).
  assert (H2 : code_points case_two) by (apply Forall_forall; intros c Hc; assert (G : forallb (fun c => N.leb c 1114111) case_two = true) by (vm_compute; reflexivity); rewrite forallb_forall in G; apply N.leb_le; auto).
  destruct (scan_of case_two H2) as (l & eof & ts & S). pose proof (sc_scanned _ _ _ _ S) as Hs. assert (El : items l = seen_tokens case_a ++ skipn 8 (items l)).
  { pose proof (sc_places _ _ _ _ S) as E. assert (E' : match lexer_places case_two with Some (l, _) => items l = seen_tokens case_a ++ skipn 8 (items l) | None => True end) by (vm_compute; reflexivity). rewrite E in E'. exact E'. }
  rewrite El in Hs. exists (seen_tokens (skipn 8 (all_tokens case_one))), (skipn 8 (items l)), (all_tokens case_one), (Report Missing 6 (Expecting [2%Z])), [].
  split; [exact H1|]. split; [exact H2|]. split; [|split; [vm_compute; lia|split; [reflexivity|split; [exact Hs|vm_compute; reflexivity]]]].
  replace (seen_tokens case_a ++ seen_tokens (skipn 8 (all_tokens case_one))) with (seen_tokens (all_tokens case_one)) by (vm_compute; reflexivity).
  apply read_tokens; [vm_compute; reflexivity|]. exact C47_case_missing.
Qed.

(** It is the scan that has to agree, not the characters: an open comment is read as a division sign and a star, which is
    wrong there; with its end, it is a comment. *)
Theorem C62_agreeing_texts_refuted : exists s z ts r rs a, tokens_of s (a ++ ts) /\ reported (drop_layout (a ++ ts)) (r :: rs) /\ length (drop_layout ts) + 2 <= r_left r /\ syntactically_valid (s ++ z).
Proof.
  set (t0 := all_tokens (lit "database d; /* x")). exists (lit "database d; /* x"), (lit " */"), (skipn 7 t0), (Report Mismatch 3 (Expecting [(-1)%Z; 36%Z; 35%Z; 76%Z; 34%Z; 32%Z])), [], (firstn 7 t0). rewrite firstn_skipn.
  split; [apply lex_spec; vm_compute; reflexivity|]. split; [split; [discriminate|]; exists 300; vm_compute; reflexivity|]. split; [vm_compute; lia|].
  exists (all_tokens (lit "database d; /* x" ++ lit " */")). split; [apply lex_spec; vm_compute; reflexivity|].
  assert (H : reported (drop_layout (all_tokens (lit "database d; /* x" ++ lit " */"))) []) by (split; [discriminate|]; exists 300; vm_compute; reflexivity). apply (C47_reported_iff_not_a_program _ _ H). reflexivity.
Qed.
Print Assumptions C62_agreeing_texts_refuted.
