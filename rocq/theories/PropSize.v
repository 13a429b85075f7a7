(** How much comes back: C63. *)
From Coq Require Import ZArith Lia Bool.
From Verif Require Import Str Tokens LexSpec LexerProof Lexer Grammar Schema Denote ParseSpec ParseKF ParseProof Outcomes Utf8Spec Utf8 Utf8Proof JsonSpec GoJson JsonProof ParseBytes JsonParse Sample SizeJson SizeProof
  AtnData Atn ScanSpec PlaceSpec AtnLexer AtnLexerProof AtnParser AtnParserTable GoParser ParserCode PredictSpec GoParserTable Predict LexPos LexPosProof MessageSpec Message MessageRun MessageProof
  Recovery RecoveryTable RecoveryProof PlaceRun Fetch FetchProof FetchProof2 FetchSpec FetchProof3 FetchText PropAtn PropRecovery PropFirst PropPlace PropMessage PropParse PropFetch.
Local Open Scope nat_scope.
Local Opaque fetching_run recovering_run listener_gets message Message.said.

(** *** The JSON *)
Lemma runes_short bs : length (runes bs) <= length bs.
Proof.
  pose proof (runes_reads bs) as H. induction H as [|r bs rs Hr H IH|b bs rs Hn H IH]; cbn [length]; [lia| |lia]. rewrite app_length. pose proof (utf8_len r). lia.
Qed.
Lemma lexed_heft ts : Forall (fun t => tx t <> []) ts -> heft ts = length (chars ts).
Proof. unfold chars. induction 1 as [|t ts Ht H IH]; [reflexivity|]. cbn [map concat]. rewrite heft_cons, app_length, IH. destruct (tx t); [congruence|]. cbn [length]. lia. Qed.
Lemma heft_visible ts : heft (drop_layout ts) <= heft ts.
Proof. induction ts as [|t ts IH]; [reflexivity|]. unfold drop_layout in *. cbn [filter]. destruct (negb _); rewrite ?heft_cons; lia. Qed.
Lemma tokens_text text ts : tokens_of text ts -> text = chars ts /\ Forall (fun t => tx t <> []) ts.
Proof.
  induction 1 as [|s t rest ts (E & Hn & _) H (IH & IF)]; [split; [reflexivity|constructor]|]. split; [|constructor; assumption]. unfold chars in *. cbn [map concat]. rewrite <- IH. exact E.
Qed.
Theorem C63_json_of_what_was_written : forall bf text s, writes text s -> length (to_json bf (NSchema (map_schema bytes_of s))) <= 32 * length text.
Proof.
  intros bf text s (ts & Ht & Hd). unfold to_json. pose proof (indents_value bf (g_node (NSchema (map_schema bytes_of s))) false 0 []) as E. rewrite app_nil_r in E. rewrite E. cbn [nl_if deeper indent g_node]. rewrite !app_nil_l, app_nil_r.
  pose proof (schema_size bf s _ Hd) as G. pose proof (heft_visible ts). destruct (tokens_text _ _ Ht) as (-> & F). rewrite (lexed_heft ts F) in *. lia.
Qed.
Print Assumptions C63_json_of_what_was_written.
(** In bytes: the JSON of what is returned for [bs] is at most 32 times as long. *)
Theorem C63_json_is_linear : forall bf w bs l m s, o_result (parse_bytes w bs l m) = Some s -> length (to_json bf (NSchema s)) <= 32 * length bs.
Proof.
  intros bf w bs l m s H. apply parse_bytes_result in H as (s' & H & -> & _). destruct l as [|e l].
  - destruct (parse_kf w (runes bs) [] m) as [r l'] eqn:E. cbn in H. subst r. apply result_writes in E. pose proof (C63_json_of_what_was_written bf _ _ E). pose proof (runes_short bs). lia.
  - exfalso. unfold parse_kf in H. destruct (parse_tree (runes bs)); discriminate.
Qed.
Print Assumptions C63_json_is_linear.

(** *** The messages *)
Lemma digits_short f : forall n acc, length (digits f n acc) <= S (n / 10) + length acc.
Proof.
  induction f as [|f IH]; intros n acc; [cbn; lia|]. cbn [digits]. destruct (Nat.ltb_spec n 10) as [H|H]; [cbn [length]; lia|]. etransitivity; [apply IH|]. cbn [length].
  assert (n / 10 / 10 < n / 10) by (apply Nat.div_lt; [apply Nat.div_str_pos; lia|lia]). lia.
Qed.
Lemma decimal_short n : length (decimal n) <= S (n / 10).
Proof. unfold decimal. etransitivity; [apply digits_short|]. cbn [length]. lia. Qed.
Lemma lines_short lines : length lines <= length (concat (map (fun x : str => x ++ [10%N]) lines)).
Proof. induction lines as [|x l IH]; [reflexivity|]. cbn [map concat length]. rewrite !app_length. cbn [length]. lia. Qed.
Lemma stands_short before L C : stands before L C -> L + C <= S (length before).
Proof. intros (lines & last & -> & _ & _ & -> & ->). rewrite app_length. pose proof (lines_short lines). lia. Qed.
Lemma place_short before L C : stands before L C -> length (decimal L) + length (decimal C) <= 3 + length before / 5.
Proof.
  intros H. apply stands_short in H. pose proof (decimal_short L). pose proof (decimal_short C). pose proof (Nat.div_mod L 10 ltac:(lia)). pose proof (Nat.div_mod C 10 ltac:(lia)). pose proof (Nat.div_mod (length before) 5 ltac:(lia)).
  pose proof (Nat.mod_upper_bound (length before) 5 ltac:(lia)). pose proof (Nat.mod_upper_bound L 10 ltac:(lia)). pose proof (Nat.mod_upper_bound C 10 ltac:(lia)). lia.
Qed.
Lemma quoted_short s : length (MessageSpec.quoted s) <= 2 * length s + 2.
Proof.
  unfold MessageSpec.quoted. rewrite !app_length. change (length (lit "'")) with 1. induction s as [|c s IH]; [reflexivity|]. cbn [map concat length]. rewrite app_length.
  match goal with |- context [length ?x + length (concat _)] => assert (length x <= 2) by (repeat (destruct (N.eqb _ _); [cbn; lia|]); cbn; lia) end. lia.
Qed.
(** All the names a message can list *)
Definition name_length (t : Z) : nat := match element_name t with Some w => length w + 2 | None => 0 end.
Lemma names_total : total (map name_length (map (fun i => (Z.of_nat i - 2)%Z) (seq 0 87))) = 750. Proof. vm_compute. reflexivity. Qed.
Lemma filter_total {A} (f : A -> nat) p l : total (map f (filter p l)) <= total (map f l).
Proof. induction l as [|x l IH]; [reflexivity|]. cbn [filter]. destruct (p x); cbn [map total]; lia. Qed.
Lemma all_some_total l ws : all_some (map element_name l) = Some ws -> total (map (fun w : str => length w + 2) ws) = total (map name_length l).
Proof.
  revert ws. induction l as [|t l IH]; intros ws H; [injection H as <-; reflexivity|]. cbn [map all_some] in H. destruct (element_name t) as [w|] eqn:E; [|discriminate H]. destruct (all_some (map element_name l)) as [y|]; [|discriminate H]. injection H as <-.
  cbn [map total]. rewrite (IH y eq_refl). f_equal. unfold name_length. rewrite E. reflexivity.
Qed.
Lemma commas_total l : length (commas l) <= total (map (fun w : str => length w + 2) l).
Proof.
  destruct l as [|x l]; [reflexivity|]. unfold commas. rewrite app_length. cbn [map total]. induction l as [|y l IH]; [cbn; lia|]. cbn [map concat total]. rewrite !app_length. change (length (lit ", ")) with 2. lia.
Qed.
Lemma elements_total l : total (map name_length (elements l)) <= 750.
Proof. rewrite <- names_total. apply filter_total. Qed.
Lemma token_string_short l w : token_string l = Some w -> length w <= 752.
Proof.
  pose proof (elements_total l) as F. revert F. unfold token_string. generalize (elements l) as els. intros els F. destruct (all_some (map element_name els)) as [ws|] eqn:E; [|discriminate]. apply all_some_total in E.
  rewrite <- E in F. clear E. replace 752 with (750 + 2) by reflexivity. revert F. generalize 750 as n. intros n F.
  pose proof (commas_total ws) as C. destruct ws as [|x [|y r]]; [discriminate| |]; intros H.
  - injection H as <-. cbn [map total] in F. lia.
  - revert H. generalize (commas (x :: y :: r)), C. intros c Hc. intros H. injection H as <-. cbn [length]. rewrite app_length. cbn [length]. lia.
Qed.
Lemma chars_app a b : chars (a ++ b) = chars a ++ chars b. Proof. unfold chars. rewrite map_app. apply concat_app. Qed.
Lemma scanned_chars text its ts : scanned text its -> tokens_among its ts -> length (chars ts) <= length text.
Proof.
  intros H. revert ts. unfold tokens_among, chars. induction H as [|s t rest l (E & _) _ IH|s u rest l _ (E & _) _ IH]; intros ts Ht; cbn [filter is_seen] in Ht.
  - destruct ts; [reflexivity|discriminate Ht].
  - destruct ts as [|t' ts]; [discriminate Ht|]. cbn [map] in Ht. injection Ht as _ _ Ex Ht. specialize (IH _ Ht). cbn [map concat]. rewrite E, !app_length, <- Ex. lia.
  - specialize (IH _ Ht). rewrite E, app_length. lia.
Qed.
Lemma token_text_short y : length (token_text y) <= 5 + length (chars y).
Proof. destruct y as [|t y]; [cbn; lia|]. unfold chars. cbn [token_text map concat]. rewrite app_length. lia. Qed.
Lemma up_to_short b y : length (text_up_to b y) <= 5 + length (chars (b ++ y)).
Proof.
  unfold text_up_to. destruct (b ++ y) as [|t l] eqn:E; [cbn; lia|]. rewrite <- E. change (concat (map tx (b ++ firstn 1 y))) with (chars (b ++ firstn 1 y)). rewrite !chars_app, !app_length.
  destruct y as [|u y]; [cbn; lia|]. unfold chars. cbn [firstn map concat]. rewrite !app_length. cbn [length]. lia.
Qed.
Lemma found_of r a b y l : starts_shown y -> length (drop_layout y) = r_left r -> r_detail r = Expecting l -> display (r_left r) (map ev (a ++ b ++ y)) = MessageSpec.quoted (token_text y).
Proof. intros Hs Hl _. rewrite <- Hl, app_assoc. apply display_is. exact Hs. Qed.
Lemma some_is {A} (a b : A) : Some a = Some b -> a = b. Proof. congruence. Qed.
Lemma wording_short text its ts rs r : code_points text -> read text its ts rs -> In r rs -> exists w, wording text r = Some w /\ length w <= 2 * length text + 900.
Proof.
  intros Hcp Hr Hin. destruct (C52_reports_are_worded _ _ _ _ _ Hcp Hr Hin) as (a & b & y & m & Ets & Hy & Hsy & Ew & _ & Hm). exists m. split; [exact Ew|].
  pose proof Hr as (Hs & Ha & _). pose proof (scanned_chars _ _ _ Hs Ha) as Hc. rewrite Ets, !chars_app, !app_length in Hc.
  destruct Hm as [->|(ks & _ & Hm)].
  - unfold says_no_viable. rewrite app_length. pose proof (quoted_short (text_up_to b y)). pose proof (up_to_short b y) as U. rewrite chars_app, app_length in U. change (length (lit "no viable alternative at input ")) with 31. lia.
  - destruct (scan_of text Hcp) as (l & eof & ts' & S). destruct (scan_its _ _ _ _ _ _ Hcp S Hs Ha) as (-> & <-). rewrite (scan_words _ _ _ _ r S) in Ew. rewrite Ets in Ew.
    pose proof (token_text_short y) as T. pose proof (quoted_short (token_text y)) as Q. unfold wording_of in Ew.
    assert (Ed : display (r_left r) (map ev (a ++ b ++ y)) = MessageSpec.quoted (token_text y)) by (rewrite <- Hy, app_assoc; apply display_is; exact Hsy). rewrite Ed in Ew.
    destruct (r_kind r), (r_detail r) as [e|n|j]; try discriminate Ew; try (destruct (token_string e) as [w|] eqn:Et; [|discriminate Ew]; apply token_string_short in Et; apply some_is in Ew; subst m; rewrite !app_length;
      repeat match goal with |- context [length (lit ?s)] => let n := eval vm_compute in (length (lit s)) in change (length (lit s)) with n end; lia).
    + exfalso. apply some_is in Ew. subst m. destruct Hm as [Hm|[Hm|Hm]]; discriminate Hm.
    + exfalso. apply some_is in Ew. subst m. destruct Hm as [Hm|[Hm|Hm]]; discriminate Hm.
Qed.
Lemma unreadable_length L C u : length (unreadable L C u) = length (decimal L) + length (decimal C) + length u + 37.
Proof.
  unfold unreadable. rewrite !app_length. repeat match goal with |- context [length (lit ?s)] => let n := eval vm_compute in (length (lit s)) in change (length (lit s)) with n end. lia.
Qed.
Local Opaque unreadable.
Lemma div_le5 a b : a <= b -> a / 5 <= b / 5. Proof. intros H. apply Nat.div_le_mono; lia. Qed.
Lemma complaints_short before its es : complaints before its es -> forall m, In m es -> length m <= 40 + (length before + length (concat (map text_of its))) / 5 + length (concat (map text_of its)).
Proof.
  induction 1 as [before|before k h t its ms H IH|before u its ms L C Hs H IH]; intros m Hin.
  - destruct Hin.
  - apply IH in Hin. rewrite app_length in Hin. cbn [map concat text_of]. rewrite app_length. pose proof (div_le5 (length before + length t + length (concat (map text_of its))) (length before + (length t + length (concat (map text_of its)))) ltac:(lia)). lia.
  - cbn [map concat text_of]. rewrite app_length. destruct Hin as [<-|Hin].
    + rewrite unreadable_length. apply place_short in Hs. pose proof (div_le5 (length before) (length before + (length u + length (concat (map text_of its)))) ltac:(lia)). lia.
    + apply IH in Hin. rewrite app_length in Hin. pose proof (div_le5 (length before + length u + length (concat (map text_of its))) (length before + (length u + length (concat (map text_of its)))) ltac:(lia)). lia.
Qed.
Lemma scanned_text text its : scanned text its -> concat (map text_of its) = text.
Proof. induction 1 as [|s t rest l (E & _) _ IH|s u rest l _ (E & _) _ IH]; [reflexivity| |]; cbn [map concat text_of]; rewrite IH, E; reflexivity. Qed.
(** Every message: at most 3 characters for each of the text, and 1000 more. *)
Theorem C63_every_message_is_linear : forall text ms m, code_points text -> gets text ms -> In m ms -> length m <= 3 * length text + 1000.
Proof.
  intros text ms m Hcp Hg Hin. destruct (C52_every_text_is_read_in_one_way text Hcp) as (its & ts & rs & Hr & _). destruct (C52_each_error_has_its_message _ _ _ _ _ Hcp Hr Hg) as (es & He & Hi).
  pose proof (scanned_text _ _ (proj1 Hr)) as Et. assert (D5 : length text / 5 <= length text) by (apply Nat.div_le_upper_bound; lia). apply (il_in _ _ _ m Hi) in Hin as [Hin|Hin].
  - pose proof (complaints_short _ _ _ He _ Hin) as H. rewrite Et in H. cbn [length Nat.add] in H. lia.
  - apply in_map_iff in Hin as (r & <- & Hin). destruct (wording_short _ _ _ _ _ Hcp Hr Hin) as (w' & Ew' & Hw). destruct (C52_reports_say_where _ _ _ _ _ Hcp Hr Hin) as (a & b & L & C & w & Eits & _ & _ & Hst & Ew & _ & ->).
    rewrite Ew in Ew'. injection Ew' as <-. apply place_short in Hst. assert (length (concat (map text_of a)) <= length text) by (rewrite <- Et, Eits, map_app, concat_app, app_length; lia).
    assert (length (concat (map text_of a)) / 5 <= length text / 5) by (apply Nat.div_le_mono; lia). rewrite !app_length.
    repeat match goal with |- context [length (lit ?s)] => let n := eval vm_compute in (length (lit s)) in change (length (lit s)) with n end. lia.
Qed.
Print Assumptions C63_every_message_is_linear.
(** The text of the error of a call on a text that is not of the language *)
Theorem C63_error_text_is_linear : forall w text m, code_points text -> ~ syntactically_valid text -> gets text (messages w text) -> length (list_text (o_listener (parse_kf w text [] m))) <= 4 * length text + 1100.
Proof.
  intros w text m Hcp Hv Hg. pose proof (C52_no_more_messages_than_characters _ _ Hcp Hg) as Hn. destruct (messages w text) as [|m0 ms] eqn:E; [destruct Hv; apply (C52_no_message_iff_valid text [] Hcp Hg); reflexivity|].
  rewrite (C36_syntax_error_text w text m m0 ms Hv E). pose proof (C63_every_message_is_linear _ _ m0 Hcp Hg (or_introl eq_refl)) as H. cbn [length] in Hn. pose proof (decimal_short (S (length ms))) as D.
  assert (S (length ms) / 10 <= length text + 1) by (apply Nat.div_le_upper_bound; lia). rewrite !app_length.
  repeat match goal with |- context [length (lit ?s)] => let n := eval vm_compute in (length (lit s)) in change (length (lit s)) with n end. lia.
Qed.
Print Assumptions C63_error_text_is_linear.

(** Less than 16 times would be wrong: many arguments of an extension. *)
Definition many_arguments (n : nat) : str := lit "database a;use a{a:1" ++ concat (repeat (lit ",a:1") n) ++ lit "}as a;".
Theorem C63_sixteen_times_refuted : exists bs s, o_result (parse_bytes sample_world bs [] Default) = Some s /\ 16 * length bs < length (to_json true (NSchema s)).
Proof.
  exists (many_arguments 60). destruct (o_result (parse_bytes sample_world (many_arguments 60) [] Default)) as [s|] eqn:E.
  - exists s. split; [reflexivity|]. assert (G : match o_result (parse_bytes sample_world (many_arguments 60) [] Default) with Some s => Nat.ltb (16 * length (many_arguments 60)) (length (to_json true (NSchema s))) = true | None => True end) by (vm_compute; reflexivity).
    rewrite E in G. apply Nat.ltb_lt. exact G.
  - exfalso. revert E. vm_compute. discriminate.
Qed.
Print Assumptions C63_sixteen_times_refuted.
Example C63_case : exists s, o_result (parse_bytes sample_world sample_text [] Default) = Some s /\ length (to_json true (NSchema s)) <= 32 * length sample_text.
Proof.
  destruct (o_result (parse_bytes sample_world sample_text [] Default)) as [s|] eqn:E; [exists s; split; [reflexivity|exact (C63_json_is_linear true _ _ _ _ _ E)]|exfalso; revert E; vm_compute; discriminate].
Qed.
