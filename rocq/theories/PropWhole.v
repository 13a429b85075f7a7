(** C70: the whole program, from the bytes of the input to what is returned and printed, with the messages the code really gives. *)
From Coq Require Import ZArith Lia Bool ConstructiveEpsilon.
From Verif Require Import Str Tokens LexSpec LexerProof Lexer Grammar Tree Schema Validator ValidSpec Utf8 Utf8Proof JsonSpec GoJson ParseSpec ParseKF ParseBytes ParseProof Outcomes AtnData Atn ScanSpec PlaceSpec AtnLexer AtnLexerProof AtnParser AtnParserTable
  GoParser ParserCode PredictSpec GoParserProof GoParserTable Predict LexPos LexPosProof MessageSpec Message Recovery RecoveryProof Fetch FetchProof FetchSpec FetchProof3 FetchText Run RunProof RunSpec Whole
  Path Flags FlagSpec Cli CliSpec CliProof Wasm Sample PropParse PropTree PropAtn PropCode PropCache PropRecovery PropFirst PropPlace PropMessage PropFetch PropCli.
Local Opaque fetching_run recovering_run listener_gets message said lexer_places source_unit_fun parse_run parse_kf.

(** What Parse comes to: [l] is the listener it is given (empty: a fresh one), [lines] what it prints, [o] result and errors. *)
Definition comes_to (x : externals) (input : list N) (l : listener) (mode : N) (lines : list str) (o : ParseKF.outcome) : Prop :=
  exists fuel, parse_code x fuel input l mode = Some (lines, o).
(** A world whose messages are those of the code *)
Definition real (x : externals) (w : world) : Prop := w_ext w = x /\ forall text, code_points text -> ~ syntactically_valid text -> gets text (messages w text).

Definition code_points_dec text : {code_points text} + {~ code_points text}.
Proof. apply Forall_dec. intros c. destruct (N.leb c 1114111) eqn:E; [left; apply N.leb_le; exact E|right; apply N.leb_gt in E; lia]. Defined.
Lemma gets_dec text : code_points text -> {ms | gets text ms}.
Proof.
  intros Hcp. destruct (constructive_indefinite_ground_description_nat (fun f => listener_gets text f <> None)) as (f & Hf).
  - intros f. destruct (listener_gets text f); [left; discriminate|right; intros H; apply H; reflexivity].
  - destruct (C52_every_text_gets_its_messages text Hcp) as (ms & (f & E) & _). exists f. rewrite E. discriminate.
  - destruct (listener_gets text f) as [ms|] eqn:E; [exists ms, f; exact E|destruct Hf; reflexivity].
Qed.
(** There is one; it is a function, found without any axiom. *)
Theorem C70_the_real_world : forall x, exists w, real x w.
Proof.
  intros x. exists (World x (fun text => match code_points_dec text with Specif.left H => let ms := proj1_sig (gets_dec text H) in (hd [] ms, tl ms) | Specif.right _ => ([], []) end)).
  split; [reflexivity|]. intros text Hcp Hv. unfold messages. cbn [w_msgs]. destruct (code_points_dec text) as [H|H]; [|destruct (H Hcp)]. cbv zeta. destruct (gets_dec text H) as (ms & Hg). cbn [proj1_sig].
  destruct ms as [|m0 ms]; [|exact Hg]. destruct Hv. exact (proj1 (C52_no_message_iff_valid text [] Hcp Hg) eq_refl).
Qed.
Print Assumptions C70_the_real_world.

Lemma source_unit_mono f f' ts r : (f <= f')%nat -> source_unit_fun parser_atn rule_functions adaptive_predict f ts = Some r -> source_unit_fun parser_atn rule_functions adaptive_predict f' ts = Some r.
Proof.
  Local Transparent source_unit_fun. unfold source_unit_fun. intros L H. match type of H with match exec ?A ?F ?P f ?k ?p ?c ?s with _ => _ end = _ => destruct (exec_mono A F P f f' k p c s L) as [E|E] end; [rewrite E in H; discriminate|rewrite E; exact H].
Qed.
Lemma gets_mono text f f' ms : (f <= f')%nat -> listener_gets text f = Some ms -> listener_gets text f' = Some ms.
Proof.
  Local Transparent listener_gets. unfold listener_gets. intros L. destruct (lexer_places text) as [(l & eof)|]; [|discriminate].
  intros H. match type of H with match ?c with _ => _ end = _ => destruct c as [rs e| |] eqn:E; try discriminate H end. rewrite (frun_more f f' _ _ L E) by discriminate. exact H.
Qed.
Local Opaque source_unit_fun listener_gets.

Lemma same_world w w' text l m : w_ext w = w_ext w' -> (~ syntactically_valid text -> messages w text = messages w' text) -> parse_kf w text l m = parse_kf w' text l m.
Proof.
  intros E H. Local Transparent parse_kf. unfold parse_kf. rewrite <- E. destruct (parse_tree text) as [u|] eqn:Ep; [reflexivity|]. rewrite H; [reflexivity|].
  apply parse_tree_none. exact Ep.
Qed.
Local Opaque parse_kf.
Lemma real_messages x w text ms : real x w -> code_points text -> ~ syntactically_valid text -> gets text ms -> ms = messages w text.
Proof. intros (_ & H) Hcp Hv Hg. destruct (C52_every_text_gets_its_messages text Hcp) as (ms' & _ & Hu). rewrite (Hu _ Hg). symmetry. apply Hu. exact (H text Hcp Hv). Qed.

(** The code comes to one thing, and that is what the function of the other theorems gives in the real world. *)
Lemma comes_is x w input l mode m : real x w -> (exists lines, comes_to x input l mode lines (parse_bytes w input l m)) /\ forall lines o, comes_to x input l mode lines o -> o = parse_bytes w input l m.
Proof.
  intros Hw. set (text := runes input). pose proof (C39_go_strings_are_code_points input) as Hcp. fold text in Hcp. pose proof Hw as (Ex & Hm).
  destruct (C52_every_text_gets_its_messages text Hcp) as (ms & Hg & Hu). destruct (scan_of text Hcp) as (evs & eof & ts & S). destruct (C45_the_call_ends (drop_layout ts)) as (pt & f2 & Hp).
  assert (K : forall ms0 pt0, (ms0 = [] -> exists t, pt0 = Some t) -> (ms0 <> [] -> pt0 = None) -> gets text ms0 -> (forall t, pt0 = Some t -> returns_with adaptive_predict (drop_layout ts) (Some t)) ->
    snd (parse_run (World x (fun _ => (hd [] ms0, tl ms0))) text pt0 l mode) = parse_kf w text l m).
  { intros ms0 pt0 H1 H2 Hg0 H3. rewrite (parse_run_outcome _ _ _ _ _ m).
    - apply same_world; [symmetry; exact Ex|]. intros Hv. rewrite <- (real_messages x w text ms0 Hw Hcp Hv Hg0). unfold messages. cbn [w_msgs]. destruct ms0; [|reflexivity]. destruct Hv. exact (proj1 (C52_no_message_iff_valid text [] Hcp Hg0) eq_refl).
    - destruct ms0 as [|m0 ms0].
      + destruct (H1 eq_refl) as (t & ->). cbn [parser_gave]. pose proof (proj1 (C52_no_message_iff_valid text [] Hcp Hg0) eq_refl) as (ts' & Ht & HP).
        exists ts'. split; [exact Ht|]. specialize (H3 t eq_refl). destruct (C52_every_text_is_read_in_one_way text Hcp) as (its & ts2 & rs & (R1 & R2 & R3) & Hone).
        destruct (scan_its text evs eof ts _ _ Hcp S (tokens_scanned _ _ Ht) (all_among ts')) as (_ & ->). apply C45_trees_follow_the_grammar. exact H3.
      + rewrite (H2 ltac:(discriminate)). cbn [parser_gave]. intros Hv. apply (C52_no_message_iff_valid text _ Hcp Hg0) in Hv. discriminate Hv. }
  split.
  - destruct Hg as (f1 & Hg). assert (Hg' : listener_gets text (f1 + f2) = Some ms) by (eapply gets_mono; [|exact Hg]; lia). apply (source_unit_mono f2 (f1 + f2)) in Hp; [|lia].
    pose proof (ex_intro (fun f => listener_gets text f = Some ms) _ Hg : gets text ms) as Hgm.
    destruct ms as [|m0 ms].
    + assert (exists t, pt = Some t) as (t & ->).
      { destruct pt as [t|]; [eauto|]. exfalso. pose proof (ex_intro _ (f1 + f2)%nat Hp : returns_with adaptive_predict (drop_layout ts) None) as HN. apply C45_error_iff_not_a_program in HN. apply HN.
        pose proof (proj1 (C52_no_message_iff_valid text [] Hcp Hgm) eq_refl) as (ts' & Ht & HP). destruct (scan_its text evs eof ts _ _ Hcp S (tokens_scanned _ _ Ht) (all_among ts')) as (_ & <-). exact HP. }
      specialize (K [] (Some t) (fun _ => ex_intro _ t eq_refl) (fun n => match n eq_refl with end) Hgm). cbn [hd tl] in K. 
      destruct (parse_run (World x (fun _ => ([], []))) text (Some t) l mode) as [lines o] eqn:Er. exists (map bytes_of lines), (f1 + f2)%nat. unfold parse_code. fold text. cbv zeta. rewrite Hg', (sc_places _ _ _ _ S), (sc_given _ _ _ _ S), Hp, Er. unfold parse_bytes. fold text.
      rewrite <- K; [reflexivity|]. intros t' Et. injection Et as <-. exists (f1 + f2)%nat. exact Hp.
    + specialize (K (m0 :: ms) None ltac:(discriminate) (fun _ => eq_refl) Hgm ltac:(discriminate)). cbn [hd tl] in K.
      destruct (parse_run (World x (fun _ => (m0, ms))) text None l mode) as [lines o] eqn:Er. exists (map bytes_of lines), (f1 + f2)%nat. unfold parse_code. fold text. cbv zeta. rewrite Hg', Er. unfold parse_bytes. fold text. rewrite <- K. reflexivity.
  - intros lines o (f & H). unfold parse_code in H. fold text in H. cbv zeta in H. destruct (listener_gets text f) as [[|m0 ms0]|] eqn:Eg; [| |discriminate H].
    + rewrite (sc_places _ _ _ _ S), (sc_given _ _ _ _ S) in H. destruct (source_unit_fun parser_atn rule_functions adaptive_predict f (drop_layout ts)) as [[t|]|] eqn:Es; try discriminate H.
      specialize (K [] (Some t) (fun _ => ex_intro _ t eq_refl) (fun n => match n eq_refl with end) (ex_intro _ f Eg)). cbn [hd tl] in K. destruct (parse_run (World x (fun _ => ([], []))) text (Some t) l mode) as [ln o'] eqn:Er. injection H as <- <-.
      unfold parse_bytes. fold text. rewrite <- K; [reflexivity|]. intros t' Et. injection Et as <-. exists f. exact Es.
    + specialize (K (m0 :: ms0) None ltac:(discriminate) (fun _ => eq_refl) (ex_intro _ f Eg) ltac:(discriminate)). cbn [hd tl] in K. destruct (parse_run (World x (fun _ => (m0, ms0))) text None l mode) as [ln o'] eqn:Er. injection H as <- <-.
      unfold parse_bytes. fold text. rewrite <- K. reflexivity.
Qed.
Lemma parse_code_mono x f f' input l mode r : (f <= f')%nat -> parse_code x f input l mode = Some r -> parse_code x f' input l mode = Some r.
Proof.
  intros L. unfold parse_code. cbv zeta. destruct (listener_gets (runes input) f) as [ms|] eqn:Eg; [|discriminate]. rewrite (gets_mono _ _ _ _ L Eg). destruct ms as [|m0 ms]; [|auto].
  destruct (lexer_places (runes input)) as [(evs & eof)|]; [|auto]. set (ts := flat_map _ evs). destruct (source_unit_fun parser_atn rule_functions adaptive_predict f ts) as [[t|]|] eqn:Es; [|intros H; discriminate H|intros H; discriminate H].
  rewrite (source_unit_mono _ _ _ _ L Es). exact (fun H => H).
Qed.

(** For every input, listener and mode the call ends, with one outcome, and prints one thing. *)
Theorem C70_the_call_ends : forall x input l mode, exists lines o, comes_to x input l mode lines o /\
  forall lines' o', comes_to x input l mode lines' o' -> lines' = lines /\ o' = o.
Proof.
  intros x input l mode. destruct (C70_the_real_world x) as (w & Hw). destruct (comes_is x w input l mode Default Hw) as ((lines & f & H) & _). eexists lines, _. split; [exists f; exact H|].
  intros lines' o' (f' & H'). apply (parse_code_mono x f (f + f')) in H; [|lia]. apply (parse_code_mono x f' (f + f')) in H'; [|lia]. rewrite H in H'. injection H' as <- <-. auto.
Qed.
Print Assumptions C70_the_call_ends.
(** It is what the functions of the other theorems give in the real world: what they say of every [w] they say of the code. *)
Theorem C70_the_code_in_the_real_world : forall x w input l mode m lines o, real x w -> comes_to x input l mode lines o -> o = parse_bytes w input l m.
Proof. intros x w input l mode m lines o Hw H. exact (proj2 (comes_is x w input l mode m Hw) _ _ H). Qed.
Print Assumptions C70_the_code_in_the_real_world.
(** Tracing prints more and changes nothing. *)
Theorem C70_tracing_is_harmless : forall x input l mode mode' lines lines' o o', comes_to x input l mode lines o -> comes_to x input l mode' lines' o' ->
  o = o' /\ (N.testbit mode 1 = false -> lines = []).
Proof.
  intros x input l mode mode' lines lines' o o' H H'. destruct (C70_the_real_world x) as (w & Hw). split.
  - rewrite (C70_the_code_in_the_real_world x w input l mode Default lines o Hw H). symmetry. exact (C70_the_code_in_the_real_world x w input l mode' Default lines' o' Hw H').
  - intros Hm. destruct H as (f & H). unfold parse_code in H. cbv zeta in H.
    assert (K : forall w' pt, (let (ln, o0) := parse_run w' (runes input) pt l mode in Some (map bytes_of ln, ParseKF.Outcome (option_map (map_schema bytes_of) (o_result o0)) (o_listener o0))) = Some (lines, o) -> lines = []).
    { intros w' pt E. pose proof (C28_silent_without_trace w' (runes input) pt l mode Hm) as Q. destruct (parse_run w' (runes input) pt l mode) as [ln o0]. cbn [fst] in Q. subst ln. injection E as <- _. reflexivity. }
    destruct (listener_gets (runes input) f) as [[|m0 ms]|]; [| |discriminate]; [|exact (K _ _ H)].
    destruct (lexer_places (runes input)) as [(evs & eof)|]; [|discriminate]. set (ts := flat_map _ evs) in H. destruct (source_unit_fun parser_atn rule_functions adaptive_predict f ts) as [[t|]|]; [exact (K _ _ H)|discriminate H|discriminate H].
Qed.
Print Assumptions C70_tracing_is_harmless.
(** The error is nil exactly for a text of the language that writes a valid schema, which is then returned. *)
Theorem C70_accepts_exactly : forall x input mode lines o, comes_to x input [] mode lines o ->
  (o_listener o = [] <-> exists s, writes (runes input) s /\ valid_schema x s) /\
  forall s, writes (runes input) s -> valid_schema x s -> o = ParseKF.Outcome (Some (map_schema bytes_of s)) [].
Proof.
  intros x input mode lines o H. destruct (C70_the_real_world x) as (w & Hw). pose proof (C70_the_code_in_the_real_world x w input [] mode Default lines o Hw H) as ->. destruct Hw as (<- & _).
  assert (A : forall s, writes (runes input) s -> valid_schema (w_ext w) s -> parse_bytes w input [] Default = ParseKF.Outcome (Some (map_schema bytes_of s)) []).
  { intros s H1 H2. unfold parse_bytes. rewrite (proj2 (C18_no_error_iff_accepted w (runes input) Default s) (conj H1 H2)). reflexivity. }
  split; [|exact A]. split.
  - intros E. unfold parse_bytes in E. cbn [o_listener] in E. destruct (C18_nil_error_means_schema _ _ _ _ E) as (_ & s & Es). apply C18_no_error_iff_accepted in Es as (H1 & H2). eauto.
  - intros (s & H1 & H2). rewrite (A s H1 H2). reflexivity.
Qed.
Print Assumptions C70_accepts_exactly.
(** Everything that can come out, with the text of the error: a text outside the language gives the first message and the number of all of them. *)
Theorem C70_every_outcome : forall x input mode lines o, comes_to x input [] mode lines o -> let text := runes input in
  (~ syntactically_valid text /\ o_result o = None /\ exists m0 ms, gets text (m0 :: ms) /\
     o_listener o = map syntax_error (m0 :: ms) ++ [ESelf] /\
     list_text (o_listener o) = lit "syntax error: " ++ m0 ++ lit " (with " ++ decimal (S (length ms)) ++ lit "+ errors)")
  \/ (exists e, misdeclared text e /\ o = ParseKF.Outcome None [e])
  \/ (exists s z, writes text s /\ invalid_schema x s z /\ o = ParseKF.Outcome (Some (map_schema bytes_of s)) [report_error z])
  \/ (exists s, writes text s /\ valid_schema x s /\ o = ParseKF.Outcome (Some (map_schema bytes_of s)) []).
Proof.
  intros x input mode lines o H text. destruct (C70_the_real_world x) as (w & Hw). pose proof (C70_the_code_in_the_real_world x w input [] mode Default lines o Hw H) as ->. pose proof Hw as (<- & Hm). pose proof (C39_go_strings_are_code_points input) as Hcp. fold text in Hcp.
  unfold parse_bytes. fold text. destruct (C18_every_outcome w text Default) as [(Hv & E)|[(e & He & E)|[(s & z & H1 & H2 & E)|(s & (H1 & H2) & E)]]].
  - left. split; [exact Hv|]. pose proof (Hm text Hcp Hv) as Hg. destruct (messages w text) as [|m0 ms] eqn:Em; [destruct Hv; exact (proj1 (C52_no_message_iff_valid text [] Hcp Hg) eq_refl)|].
    cbn [o_listener o_result]. split; [rewrite E; reflexivity|]. exists m0, ms. split; [exact Hg|]. split; [rewrite E; reflexivity|]. exact (C36_syntax_error_text w text Default m0 ms Hv Em).
  - right; left. exists e. split; [exact He|]. rewrite E. reflexivity.
  - right; right; left. exists s, z. split; [exact H1|]. split; [exact H2|]. rewrite E. reflexivity.
  - right; right; right. exists s. split; [exact H1|]. split; [exact H2|]. rewrite E. reflexivity.
Qed.
Print Assumptions C70_every_outcome.

(** Where the error is: the tokens [before] read, then a piece [u] that cannot be read; or a token with which, after these, no program
    can go on, or the end of a text that is no program yet. *)
Definition as_items (ts : list tok) : list item := map (fun t => Seen (tt_num (ty t)) (is_layout (ty t)) (tx t)) ts.
Lemma all_seen its ts : tokens_among its ts -> forallb is_seen its = true -> its = as_items ts.
Proof.
  unfold tokens_among, as_items. intros <-. induction its as [|i its IH]; [reflexivity|]. cbn [forallb filter]. intros H. apply andb_true_iff in H as (H1 & H2). rewrite H1. f_equal. exact (IH H2).
Qed.
Lemma among_app a b ts : tokens_among (a ++ b) ts -> exists ta tb, ts = ta ++ tb /\ tokens_among a ta /\ tokens_among b tb.
Proof. unfold tokens_among. rewrite filter_app. intros H. symmetry in H. apply map_eq_app in H as (ta & tb & -> & <- & <-). eauto. Qed.
Lemma among_visible its ts : tokens_among its ts -> visible_in its = length (drop_layout ts).
Proof.
  unfold tokens_among, visible_in, drop_layout. revert ts. induction its as [|i its IH]; intros ts H; [destruct ts; [reflexivity|discriminate H]|]. cbn [filter] in *. destruct i as [k h u|u]; cbn [is_seen visible] in *; [|exact (IH _ H)].
  destruct ts as [|t ts]; [discriminate H|]. cbn [map] in H. injection H as -> -> _ H. cbn [filter]. destruct (is_layout (ty t)); cbn [negb length]; rewrite (IH _ H); reflexivity.
Qed.
Lemma unseen its : forallb is_seen its = true \/ exists a u b, its = a ++ Skipped u :: b.
Proof.
  induction its as [|[k h t|u] its [IH|(a & u' & b & IH)]]; [left; reflexivity|left; exact IH|right|right; exists [], u, its; reflexivity|right; exists [], u, its; reflexivity].
  exists (Seen k h t :: a), u', b. rewrite IH. reflexivity.
Qed.
Lemma items_text ts : concat (map text_of (as_items ts)) = concat (map tx ts).
Proof. unfold as_items. rewrite map_map. reflexivity. Qed.
Theorem C70_the_error_says_where : forall x input mode lines o, comes_to x input [] mode lines o -> ~ syntactically_valid (runes input) ->
  exists before after L C words n, scanned (runes input) (as_items before ++ after) /\ runes input = concat (map tx before) ++ concat (map text_of after) /\ stands (concat (map tx before)) L C /\
  list_text (o_listener o) = lit "syntax error: line " ++ decimal L ++ lit ":" ++ decimal C ++ lit " " ++ words ++ lit " (with " ++ decimal n ++ lit "+ errors)" /\
  ((exists u rest, after = Skipped u :: rest /\ words = lit "token recognition error at: '" ++ u ++ lit "'") \/
   (begins_a_program (drop_layout before) /\
    ((exists t rest, after = as_items [t] ++ rest /\ is_layout (ty t) = false /\ ~ begins_a_program (drop_layout before ++ [t])) \/
     (after = [] /\ ~ program (drop_layout before))))).
Proof.
  intros x input mode lines o H Hv. pose proof (C39_go_strings_are_code_points input) as Hcp. destruct (C70_every_outcome x input mode lines o H) as [(_ & _ & m0 & ms & Hg & _ & Et)|[(e & (ts & H1 & H2 & _) & _)|[(s & z & H1 & _)|(s & H1 & _)]]].
  2: { destruct Hv. exists ts. auto. }
  2, 3: destruct Hv; destruct (writes_tree (runes input) s) as (F & _); destruct (F H1) as (u & Hu & _); apply parse_tree_valid; eauto.
  destruct (C52_every_text_is_read_in_one_way (runes input) Hcp) as (its & ts & rs & Hr & _). pose proof Hr as (Hs & Ha & Hrep). destruct (C39_no_character_lost _ _ Hs) as (Ex & _).
  assert (Ex' : runes input = concat (map text_of its)) by (rewrite Ex at 1; f_equal; apply map_ext; intros [k h u|u]; reflexivity).
  rewrite Et. destruct (C52_first_message _ _ _ _ _ _ Hcp Hr Hg) as [(a & u & b & L & C & -> & Hseen & Hst & -> & _)|(r & rs' & -> & -> & Hbehind)].
  - apply among_app in Ha as (ta & tb & -> & Ha & _). pose proof (all_seen _ _ Ha Hseen) as ->. exists ta, (Skipped u :: b), L, C, (lit "token recognition error at: '" ++ u ++ lit "'"), (S (length ms)). rewrite items_text in Hst.
    split; [exact Hs|]. split; [rewrite Ex', map_app, concat_app, items_text; reflexivity|]. split; [exact Hst|]. split; [|left; eauto].
    unfold unreadable. rewrite <- !app_assoc. reflexivity.
  - destruct (C52_reports_say_where _ _ _ _ r Hcp Hr (or_introl eq_refl)) as (a & b & L & C & words & -> & Hvis & Hleft & Hst & _ & _ & Em).
    apply among_app in Ha as (ta & tb & -> & Ha & Hb).
    assert (Hseen : forallb is_seen a = true).
    { destruct (unseen a) as [Q|(a1 & u & a2 & ->)]; [exact Q|]. specialize (Hbehind a1 u (a2 ++ b)). rewrite <- app_assoc in Hbehind. specialize (Hbehind eq_refl). rewrite visible_app in Hbehind. lia. }
    pose proof (all_seen _ _ Ha Hseen) as ->. rewrite items_text in Hst. exists ta, b, L, C, words, (S (length ms)). split; [exact Hs|]. split; [rewrite Ex', map_app, concat_app, items_text; reflexivity|]. split; [exact Hst|].
    split; [rewrite Em, <- !app_assoc; reflexivity|]. right.
    destruct (C48_first_report_is_the_first_wrong_token _ _ _ Hrep) as (bf & af & E & Hn & Hbeg & Hwrong). rewrite <- Hleft, (among_visible _ _ Hb) in Hn.
    assert (E' : drop_layout (ta ++ tb) = drop_layout ta ++ drop_layout tb) by (unfold drop_layout; apply filter_app). rewrite E' in E, Hwrong.
    assert (drop_layout ta = bf /\ drop_layout tb = af) as (<- & <-).
    { clear -E Hn. revert bf E. induction (drop_layout ta) as [|y l IH]; intros [|y' l'] E; cbn [app] in E; [auto|apply (f_equal (@length _)) in E; cbn [length] in E; rewrite app_length in E; lia|apply (f_equal (@length _)) in E; cbn [length] in E; rewrite app_length in E; lia|]. injection E as -> E. destruct (IH _ E) as (-> & ->). auto. }
    split; [exact Hbeg|]. destruct b as [|i b].
    + right. split; [reflexivity|]. destruct tb as [|t tb]; [|discriminate Hb]. cbn in Hwrong. rewrite app_nil_r in Hwrong. exact Hwrong.
    + left. cbn [starts_visible] in Hvis. destruct i as [k [|] u|u]; try discriminate Hvis. destruct tb as [|t tb]; [discriminate Hb|]. unfold tokens_among in Hb. cbn [filter is_seen map] in Hb. injection Hb as -> El -> _. exists t, b. unfold as_items. cbn [map app]. rewrite <- El.
      split; [reflexivity|]. split; [reflexivity|]. assert (Ed : drop_layout (t :: tb) = t :: drop_layout tb) by (unfold drop_layout; cbn [filter]; rewrite <- El; reflexivity). rewrite Ed in Hwrong. exact Hwrong.
Qed.
Print Assumptions C70_the_error_says_where.

(** The program and the WebAssembly module call Parse: with the real messages there is one thing they do. *)
Lemma real_one x w w' input l m : real x w -> real x w' -> parse_bytes w input l m = parse_bytes w' input l m.
Proof. intros Hw Hw'. destruct (C70_the_call_ends x input l 0) as (lines & o & H & _). rewrite <- (C70_the_code_in_the_real_world x w input l 0 m _ _ Hw H). exact (C70_the_code_in_the_real_world x w' input l 0 m _ _ Hw' H). Qed.
Theorem C70_programs_are_determined : forall x w w', real x w -> real x w' ->
  (forall version bf o fs args, main version bf w o fs args = main version bf w' o fs args) /\ (forall bf args, parse_wrapper bf w args = parse_wrapper bf w' args).
Proof.
  intros x w w' Hw Hw'. assert (R : forall input l m, parse_bytes w input l m = parse_bytes w' input l m) by (intros; eapply real_one; eassumption). split.
  - intros version bf o fs args. unfold main. destruct (command_line args) as [| |v rest]; [reflexivity|reflexivity|]. unfold run_command. destruct (v_version v); [reflexivity|]. destruct rest as [|p [|]]; [reflexivity| |reflexivity].
    destruct (os_mkdir o (v_output v)); [reflexivity|]. destruct (read_file o fs p) as [data|]; [|reflexivity]. cbv zeta. rewrite R. reflexivity.
  - intros bf args. unfold parse_wrapper. destruct args as [|input [|]]; try reflexivity. unfold wasm_parse. cbv zeta. rewrite R. reflexivity.
Qed.
Print Assumptions C70_programs_are_determined.
(** On a file that is not in the language the program writes nothing, ends with code 5 and prints the first message and how many there are. *)
Theorem C70_the_program_reports_syntax_errors : forall x w version bf o fs args p d data, real x w -> asks args p d -> os_mkdir o d = None -> readable o fs p data -> ~ syntactically_valid (runes data) ->
  exists m0 ms, gets (runes data) (m0 :: ms) /\ let r := main version bf w o fs args in r_code r = 5%N /\ (forall k, r_files r k = fs k) /\
    r_out r = bytes_of (lit "syntax error: " ++ m0 ++ lit " (with " ++ decimal (S (length ms)) ++ lit "+ errors)") ++ [10%N].
Proof.
  intros x w version bf o fs args p d data Hw HA HM HR Hv. pose proof (C39_go_strings_are_code_points data) as Hcp. pose proof (proj2 Hw _ Hcp Hv) as Hg.
  destruct (messages w (runes data)) as [|m0 ms] eqn:Em; [destruct Hv; exact (proj1 (C52_no_message_iff_valid _ [] Hcp Hg) eq_refl)|]. exists m0, ms. split; [exact Hg|]. cbv zeta.
  assert (HN : forall json, ~ translates bf w data json). { intros json (s & (HW & _) & _). apply Hv. destruct (writes_tree (runes data) s) as (F & _). destruct (F HW) as (u & Hu & _). apply parse_tree_valid. eauto. }
  assert (E5 : exits bf w o fs args 5) by (eapply ex_parse; eassumption).
  split; [apply C26_exit_code_tells_the_step; exact E5|]. split.
  - intros k. destruct (files_untouched version bf w o fs args) as [E|(p' & d' & json & HR' & _)]; [rewrite E; reflexivity|]. exfalso. pose proof HR' as (HA' & _ & data' & HD' & HT').
    assert (C : r_code (main version bf w o fs args) = 5%N) by (apply C26_exit_code_tells_the_step; exact E5). rewrite (ready_main version _ _ _ _ _ _ _ _ HR') in C.
    revert C. destruct (os_open o (out_file p' d')); [discriminate|]. destruct (os_close o); discriminate.
  - pose proof HA as (ss & HS & HH & _). apply (C26_what_is_printed version bf w o fs args ss [p] HS HH). rewrite <- (C36_syntax_error_text w (runes data) Default m0 ms Hv Em). eapply pr_parse; eassumption.
Qed.
Print Assumptions C70_the_program_reports_syntax_errors.
Theorem C70_wasm_reports_syntax_errors : forall x w bf input, real x w -> ~ syntactically_valid (runes input) ->
  exists m0 ms, gets (runes input) (m0 :: ms) /\
    parse_wrapper bf w [input] = JsResult (Some (lit "parsing failed: " ++ bytes_of (lit "syntax error: " ++ m0 ++ lit " (with " ++ decimal (S (length ms)) ++ lit "+ errors)") ++ [10%N])) [].
Proof.
  intros x w bf input Hw Hv. pose proof (C39_go_strings_are_code_points input) as Hcp. pose proof (proj2 Hw _ Hcp Hv) as Hg.
  destruct (messages w (runes input)) as [|m0 ms] eqn:Em; [destruct Hv; exact (proj1 (C52_no_message_iff_valid _ [] Hcp Hg) eq_refl)|]. exists m0, ms. split; [exact Hg|].
  rewrite <- (C36_syntax_error_text w (runes input) Default m0 ms Hv Em). apply C29_wasm_result. intros s (HW & _). apply Hv. destruct (writes_tree (runes input) s) as (F & _). destruct (F HW) as (u & Hu & _). apply parse_tree_valid. eauto.
Qed.
Print Assumptions C70_wasm_reports_syntax_errors.
Local Transparent fetching_run recovering_run listener_gets message said lexer_places source_unit_fun parse_run parse_kf.
(** A program, and a text with two errors, the first of them in the second line. *)
Example C70_case : exists s, comes_to (w_ext sample_world) (lit "database d;") [] 0 [] (ParseKF.Outcome (Some s) []) /\ sc_name s = lit "d".
Proof. eexists. split; [exists 60%nat; vm_compute; reflexivity|]. vm_compute. reflexivity. Qed.
Example C70_error_case : exists lines o, comes_to (w_ext sample_world) (lit "database d;" ++ [10%N] ++ lit "tabel t {} ?") [] 0 lines o /\
  list_text (o_listener o) = lit "syntax error: line 2:0 mismatched input 'tabel' expecting {<EOF>, 'use', 'table', 'action', 'init', BLOCK_VAR_OR_ANNOTATION} (with 2+ errors)".
Proof. eexists _, _. split; [exists 300%nat; vm_compute; reflexivity|]. vm_compute. reflexivity. Qed.
