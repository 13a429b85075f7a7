(** The messages of a text (Fetch.v): the items of its scan, its tokens, its reports. *)
From Coq Require Import ZArith Lia Bool.
From Verif Require Import Str Tokens LexSpec LexerProof Lexer Grammar Schema ParseSpec ParseKF AtnData Atn ScanSpec PlaceSpec AtnLexer AtnLexerProof AtnParser AtnParserTable GoParser ParserCode PredictSpec GoParserTable Predict LexPos LexPosProof MessageSpec Message MessageRun MessageProof
  Recovery RecoveryTable RecoveryProof PlaceRun Fetch FetchProof FetchProof2 FetchSpec FetchProof3 PropAtn PropRecovery PropPlace PropMessage.
Local Open Scope Z_scope.

Definition gets (text : str) (ms : list str) : Prop := exists fuel, listener_gets text fuel = Some ms.
(** Events as the lexer makes them *)
Definition event_ok (e : event) : Prop := match e with Token _ _ t => exists y, e = ev (Tok y t) | Bad _ => True end.
Definition ok (l : list (event * place)) : Prop := Forall (fun x => event_ok (fst x)) l.
Lemma scanned_kinds s its : scanned s its -> Forall (fun i => match i with Seen k h t => exists y, k = tt_num y /\ h = is_layout y | Skipped _ => True end) its.
Proof. induction 1 as [|s t rest l _ _ IH|s u rest l _ _ _ IH]; constructor; auto. exists (ty t). auto. Qed.
Lemma events_ok text evs : code_points text -> lexer_events text = Some evs -> scanned text (map item_of evs) -> Forall event_ok evs.
Proof.
  intros Hcp He Hs. pose proof (lexer_channels text evs Hcp He) as HC. apply scanned_kinds in Hs. clear He Hcp. induction evs as [|e evs IH]; [constructor|]. cbn [map] in Hs. pose proof (Forall_inv Hs) as H. apply Forall_inv_tail in Hs. constructor; [|apply IH; [exact Hs|intros; eapply HC; right; eassumption]].
  destruct e as [k ch t|t]; [|exact I]. cbn [event_ok]. destruct H as (y & E1 & E2). destruct (HC k ch t (or_introl eq_refl)) as (Hk & Hch). exists y. unfold ev. cbn [ty tx]. f_equal; [lia|]. rewrite <- E2. destruct Hch as [->| ->]; reflexivity.
Qed.
Lemma ok_app a b : ok (a ++ b) -> ok a /\ ok b. Proof. apply Forall_app. Qed.
Lemma ok_tokens l : ok l -> exists ts, tokens_among (items l) ts /\ filter is_token (map fst l) = map ev ts /\ flat_map (fun x => token_of (fst x)) l = drop_layout ts.
Proof.
  induction 1 as [|(e, p) l H Hl IH]; [exists []; repeat split|]. destruct IH as (ts & H1 & H2 & H3). cbn [fst] in H. unfold tokens_among, items in *. cbn [map fst flat_map]. destruct e as [k ch t|t].
  - destruct H as (y & E). rewrite E. exists (Tok y t :: ts). unfold ev. cbn [ty tx filter item_of is_seen is_token map]. rewrite H1, H2, H3, Nat2Z.id. split; [destruct (is_layout y); reflexivity|]. split; [reflexivity|].
    unfold token_of, drop_layout. cbn [ty filter]. destruct (is_layout y); [reflexivity|]. cbn [negb]. rewrite Nat2Z.id, tt_num_nth. reflexivity.
  - exists ts. cbn [item_of filter is_seen is_token token_of app]. auto.
Qed.
Lemma ok_visible l : ok l -> visible_in (items l) = count l.
Proof.
  unfold visible_in, count, items. induction 1 as [|(e, p) l H Hl IH]; [reflexivity|]. cbn [map fst filter] in *. destruct e as [k ch t|t]; [|exact IH]. destruct H as (y & E). rewrite E. unfold ev. cbn [ty tx item_of visible]. unfold on_channel at 1. cbn [fst].
  destruct (is_layout y); cbn [visible Z.eqb Z.of_nat]; [exact IH|]. cbn [length]. rewrite IH. reflexivity.
Qed.
Lemma ok_start b : ok b -> match b with x :: _ => on_channel x = true | [] => True end -> starts_visible (items b).
Proof.
  destruct b as [|(e, p) b]; [auto|]. intros H. apply Forall_inv in H. unfold starts_visible, items. cbn [map fst item_of]. destruct e as [k ch t|t]; [|discriminate]. destruct H as (y & E). cbn [fst] in E. rewrite E. unfold ev, on_channel. cbn [fst item_of visible]. destruct (is_layout (ty (Tok y t))); auto.
Qed.
Lemma tokens_one its ts ts' : tokens_among its ts -> tokens_among its ts' -> ts = ts'.
Proof.
  unfold tokens_among. intros ->. revert ts'. induction ts as [|t ts IH]; intros [|t' ts'] E; try discriminate E; [reflexivity|]. cbn [map] in E. injection E as E1 _ E2 E3. f_equal; [|apply IH; exact E3].
  destruct t as [k u], t' as [k' u']; cbn in *. f_equal; [|congruence]. apply tt_eqb_eq. unfold tt_eqb. apply Nat.eqb_eq. congruence.
Qed.
Lemma scanned_one text its its' : code_points text -> scanned text its -> scanned text its' -> its = its'.
Proof. intros Hcp H H'. destruct (C39_tables_scan_as_specified text Hcp) as (evs & _ & Hs). apply Hs in H, H'. congruence. Qed.
Lemma text_items l : map text_of (items l) = map event_text (map fst l).
Proof. unfold items. rewrite !map_map. apply map_ext. intros ([k c t|t], p); reflexivity. Qed.

(** Everything about the scan *)
Record scan (text : str) (l : list (event * place)) (eof : place) (ts : list tok) : Prop := {
  sc_places : lexer_places text = Some (l, eof);
  sc_scanned : scanned text (items l);
  sc_ok : ok l;
  sc_among : tokens_among (items l) ts;
  sc_events : filter is_token (map fst l) = map ev ts;
  sc_given : flat_map (fun x => token_of (fst x)) l = drop_layout ts;
  sc_eof : stands text (line eof) (column eof);
  sc_text : text = concat (map event_text (map fst l));
  sc_stands : forall a e p b, l = a ++ (e, p) :: b -> stands (concat (map event_text (map fst a))) (line p) (column p) }.
Lemma scan_of text : code_points text -> exists l eof ts, scan text l eof ts.
Proof.
  intros Hcp. destruct (C49_recorded_places text Hcp) as (l & eof & E & He & Et & Hf & Hp). destruct (C39_tables_scan_as_specified text Hcp) as (evs & E' & Hs). rewrite He in E'. injection E' as <-. pose proof (proj2 (Hs _) eq_refl) as Hsc.
  assert (Hok : ok l). { pose proof (events_ok text _ Hcp He Hsc) as G. exact (proj1 (Forall_map fst event_ok l) G). } destruct (ok_tokens l Hok) as (ts & H1 & H2 & H3). exists l, eof, ts. constructor; assumption.
Qed.
Lemma scan_its text l eof ts its ts' : code_points text -> scan text l eof ts -> scanned text its -> tokens_among its ts' -> its = items l /\ ts' = ts.
Proof. intros Hcp S Hs Ht. pose proof (scanned_one _ _ _ Hcp Hs (sc_scanned _ _ _ _ S)) as ->. split; [reflexivity|]. eapply tokens_one; [exact Ht|]. exact (sc_among _ _ _ _ S). Qed.
Lemma scan_count text l eof ts : scan text l eof ts -> count l = length (drop_layout ts).
Proof.
  intros S. rewrite <- (sc_given _ _ _ _ S). pose proof (sc_ok _ _ _ _ S) as H. clear S. unfold count. induction H as [|(e, p) l H Hl IH]; [reflexivity|]. cbn [filter flat_map fst]. destruct e as [k ch t|t]; [|exact IH]. destruct H as (y & E). cbn [fst] in E. rewrite E. unfold ev, on_channel at 1, token_of at 1. cbn [fst ty].
  destruct (is_layout y); [exact IH|]. rewrite Nat2Z.id, tt_num_nth. cbn. rewrite IH. reflexivity.
Qed.
Lemma scan_complaints text l eof ts a b : scan text l eof ts -> l = a ++ b -> complaints [] (items a) (lexer_messages a) /\ complaints (concat (map text_of (items a))) (items b) (lexer_messages b).
Proof.
  intros S ->. split; apply complaints_are; intros a0 e p b0 E; subst.
  - apply (sc_stands _ _ _ _ S a0 e p (b0 ++ b)). rewrite <- app_assoc. reflexivity.
  - rewrite text_items, <- concat_app, <- map_app, <- map_app. apply (sc_stands _ _ _ _ S (a ++ a0) e p b0). rewrite <- app_assoc. reflexivity.
Qed.
(** The place of a report *)
Lemma scan_place text l eof ts r : scan text l eof ts -> (r_left r <= length (drop_layout ts))%nat ->
  exists a b, l = a ++ b /\ count b = r_left r /\ starts_visible (items b) /\ stands (concat (map text_of (items a))) (line (offending l eof r)) (column (offending l eof r)).
Proof.
  intros S H. rewrite <- (scan_count _ _ _ _ S) in H. destruct (from_is _ _ H) as (a & E & Hc & Hs). set (b := fetched_from (r_left r) l) in *. exists a, b. split; [exact E|]. split; [exact Hc|].
  assert (Hb : ok b) by (pose proof (sc_ok _ _ _ _ S) as G; rewrite E in G; apply ok_app in G; tauto). split; [apply ok_start; assumption|]. rewrite text_items.
  assert (Eo : offending l eof r = match b with (_, p) :: _ => p | [] => eof end).
  { unfold offending. rewrite E. rewrite filter_app, app_length, map_app. fold (count b). rewrite Hc, Nat.add_sub. rewrite app_nth2 by (rewrite map_length; apply Nat.le_refl). rewrite map_length, Nat.sub_diag.
    destruct b as [|(e, p) b']; [reflexivity|]. cbn [filter]. rewrite Hs. reflexivity. }
  rewrite Eo. destruct b as [|(e, p) b'] eqn:Eb.
  - pose proof (sc_eof _ _ _ _ S) as G. rewrite (sc_text _ _ _ _ S) in G. rewrite E, app_nil_r in G. exact G.
  - exact (sc_stands _ _ _ _ S a e p b' E).
Qed.
Lemma scan_words text l eof ts r : scan text l eof ts -> wording text r = wording_of (map ev ts) r.
Proof. intros S. unfold wording. rewrite (sc_places _ _ _ _ S), (sc_events _ _ _ _ S). reflexivity. Qed.
Lemma scan_message text l eof ts r tail : scan text l eof ts -> message text tail r = lit "line " ++ decimal (line (offending l eof r)) ++ lit ":" ++ decimal (column (offending l eof r)) ++ lit " " ++ tail r.
Proof. intros S. unfold message. rewrite (sc_places _ _ _ _ S). reflexivity. Qed.

(** Everything about the run *)
Local Notation D := (default_strategy parser_atn).
Local Notation frun f ts := (fetching_run parser_atn rule_functions adaptive_predict predict_at predict_seen D f ts).
Lemma gets_is text f l eof : lexer_places text = Some (l, eof) -> listener_gets text f = match frun f (flat_map (fun x => token_of (fst x)) l) with FEnded rs e => Some (merged (message text (said text)) l rs e) | _ => None end.
Proof. unfold listener_gets. intros ->. reflexivity. Qed.
Local Opaque fetching_run recovering_run listener_gets.
Lemma gets_run text ms l eof ts : scan text l eof ts -> gets text ms -> exists f rs, frun f (drop_layout ts) = FEnded rs 0 /\ ms = merged (message text (said text)) l rs 0 /\
  reported (drop_layout ts) (map fst rs) /\ falls (count l) (map snd rs) 0 /\ Forall (fun x => (snd x <= r_left (fst x) <= snd x + 2)%nat) rs /\ match rs with (r, h) :: _ => (r_left r <= S h)%nat | [] => True end.
Proof.
  intros S (f & H). rewrite (gets_is _ _ _ _ (sc_places _ _ _ _ S)), (sc_given _ _ _ _ S) in H. destruct (frun f (drop_layout ts)) as [rs e| |] eqn:E; try discriminate H. injection H as <-. pose proof (fetched _ _ _ _ E) as (G & -> & G1 & G2 & G3).
  exists f, rs. split; [exact E|]. split; [reflexivity|]. split; [split; [discriminate|]; exists f; exact G|]. rewrite (scan_count _ _ _ _ S). auto.
Qed.
