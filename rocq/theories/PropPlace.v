(** Lines and columns of error messages: C49. *)
From Coq Require Import ZArith Lia.
From Verif Require Import Str Tokens LexSpec Lexer LexerProof Grammar Schema ParseSpec ParseKF Sample Atn AtnLexer AtnParser AtnParserTable AtnLexerProof GoParser ParserCode Predict Recovery FirstText
  ScanSpec LexPos PlaceSpec LexPosProof PlaceRun PropAtn PropTree PropCode PropRecovery PropFirst PropParse.
Local Open Scope Z_scope.

(** C49 *)
(** The line and column recorded with every token and every lexing error (and the end of file) are those where it starts. *)
Theorem C49_recorded_places : forall text, code_points text -> exists l eof, lexer_places text = Some (l, eof) /\
  lexer_events text = Some (map fst l) /\ text = concat (map event_text (map fst l)) /\ stands text (line eof) (column eof) /\
  forall a e p b, l = a ++ (e, p) :: b -> stands (concat (map event_text (map fst a))) (line p) (column p).
Proof.
  intros text Hcp. destruct (C39_tables_scan_as_specified text Hcp) as (evs & E & Hs). exists (tagged (Place 1 0) evs), (walked (Place 1 0) text). split; [exact (lexer_places_events _ _ E)|].
  assert (Ef : forall l p, map fst (tagged p l) = l) by (induction l as [|e l IH]; intros p; cbn; [reflexivity|rewrite IH; reflexivity]). rewrite Ef. split; [exact E|]. split.
  { destruct (C39_no_character_lost text _ (proj2 (Hs _) eq_refl)) as (G & _). rewrite G at 1. rewrite map_map. f_equal. apply map_ext. intros [k c t|t]; reflexivity. }
  split; [apply walked_stands|]. intros a e p b Et.
  assert (K : walked (Place 1 0) (concat (map event_text (map fst a))) = p).
  { clear E Hs Hcp. revert Et. generalize (Place 1 0). revert evs. induction a as [|(e0, p0) a IH]; intros evs p1 Et; destruct evs as [|e1 evs]; try discriminate Et; cbn [tagged app] in Et; injection Et as -> -> Et; [reflexivity|].
    cbn [map fst concat]. rewrite walked_app. eapply IH. exact Et. }
  rewrite <- K. apply walked_stands.
Qed.
Print Assumptions C49_recorded_places.
(** A text has one end. *)
Theorem C49_one_place : forall text l c l' c', stands text l c -> stands text l' c' -> l = l' /\ c = c'.
Proof. intros text l c l' c' H H'. apply stands_walked in H, H'. rewrite H in H'. injection H' as -> ->. auto. Qed.
Print Assumptions C49_one_place.

Lemma offending_at x y text r : code_points text -> tokens_of text (x ++ y) -> length (drop_layout y) = r_left r -> match y with t :: _ => is_layout (ty t) = false | [] => True end ->
  exists l eof, lexer_places text = Some (l, eof) /\ offending l eof r = walked (Place 1 0) (concat (map tx x)).
Proof.
  intros Hcp Ht Hn Hy. pose proof Ht as Ht0. apply C39_tables_give_the_tokens in Ht; [|exact Hcp]. apply lexer_places_events in Ht. eexists _, _. split; [exact Ht|].
  assert (Etx : text = concat (map tx (x ++ y))).
  { apply (C39_tables_give_the_tokens text _ Hcp) in Ht0. destruct (C39_tables_scan_as_specified text Hcp) as (evs & E & Hs). rewrite Ht0 in E. injection E as <-. destruct (C39_no_character_lost text _ (proj2 (Hs _) eq_refl)) as (G & _).
    rewrite G at 1. rewrite !map_map. reflexivity. }
  rewrite Etx. clear Ht Ht0 Etx Hcp text. unfold offending. set (ev := fun t : tok => Token (Z.of_nat (tt_num (ty t))) (if is_layout (ty t) then 1 else 0) (tx t)).
  assert (Hlen : forall l p, length (filter on_channel (tagged p (map ev l))) = length (drop_layout l)).
  { induction l as [|t l IH]; intros p; [reflexivity|]. cbn [map tagged filter]. unfold drop_layout in *. cbn [filter]. unfold on_channel at 1. cbn [fst ev]. destruct (is_layout (ty t)); cbn [negb length]; rewrite IH; reflexivity. }
  rewrite Hlen, <- Hn. unfold drop_layout at 1. rewrite filter_app, app_length. fold (drop_layout x). fold (drop_layout y). rewrite Nat.add_sub.
  generalize (Place 1 0). induction x as [|t x IH]; intros p.
  - cbn [app drop_layout filter length map concat]. destruct y as [|t y]; [reflexivity|]. cbn [map tagged filter]. unfold on_channel at 1. cbn [fst ev]. rewrite Hy. reflexivity.
  - cbn [app map tagged filter concat]. unfold on_channel at 1. cbn [fst ev event_text]. rewrite !(walked_app p (tx t)). specialize (IH (walked p (tx t))).
    unfold drop_layout in *. cbn [filter]. destruct (is_layout (ty t)); cbn [negb length map nth]; exact IH.
Qed.
(** Every message of the parser names the place of a token of the text, the token the error is at, or of the end of file. *)
Theorem C49_messages_say_where : forall text ts rs tail r, code_points text -> tokens_of text ts -> reported (drop_layout ts) rs -> In r rs ->
  exists x y L C, ts = x ++ y /\ length (drop_layout y) = r_left r /\ match y with t :: _ => is_layout (ty t) = false | [] => True end /\ stands (concat (map tx x)) L C /\
  message text tail r = lit "line " ++ decimal L ++ lit ":" ++ decimal C ++ lit " " ++ tail r.
Proof.
  intros text ts rs tail r Hcp Ht (_ & f & Hr) Hin. apply reports_inside in Hr. rewrite Forall_forall in Hr. specialize (Hr r Hin).
  destruct (split_visible ts (firstn (length (drop_layout ts) - r_left r) (drop_layout ts)) (skipn (length (drop_layout ts) - r_left r) (drop_layout ts))) as (x & y & -> & _ & Ey & Hy); [symmetry; apply firstn_skipn|].
  assert (Hn : length (drop_layout y) = r_left r) by (rewrite Ey, skipn_length; lia). destruct (offending_at x y text r Hcp Ht Hn Hy) as (l & eof & E & Eo).
  exists x, y, (line (walked (Place 1 0) (concat (map tx x)))), (column (walked (Place 1 0) (concat (map tx x)))). split; [reflexivity|]. split; [exact Hn|]. split; [exact Hy|]. split; [apply walked_stands|].
  unfold message. rewrite E, Eo. reflexivity.
Qed.
Print Assumptions C49_messages_say_where.
(** The error of Parse on a text whose tokens are no program: it names the line and column of the first place where the text is
    wrong (up to there it can be continued to a syntactically valid text, with the next token it cannot). *)
Theorem C49_parse_error_names_the_first_wrong_place : forall w text ts r rs tail m, code_points text -> tokens_of text ts -> reported (drop_layout ts) (r :: rs) ->
  messages w text = map (message text tail) (r :: rs) ->
  exists x y L C, ts = x ++ y /\ text = concat (map tx x) ++ concat (map tx y) /\ stands (concat (map tx x)) L C /\
  list_text (o_listener (parse_kf w text [] m)) =
    lit "syntax error: line " ++ decimal L ++ lit ":" ++ decimal C ++ lit " " ++ tail r ++ lit " (with " ++ decimal (S (length rs)) ++ lit "+ errors)" /\
  (exists more, syntactically_valid (concat (map tx x) ++ more)) /\
  match y with
  | t :: _ => is_layout (ty t) = false /\
      forall text' ts' rest, tokens_of text' ts' -> drop_layout ts' = drop_layout x ++ t :: rest -> ~ syntactically_valid text'
  | [] => ~ syntactically_valid text
  end.
Proof.
  intros w text ts r rs tail m Hcp Ht Hr Hm. destruct (C48_text_before_is_right text ts r rs Ht Hr) as (x & y & -> & Hn & Hmore & Hy).
  assert (Hy' : match y with t :: _ => is_layout (ty t) = false | [] => True end) by (destruct y; [exact I|apply Hy]).
  destruct (offending_at x y text r Hcp Ht Hn Hy') as (l & eof & E & Eo). exists x, y, (line (walked (Place 1 0) (concat (map tx x)))), (column (walked (Place 1 0) (concat (map tx x)))).
  split; [reflexivity|]. split.
  { pose proof Ht as Ht0. apply (C39_tables_give_the_tokens text _ Hcp) in Ht0. destruct (C39_tables_scan_as_specified text Hcp) as (evs & E' & Hs). rewrite Ht0 in E'. injection E' as <-. destruct (C39_no_character_lost text _ (proj2 (Hs _) eq_refl)) as (G & _).
    rewrite G at 1. rewrite !map_map, <- concat_app, <- map_app. reflexivity. }
  split; [apply walked_stands|]. split; [|split; [exact Hmore|exact Hy]].
  rewrite (C36_syntax_error_text w text m (message text tail r) (map (message text tail) rs)); [|intros (ts' & Ht' & HP)|exact Hm].
  - rewrite map_length. unfold message. rewrite E, Eo. rewrite <- !app_assoc. reflexivity.
  - rewrite (tokens_of_fun _ _ _ Ht' Ht) in HP. apply (C47_reported_iff_not_a_program _ _ Hr) in HP. discriminate HP.
Qed.
Print Assumptions C49_parse_error_names_the_first_wrong_place.

(** Cases: a semicolon missing on line 1 is reported where the next token stands, on line 2. *)
Definition two_lines : str := lit "database a" ++ [10%N] ++ lit "  table t { id int }".
Definition two_lines_tokens : list tok := match lex two_lines with Some l => l | None => [] end.
Example C49_case : code_points two_lines /\ tokens_of two_lines two_lines_tokens /\ reported (drop_layout two_lines_tokens) [Report Missing 6 (Expecting [2%Z])] /\
  message two_lines (fun _ => lit "missing ';' at 'table'") (Report Missing 6 (Expecting [2%Z])) = lit "line 2:2 missing ';' at 'table'".
Proof.
  split; [repeat constructor; intros E; discriminate E|]. split; [apply lex_spec; vm_compute; reflexivity|]. split; [split; [discriminate|]; exists 300%nat; vm_compute; reflexivity|]. vm_compute. reflexivity.
Qed.
(** A lone carriage return ends no line. *)
Example C49_case_return : stands (lit "a" ++ [13%N] ++ lit "b") 1 3.
Proof. exists [], (lit "a" ++ [13%N] ++ lit "b"). repeat split; [constructor|]. intros [E|[E|[E|[]]]]; discriminate E. Qed.
