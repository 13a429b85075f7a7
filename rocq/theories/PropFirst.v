(** The place of the first syntax error: C48. *)
From Coq Require Import ZArith Lia.
From Verif Require Import Tokens LexSpec Lexer LexerProof Grammar Schema ParseSpec Denote Sample Atn AtnParser AtnParserTable AtnParserProof GoParser ParserCode PredictSpec GoParserTable GoParserProof Predict PredictTable PredictProof
  Recovery RecoveryTable FirstRun FirstProof3 FirstText PropAtn PropTree PropCode PropRecovery.
Local Open Scope Z_scope.

(** Tokens with which a program can begin. *)
Definition begins_a_program (ts : list tok) : Prop := exists rest, program (ts ++ rest).

(** C48 *)
(** The tokens before the first reported one begin a program; with it they do not.  (Reported at the end of the file: all the
    tokens begin a program, but are none.) *)
Theorem C48_first_report_is_the_first_wrong_token : forall ts r rs, reported ts (r :: rs) -> exists before after, ts = before ++ after /\ length after = r_left r /\
  begins_a_program before /\ match after with t :: _ => ~ begins_a_program (before ++ [t]) | [] => ~ program ts end.
Proof.
  intros ts r rs H. pose proof H as (_ & f & Hf). apply first_report in Hf as (why0 & Hf & _). apply fails_at in Hf as ((u & y & rest & E & Hn & Ha & _) & G). exists u, y. split; [exact E|]. split; [exact Hn|].
  split; [exists rest; apply parser_accepts_iff; exact Ha|]. destruct y as [|t y].
  - intros HP. apply (C47_reported_iff_not_a_program _ _ H) in HP. discriminate HP.
  - intros (rest' & HP). apply (G u t y rest' E Hn). apply parser_accepts_iff. rewrite <- app_assoc in HP. exact HP.
Qed.
Print Assumptions C48_first_report_is_the_first_wrong_token.
(** There is only one such place. *)
Theorem C48_one_place : forall ts before after before' after', ts = before ++ after -> ts = before' ++ after' ->
  begins_a_program before -> begins_a_program before' ->
  match after with t :: _ => ~ begins_a_program (before ++ [t]) | [] => ~ program ts end ->
  match after' with t :: _ => ~ begins_a_program (before' ++ [t]) | [] => ~ program ts end -> before = before'.
Proof.
  assert (G : forall (b a b' a' : list tok), b ++ a = b' ++ a' -> begins_a_program b' -> match a with t :: _ => ~ begins_a_program (b ++ [t]) | [] => True end -> (length b' <= length b)%nat).
  { induction b as [|t b IH]; intros a b' a' E Hb' Ha.
    - destruct b' as [|t' b']; [cbn; lia|]. destruct a as [|t a]; [discriminate E|]. exfalso. apply Ha. cbn in E. injection E as <- E. destruct Hb' as (rest & H). exists (b' ++ rest). exact H.
    - destruct (Nat.le_gt_cases (length b') (length (t :: b))) as [L|L]; [exact L|]. exfalso. cbn [length] in L.
      assert (Hp : exists m, b' = (t :: b) ++ m /\ a = m ++ a'). { apply app_eq_app in E as (m & [(E1 & E2)|(E1 & E2)]); [apply (f_equal (@length _)) in E1; rewrite app_length in E1; cbn in E1, L; lia|]. exists m. auto. }
      destruct Hp as (m & -> & ->). destruct m as [|t' m]; [rewrite app_nil_r in L; cbn in L; lia|]. cbn [app] in Ha. apply Ha. destruct Hb' as (rest & H). exists (m ++ rest). rewrite <- !app_assoc in H. cbn [app] in *. rewrite <- app_assoc. exact H. }
  intros ts b a b' a' -> E Hb Hb' Ha Ha'. assert (L1 : (length b' <= length b)%nat) by (eapply (G b a b' a'); [exact E|exact Hb'|destruct a; [exact I|exact Ha]]).
  assert (L2 : (length b <= length b')%nat) by (eapply (G b' a' b a); [symmetry; exact E|exact Hb|destruct a'; [exact I|exact Ha']]).
  apply app_eq_app in E as (m & [(E1 & _)|(E1 & _)]); pose proof (f_equal (@length _) E1) as E2; rewrite app_length in E2; (destruct m; [rewrite app_nil_r in E1; congruence|cbn in E2; lia]).
Qed.
Print Assumptions C48_one_place.
(** In the text: what stands before the first reported token (or the end of the file) can be continued to a syntactically valid
    text; no such text has these tokens and then the reported one. *)
Theorem C48_text_before_is_right : forall text ts r rs, tokens_of text ts -> reported (drop_layout ts) (r :: rs) ->
  exists x y, ts = x ++ y /\ length (drop_layout y) = r_left r /\ (exists more, syntactically_valid (concat (map tx x) ++ more)) /\
  match y with
  | t :: _ => is_layout (ty t) = false /\
      forall text' ts' rest, tokens_of text' ts' -> drop_layout ts' = drop_layout x ++ t :: rest -> ~ syntactically_valid text'
  | [] => ~ syntactically_valid text
  end.
Proof.
  intros text ts r rs Ht H. destruct (C48_first_report_is_the_first_wrong_token _ _ _ H) as (u & a & E & Hn & (rest & HP) & Ha). apply split_visible in E as (x & y & -> & Eu & Ea & Hy).
  exists x, y. split; [reflexivity|]. split; [rewrite Ea; exact Hn|]. split; [eapply continued_text; [exact Ht|rewrite Eu; exact HP]|]. destruct y as [|t y].
  - cbn in Ea. subst a. intros (ts' & Ht' & HP'). rewrite (tokens_of_fun _ _ _ Ht' Ht) in HP'. apply (C47_reported_iff_not_a_program _ _ H) in HP'. discriminate HP'.
  - split; [exact Hy|]. intros text' ts' rest' Ht' E (ts2 & Ht2 & HP2). rewrite (tokens_of_fun _ _ _ Ht2 Ht'), E in HP2. unfold drop_layout in Ea. cbn [filter] in Ea. rewrite Hy in Ea. cbn [negb] in Ea. subst a.
    apply Ha. exists rest'. rewrite <- Eu, <- app_assoc. exact HP2.
Qed.
Print Assumptions C48_text_before_is_right.

(** Cases: the report of PropRecovery's [C47_case_missing] is at "table"; what stands before it goes on with ";". *)
Example C48_case : reported (tokens_in (lit "database a table t { id int }")) [Report Missing 6 (Expecting [2])] /\ skipn 2 (tokens_in (lit "database a table t { id int }")) = tokens_in (lit "table t { id int }") /\
  syntactically_valid (lit "database a " ++ lit ";").
Proof.
  split; [exact C47_case_missing|]. split; [vm_compute; reflexivity|]. exists [fixed DATABASE_; Tok WS (lit " "); Tok IDENTIFIER (lit "a"); Tok WS (lit " "); fixed SCOL]. split; [apply lex_spec; vm_compute; reflexivity|].
  assert (H : reported [fixed DATABASE_; Tok IDENTIFIER (lit "a"); fixed SCOL] []) by (split; [discriminate|]; exists 300%nat; vm_compute; reflexivity).
  apply (C47_reported_iff_not_a_program _ _ H). reflexivity.
Qed.
(** At the end of the file. *)
Example C48_case_end : reported (tokens_in (lit "database a; table t {")) [Report Mismatch 0 (Expecting [73])].
Proof. split; [discriminate|]. exists 300%nat. vm_compute. reflexivity. Qed.
(** The decision after "id int" needs two tokens: "," and then "index", "#i", a name or "}".  The second one is reported. *)
Example C48_case_second : reported (tokens_in (lit "database a; table t { id int , ; }")) [Report NoViableAlt 2 (Since 3)].
Proof. split; [discriminate|]. exists 300%nat. vm_compute. reflexivity. Qed.
