(** The generated tables: C39 (lexer), C40 (parser). *)
From Coq Require Import ZArith.
From Verif Require Import LexSpec LexerProof Lexer Grammar ParseKF ParseSpec ParseProof Outcomes Sample
  Atn AtnLexer ScanSpec AtnLexerProof AtnParser AtnParserProof.
Local Open Scope Z_scope.

(** C39 *)
(** An event of the runtime as an item of the specification. *)
Definition shown (e : event) : item := match e with Token k ch t => Seen (Z.to_nat k) (ch =? 1) t | Bad t => Skipped t end.

Theorem C39_tables_scan_as_specified : forall text, code_points text ->
  exists evs, lexer_events text = Some evs /\ forall its, scanned text its <-> its = map shown evs.
Proof. exact lexer_events_spec. Qed.
Print Assumptions C39_tables_scan_as_specified.

Definition item_text (i : item) : str := match i with Seen _ _ t => t | Skipped t => t end.
Theorem C39_no_character_lost : forall text its, scanned text its -> text = concat (map item_text its) /\ Forall (fun i => item_text i <> []) its.
Proof.
  induction 1 as [|s t rest l Hf Hl [IH1 IH2]|s u rest l Hno Hsk Hl [IH1 IH2]]; cbn [map concat].
  - split; [reflexivity|constructor].
  - destruct Hf as (E & Hn & _). rewrite E, IH1 at 1. split; [reflexivity|]. constructor; assumption.
  - destruct Hsk as (E & Hn & _). rewrite E, IH1 at 1. split; [reflexivity|]. constructor; assumption.
Qed.
Print Assumptions C39_no_character_lost.

(** The tables report no error exactly when the text splits into tokens, and then yield those tokens. *)
Theorem C39_tables_give_the_tokens : forall text ts, code_points text ->
  (tokens_of text ts <->
   lexer_events text = Some (map (fun t => Token (Z.of_nat (tt_num (ty t))) (if is_layout (ty t) then 1 else 0) (tx t)) ts)).
Proof.
  intros text ts Hcp. destruct (lexer_events_exact text Hcp) as (evs & E & H). rewrite E. specialize (H ts). rewrite H. split.
  - intros <-. reflexivity.
  - intros E'. injection E' as E'. exact E'.
Qed.
Print Assumptions C39_tables_give_the_tokens.

Example C39_case :
  code_points (lit "a/*x*/!") /\
  scanned (lit "a/*x*/!") [Seen 73 false (lit "a"); Seen 83 true (lit "/*x*/"); Skipped (lit "!")].
Proof.
  assert (H : code_points (lit "a/*x*/!")) by (repeat constructor; intros E; discriminate E).
  split; [exact H|]. destruct (C39_tables_scan_as_specified _ H) as (evs & E & Hs). apply Hs.
  revert E. vm_compute. intros E. injection E as <-. reflexivity.
Qed.

(** C40 *)
Theorem C40_tables_accept_the_grammar : forall ts, parser_accepts ts <-> program ts.
Proof. exact parser_accepts_iff. Qed.
Print Assumptions C40_tables_accept_the_grammar.

(** No error from the lexer's tables, and the parser's tables accept the tokens of the default channel up to the end of file. *)
Definition tables_accept (text : str) : Prop :=
  exists evs, lexer_events text = Some evs /\ (forall u, ~ In (Bad u) evs) /\
    accepts parser_atn (flat_map (fun e => match e with Token k 0 _ => [k] | _ => [] end) evs ++ [-1]).

Theorem C40_tables_accept_the_language : forall text, code_points text -> (tables_accept text <-> syntactically_valid text).
Proof.
  intros text Hcp. unfold tables_accept, syntactically_valid.
  assert (HK : forall ts, flat_map (fun e => match e with Token k 0 _ => [k] | _ => [] end)
      (map (fun t => Token (Z.of_nat (tt_num (ty t))) (if is_layout (ty t) then 1 else 0) (tx t)) ts) = kinds (drop_layout ts)).
  { induction ts as [|t ts IH]; [reflexivity|]. cbn [map flat_map]. rewrite IH. unfold drop_layout; cbn [filter].
    destruct (is_layout (ty t)); reflexivity. }
  split.
  - intros (evs & E & Hb & Ha). destruct (no_bad_tokens text evs Hcp E Hb) as (ts & Hts). exists ts. split; [exact Hts|].
    apply C39_tables_give_the_tokens in Hts; [|exact Hcp]. rewrite E in Hts. injection Hts as ->. rewrite HK in Ha.
    apply parser_accepts_iff. exact Ha.
  - intros (ts & Hts & Hp). apply C39_tables_give_the_tokens in Hts; [|exact Hcp]. eexists. split; [exact Hts|]. split.
    + intros u Hu. apply in_map_iff in Hu as (t & Ht & _). discriminate.
    + rewrite HK. apply parser_accepts_iff. exact Hp.
Qed.
Print Assumptions C40_tables_accept_the_language.

Theorem C40_syntax_error_iff_tables_refuse : forall w text m, foreign_world w -> code_points text ->
  (err_is (o_listener (parse_kf w text [] m)) InvalidSyntax = true <-> ~ tables_accept text).
Proof. intros w text m Hw Hcp. rewrite (C40_tables_accept_the_language text Hcp). exact (err_is_invalid_syntax w text m Hw). Qed.
Print Assumptions C40_syntax_error_iff_tables_refuse.

Example C40_case : tables_accept sample_text /\ ~ tables_accept no_semicolon.
Proof.
  assert (HA : forall s, forallb (fun c => N.leb c 1114111) s = true -> code_points s).
  { intros s H. apply Forall_forall. intros c Hc. rewrite forallb_forall in H. apply N.leb_le, H, Hc. }
  split.
  - apply C40_tables_accept_the_language; [apply HA; vm_compute; reflexivity|]. eapply writes_valid. apply sample_accepted.
  - rewrite C40_tables_accept_the_language; [|apply HA; vm_compute; reflexivity].
    apply (parse_syntax sample_world no_semicolon Default). vm_compute. reflexivity.
Qed.
