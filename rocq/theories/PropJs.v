(** What JavaScript sees: C58. *)
From Verif Require Import Str LexSpec Grammar Schema Denote Utf8Spec Utf8 Utf8Proof JsonSpec GoJson JsonProof JsonUnique ParseKF ParseBytes ParseSpec ParseProof JsonParse Cli CliSpec CliProof Wasm PropCli JsSpec Js JsProof Sample.
Local Open Scope N_scope.

Lemma runes_ascii_app a b : Forall (fun c => c < 128) a -> runes (a ++ b) = a ++ runes b.
Proof.
  intros H. apply runes_iff. induction H as [|c a Hc H IH]; [apply runes_reads|]. change ((c :: a) ++ b) with ([c] ++ (a ++ b)). rewrite <- (utf8_1 c Hc).
  apply rd_char; [left; lia|exact IH].
Qed.

(** Every JavaScript string is read as one text, and the string of a text is read as that text. *)
Theorem C58_strings_are_texts : (forall u, Forall unit16 u -> exists t, reads16 u t /\ Forall scalar t /\ forall t', reads16 u t' -> t' = t) /\
  (forall t, Forall scalar t -> reads16 (concat (map utf16 t)) t).
Proof.
  split; [|exact reads16_text]. intros u HU. exists (decode16 u). assert (H : reads16 u (decode16 u)) by (apply reads16_iff; auto). split; [exact H|].
  split; [exact (reads16_scalar _ _ H)|]. intros t' H'. symmetry. apply reads16_iff; assumption.
Qed.
Print Assumptions C58_strings_are_texts.

(** A string: the JSON of the schema its text writes if that is valid, otherwise an error and no JSON. *)
Lemma call_string bf w u t : Forall unit16 u -> reads16 u t -> parse_kuneiform bf w [JString u] =
  match parse_wrapper bf w [bytes_of t] with JsText s => OString (units s) | JsResult e j => OObject (option_map units e) (units j) end.
Proof. intros HU H. unfold parse_kuneiform. cbn [map value_string]. apply reads16_iff in H; [|exact HU]. rewrite H. reflexivity. Qed.
Theorem C58_string_argument : forall bf w u t, Forall unit16 u -> reads16 u t ->
  (forall s, accepted w t s -> exists out json, parse_kuneiform bf w [JString u] = OObject None out /\ reads16 out json /\ json_text (document (NSchema s)) json) /\
  ((forall s, ~ accepted w t s) -> exists out message, parse_kuneiform bf w [JString u] = OObject (Some out) [] /\ reads16 out message /\ exists m, message = lit "parsing failed: " ++ m).
Proof.
  intros bf w u t HU HR. rewrite (call_string bf w u t HU HR). pose proof (reads16_scalar _ _ HR) as HS. destruct (C29_wasm_result bf w (bytes_of t)) as [WA WN]. rewrite runes_bytes_of in WA, WN by exact HS.
  split.
  - intros s HA. rewrite (WA s HA). eexists _, _. split; [reflexivity|]. split; [apply units_reads|]. apply (json_of_accepted bf w (bytes_of t) s). rewrite runes_bytes_of by exact HS. exact HA.
  - intros HN. rewrite (WN HN). eexists _, _. split; [reflexivity|]. split; [apply units_reads|].
    eexists. apply runes_ascii_app. repeat constructor.
Qed.
Print Assumptions C58_string_argument.
(** The command line program and the WebAssembly module give the same JSON for the same text. *)
Theorem C58_same_json_as_the_command_line : forall bf w u t, Forall unit16 u -> reads16 u t ->
  forall json, translates bf w (concat (map utf8 t)) json <-> parse_kuneiform bf w [JString u] = OObject None (concat (map utf16 (runes json))) /\ valid_utf8 json.
Proof.
  intros bf w u t HU HR json. rewrite (call_string bf w u t HU HR). pose proof (reads16_scalar _ _ HR) as HS. rewrite bytes_of_utf8 by exact HS.
  destruct (C29_wasm_result bf w (concat (map utf8 t))) as [WA WN]. destruct (parse_bytes_cases w (concat (map utf8 t)) Default) as [(s & HA & _)|[HN _]].
  - rewrite (WA s HA). cbn [option_map]. split.
    + intros (s' & HA' & ->). rewrite (accepted_fun _ _ _ _ HA' HA). split; [reflexivity|]. apply to_json_reads.
    + intros [E HV]. exists s. split; [exact HA|]. injection E as E. assert (ER : runes (to_json bf (NSchema (map_schema bytes_of s))) = runes json).
      { destruct (units_reads (to_json bf (NSchema (map_schema bytes_of s)))) as [R1 U1]. destruct (units_reads json) as [R2 U2].
        unfold units in R1, R2, U1, U2. rewrite encode16_utf16 in R1, R2, U1, U2. unfold units in E. rewrite encode16_utf16 in E. rewrite E in R1.
        apply reads16_iff in R1; [|exact U2]. apply reads16_iff in R2; [|exact U2]. congruence. }
      apply bytes_of_runes in HV. rewrite <- HV, <- ER, (proj2 (bytes_of_runes _) (proj1 (to_json_reads bf _))). reflexivity.
  - rewrite (WN HN). cbn [option_map]. split; [intros (s & HA & _); destruct (HN s HA)|intros [E _]; discriminate].
Qed.
Print Assumptions C58_same_json_as_the_command_line.

(** A program does not start with "<". *)
Lemma no_less_than text s rest : text = 60 :: rest -> ~ writes text s.
Proof.
  intros -> (ts & Ht & HD). assert (HT : exists t r ts', ts = t :: ts' /\ first_token (60 :: rest) t r) by (inversion Ht; eauto 6). destruct HT as (t & r & ts' & -> & HF).
  clear Ht. assert (HK : exists q, drop_layout (t :: ts') = Tok DATABASE_ (lit "database") :: q) by (inversion HD; eauto). destruct HK as (q0 & E1). clear HD.
  destruct HF as (E & HE & HSh & _). assert (Hc : exists q, tx t = 60 :: q) by (destruct (tx t) as [|c q]; [congruence|]; injection E as <- _; eauto). destruct Hc as (q & Hq).
  rewrite Hq in HSh. destruct (is_layout (ty t)) eqn:EL.
  - destruct (ty t); try discriminate EL; cbn in HSh.
    + destruct HSh as [X|X]; discriminate.
    + destruct HSh as [X|X]; discriminate.
    + destruct HSh as (b & X & _). discriminate.
    + destruct HSh as (b & X & _). discriminate.
  - unfold drop_layout in E1. cbn [filter] in E1. rewrite EL in E1. cbn [negb] in E1. injection E1 as E1 _. rewrite E1 in Hq. discriminate.
Qed.
(** Any other value than a string: an error, never JSON. *)
Theorem C58_other_values_are_refused : forall bf w a, (forall u, a <> JString u) -> exists out, parse_kuneiform bf w [a] = OObject (Some out) [].
Proof.
  intros bf w a HA. unfold parse_kuneiform. cbn [map]. assert (H : exists r, value_string a = lit "<" ++ r) by (destruct a; try (eexists; reflexivity); destruct (HA u eq_refl)).
  destruct H as (r & E). destruct (C29_wasm_result bf w (value_string a)) as [_ WN]. rewrite WN; [eexists; reflexivity|]. intros s [HW _]. revert HW.
  eapply no_less_than. rewrite E. apply (runes_ascii_app (lit "<") r). repeat constructor.
Qed.
Print Assumptions C58_other_values_are_refused.
Theorem C58_one_argument : forall bf w args, length args <> 1%nat <-> parse_kuneiform bf w args = OString (concat (map utf16 (lit "Invalid no of arguments passed"))).
Proof.
  intros bf w args. pose proof (C29_other_argument_counts bf w (map value_string args)) as H. rewrite map_length in H. unfold parse_kuneiform. split.
  - intros HL. rewrite (proj1 H HL). reflexivity.
  - intros E. apply H. destruct args as [|a [|b l]]; [reflexivity| |reflexivity]. cbn [map parse_wrapper] in E. destruct (wasm_parse bf w (value_string a)); discriminate.
Qed.
Print Assumptions C58_one_argument.
(** Unpaired surrogates are all the same: two strings, one result. *)
Definition odd_string (c : N) : list N := lit "database d;action a()public{select '" ++ [c] ++ lit "';}".
Theorem C58_different_strings_refuted : ~ forall bf w u u' j, parse_kuneiform bf w [JString u] = OObject None j -> parse_kuneiform bf w [JString u'] = OObject None j ->
  (exists a c b, u = a ++ c :: b /\ ~ In c u') -> False.
Proof.
  intros H. eapply (H false sample_world (odd_string 55296) (odd_string 57000)); [vm_compute; reflexivity|vm_compute; reflexivity|].
  exists (lit "database d;action a()public{select '"), 55296, (lit "';}"). split; [reflexivity|]. vm_compute. intuition discriminate.
Qed.
Print Assumptions C58_different_strings_refuted.
(** A text with a character outside the basic plane, which JavaScript keeps as two units. *)
Definition smile : list N := lit "database d;action a()public{select '" ++ [55357; 56832] ++ lit "';}".
Example C58_case : exists t s out, Forall unit16 smile /\ reads16 smile t /\ length t = (length smile - 1)%nat /\ accepted sample_world t s /\
  parse_kuneiform false sample_world [JString smile] = OObject None out /\ exists n, firstn 2 (skipn n out) = [55357; 56832].
Proof.
  assert (HU : Forall unit16 smile) by (vm_compute; repeat constructor). assert (HR : reads16 smile (decode16 smile)) by (apply reads16_iff; auto).
  eexists _, _, _. split; [exact HU|]. split; [exact HR|]. split; [reflexivity|]. split; [apply (parse_accepts _ _ Default); vm_compute; reflexivity|].
  split; [vm_compute; reflexivity|]. exists 212%nat. vm_compute. reflexivity.
Qed.
