(** Properties of the command line program and of the WebAssembly entry point: C26, C27, C28, C29, C37, C38. *)
From Verif Require Import Str Schema Utf8Spec Utf8 Utf8Proof JsonSpec GoJson JsonProof JsonUnique ParseKF ParseBytes ParseSpec ParseProof JsonParse Path PathSpec PathProof Flags FlagSpec FlagProof Cli Wasm CliSpec CliProof Sample.
Local Open Scope N_scope.

(** The JSON of the bytes a schema of scalar characters is written as. *)
Lemma json_of_accepted bf w data s : accepted w (runes data) s -> json_text (document (NSchema s)) (runes (to_json bf (NSchema (map_schema bytes_of s)))).
Proof.
  intros [HW _]. pose proof (writes_scalar _ _ HW (runes_scalar data)) as HS. destruct (to_json_reads bf (NSchema (map_schema bytes_of s))) as (_ & J & _).
  cbn [map_node] in J. rewrite comp_schema, (id_schema _ (Forall scalar)) in J; [exact J|intros a Ha; apply runes_bytes_of; exact Ha|exact HS].
Qed.

(** ** C26 *)
Theorem C26_exit_code_tells_the_step : forall version bf w o fs args c, r_code (main version bf w o fs args) = c <-> exits bf w o fs args c.
Proof. exact exit_code. Qed.
Print Assumptions C26_exit_code_tells_the_step.
(** The code says which step failed: no two steps share one, but for flag errors and a failing close (1). *)
Theorem C26_codes_are_distinct : forall bf w o fs args c, exits bf w o fs args c ->
  In c [0; 1; 2; 3; 4; 5; 7] /\ forall c', exits bf w o fs args c' -> c' = c.
Proof.
  intros bf w o fs args c H. split; [destruct H; cbn; auto 10|]. intros c' H'. apply (exit_code [] bf w o fs args) in H, H'. congruence.
Qed.
Print Assumptions C26_codes_are_distinct.
(** Code 0 without help or version: everything went well, but for the write (see C27). *)
Theorem C26_success_means_translated : forall version bf w o fs args ss rest, says args ss rest -> help_asked ss = false -> version_asked ss = false ->
  r_code (main version bf w o fs args) = 0 ->
  exists p data s, rest = [p] /\ os_mkdir o (output_dir ss) = None /\ os_read o p = None /\ fs (resolve o p) = Some data /\
    accepted w (runes data) s /\ os_open o (out_file p (output_dir ss)) = None /\ os_close o = None.
Proof.
  intros version bf w o fs args ss rest HS HH HV HC. apply exit_code in HC. inversion HC as [|ss' rest' H1 H2|ss' rest' H1 H2 H3| | | | | | |p d json H1 H2 H3].
  - destruct (says_fun _ _ _ _ _ HS H1) as (_ & E & _). congruence.
  - destruct (says_fun _ _ _ _ _ HS H1) as (_ & _ & E). destruct (E HH) as [E' _]. congruence.
  - destruct H1 as ((ss' & S1 & S2 & S3 & S4) & HM & data & [HR1 HR2] & s & HA & _). destruct (says_fun _ _ _ _ _ HS S1) as (-> & _ & E).
    destruct (E HH) as [_ E']. rewrite E', S4. exists p, data, s. auto 10.
Qed.
Print Assumptions C26_success_means_translated.
(** Nothing is written unless all steps before the write succeed, and then only to the output file. *)
Theorem C26_only_the_output_changes : forall version bf w o fs args k, r_files (main version bf w o fs args) k <> fs k ->
  exists p d json, ready bf w o fs args p d json /\ os_open o (out_file p d) = None /\ k = resolve o (out_file p d).
Proof.
  intros version bf w o fs args k H. destruct (files_untouched version bf w o fs args) as [E|(p & d & json & HR & HO)]; [rewrite E in H; contradiction|].
  exists p, d, json. split; [exact HR|]. split; [exact HO|]. rewrite (ready_main version _ _ _ _ _ _ _ _ HR), HO in H.
  destruct (str_eqb k (resolve o (out_file p d))) eqn:E; [apply str_eqb_eq; exact E|exfalso].
  assert (Hk : k <> resolve o (out_file p d)) by (intros E'; apply str_eqb_eq in E'; congruence).
  destruct (os_close o); cbn [r_files] in H; rewrite set_other in H by exact Hk; contradiction.
Qed.
Print Assumptions C26_only_the_output_changes.
(** What is printed, exactly, with its end of line. *)
Lemma printed version bf w o fs args ss rest : says args ss rest -> help_asked ss = false ->
  exists t, r_out (main version bf w o fs args) = t ++ [10] /\ prints version bf w o fs args t.
Proof.
  intros HS HH. assert (HC : command_line args = Run (Vars (version_asked ss) false (output_dir ss) (trace_asked ss) false) rest) by (apply (command_line_iff args); exists ss; auto).
  destruct (version_asked ss) eqn:EV; [exists version; unfold main; rewrite HC; split; [reflexivity|eapply pr_version; eassumption]|].
  assert (HR : (exists p, rest = [p]) \/ length rest <> 1%nat) by (destruct rest as [|p [|q r]]; [right; discriminate|left; eauto|right; discriminate]).
  destruct HR as [(p & ->)|HR].
  2: { exists (lit "Please provide a file to parse"). split; [|eapply pr_no_file; eassumption]. unfold main. rewrite HC. unfold run_command. cbn [v_version].
       destruct rest as [|p [|q r]]; [reflexivity|destruct (HR eq_refl)|reflexivity]. }
  assert (HA : asks args p (output_dir ss)) by (exists ss; auto). destruct (os_mkdir o (output_dir ss)) as [e|] eqn:EM.
  { exists e. split; [|eapply pr_mkdir; eassumption]. unfold main. rewrite HC. cbn. rewrite EM. reflexivity. }
  destruct (os_read o p) as [e|] eqn:ER.
  { exists e. split; [|eapply pr_read; eassumption]. unfold main. rewrite HC. cbn. rewrite EM. unfold read_file. rewrite ER. reflexivity. }
  destruct (fs (resolve o p)) as [data|] eqn:EF.
  2: { exists no_such_file. split; [|eapply pr_missing; eassumption]. unfold main. rewrite HC. cbn. rewrite EM. unfold read_file. rewrite ER, EF. reflexivity. }
  destruct (parse_bytes_cases w data Default) as [(s & HT & EP)|[HN EP]].
  - assert (HRd : ready bf w o fs args p (output_dir ss) (to_json bf (NSchema (map_schema bytes_of s)))).
    { split; [exact HA|split; [exact EM|]]. exists data. split; [split; assumption|exists s; auto]. }
    rewrite (ready_main version _ _ _ _ _ _ _ _ HRd). destruct (os_open o (out_file p (output_dir ss))) as [e|] eqn:EO; [exists e; split; [reflexivity|eapply pr_open; eassumption]|].
    destruct (os_close o) as [e|] eqn:ECl; [exists e; split; [reflexivity|eapply pr_close; eassumption]|]. eexists. split; [reflexivity|eapply pr_ok; eassumption].
  - eexists. split; [|eapply (pr_parse _ _ _ _ _ _ p (output_dir ss) data); [exact HA|exact EM|split; assumption|intros j (s & H & _); exact (HN s H)]].
    unfold main. rewrite HC. cbn [run_command v_version v_output v_trace]. unfold run_command. cbn [v_version v_output v_trace]. rewrite EM. unfold read_file. rewrite ER, EF, EP.
    cbn [negb r_out]. reflexivity.
Qed.
Lemma prints_fun version bf w o fs args t t' : prints version bf w o fs args t -> prints version bf w o fs args t' -> t = t'.
Proof.
  assert (HS : forall t, prints version bf w o fs args t -> exists ss rest, says args ss rest /\ help_asked ss = false).
  { intros x H. destruct H as [? ? H1 H2 H3|? ? H1 H2 H3 H4|? ? ? (ss & H1 & H2 & _)|? ? ? (ss & H1 & H2 & _)|? ? (ss & H1 & H2 & _)|? ? ? (ss & H1 & H2 & _)|? ? ? ? ((ss & H1 & H2 & _) & _)|? ? ? ? ((ss & H1 & H2 & _) & _)|? ? ? ((ss & H1 & H2 & _) & _)]; eauto. }
  assert (HO : forall t, prints version bf w o fs args t -> r_out (main version bf w o fs args) = t ++ [10]).
  { intros x H. destruct H as [ss rest H1 H2 H3|ss rest H1 H2 H3 H4|p d e HA H1|p d e HA H1 H2|p d HA H1 H2 H3|p d data HA H1 [H2 H3] H4|p d json e HR H1|p d json e HR H1 H2|p d json HR H1 H2].
    - assert (HC : command_line args = Run (Vars (version_asked ss) false (output_dir ss) (trace_asked ss) false) rest) by (apply (command_line_iff args); exists ss; auto).
      unfold main. rewrite HC, H3. reflexivity.
    - assert (HC : command_line args = Run (Vars (version_asked ss) false (output_dir ss) (trace_asked ss) false) rest) by (apply (command_line_iff args); exists ss; auto).
      unfold main. rewrite HC, H3. unfold run_command. cbn [v_version]. destruct rest as [|p [|q r]]; [reflexivity|destruct (H4 eq_refl)|reflexivity].
    - apply asks_run in HA as (tr & E). unfold main. rewrite E. cbn. rewrite H1. reflexivity.
    - apply asks_run in HA as (tr & E). unfold main. rewrite E. cbn. rewrite H1. unfold read_file. rewrite H2. reflexivity.
    - apply asks_run in HA as (tr & E). unfold main. rewrite E. cbn. rewrite H1. unfold read_file. rewrite H2, H3. reflexivity.
    - apply asks_run in HA as (tr & E). unfold main. rewrite E. unfold run_command. cbn [v_version v_output v_trace]. rewrite H1. unfold read_file. rewrite H2, H3.
      destruct (parse_bytes_cases w data Default) as [(s & HT & EP)|[HN EP]]; [destruct (H4 _ (ex_intro _ s (conj HT eq_refl)))|]. rewrite EP. reflexivity.
    - rewrite (ready_main version _ _ _ _ _ _ _ _ HR), H1. reflexivity.
    - rewrite (ready_main version _ _ _ _ _ _ _ _ HR), H1, H2. reflexivity.
    - rewrite (ready_main version _ _ _ _ _ _ _ _ HR), H1, H2. reflexivity. }
  intros H H'. apply HO in H, H'. rewrite H in H'. apply app_inj_tail in H' as [E _]. exact E.
Qed.
Theorem C26_what_is_printed : forall version bf w o fs args ss rest, says args ss rest -> help_asked ss = false ->
  forall t, r_out (main version bf w o fs args) = t ++ [10] <-> prints version bf w o fs args t.
Proof.
  intros version bf w o fs args ss rest HS HH t. destruct (printed version bf w o fs args ss rest HS HH) as (x & E & P). split.
  - intros E'. rewrite E in E'. apply app_inj_tail in E' as [<- _]. exact P.
  - intros P'. rewrite E. f_equal. eapply prints_fun; eassumption.
Qed.
Print Assumptions C26_what_is_printed.

(** A disk with one file, and systems that fail at one step. *)
Definition disk : files := fun k => if str_eqb k (lit "src/my.db.kf") then Some sample_text else None.
Definition fine : os := Os clean (fun _ => None) (fun _ => None) (fun _ => None) None None.
Definition cmd : list (list N) := [lit "src/my.db.kf"; lit "-o"; lit "out"].
Definition sample_json : list N := to_json false (NSchema (map_schema bytes_of sample_schema)).
Lemma disk_ready : ready false sample_world fine disk cmd (lit "src/my.db.kf") (lit "out") sample_json.
Proof.
  split; [|split; [reflexivity|]].
  - exists [SetOutput (lit "out")]. split; [|repeat split]. apply sy_argument; [right; intros r E; discriminate|].
    apply (sy_letters 111 [] [lit "out"] [SetOutput (lit "out")] [] [] []); [discriminate|apply le_output_next|apply sy_end].
  - exists sample_text. split; [split; [reflexivity|vm_compute; reflexivity]|]. exists sample_schema. split; [|reflexivity].
    apply (parse_accepts _ _ Default). vm_compute. reflexivity.
Qed.
Example C26_case : exits false sample_world fine disk cmd 0 /\
  exits false sample_world (Os clean (fun _ => Some (lit "denied")) (fun _ => None) (fun _ => None) None None) disk cmd 3 /\
  exits false sample_world fine disk [lit "no.kf"] 4 /\
  exits false sample_world fine (fun k => Some (lit "database")) cmd 5 /\
  exits false sample_world (Os clean (fun _ => None) (fun _ => None) (fun _ => Some (lit "denied")) None None) disk cmd 7 /\
  exits false sample_world fine disk [lit "-v"; lit "a"; lit "b"] 0 /\ exits false sample_world fine disk [lit "--bogus"] 1 /\ exits false sample_world fine disk [] 2.
Proof. do 7 (split; [apply (exit_code []); vm_compute; reflexivity|]). apply (exit_code []); vm_compute; reflexivity. Qed.
Example C26_case_written : exists k, r_files (main [] false sample_world fine disk cmd) k <> disk k.
Proof. exists (lit "out/my.db.json"). vm_compute. discriminate. Qed.
Example C26_case_printed : prints [] false sample_world fine disk cmd (lit "Successfully parsed src/my.db.kf to out/my.db.json").
Proof. change (lit "Successfully parsed src/my.db.kf to out/my.db.json") with (lit "Successfully parsed " ++ lit "src/my.db.kf" ++ lit " to " ++ lit "out/my.db.json").
  exact (pr_ok _ _ _ _ _ _ _ _ _ disk_ready eq_refl eq_refl). Qed.

(** ** C27: the exact content of the output file *)
Theorem C27_exact_content : forall version bf w o fs args p d json, ready bf w o fs args p d json -> os_open o (out_file p d) = None ->
  exists old n, (fs (resolve o (out_file p d)) = Some old \/ (fs (resolve o (out_file p d)) = None /\ old = [])) /\
    ((os_write o = None /\ n = length json) \/ exists k e, os_write o = Some (k, e) /\ n = Nat.min k (length json)) /\
    r_files (main version bf w o fs args) (resolve o (out_file p d)) = Some (firstn n json ++ skipn n old).
Proof.
  intros version bf w o fs args p d json HR HO. rewrite (ready_main version _ _ _ _ _ _ _ _ HR), HO.
  exists (match fs (resolve o (out_file p d)) with Some c => c | None => [] end), (match os_write o with Some (n, _) => Nat.min n (length json) | None => length json end).
  split; [destruct (fs (resolve o (out_file p d))); auto|]. split; [destruct (os_write o) as [[k e]|]; [right; eauto|left; auto]|].
  destruct (os_close o); cbn [r_files]; apply set_same.
Qed.
Print Assumptions C27_exact_content.
(** When the write succeeds on a file that is new or no longer than the JSON, the file is the JSON; and only then, write errors aside. *)
Theorem C27_exactly_the_json : forall version bf w o fs args p d json, ready bf w o fs args p d json -> os_open o (out_file p d) = None -> os_write o = None ->
  (r_files (main version bf w o fs args) (resolve o (out_file p d)) = Some json <->
   forall old, fs (resolve o (out_file p d)) = Some old -> (length old <= length json)%nat).
Proof.
  intros version bf w o fs args p d json HR HO HW. destruct (C27_exact_content version _ _ _ _ _ _ _ _ HR HO) as (old & n & Hold & [[_ ->]|(k & e & E & _)] & ->); [|congruence].
  rewrite firstn_all. split.
  - intros E. injection E as E. assert (EL : length (json ++ skipn (length json) old) = length json) by congruence. rewrite app_length, skipn_length in EL.
    intros o' Eo. destruct Hold as [Hold|[Hold _]]; rewrite Eo in Hold; [injection Hold as ->; lia|discriminate].
  - intros H. f_equal. rewrite skipn_all2; [apply app_nil_r|]. destruct Hold as [Hold|[_ ->]]; [apply H; exact Hold|apply Nat.le_0_l].
Qed.
Print Assumptions C27_exactly_the_json.
(** Then reading the file gives the schema: the bytes of the input are read as text, the text writes a valid schema, the file is a
    JSON text of that schema's document. *)
Theorem C27_file_holds_the_schema : forall version bf w o fs args p d, asks args p d -> r_code (main version bf w o fs args) = 0 -> os_write o = None ->
  (forall old, fs (resolve o (out_file p d)) = Some old -> old = []) ->
  exists data text s content, fs (resolve o p) = Some data /\ reads data text /\ accepted w text s /\
    r_files (main version bf w o fs args) (resolve o (out_file p d)) = Some content /\ json_text (document (NSchema s)) (runes content).
Proof.
  intros version bf w o fs args p d HA HC HW HN. pose proof HA as (ss & HS & HH & HV & HD). pose proof HC as HC'. apply exit_code in HC'.
  inversion HC' as [|ss' rest' H1 H2|ss' rest' H1 H2 H3| | | | | | |p' d' json H1 H2 H3].
  - destruct (says_fun _ _ _ _ _ HS H1) as (_ & E & _). congruence.
  - destruct (says_fun _ _ _ _ _ HS H1) as (_ & _ & E). destruct (E HH) as [E' _]. congruence.
  - pose proof H1 as (HA' & HM & data & [HR1 HR2] & s & HS' & EJ). destruct (asks_fun _ _ _ _ _ HA HA') as [<- <-].
    exists data, (runes data), s, json. split; [exact HR2|]. split; [apply runes_reads|]. split; [exact HS'|]. split.
    + apply (C27_exactly_the_json version _ _ _ _ _ _ _ _ H1 H2 HW). intros old E. rewrite (HN _ E). apply Nat.le_0_l.
    + rewrite EJ. exact (json_of_accepted bf w data s HS').
Qed.
Print Assumptions C27_file_holds_the_schema.
Lemma out_disk : out_file (lit "src/my.db.kf") (lit "out") = lit "out/my.db.json". Proof. vm_compute. reflexivity. Qed.
(** A longer file keeps its tail. *)
Theorem C27_overwrite_refuted : ~ forall version bf w o fs args p d json, ready bf w o fs args p d json -> os_write o = None ->
  r_code (main version bf w o fs args) = 0 -> r_files (main version bf w o fs args) (resolve o (out_file p d)) = Some json.
Proof.
  intros H. set (disk' := fun k => if str_eqb k (lit "out/my.db.json") then Some (repeat 120 5000%nat) else disk k).
  assert (R : ready false sample_world fine disk' cmd (lit "src/my.db.kf") (lit "out") sample_json).
  { destruct disk_ready as (HA & HM & data & [HR1 HR2] & HT). split; [exact HA|split; [exact HM|]]. exists data. split; [split; [exact HR1|]|exact HT].
    rewrite <- HR2. vm_compute. reflexivity. }
  specialize (H [] _ _ _ _ _ _ _ _ R eq_refl). rewrite (C27_exactly_the_json [] _ _ _ _ _ _ _ _ R eq_refl eq_refl) in H.
  assert (HL : forall old, disk' (resolve fine (out_file (lit "src/my.db.kf") (lit "out"))) = Some old -> (length old <= length sample_json)%nat) by (apply H; vm_compute; reflexivity).
  specialize (HL (repeat 120 5000%nat)). assert (HB : (5000 <=? length sample_json)%nat = true).
  { apply Nat.leb_le. rewrite <- (repeat_length 120 5000%nat) at 1. apply HL. rewrite out_disk. vm_compute. reflexivity. }
  revert HB. vm_compute. discriminate.
Qed.
Print Assumptions C27_overwrite_refuted.
(** A failed write is reported as success, whatever is left in the file. *)
Theorem C27_failed_write_reported_as_success : forall version bf w o fs args p d json, ready bf w o fs args p d json ->
  os_open o (out_file p d) = None -> os_close o = None -> r_code (main version bf w o fs args) = 0.
Proof. intros version bf w o fs args p d json H H1 H2. apply exit_code. exact (ex_ok _ _ _ _ _ _ _ _ H H1 H2). Qed.
Print Assumptions C27_failed_write_reported_as_success.
Theorem C27_failed_write_refuted : ~ forall version bf w o fs args p d json, ready bf w o fs args p d json -> fs (resolve o (out_file p d)) = None ->
  r_code (main version bf w o fs args) = 0 -> r_files (main version bf w o fs args) (resolve o (out_file p d)) = Some json.
Proof.
  intros H. set (full := Os clean (fun _ => None) (fun _ => None) (fun _ => None) (Some (0%nat, lit "no space left on device")) None).
  assert (R : ready false sample_world full disk cmd (lit "src/my.db.kf") (lit "out") sample_json) by exact disk_ready.
  specialize (H [] _ _ _ _ _ _ _ _ R). assert (E : Some (@nil N) = Some sample_json).
  { rewrite <- H; [|vm_compute; reflexivity|vm_compute; reflexivity]. vm_compute. reflexivity. }
  revert E. vm_compute. discriminate.
Qed.
Print Assumptions C27_failed_write_refuted.

(** ** C28 *)
Theorem C28_trace_flag_refuted : ~ forall version bf w o fs args ss rest, says args ss rest -> trace_asked ss = true ->
  r_mode (main version bf w o fs args) <> None -> r_mode (main version bf w o fs args) = Some Trace.
Proof.
  intros H. assert (E : r_mode (main [] false sample_world fine disk [lit "--trace"; lit "src/my.db.kf"]) = Some Trace).
  { apply (H _ _ _ _ _ _ [SetTrace true] [lit "src/my.db.kf"]); [|reflexivity|vm_compute; discriminate].
    apply (sy_on (lit "trace") 116 SetTrace); [apply sw_trace|]. apply sy_argument; [right; intros r E; discriminate|apply sy_end]. }
  destruct (never_trace _ _ _ _ _ _ E).
Qed.
Print Assumptions C28_trace_flag_refuted.
(** Indeed no command line at all turns it on. *)
Theorem C28_never_traces : forall version bf w o fs args, r_mode (main version bf w o fs args) <> Some Trace.
Proof. exact never_trace. Qed.
Print Assumptions C28_never_traces.
(** And a command line does the same with the switch as without. *)
Theorem C28_trace_flag_changes_nothing : forall version bf w o fs args args' ss ss' rest, says args ss rest -> says args' ss' rest ->
  help_asked ss = help_asked ss' -> version_asked ss = version_asked ss' -> output_dir ss = output_dir ss' ->
  main version bf w o fs args = main version bf w o fs args'.
Proof.
  intros version bf w o fs args args' ss ss' rest HS HS' E1 E2 E3. unfold main. destruct (command_line_iff args) as (_ & HH & HR), (command_line_iff args') as (_ & HH' & HR').
  destruct (help_asked ss) eqn:E.
  - rewrite (proj2 HH), (proj2 HH'); [reflexivity|eauto|eauto].
  - rewrite (proj2 (HR _ rest) (ex_intro _ ss (conj HS (conj E eq_refl)))), (proj2 (HR' _ rest) (ex_intro _ ss' (conj HS' (conj (eq_sym E1) eq_refl)))).
    unfold run_command. cbn [v_version v_output v_trace]. rewrite E2, E3. reflexivity.
Qed.
Print Assumptions C28_trace_flag_changes_nothing.
Example C28_case : says [lit "-tv"; lit "a.kf"; lit "--trace=false"] [SetTrace true; SetVersion true; SetTrace false] [lit "a.kf"].
Proof.
  apply (sy_letters 116 [118] _ [SetTrace true; SetVersion true] [lit "a.kf"; lit "--trace=false"] [SetTrace false]); [discriminate| |].
  - apply (le_on (lit "trace") 116 SetTrace); [apply sw_trace|intros (s & E); discriminate|intros (x & v & E); discriminate|].
    apply (le_on (lit "version") 118 SetVersion); [apply sw_version|intros (s & E); discriminate|intros (x & v & E); discriminate|]. apply le_end.
  - apply sy_argument; [right; intros r E; discriminate|]. apply (sy_value (lit "trace") 116 SetTrace (lit "false") false); [apply sw_trace|apply tr_no; cbn; auto 10|apply sy_end].
Qed.

(** ** C29 *)
Theorem C29_wasm_result : forall bf w input,
  (forall s, accepted w (runes input) s -> parse_wrapper bf w [input] = JsResult None (to_json bf (NSchema (map_schema bytes_of s)))) /\
  ((forall s, ~ accepted w (runes input) s) ->
   parse_wrapper bf w [input] = JsResult (Some (lit "parsing failed: " ++ bytes_of (list_text (o_listener (parse_kf w (runes input) [] Default))) ++ [10])) []).
Proof.
  intros bf w input. unfold parse_wrapper, wasm_parse. split.
  - intros s HA. apply (parse_accepts w (runes input) Default) in HA. unfold parse_bytes, no_error. rewrite HA. reflexivity.
  - intros HN. destruct (parse_bytes_cases w input Default) as [(s & HA & _)|[_ E]]; [destruct (HN s HA)|]. rewrite E. reflexivity.
Qed.
Print Assumptions C29_wasm_result.
Theorem C29_error_iff_rejected : forall bf w input error json, parse_wrapper bf w [input] = JsResult error json ->
  (error <> None <-> forall s, ~ accepted w (runes input) s) /\ (error <> None -> json = []) /\
  (error = None -> exists s, accepted w (runes input) s /\ json_text (document (NSchema s)) (runes json)).
Proof.
  intros bf w input error json E. destruct (C29_wasm_result bf w input) as [HA HN]. destruct (parse_bytes_cases w input Default) as [(s & H & _)|[H _]].
  - rewrite (HA s H) in E. injection E as <- <-. split; [split; [congruence|intros H'; destruct (H' s H)]|]. split; [congruence|]. intros _.
    exists s. split; [exact H|]. exact (json_of_accepted bf w input s H).
  - rewrite (HN H) in E. injection E as <- <-. split; [split; [intros _; exact H|discriminate]|]. split; [reflexivity|discriminate].
Qed.
Print Assumptions C29_error_iff_rejected.
Theorem C29_other_argument_counts : forall bf w args, length args <> 1%nat <-> parse_wrapper bf w args = JsText (lit "Invalid no of arguments passed").
Proof.
  intros bf w args. destruct args as [|a [|b l]]; cbn [length parse_wrapper]; split; try reflexivity; try discriminate; try congruence.
  destruct (wasm_parse bf w a); discriminate.
Qed.
Print Assumptions C29_other_argument_counts.
Example C29_case : (exists s, accepted sample_world (runes sample_text) s) /\ (forall s, ~ accepted sample_world (runes (lit "database")) s).
Proof.
  split; [exists sample_schema; apply (parse_accepts _ _ Default); vm_compute; reflexivity|]. intros s H. apply (parse_accepts _ _ Default) in H.
  revert H. vm_compute. discriminate.
Qed.

(** ** C37: where the output goes *)
Lemma stem_ordinary b n : last_element b b -> stem b n -> ordinary (n ++ lit ".json").
Proof.
  intros (_ & HS & _) Hn. assert (Hs : ~ In 47 n).
  { destruct Hn as [[_ ->]|(e & -> & _)]; [exact HS|]. intros H. apply HS. apply in_or_app. auto. }
  assert (HL : forall x, (length x < 5)%nat -> n ++ lit ".json" <> x).
  { intros x Hx E. apply (f_equal (@length N)) in E. rewrite app_length in E. change (length (lit ".json")) with 5%nat in E. lia. }
  split; [apply HL; cbn; lia|]. split; [apply HL; cbn; lia|]. split; [apply HL; cbn; lia|].
  intros H. apply in_app_or in H as [H|H]; [auto|]. cbn in H. intuition discriminate.
Qed.
Lemma file_name_stem p b n : last_element p b -> stem b n -> file_name p = n.
Proof.
  intros H Hn. unfold file_name. rewrite (base_last _ _ H). destruct H as (_ & HS & _). pose proof (ext_stem _ _ HS Hn) as E.
  assert (EL : (length b - length (ext b) = length n + 0)%nat) by (rewrite E at 1; rewrite app_length; lia). rewrite EL, E, firstn_app_2. apply app_nil_r.
Qed.
Theorem C37_output_path : forall p b n d from_root u l, last_element p b -> stem b n -> leads d from_root u l ->
  leads (out_file p d) from_root u (l ++ [n ++ lit ".json"]).
Proof.
  intros p b n d R u l Hb Hn Hd. unfold out_file. rewrite (file_name_stem _ _ _ Hb Hn). apply join_leads; [exact Hd|]. apply (stem_ordinary b); [|exact Hn].
  destruct Hb as (H1 & H2 & _). split; [exact H1|]. split; [exact H2|]. exists [], []. rewrite app_nil_r. auto.
Qed.
Print Assumptions C37_output_path.
(** Every path but / and the empty one has a last element; the elements and the stem are always defined and unique; so is the way a path leads. *)
Theorem C37_output_path_defined : forall p d, (exists c, In c p /\ c <> 47) ->
  exists b n from_root u l, last_element p b /\ stem b n /\ leads d from_root u l /\
    (forall b', last_element p b' -> b' = b) /\ (forall n', stem b n' -> n' = n) /\
    (forall R' u' l', leads d R' u' l' -> (R' <-> from_root) /\ u' = u /\ l' = l).
Proof.
  intros p d (c & Hc & Hn).
  assert (HB : exists b, last_element p b).
  { clear d. revert c Hc Hn. induction p as [|x p IH] using rev_ind; intros c Hc Hn; [destruct Hc|].
    apply in_app_or in Hc. destruct (N.eq_dec x 47) as [->|Hx].
    - destruct Hc as [Hc|[<-|[]]]; [|contradiction]. destruct (IH c Hc Hn) as (b & H1 & H2 & d & sl & -> & HF & Hd). exists b. split; [exact H1|]. split; [exact H2|].
      exists d, (sl ++ [47]). rewrite !app_assoc. split; [reflexivity|]. split; [apply Forall_app; split; [exact HF|repeat constructor]|exact Hd].
    - clear IH Hc c Hn. assert (HS : exists d b, p = d ++ b /\ ~ In 47 b /\ (d = [] \/ exists d', d = d' ++ lit "/")).
      { clear Hx x. induction p as [|y p IH] using rev_ind; [exists [], []; auto|]. destruct (N.eq_dec y 47) as [->|Hy].
        - exists (p ++ [47]), []. rewrite app_nil_r. split; [reflexivity|]. split; [auto|]. right. exists p. reflexivity.
        - destruct IH as (d & b & -> & Hb & Hd). exists d, (b ++ [y]). split; [rewrite app_assoc; reflexivity|]. split; [|exact Hd].
          intros H. apply in_app_or in H as [H|[H|[]]]; [auto|congruence]. }
      destruct HS as (d & b & -> & Hb & Hd). exists (b ++ [x]). split; [destruct b; discriminate|]. split.
      + intros H. apply in_app_or in H as [H|[H|[]]]; [auto|congruence].
      + exists d, []. rewrite app_nil_r, app_assoc. split; [reflexivity|]. split; [constructor|exact Hd]. }
  destruct HB as (b & Hb). destruct (stem_exists b) as (n & Hst). 
  destruct (fold_left (step (is_rooted d)) (split_slash d) (O, [])) as [u l] eqn:EL.
  assert (HL : leads d (rooted d) u l) by (apply leads_iff; split; [reflexivity|exact EL]).
  exists b, n, (rooted d), u, l. do 3 (split; [assumption|]). split; [intros b' Hb'; apply base_last in Hb, Hb'; congruence|].
  split; [intros n' Hn'; eapply stem_fun; [apply Hb|exact Hn'|exact Hst]|]. intros R' u' l' H. apply (leads_fun _ _ _ _ _ _ _ H HL).
Qed.
Print Assumptions C37_output_path_defined.
(** The name without its extension is a proper slice: the program does not panic there. *)
Theorem C37_slice_in_range : forall p, (length (ext (base p)) <= length (base p))%nat.
Proof.
  intros p. unfold ext. assert (H : forall r acc, (length (ext_rev r acc) <= length r + length acc)%nat).
  { induction r as [|c r IH]; intros acc; cbn [ext_rev]; [apply Nat.le_0_l|]. destruct (c =? slash); [apply Nat.le_0_l|].
    destruct (c =? dot); cbn [length]; [lia|]. specialize (IH (c :: acc)). cbn [length] in IH. lia. }
  specialize (H (rev (base p)) []). rewrite rev_length in H. cbn [length] in H. lia.
Qed.
Print Assumptions C37_slice_in_range.
Example C37_case : last_element (lit "../a.b/my.db.kf//") (lit "my.db.kf") /\ stem (lit "my.db.kf") (lit "my.db") /\ leads (lit "/x/./y/../z") True 0 [lit "x"; lit "z"] /\
  out_file (lit "../a.b/my.db.kf//") (lit "/x/./y/../z") = lit "/x/z/my.db.json".
Proof.
  split; [|split; [|split]].
  - split; [discriminate|]. split; [intros H; vm_compute in H; intuition discriminate|]. exists (lit "../a.b/"), (lit "//"). split; [reflexivity|].
    split; [repeat constructor|]. right. exists (lit "../a.b"). reflexivity.
  - right. exists (lit "kf"). split; [reflexivity|]. intros H; vm_compute in H; intuition discriminate.
  - apply leads_iff. split; [|vm_compute; reflexivity]. split; [intros _; eexists; reflexivity|trivial].
  - vm_compute. reflexivity.
Qed.
(** Different inputs may share an output: the second translation replaces the first. *)
Theorem C37_outputs_are_separate_refuted : ~ forall version bf w o fs p p' d k, p <> p' -> resolve o p <> resolve o p' ->
  k = resolve o (out_file p d) ->
  let first := main version bf w o fs [p; lit "-o"; d] in
  let second := main version bf w o (r_files first) [p'; lit "-o"; d] in
  r_code first = 0 -> r_code second = 0 -> r_files second k = r_files first k.
Proof.
  intros H. set (two := fun k => if str_eqb k (lit "x/a.kf") then Some (lit "database one;") else if str_eqb k (lit "y/a.kf") then Some (lit "database two;") else None).
  assert (E : forall x, x = r_files (main [] false sample_world fine (r_files (main [] false sample_world fine two [lit "x/a.kf"; lit "-o"; lit "b"])) [lit "y/a.kf"; lit "-o"; lit "b"]) (lit "b/a.json") ->
    x <> r_files (main [] false sample_world fine two [lit "x/a.kf"; lit "-o"; lit "b"]) (lit "b/a.json")) by (vm_compute; intros x -> ; discriminate).
  refine (E _ eq_refl _). apply (H [] false sample_world fine two (lit "x/a.kf") (lit "y/a.kf") (lit "b") (lit "b/a.json")); [discriminate|vm_compute; discriminate|vm_compute; reflexivity|vm_compute; reflexivity|vm_compute; reflexivity].
Qed.
Print Assumptions C37_outputs_are_separate_refuted.

(** ** C38: the command line *)
(** Every command line says at most one thing (as far as a run can tell), and the run depends on nothing else. *)
Theorem C38_meaning_is_unique : forall args ss rest ss' rest', says args ss rest -> says args ss' rest' -> rest = rest' /\ help_asked ss = help_asked ss' /\
  (help_asked ss = false -> version_asked ss = version_asked ss' /\ output_dir ss = output_dir ss').
Proof. exact says_fun. Qed.
Print Assumptions C38_meaning_is_unique.
Theorem C38_meaning_decides : forall version bf w o fs args args' ss ss' rest, says args ss rest -> says args' ss' rest ->
  help_asked ss = help_asked ss' -> version_asked ss = version_asked ss' -> output_dir ss = output_dir ss' ->
  main version bf w o fs args = main version bf w o fs args'.
Proof. exact C28_trace_flag_changes_nothing. Qed.
Print Assumptions C38_meaning_decides.
Theorem C38_meaningless_fails : forall version bf w o fs args, (forall ss rest, ~ says args ss rest) -> main version bf w o fs args = RunOf 1 fs [] None.
Proof. intros version bf w o fs args H. unfold main. apply command_line_iff in H. rewrite H. reflexivity. Qed.
Print Assumptions C38_meaningless_fails.
(** The output directory may be given before or after the file, in one argument or two, short or long. *)
Theorem C38_output_spellings : forall version bf w o fs p d args, not_a_flag p -> d <> [] -> (forall x v, d <> lit "=" ++ x :: v) ->
  In args [[p; lit "-o"; d]; [lit "-o"; d; p]; [p; lit "-o" ++ d]; [lit "-o" ++ d; p]; [p; lit "-o=" ++ d]; [lit "-o=" ++ d; p];
           [p; lit "--output"; d]; [lit "--output"; d; p]; [p; lit "--output=" ++ d]; [lit "--output=" ++ d; p]; [lit "-o"; d; lit "--"; p]; [lit "--output"; lit "other"; p; lit "-o"; d]] ->
  main version bf w o fs args = main version bf w o fs [p; lit "--output"; d].
Proof.
  intros version bf w o fs p d args Hp Hd Hv HI.
  assert (H0 : says [p; lit "--output"; d] [SetOutput d] [p]) by (apply sy_argument; [exact Hp|apply sy_output, sy_end]).
  assert (HL : exists ss, says args ss [p] /\ (ss = [SetOutput d] \/ ss = [SetOutput (lit "other"); SetOutput d])).
  { assert (L1 : forall l, letters (lit "o") (d :: l) [SetOutput d] l) by (intros l; apply le_output_next).
    assert (L2 : forall l, letters (lit "o" ++ d) l [SetOutput d] l) by (intros l; apply le_output; [exact Hd|intros (x & v & E); exact (Hv _ _ E)]).
    assert (L3 : forall l, letters (lit "o=" ++ d) l [SetOutput d] l) by (intros l; destruct d as [|x v]; [contradiction|apply le_output_eq]).
    assert (SP : says [p] [] [p]) by (apply sy_argument; [exact Hp|apply sy_end]).
    assert (S1 : forall l rest, says l [] rest -> says (lit "-o" :: d :: l) [SetOutput d] rest) by (intros l rest H; apply (sy_letters 111 [] (d :: l) [SetOutput d] l [] rest); [discriminate|apply L1|exact H]).
    assert (S2 : forall l rest, says l [] rest -> says ((lit "-o" ++ d) :: l) [SetOutput d] rest) by (intros l rest H; apply (sy_letters 111 d l [SetOutput d] l [] rest); [discriminate|apply L2|exact H]).
    assert (S3 : forall l rest, says l [] rest -> says ((lit "-o=" ++ d) :: l) [SetOutput d] rest) by (intros l rest H; apply (sy_letters 111 (61 :: d) l [SetOutput d] l [] rest); [discriminate|apply L3|exact H]).
    cbn [In] in HI. decompose [or] HI; clear HI; try contradiction; subst args.
    - exists [SetOutput d]. split; [|auto]. apply sy_argument; [exact Hp|apply S1, sy_end].
    - exists [SetOutput d]. split; [|auto]. apply S1, SP.
    - exists [SetOutput d]. split; [|auto]. apply sy_argument; [exact Hp|apply S2, sy_end].
    - exists [SetOutput d]. split; [|auto]. apply S2, SP.
    - exists [SetOutput d]. split; [|auto]. apply sy_argument; [exact Hp|apply S3, sy_end].
    - exists [SetOutput d]. split; [|auto]. apply S3, SP.
    - exists [SetOutput d]. auto.
    - exists [SetOutput d]. split; [|auto]. apply sy_output, SP.
    - exists [SetOutput d]. split; [|auto]. apply sy_argument; [exact Hp|apply sy_output_eq, sy_end].
    - exists [SetOutput d]. split; [|auto]. apply sy_output_eq, SP.
    - exists [SetOutput d]. split; [|auto]. apply S1, sy_stop.
    - exists [SetOutput (lit "other"); SetOutput d]. split; [|auto]. apply sy_output, sy_argument; [exact Hp|apply S1, sy_end]. }
  destruct HL as (ss & HS & Hss). apply (C38_meaning_decides version bf w o fs _ _ _ _ _ HS H0); destruct Hss as [->| ->]; reflexivity.
Qed.
Print Assumptions C38_output_spellings.
(** Without --output the directory is ./build. *)
Theorem C38_default_output : forall version bf w o fs p, not_a_flag p -> main version bf w o fs [p] = main version bf w o fs [p; lit "--output"; lit "./build"].
Proof.
  intros version bf w o fs p Hp. apply (C38_meaning_decides version bf w o fs _ _ [] [SetOutput (lit "./build")] [p]); try reflexivity; apply sy_argument; try exact Hp; [apply sy_end|apply sy_output, sy_end].
Qed.
Print Assumptions C38_default_output.
(** A flag by any other name fails. *)
Theorem C38_unknown_flag_fails : forall version bf w o fs n v args, n <> [] -> ~ In 61 n -> ~ In n [lit "trace"; lit "version"; lit "output"; lit "help"] -> (v = [] \/ exists x, v = lit "=" ++ x) ->
  r_code (main version bf w o fs ((lit "--" ++ n ++ v) :: args)) = 1.
Proof.
  intros version bf w o fs n v args Hn He Hk Hv. rewrite C38_meaningless_fails; [reflexivity|]. intros ss rest H.
  assert (HU : forall x y, ~ In 61 x -> (y = [] \/ exists z, y = lit "=" ++ z) -> n ++ v = x ++ y -> n = x).
  { clear -He Hv. revert He. induction n as [|c n IH]; intros He x y Hx Hy E.
    - destruct x as [|c x]; [reflexivity|]. exfalso. destruct Hv as [->|(z & ->)]; [discriminate|]. injection E as <- _. apply Hx. left; reflexivity.
    - destruct x as [|c' x].
      + exfalso. destruct Hy as [->|(z & ->)]; [discriminate|]. injection E as -> _. apply He. left; reflexivity.
      + injection E as -> E. f_equal. apply (IH (fun Hi => He (or_intror Hi)) x y); [intros Hi; apply Hx; right; exact Hi|exact Hy|exact E]. }
  assert (SW : forall m c k, switch m c k -> ~ In 61 m /\ In m [lit "trace"; lit "version"; lit "output"; lit "help"]).
  { intros m c k []; (split; [intros Hi; vm_compute in Hi; intuition discriminate|cbn; auto 10]). }
  remember ((lit "--" ++ n ++ v) :: args) as all eqn:E. symmetry in E.
  destruct H as [|a l ss' rest' Hf _|l|m c f l ss' rest' Hsw _|m c f x b l ss' rest' Hsw _ _|d l ss' rest' _|d l ss' rest' _|c r l ss1 l' ss2 rest' Hc _ _]; [discriminate| | | | | | |].
  - injection E as Ea _. destruct Hf as [->|Hf]; [discriminate|]. exact (Hf _ (eq_sym Ea)).
  - destruct n; [contradiction|discriminate].
  - injection E as E _. destruct (SW _ _ _ Hsw) as [S1 S2]. apply Hk. rewrite (HU m []); [exact S2|exact S1|auto|rewrite app_nil_r; exact E].
  - injection E as E _. destruct (SW _ _ _ Hsw) as [S1 S2]. apply Hk. rewrite (HU m (lit "=" ++ x)); [exact S2|exact S1|eauto|exact E].
  - apply Hk. rewrite (HU (lit "output") (lit "=" ++ d)); [cbn; auto 10|intros Hi; vm_compute in Hi; intuition discriminate|eauto|]. injection E as E _. exact E.
  - apply Hk. rewrite (HU (lit "output") []); [cbn; auto 10|intros Hi; vm_compute in Hi; intuition discriminate|auto|]. injection E as E _. exact E.
  - injection E as E _ _. congruence.
Qed.
Print Assumptions C38_unknown_flag_fails.
Example C38_case : not_a_flag (lit "a.kf") /\ not_a_flag (lit "-") /\ ~ not_a_flag (lit "-x") /\ (forall ss rest, ~ says [lit "-ox"; lit "-z"] ss rest).
Proof.
  split; [right; intros r E; discriminate|]. split; [left; reflexivity|]. split; [intros [H|H]; [discriminate|exact (H _ eq_refl)]|].
  apply command_line_iff. vm_compute. reflexivity.
Qed.
