From Verif Require Import Str Schema Utf8 JsonSpec GoJson ParseKF ParseBytes ParseSpec ParseProof Outcomes Path Flags Cli FlagSpec FlagProof CliSpec.
Local Open Scope N_scope.

(** The parser on bytes. *)
Lemma parse_bytes_cases w data m :
  (exists s, accepted w (runes data) s /\ parse_bytes w data [] m = Outcome (Some (map_schema bytes_of s)) []) \/
  ((forall s, ~ accepted w (runes data) s) /\ no_error (parse_bytes w data [] m) = false).
Proof.
  unfold parse_bytes, no_error. destruct (fresh_outcome w (runes data) m) as [[H E]|[(e & H & E)|[(s & z & H1 & H2 & E)|(s & H & E)]]].
  - right. rewrite E. split.
    + intros s HA. apply H. destruct HA as [HA _]. eapply writes_valid; exact HA.
    + cbn. unfold messages. destruct (w_msgs w (runes data)). reflexivity.
  - right. rewrite E. split; [|reflexivity]. intros s HA. apply (parse_accepts w (runes data) m) in HA. congruence.
  - right. rewrite E. split; [|reflexivity]. intros s' HA. apply (parse_accepts w (runes data) m) in HA. congruence.
  - left. exists s. rewrite E. split; [exact H|reflexivity].
Qed.
Lemma accepted_fun w t s s' : accepted w t s -> accepted w t s' -> s = s'.
Proof. intros H H'. apply (parse_accepts w t Default) in H, H'. congruence. Qed.
Lemma translates_fun bf w d j j' : translates bf w d j -> translates bf w d j' -> j = j'.
Proof. intros (s & H & ->) (s' & H' & ->). rewrite (accepted_fun _ _ _ _ H H'). reflexivity. Qed.
Lemma says_fun args ss rest ss' rest' : says args ss rest -> says args ss' rest' -> rest = rest' /\ help_asked ss = help_asked ss' /\
  (help_asked ss = false -> version_asked ss = version_asked ss' /\ output_dir ss = output_dir ss').
Proof.
  intros H H'. pose proof (parse_args_iff (length args) args init_vars) as HI.
  assert (E : parse_args (length args) args init_vars = Some (apply init_vars ss, rest)) by (apply HI; eauto).
  assert (E' : parse_args (length args) args init_vars = Some (apply init_vars ss', rest')) by (apply HI; eauto).
  rewrite E in E'. injection E' as EA ->. split; [reflexivity|].
  destruct (apply_fields init_vars ss) as (A & B & C & _). destruct (apply_fields init_vars ss') as (A' & B' & C' & _).
  unfold help_asked, version_asked, output_dir. change false with (v_flag_help init_vars) at 1 2. rewrite <- B, <- B'. split; [congruence|]. intros _.
  change false with (v_version init_vars) at 1 2. change (lit "./build") with (v_output init_vars). rewrite <- A, <- A', <- C, <- C'. split; congruence.
Qed.

(** What the command does, case by case. *)
Lemma main_cases version bf w o fs args :
  let r := main version bf w o fs args in
  ((forall ss rest, ~ says args ss rest) /\ r = RunOf 1 fs [] None) \/
  (exists ss rest, says args ss rest /\ help_asked ss = true /\ r = RunOf 0 fs [] None) \/
  (exists ss rest, says args ss rest /\ help_asked ss = false /\ version_asked ss = true /\ r = RunOf 0 fs (line version) None) \/
  (exists ss rest, says args ss rest /\ help_asked ss = false /\ version_asked ss = false /\ length rest <> 1%nat /\
     r = RunOf 2 fs (line (lit "Please provide a file to parse")) None) \/
  (exists p d, asks args p d /\
     ((exists e, os_mkdir o d = Some e /\ r = RunOf 3 fs (line e) None) \/
      (os_mkdir o d = None /\
       (((forall data, ~ readable o fs p data) /\ exists e, r = RunOf 4 fs (line e) None) \/
        (exists data, readable o fs p data /\
          (((forall json, ~ translates bf w data json) /\ exists t, r = RunOf 5 fs (line t) (Some Default)) \/
           (exists json, translates bf w data json /\
             ((exists e, os_open o (out_file p d) = Some e /\ r = RunOf 7 fs (line e) (Some Default)) \/
              (os_open o (out_file p d) = None /\
               exists old n, (forall c, fs (resolve o (out_file p d)) = Some c -> old = c) /\ (fs (resolve o (out_file p d)) = None -> old = []) /\
                 (os_write o = None -> n = length json) /\ (forall k e, os_write o = Some (k, e) -> n = Nat.min k (length json)) /\
                 exists code t, r = RunOf code (set_file fs (resolve o (out_file p d)) (firstn n json ++ skipn n old)) (line t) (Some Default) /\
                   ((os_close o = None /\ code = 0) \/ (os_close o <> None /\ code = 1))))))))))).
Proof.
  intros r. unfold r. clear r. unfold main. destruct (command_line_iff args) as (HE & HH & HR).
  destruct (command_line args) as [| |v rest] eqn:EC.
  - left. split; [apply HE; reflexivity|reflexivity].
  - right; left. destruct (proj1 HH eq_refl) as (ss & rest & HS & HA). eauto.
  - destruct (proj1 (HR v rest) eq_refl) as (ss & HS & HA & ->). unfold run_command. cbn [v_version v_output v_trace].
    destruct (version_asked ss) eqn:EV; [right; right; left; exists ss, rest; auto|].
    destruct rest as [|p [|q rest]]; [right; right; right; left; exists ss, []; do 3 (split; [assumption|]); split; [discriminate|reflexivity]| |right; right; right; left; exists ss, (p :: q :: rest); do 3 (split; [assumption|]); split; [discriminate|reflexivity]].
    right; right; right; right. exists p, (output_dir ss). split; [exists ss; auto|]. set (d := output_dir ss).
    destruct (os_mkdir o d) as [e|] eqn:EM; [left; exists e; auto|right; split; [reflexivity|]].
    unfold read_file. destruct (os_read o p) as [e|] eqn:ER.
    { left. split; [intros data [H _]; congruence|eauto]. }
    destruct (fs (resolve o p)) as [data|] eqn:EF.
    2: { left. split; [intros data [_ H]; congruence|eauto]. }
    right. exists data. split; [split; assumption|]. destruct (parse_bytes_cases w data Default) as [(s & HA' & EP)|[HA' EP]].
    + right. rewrite EP. cbn [no_error o_listener o_result negb]. set (json := to_json bf (NSchema (map_schema bytes_of s))). exists json.
      split; [exists s; auto|]. unfold output_path. cbn [v_output]. fold d. fold (out_file p d). unfold write_to_file.
      destruct (os_open o (out_file p d)) as [e|] eqn:EO; [left; exists e; auto|right; split; [reflexivity|]].
      exists (match fs (resolve o (out_file p d)) with Some c => c | None => [] end), (match os_write o with Some (n, _) => Nat.min n (length json) | None => length json end).
      split; [intros c ->; reflexivity|]. split; [intros ->; reflexivity|]. split; [intros ->; reflexivity|]. split; [intros k e ->; reflexivity|].
      destruct (os_close o) as [e|].
      * exists CodeFail, e. split; [reflexivity|right; split; [discriminate|reflexivity]].
      * eexists CodeOk, _. split; [reflexivity|left; split; reflexivity].
    + left. rewrite EP. cbn [negb]. split; [|eauto]. intros json (s & H & _). destruct (HA' s H).
Qed.

Lemma asks_run args p d : asks args p d -> exists tr, command_line args = Run (Vars false false d tr false) [p].
Proof.
  intros (ss & HS & HH & HV & HO). exists (trace_asked ss). apply (command_line_iff args). exists ss. rewrite HV, HO. auto.
Qed.
Lemma asks_fun args p d p' d' : asks args p d -> asks args p' d' -> p = p' /\ d = d'.
Proof. intros H H'. apply asks_run in H as (x & H), H' as (y & H'). rewrite H in H'. injection H' as -> _ ->. auto. Qed.
Lemma ready_fun bf w o fs args p d j p' d' j' : ready bf w o fs args p d j -> ready bf w o fs args p' d' j' -> p = p' /\ d = d' /\ j = j'.
Proof.
  intros (H1 & _ & data & (_ & H2) & H3) (H1' & _ & data' & (_ & H2') & H3'). destruct (asks_fun _ _ _ _ _ H1 H1') as [<- <-].
  split; [reflexivity|]. split; [reflexivity|]. rewrite H2 in H2'. injection H2' as <-. exact (translates_fun _ _ _ _ _ H3 H3').
Qed.

(** A run that gets as far as opening the output. *)
Lemma ready_main version bf w o fs args p d json : ready bf w o fs args p d json ->
  let old := match fs (resolve o (out_file p d)) with Some c => c | None => [] end in
  let n := match os_write o with Some (n, _) => Nat.min n (length json) | None => length json end in
  main version bf w o fs args =
  match os_open o (out_file p d) with
  | Some e => RunOf 7 fs (line e) (Some Default)
  | None => match os_close o with
            | Some e => RunOf 1 (set_file fs (resolve o (out_file p d)) (firstn n json ++ skipn n old)) (line e) (Some Default)
            | None => RunOf 0 (set_file fs (resolve o (out_file p d)) (firstn n json ++ skipn n old))
                        (line (lit "Successfully parsed " ++ p ++ lit " to " ++ out_file p d)) (Some Default)
            end
  end.
Proof.
  intros (HA & HM & data & (HR1 & HR2) & HT). apply asks_run in HA as (tr & E). unfold main. rewrite E. unfold run_command. cbn [v_version v_output v_trace].
  rewrite HM. unfold read_file. rewrite HR1, HR2. destruct (parse_bytes_cases w data Default) as [(s & HA & EP)|[HA _]].
  2: { destruct HT as (s & HT & _). destruct (HA s HT). }
  rewrite EP. cbn [no_error o_listener o_result negb].
  rewrite (translates_fun _ _ _ (to_json bf (NSchema (map_schema bytes_of s))) json (ex_intro _ s (conj HA eq_refl)) HT).
  unfold output_path. cbn [v_output]. fold (out_file p d). unfold write_to_file. destruct (os_open o (out_file p d)); [reflexivity|].
  destruct (os_close o); reflexivity.
Qed.

Theorem exit_code version bf w o fs args c : r_code (main version bf w o fs args) = c <-> exits bf w o fs args c.
Proof.
  split.
  - intros <-. destruct (main_cases version bf w o fs args) as [[H ->]|[(ss & rest & H1 & H2 & ->)|[(ss & rest & H1 & H2 & H3 & ->)|[(ss & rest & H1 & H2 & H3 & H4 & ->)|(p & d & HA & H)]]]].
    + apply ex_bad_flags; exact H.
    + exact (ex_help _ _ _ _ _ _ _ H1 H2).
    + exact (ex_version _ _ _ _ _ _ _ H1 H2 H3).
    + exact (ex_no_file _ _ _ _ _ _ _ H1 H2 H3 H4).
    + destruct H as [(e & H & ->)|(HM & H)]; [eapply ex_mkdir; [exact HA|congruence]|].
      destruct H as [(H & e & ->)|(data & HR & H)]; [exact (ex_read _ _ _ _ _ _ _ HA HM H)|].
      destruct H as [(H & t & ->)|(json & HT & _)]; [exact (ex_parse _ _ _ _ _ _ _ _ HA HM HR H)|].
      assert (R : ready bf w o fs args p d json) by (split; [exact HA|split; [exact HM|exists data; auto]]).
      rewrite (ready_main version _ _ _ _ _ _ _ _ R). destruct (os_open o (out_file p d)) eqn:EO; [eapply ex_open; [exact R|congruence]|].
      destruct (os_close o) eqn:EC; [eapply ex_close; [exact R|exact EO|congruence]|exact (ex_ok _ _ _ _ _ _ _ _ R EO EC)].
  - destruct (command_line_iff args) as (HE & HH & HR). intros H. destruct H as [H|ss rest H1 H2|ss rest H1 H2 H3|ss rest H1 H2 H3 H4|p d H1 H2|p d H1 H2 H3|p d data H1 H2 H3 H4|p d json H1 H2|p d json H1 H2 H3|p d json H1 H2 H3].
    + unfold main. apply HE in H. rewrite H. reflexivity.
    + unfold main. rewrite (proj2 HH); [reflexivity|eauto].
    + unfold main. rewrite (proj2 (HR _ rest)) by eauto. unfold run_command. cbn [v_version]. rewrite H3. reflexivity.
    + unfold main. rewrite (proj2 (HR _ rest)) by eauto. unfold run_command. cbn [v_version]. rewrite H3.
      destruct rest as [|p [|q rest]]; [reflexivity|destruct H4; reflexivity|reflexivity].
    + unfold main. apply asks_run in H1 as (tr & E). rewrite E. unfold run_command. cbn [v_version v_output]. destruct (os_mkdir o d); [reflexivity|congruence].
    + unfold main. apply asks_run in H1 as (tr & E). rewrite E. unfold run_command. cbn [v_version v_output]. rewrite H2. unfold read_file.
      destruct (os_read o p) eqn:ER; [reflexivity|]. destruct (fs (resolve o p)) eqn:EF; [|reflexivity]. destruct (H3 _ (conj ER EF)).
    + unfold main. apply asks_run in H1 as (tr & E). rewrite E. unfold run_command. cbn [v_version v_output v_trace]. rewrite H2. unfold read_file. destruct H3 as [-> ->].
      destruct (parse_bytes_cases w data Default) as [(s & HA & _)|[_ EP]]; [destruct (H4 _ (ex_intro _ s (conj HA eq_refl)))|]. rewrite EP. reflexivity.
    + rewrite (ready_main version _ _ _ _ _ _ _ _ H1). destruct (os_open o (out_file p d)); [reflexivity|congruence].
    + rewrite (ready_main version _ _ _ _ _ _ _ _ H1), H2. destruct (os_close o); [reflexivity|congruence].
    + rewrite (ready_main version _ _ _ _ _ _ _ _ H1), H2, H3. reflexivity.
Qed.

(** Files change only when the steps up to the JSON succeed and the output opens. *)
Theorem files_untouched version bf w o fs args : r_files (main version bf w o fs args) = fs \/
  exists p d json, ready bf w o fs args p d json /\ os_open o (out_file p d) = None.
Proof.
  destruct (main_cases version bf w o fs args) as [[H ->]|[(ss & rest & H1 & H2 & ->)|[(ss & rest & H1 & H2 & H3 & ->)|[(ss & rest & H1 & H2 & H3 & H4 & ->)|(p & d & HA & H)]]]]; try (left; reflexivity).
  destruct H as [(e & H & ->)|(HM & H)]; [left; reflexivity|]. destruct H as [(H & e & ->)|(data & HR & H)]; [left; reflexivity|].
  destruct H as [(H & t & ->)|(json & HT & H)]; [left; reflexivity|]. destruct H as [(e & H & ->)|(HO & _)]; [left; reflexivity|].
  right. exists p, d, json. split; [|exact HO]. split; [exact HA|split; [exact HM|eauto]].
Qed.
Lemma set_same fs k c : set_file fs k c k = Some c. Proof. unfold set_file. rewrite (proj2 (str_eqb_eq k k) eq_refl). reflexivity. Qed.
Lemma set_other fs k c k' : k' <> k -> set_file fs k c k' = fs k'.
Proof. intros H. unfold set_file. destruct (str_eqb k' k) eqn:E; [apply str_eqb_eq in E; contradiction|reflexivity]. Qed.
Theorem never_trace version bf w o fs args : r_mode (main version bf w o fs args) <> Some Trace.
Proof.
  destruct (main_cases version bf w o fs args) as [[H ->]|[(ss & rest & H1 & H2 & ->)|[(ss & rest & H1 & H2 & H3 & ->)|[(ss & rest & H1 & H2 & H3 & H4 & ->)|(p & d & HA & H)]]]]; try discriminate.
  destruct H as [(e & H & ->)|(HM & H)]; [discriminate|]. destruct H as [(H & e & ->)|(data & HR & H)]; [discriminate|].
  destruct H as [(H & t & ->)|(json & HT & H)]; [discriminate|].
  rewrite (ready_main version bf w o fs args p d json) by (split; [exact HA|split; [exact HM|eauto]]).
  destruct (os_open o (out_file p d)); [discriminate|]. destruct (os_close o); discriminate.
Qed.
