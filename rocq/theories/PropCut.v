(** Outputs that were cut short: C59. *)
From Verif Require Import Str Schema Utf8Spec Utf8 Utf8Proof JsonSpec GoJson JsonProof JsonUnique ParseKF ParseBytes ParseSpec ParseProof Path FlagSpec Cli CliSpec CliProof CliSteps CliStepsSpec CliStepsProof PropCli PropHist JsonCut Sample.
Local Open Scope N_scope.

(** No beginning of what ToJSON gives, cut at any byte, is a JSON text, of whatever value. *)
Theorem C59_a_beginning_is_not_json : forall bf n c rest, to_json bf n = c ++ rest -> rest <> [] -> forall t v, reads c t -> ~ json_text v t.
Proof.
  intros bf n c rest E Hr t v HR. destruct (to_json_text bf n) as (u & (H1 & H2 & H3) & J). rewrite document_of in J.
  assert (HD : exists m, document (map_node runes n) = JObj m) by (destruct n; eexists; reflexivity). destruct HD as (m & HD). rewrite HD in J.
  eapply (object_cut_bytes m (to_json bf n) u); [rewrite H2, bytes_of_utf8 by exact H1; apply reads_utf8; exact H1|exact J|exact E|exact Hr|exact HR].
Qed.
Print Assumptions C59_a_beginning_is_not_json.
(** Runs on the same files, stopped at any moment: an output that was not there before and is JSON is the whole output. *)
Theorem C59_json_in_a_new_file_is_complete : forall bf w fs0 runs fs ps r p d json, apart runs -> In r runs -> ready bf w (fst r) fs0 (snd r) p d json ->
  let k := resolve (fst r) (out_file p d) in only_this_json bf w fs0 runs k json -> fs0 k = None -> later bf w (fs0, start runs) (fs, ps) ->
  forall c t v, fs k = Some c -> reads c t -> json_text v t -> c = json.
Proof.
  intros bf w fs0 runs fs ps r p d json HA _ HR k HO HN HL c t v EC HT HJ. destruct (C56_a_new_output_is_a_beginning _ _ _ _ _ _ _ _ HA HO HN HL c EC) as (rest & E).
  destruct rest as [|b rest]; [rewrite app_nil_r in E; congruence|]. destruct HR as (_ & _ & data & _ & s & _ & EJ).
  destruct (C59_a_beginning_is_not_json bf (NSchema (map_schema bytes_of s)) c (b :: rest) ltac:(congruence) ltac:(discriminate) t v HT HJ).
Qed.
Print Assumptions C59_json_in_a_new_file_is_complete.
(** A run alone, whatever happened to the write. *)
Theorem C59_one_run : forall version bf w o fs args p d json, ready bf w o fs args p d json -> fs (resolve o (out_file p d)) = None ->
  forall c t v, r_files (main version bf w o fs args) (resolve o (out_file p d)) = Some c -> reads c t -> json_text v t -> c = json.
Proof.
  intros version bf w o fs args p d json HR HN c t v EC HT HJ. rewrite (ready_main version _ _ _ _ _ _ _ _ HR) in EC. rewrite HN in EC.
  assert (E : exists n, c = firstn n json).
  { destruct (os_open o (out_file p d)); [cbn [r_files] in EC; congruence|].
    destruct (os_close o); cbn [r_files] in EC; rewrite set_same, skipn_nil, app_nil_r in EC; injection EC as <-; eauto. }
  destruct E as (n & ->). destruct (skipn n json) as [|b rest] eqn:ES; [rewrite <- (firstn_skipn n json) at 2; rewrite ES, app_nil_r; reflexivity|].
  pose proof (firstn_skipn n json) as E. rewrite ES in E. destruct HR as (_ & _ & data & _ & s & _ & EJ).
  destruct (C59_a_beginning_is_not_json bf (NSchema (map_schema bytes_of s)) (firstn n json) (b :: rest) ltac:(congruence) ltac:(discriminate) t v HT HJ).
Qed.
Print Assumptions C59_one_run.

(** Over an older output it may be a mixture of the two, and JSON. *)
Definition db (n : string) : list N := lit "database " ++ lit n ++ lit ";".
Definition js (n : string) : list N := to_json false (NSchema (Schema [] (lit n) None None None)).
Lemma db_writes n : In n ["aa"%string; "bb"%string] -> accepted sample_world (runes (db n)) (Schema [] (lit n) None None None).
Proof. intros [<-|[<-|[]]]; apply (parse_accepts _ _ Default); vm_compute; reflexivity. Qed.
Theorem C59_json_is_old_or_new_refuted : ~ forall version bf w o fs args p d json old, ready bf w o fs args p d json ->
  fs (resolve o (out_file p d)) = Some old -> (exists data, translates bf w data old) -> r_code (main version bf w o fs args) = 0 ->
  forall c t v, r_files (main version bf w o fs args) (resolve o (out_file p d)) = Some c -> reads c t -> json_text v t -> c = old \/ c = json.
Proof.
  intros H. set (o := Os clean (fun _ => None) (fun _ => None) (fun _ => None) (Some (29%nat, lit "no space left on device")) None).
  set (fs := fun k => if str_eqb k (lit "build/x.json") then Some (js "aa") else Some (db "bb")).
  assert (HR : ready false sample_world o fs [lit "x.kf"] (lit "x.kf") (lit "./build") (js "bb")).
  { split; [|split; [reflexivity|]].
    - exists []. split; [|repeat split]. apply sy_argument; [right; intros r E; discriminate|apply sy_end].
    - exists (db "bb"). split; [split; reflexivity|]. eexists. split; [apply db_writes; cbn; tauto|vm_compute; reflexivity]. }
  assert (HO : resolve o (out_file (lit "x.kf") (lit "./build")) = lit "build/x.json") by (vm_compute; reflexivity).
  destruct (H [] _ _ _ _ _ _ _ _ (js "aa") HR) with (c := js "ba") (t := runes (js "ba")) (v := document (NSchema (Schema [] (lit "ba") None None None))) as [E|E].
  - rewrite HO. reflexivity.
  - exists (db "aa"). eexists. split; [apply db_writes; cbn; tauto|vm_compute; reflexivity].
  - vm_compute. reflexivity.
  - rewrite HO. vm_compute. reflexivity.
  - apply runes_reads.
  - unfold js. exact (proj1 (proj2 (to_json_reads false (NSchema (Schema [] (lit "ba") None None None))))).
  - vm_compute in E. discriminate.
  - vm_compute in E. discriminate.
Qed.
Print Assumptions C59_json_is_old_or_new_refuted.

(** A run that is stopped in the middle of its output: there is a file, and it is not JSON. *)
Example C59_case : let o := Os clean (fun _ => None) (fun _ => None) (fun _ => None) (Some (100%nat, lit "no space left on device")) None in
  ready false sample_world o disk cmd (lit "src/my.db.kf") (lit "out") sample_json /\ disk (resolve o (out_file (lit "src/my.db.kf") (lit "out"))) = None /\
  exists c, r_files (main [] false sample_world o disk cmd) (resolve o (out_file (lit "src/my.db.kf") (lit "out"))) = Some c /\ length c = 100%nat /\ c <> sample_json.
Proof.
  intros o. split; [exact disk_ready|]. rewrite out_disk. split; [reflexivity|]. eexists. split; [vm_compute; reflexivity|]. split; [reflexivity|]. vm_compute. discriminate.
Qed.
