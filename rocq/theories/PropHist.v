(** Runs of the command line program after, before and beside each other, each stopped at any moment: C56. *)
From Verif Require Import Str Schema Utf8Spec Utf8 Utf8Proof JsonSpec GoJson ParseKF ParseBytes ParseSpec ParseProof Path Flags FlagSpec FlagProof Cli CliSpec CliProof CliSteps CliStepsSpec CliStepsProof Sample PropCli.
Local Open Scope N_scope.

(** ** One run alone: the steps lead to what Cli.v says of the whole run, and nowhere else *)
Lemma later_trans bf w s s' s'' : later bf w s s' -> later bf w s' s'' -> later bf w s s''.
Proof. intros H H'. induction H' as [s'|a b c H1 IH H2]; [exact H|]. eapply later_step; [apply IH; exact H|exact H2]. Qed.
Lemma later_one bf w s s' s'' : moves bf w s s' -> later bf w s' s'' -> later bf w s s''.
Proof. intros H. apply later_trans. eapply later_step; [apply later_now|exact H]. Qed.
Lemma moves_alone bf w fs p fs' p' : step bf w fs p = Some (fs', p') -> moves bf w (fs, [p]) (fs', [p']).
Proof. intros H. exact (moves_one bf w fs fs' [] p p' [] H). Qed.
Lemma alone_moves bf w fs p s : moves bf w (fs, [p]) s -> exists fs' p', step bf w fs p = Some (fs', p') /\ s = (fs', [p']).
Proof.
  intros H. remember (fs, [p]) as s0 eqn:E0. destruct H as [a b l q q' r HS]. injection E0 as -> E1.
  assert (EL : length (l ++ q :: r) = 1%nat) by (rewrite E1; reflexivity). rewrite app_length in EL. cbn in EL.
  destruct l; [|cbn in EL; lia]. destruct r; [|cbn in EL; lia]. injection E1 as ->. exists b, q'. auto.
Qed.
Lemma alone_later bf w s s' fs p : later bf w s s' -> s = (fs, [p]) -> exists fs' p', s' = (fs', [p']).
Proof. intros H E. induction H as [s|s a b H1 IH H2]; [eauto|]. destruct (IH E) as (fs' & p' & ->). apply alone_moves in H2 as (fs'' & p'' & _ & ->). eauto. Qed.
Lemma alone_line bf w fs p a b : later bf w (fs, [p]) a -> later bf w (fs, [p]) b -> later bf w a b \/ later bf w b a.
Proof.
  intros HA HB. remember (fs, [p]) as s0 eqn:E0. revert HA. induction HB as [|s c d H1 IH H2]; intros HA; [right; exact HA|]. destruct (IH E0 HA) as [H|H].
  - left. eapply later_step; eassumption.
  - destruct (alone_later _ _ _ _ _ _ H1 E0) as (fs' & p' & ->).
    apply alone_moves in H2 as (fs'' & p'' & HS & ->).
    assert (G : forall s s', later bf w s s' -> s = (fs', [p']) -> s' = s \/ later bf w (fs'', [p'']) s').
    { intros s0 s1 HL. induction HL as [s0|s0 x y L1 IHL L2]; intros E; [left; reflexivity|]. destruct (IHL E) as [->|HL].
      - rewrite E in L2. apply alone_moves in L2 as (fs4 & p4 & HS' & ->). rewrite HS in HS'. injection HS' as <- <-. right. apply later_now.
      - right. eapply later_step; eassumption. }
    destruct (G _ _ H eq_refl) as [->|HL]; [left|right; exact HL]. eapply later_step; [apply later_now|apply moves_alone; exact HS].
Qed.
Lemma write_all bf w o args out json old : forall m n fs, (m + n = limit o json)%nat -> fs (resolve o out) = Some (written_over n json old) ->
  exists fs', later bf w (fs, [Process o args (Writing out json n)]) (fs', [Process o args (Writing out json (limit o json))]) /\
    fs' (resolve o out) = Some (written_over (limit o json) json old) /\ forall k, k <> resolve o out -> fs' k = fs k.
Proof.
  pose proof (limit_le o json) as LL. induction m as [|m IH]; intros n fs E EF.
  - cbn in E. subst n. exists fs. split; [apply later_now|]. auto.
  - destruct (IH (S n) (set_file fs (resolve o out) (put (content fs (resolve o out)) n (nth n json 0)))) as (fs' & H1 & H2 & H3); [lia| |].
    + rewrite set_same. unfold content. rewrite EF. rewrite put_over_same by lia. reflexivity.
    + exists fs'. split; [|split; [exact H2|intros k Hk; rewrite H3 by exact Hk; apply set_other; exact Hk]].
      eapply later_one; [apply moves_alone|exact H1]. unfold step. cbn [p_at p_os p_args]. rewrite (proj2 (Nat.ltb_lt n (limit o json))) by lia. reflexivity.
Qed.
Lemma alone_reaches version bf w o fs args :
  exists fs', later bf w (fs, start [(o, args)]) (fs', [Process o args (Ended (r_code (main version bf w o fs args)))]) /\
    forall k, fs' k = r_files (main version bf w o fs args) k.
Proof.
  pose proof (main_before version bf w o fs args) as MB. change (start [(o, args)]) with [Process o args Begun].
  assert (S1 : moves bf w (fs, [Process o args Begun]) (fs, [Process o args (before_write bf w o fs args)])) by (apply moves_alone; reflexivity).
  destruct (before_write bf w o fs args) as [|out json| |c] eqn:EB; [destruct MB| |destruct MB|].
  2: { destruct MB as [-> ->]. exists fs. split; [eapply later_one; [exact S1|apply later_now]|reflexivity]. }
  destruct MB as (p & d & HR & ->). pose proof (ready_main version _ _ _ _ _ _ _ _ HR) as EM. cbn zeta in EM. set (out := out_file p d) in *.
  destruct (os_open o out) as [e|] eqn:EO.
  - rewrite EM. exists fs. split; [|reflexivity]. eapply later_one; [exact S1|]. eapply later_one; [apply moves_alone; unfold step; cbn [p_at p_os p_args]; rewrite EO; reflexivity|apply later_now].
  - set (fs1 := set_file fs (resolve o out) (content fs (resolve o out))).
    destruct (write_all bf w o args out json (content fs (resolve o out)) (limit o json) 0 fs1) as (fs' & H1 & H2 & H3); [lia|unfold fs1; rewrite set_same; reflexivity|].
    exists fs'. split.
    + eapply later_one; [exact S1|]. eapply later_one; [apply moves_alone; unfold step; cbn [p_at p_os p_args]; rewrite EO; reflexivity|].
      eapply later_step; [exact H1|]. apply moves_alone. unfold step. cbn [p_at p_os p_args]. rewrite Nat.ltb_irrefl. rewrite EM. destruct (os_close o); reflexivity.
    + intros k. assert (E : r_files (main version bf w o fs args) = set_file fs (resolve o out) (written_over (limit o json) json (content fs (resolve o out)))).
      { rewrite EM. unfold written_over, limit, content. destruct (os_close o); reflexivity. }
      rewrite E. destruct (str_eqb k (resolve o out)) eqn:EK.
      * apply str_eqb_eq in EK. subst k. rewrite H2, set_same. reflexivity.
      * assert (Hk : k <> resolve o out) by (intros X; apply str_eqb_eq in X; congruence). rewrite H3 by exact Hk. unfold fs1. rewrite !set_other by exact Hk. reflexivity.
Qed.

(** ** C56 *)
(** A run left alone ends, with the exit code and the files of Cli.v. *)
Theorem C56_alone_it_is_the_run : forall version bf w o fs args,
  (exists fs', later bf w (fs, start [(o, args)]) (fs', [Process o args (Ended (r_code (main version bf w o fs args)))])) /\
  forall fs' c, later bf w (fs, start [(o, args)]) (fs', [Process o args (Ended c)]) ->
    c = r_code (main version bf w o fs args) /\ forall k, fs' k = r_files (main version bf w o fs args) k.
Proof.
  intros version bf w o fs args. destruct (alone_reaches version bf w o fs args) as (fs1 & H1 & H2). split; [eauto|]. intros fs' c H.
  assert (ST : forall f c s, later bf w (f, [Process o args (Ended c)]) s -> s = (f, [Process o args (Ended c)])).
  { intros f c0 s HL. remember (f, [Process o args (Ended c0)]) as s0 eqn:E. induction HL as [|s0 a b L1 IH L2]; [reflexivity|]. rewrite (IH E) in L2. rewrite E in L2.
    apply alone_moves in L2 as (? & ? & X & _). discriminate X. }
  destruct (alone_line bf w fs _ _ _ H1 H) as [HL|HL]; apply ST in HL; injection HL as E1 E2; subst; auto.
Qed.
Print Assumptions C56_alone_it_is_the_run.

(** At any moment of any number of runs an output file is as it was, or starts with a part of the JSON, its remaining bytes as they were. *)
Theorem C56_the_output_at_any_moment : forall bf w fs0 runs fs ps k json, apart runs -> only_this_json bf w fs0 runs k json ->
  later bf w (fs0, start runs) (fs, ps) ->
  fs k = fs0 k \/ exists n, (n <= length json)%nat /\ fs k = Some (written_over n json (content fs0 k)).
Proof.
  intros bf w fs0 runs fs ps k json HA HJ HL. apply inv_later in HL as (_ & _ & H); [|exact HA]. destruct (H k) as [_ K].
  destruct (K json HJ) as [[_ E]|(n & A & B & _)]; [left; exact E|right; exists n; auto].
Qed.
Print Assumptions C56_the_output_at_any_moment.
(** So an output file that was not there is still not there, or holds the beginning of the JSON. *)
Theorem C56_a_new_output_is_a_beginning : forall bf w fs0 runs fs ps k json, apart runs -> only_this_json bf w fs0 runs k json -> fs0 k = None ->
  later bf w (fs0, start runs) (fs, ps) -> forall c, fs k = Some c -> exists rest, json = c ++ rest.
Proof.
  intros bf w fs0 runs fs ps k json HA HJ HN HL c EC. destruct (C56_the_output_at_any_moment _ _ _ _ _ _ _ _ HA HJ HL) as [E|(n & Hn & E)]; [congruence|].
  rewrite EC in E. injection E as ->. unfold content. rewrite HN, over_nil. exists (skipn n json). symmetry. apply firstn_skipn.
Qed.
Print Assumptions C56_a_new_output_is_a_beginning.

(** Files no run is to write stay as they were, the inputs among them. *)
Theorem C56_nothing_else_changes : forall bf w fs0 runs fs ps, apart runs -> later bf w (fs0, start runs) (fs, ps) ->
  forall k, an_input runs k \/ ~ an_output runs k -> fs k = fs0 k.
Proof. intros bf w fs0 runs fs ps HA HL k HK. apply inv_later in HL as (_ & _ & H); [|exact HA]. apply H. destruct HK as [HK|HK]; [apply HA; exact HK|exact HK]. Qed.
Print Assumptions C56_nothing_else_changes.

(** The exit code of a run does not depend on the others nor on when it runs. *)
Theorem C56_exit_code_as_if_alone : forall version bf w fs0 runs fs ps i o args c, apart runs -> later bf w (fs0, start runs) (fs, ps) ->
  nth_error runs i = Some (o, args) -> nth_error ps i = Some (Process o args (Ended c)) -> c = r_code (main version bf w o fs0 args).
Proof.
  intros version bf w fs0 runs fs ps i o args c HA HL _ HP. apply inv_later in HL as (_ & H & _); [|exact HA]. symmetry. apply exit_code.
  exact (H _ (nth_error_In _ _ HP)).
Qed.
Print Assumptions C56_exit_code_as_if_alone.
Theorem C56_runs_keep_their_places : forall bf w fs0 runs fs ps i o args, apart runs -> later bf w (fs0, start runs) (fs, ps) ->
  nth_error runs i = Some (o, args) -> exists at_, nth_error ps i = Some (Process o args at_).
Proof.
  intros bf w fs0 runs fs ps i o args HA HL HR. apply inv_later in HL as (H & _ & _); [|exact HA]. cbn [snd] in H. rewrite <- H in HR. rewrite nth_error_map in HR.
  destruct (nth_error ps i) as [[o' a' at_]|]; [|discriminate]. injection HR as <- <-. eauto.
Qed.
Print Assumptions C56_runs_keep_their_places.

(** Once one run has ended whose writes succeeded, the whole JSON is there, whatever the others have done or still do. *)
Theorem C56_one_good_run_suffices : forall bf w fs0 runs fs ps i o args p d json c, apart runs -> only_this_json bf w fs0 runs (resolve o (out_file p d)) json ->
  later bf w (fs0, start runs) (fs, ps) -> nth_error runs i = Some (o, args) -> nth_error ps i = Some (Process o args (Ended c)) ->
  ready bf w o fs0 args p d json -> os_open o (out_file p d) = None -> os_write o = None ->
  fs (resolve o (out_file p d)) = Some (json ++ skipn (length json) (content fs0 (resolve o (out_file p d)))).
Proof.
  intros bf w fs0 runs fs ps i o args p d json c HA HJ HL HR HP HRd HO HWr. apply inv_later in HL as (_ & _ & H); [|exact HA]. destruct (H (resolve o (out_file p d))) as [_ K].
  assert (HH : has_written bf w fs0 (Process o args (Ended c)) (resolve o (out_file p d)) (length json) json).
  { exists p, d. cbn [p_os p_args]. unfold limit. rewrite HWr. auto. }
  apply nth_error_In in HP. cbn [fst snd] in *. destruct (K json HJ) as [[A _]|(n & A & B & _ & D)]; [destruct (A _ _ _ HP HH)|].
  pose proof (D _ _ _ HP HH) as Hn. assert (n = length json) as -> by lia. rewrite B. unfold written_over. rewrite firstn_all. reflexivity.
Qed.
Print Assumptions C56_one_good_run_suffices.

(** After any history, with runs stopped anywhere, a run without faults makes the output whole. *)
Theorem C56_running_again_repairs : forall version bf w fs0 runs fs ps o args p d json, apart ((o, args) :: runs) ->
  only_this_json bf w fs0 runs (resolve o (out_file p d)) json -> later bf w (fs0, start runs) (fs, ps) ->
  ready bf w o fs0 args p d json -> os_open o (out_file p d) = None -> os_write o = None ->
  (forall old, fs0 (resolve o (out_file p d)) = Some old -> (length old <= length json)%nat) ->
  r_files (main version bf w o fs args) (resolve o (out_file p d)) = Some json.
Proof.
  intros version bf w fs0 runs fs ps o args p d json HA HJ HL HR HO HWr HN.
  assert (HA' : apart runs). { intros k (r & q & e & H1 & H2) (r' & q' & e' & H1' & H2'). apply (HA k); [exists r, q, e|exists r', q', e']; cbn [In]; auto. }
  apply (C27_exactly_the_json version _ _ _ _ _ _ _ _); [|exact HO|exact HWr|].
  - destruct HR as (HAs & HM & data & (HR1 & HR2) & HT). split; [exact HAs|]. split; [exact HM|]. exists data. split; [|exact HT]. split; [exact HR1|].
    rewrite <- HR2. apply (C56_nothing_else_changes bf w fs0 runs fs ps HA' HL). right. intros (r & q & e & H1 & H2 & H3).
    apply (HA (resolve o p)); [exists (o, args), p, d; cbn [In]; auto|]. exists r, q, e. cbn [In]. auto.
  - intros old E. destruct (C56_the_output_at_any_moment _ _ _ _ _ _ _ _ HA' HJ HL) as [E'|(n & Hn & E')].
    + apply HN. congruence.
    + rewrite E in E'. injection E' as ->. rewrite over_length by exact Hn. unfold content. destruct (fs0 (resolve o (out_file p d))) as [x|] eqn:EX; [pose proof (HN x eq_refl); lia|cbn; lia].
Qed.
Print Assumptions C56_running_again_repairs.

(** ** Cases *)
(** A schedule: which run makes the next step. *)
Fixpoint replace (i : nat) (p : process) (ps : list process) : list process :=
  match ps, i with [], _ => [] | _ :: ps, O => p :: ps | q :: ps, S i => q :: replace i p ps end.
Fixpoint follow (bf : bool) (w : world) (order : list nat) (s : system) : system :=
  match order with
  | [] => s
  | i :: order => match nth_error (snd s) i with
                  | Some p => match step bf w (fst s) p with Some (fs', p') => follow bf w order (fs', replace i p' (snd s)) | None => follow bf w order s end
                  | None => follow bf w order s
                  end
  end.
Lemma replace_mid p p' ps : forall i, nth_error ps i = Some p -> exists l r, ps = l ++ p :: r /\ replace i p' ps = l ++ p' :: r.
Proof.
  induction ps as [|q ps IH]; intros [|i] H; cbn in *; [discriminate|discriminate|injection H as ->; exists [], ps; auto|].
  destruct (IH i H) as (l & r & -> & E). exists (q :: l), r. rewrite E. auto.
Qed.
Lemma follow_later bf w order : forall s, later bf w s (follow bf w order s).
Proof.
  induction order as [|i order IH]; intros [fs ps]; [apply later_now|]. cbn [follow fst snd]. destruct (nth_error ps i) as [p|] eqn:EI; [|apply IH].
  destruct (step bf w fs p) as [[fs' p']|] eqn:ES; [|apply IH]. destruct (replace_mid p p' ps i EI) as (l & r & -> & ->).
  eapply later_one; [apply moves_one; exact ES|apply IH].
Qed.

(** Two runs of the same command at the same time, the first killed after ten bytes; a third, on a full disk, has not begun. *)
Definition full : os := Os clean (fun _ => None) (fun _ => None) (fun _ => None) (Some (3%nat, lit "no space left on device")) None.
Definition three : list (os * list (list N)) := [(fine, cmd); (fine, cmd); (full, cmd)].
Definition order_of_three : list nat := repeat 0%nat 8 ++ repeat 1%nat 5 ++ repeat 0%nat 4 ++ repeat 1%nat (4 + length sample_json).
Lemma cmd_asks : asks cmd (lit "src/my.db.kf") (lit "out"). Proof. exact (proj1 disk_ready). Qed.
Lemma three_apart : apart three.
Proof.
  intros k (r & p & d & H1 & H2 & ->) (r' & p' & d' & H1' & H2' & E).
  assert (HC : forall r, In r three -> snd r = cmd /\ resolve (fst r) = clean) by (intros x [<-|[<-|[<-|[]]]]; auto).
  destruct (HC _ H1) as [E1 E2], (HC _ H1') as [E1' E2']. rewrite E1 in H2. rewrite E1' in H2'.
  destruct (asks_fun _ _ _ _ _ H2 cmd_asks) as [-> ->]. destruct (asks_fun _ _ _ _ _ H2' cmd_asks) as [-> ->]. rewrite E2, E2' in E. revert E. vm_compute. discriminate.
Qed.
Lemma three_json : only_this_json false sample_world disk three (lit "out/my.db.json") sample_json.
Proof.
  intros r p d j H HR _. assert (R : ready false sample_world fine disk cmd p d j).
  { destruct H as [<-|[<-|[<-|[]]]]; exact HR. }
  destruct (ready_fun _ _ _ _ _ _ _ _ _ _ _ R disk_ready) as (_ & _ & E). exact E.
Qed.
Example C56_case : exists fs ps, later false sample_world (disk, start three) (fs, ps) /\
  map p_at ps = [Writing (lit "out/my.db.json") sample_json 10; Ended 0; Begun] /\ fs (lit "out/my.db.json") = Some sample_json.
Proof.
  pose proof (follow_later false sample_world order_of_three (disk, start three)) as H. destruct (follow false sample_world order_of_three (disk, start three)) as [fs ps] eqn:E.
  exists fs, ps. split; [exact H|]. assert (E' : map p_at (snd (follow false sample_world order_of_three (disk, start three))) = [Writing (lit "out/my.db.json") sample_json 10; Ended 0; Begun] /\
    fst (follow false sample_world order_of_three (disk, start three)) (lit "out/my.db.json") = Some sample_json) by (vm_compute; auto).
  rewrite E in E'. exact E'.
Qed.
(** Killed after ten bytes, then on a full disk (success reported), then repaired. *)
Example C56_case_repaired : exists fs ps, later false sample_world (disk, start three) (fs, ps) /\
  map p_at ps = [Writing (lit "out/my.db.json") sample_json 10; Begun; Ended 0] /\ fs (lit "out/my.db.json") = Some (firstn 10 sample_json) /\
  r_files (main [] false sample_world fine fs cmd) (lit "out/my.db.json") = Some sample_json.
Proof.
  pose proof (follow_later false sample_world (repeat 0%nat 12 ++ repeat 2%nat 9) (disk, start three)) as H.
  destruct (follow false sample_world (repeat 0%nat 12 ++ repeat 2%nat 9) (disk, start three)) as [fs ps] eqn:E.
  exists fs, ps. split; [exact H|].
  assert (E' : map p_at (snd (follow false sample_world (repeat 0%nat 12 ++ repeat 2%nat 9) (disk, start three))) = [Writing (lit "out/my.db.json") sample_json 10; Begun; Ended 0] /\
    fst (follow false sample_world (repeat 0%nat 12 ++ repeat 2%nat 9) (disk, start three)) (lit "out/my.db.json") = Some (firstn 10 sample_json)) by (vm_compute; auto).
  rewrite E in E'. destruct E' as [E1 E2]. split; [exact E1|]. split; [exact E2|].
  change (lit "out/my.db.json") with (resolve fine (lit "out/my.db.json")). rewrite <- out_disk.
  apply (C56_running_again_repairs [] false sample_world disk three fs ps).
  - intros k (r & p & d & H1 & H2) (r' & p' & d' & H1' & H2'). apply (three_apart k); [exists r, p, d|exists r', p', d'].
    + split; [destruct H1 as [<-|H1]; [left; reflexivity|exact H1]|exact H2].
    + split; [destruct H1' as [<-|H1']; [left; reflexivity|exact H1']|exact H2'].
  - rewrite out_disk. exact three_json.
  - exact H.
  - exact disk_ready.
  - reflexivity.
  - reflexivity.
  - rewrite out_disk. intros old EO. exfalso. revert EO. vm_compute. discriminate.
Qed.

(** ** Two things one might hope for *)
(** The input is not safe: with -o . the file a.json is translated into itself. *)
Definition self : files := fun k => if str_eqb k (lit "a.json") then Some (lit "database ab; table t {c int}") else None.
Theorem C56_input_is_kept_refuted : ~ forall version bf w o fs args p d, asks args p d -> r_files (main version bf w o fs args) (resolve o p) = fs (resolve o p).
Proof.
  intros H. assert (HA : asks [lit "a.json"; lit "-o"; lit "."] (lit "a.json") (lit ".")).
  { exists [SetOutput (lit ".")]. split; [|repeat split]. apply sy_argument; [right; intros r E; discriminate|].
    apply (sy_letters 111 [] [lit "."] [SetOutput (lit ".")] [] [] []); [discriminate|apply le_output_next|apply sy_end]. }
  specialize (H [] false sample_world fine self _ _ _ HA). revert H. vm_compute. discriminate.
Qed.
Print Assumptions C56_input_is_kept_refuted.
(** Two runs with outputs of the same name, at the same time: both succeed, and the file holds a schema neither input declares. *)
Definition pair_disk : files := fun k => if str_eqb k (lit "x/a.kf") then Some (lit "database ab; table t {c int}")
                                         else if str_eqb k (lit "y/a.kf") then Some (lit "database cd; table u {c int}") else None.
Definition pair : list (os * list (list N)) := [(fine, [lit "x/a.kf"]); (fine, [lit "y/a.kf"])].
Definition json_of (t : list N) : list N := match o_result (parse_bytes sample_world t [] Default) with Some s => to_json false (NSchema s) | None => [] end.
Theorem C56_one_of_the_inputs_refuted : ~ forall bf w fs0 runs fs ps k, apart runs -> fs0 k = None ->
  (forall o args, In (o, args) runs -> os_write o = None) -> later bf w (fs0, start runs) (fs, ps) -> (forall p, In p ps -> p_at p = Ended 0) ->
  forall c, fs k = Some c -> exists o args p d, In (o, args) runs /\ ready bf w o fs0 args p d c.
Proof.
  intros H. set (order := repeat 0%nat 42 ++ repeat 1%nat 180 ++ repeat 0%nat 138). set (k := lit "build/a.json").
  set (mixed := json_of (lit "database cd; table t {c int}")).
  assert (AX : asks [lit "x/a.kf"] (lit "x/a.kf") (lit "./build")) by (exists []; split; [apply sy_argument; [right; intros r E; discriminate|apply sy_end]|repeat split]).
  assert (AY : asks [lit "y/a.kf"] (lit "y/a.kf") (lit "./build")) by (exists []; split; [apply sy_argument; [right; intros r E; discriminate|apply sy_end]|repeat split]).
  assert (HAp : apart pair).
  { intros k' (r & p & d & H1 & H2 & ->) (r' & p' & d' & H1' & H2' & E).
    assert (HI : resolve (fst r) p = lit "x/a.kf" \/ resolve (fst r) p = lit "y/a.kf").
    { destruct H1 as [<-|[<-|[]]]; cbn [fst snd] in *; [destruct (asks_fun _ _ _ _ _ H2 AX) as [-> _]; left|destruct (asks_fun _ _ _ _ _ H2 AY) as [-> _]; right]; vm_compute; reflexivity. }
    assert (HO : resolve (fst r') (out_file p' d') = k).
    { destruct H1' as [<-|[<-|[]]]; cbn [fst snd] in *; [destruct (asks_fun _ _ _ _ _ H2' AX) as [-> ->]|destruct (asks_fun _ _ _ _ _ H2' AY) as [-> ->]]; vm_compute; reflexivity. }
    rewrite HO in E. destruct HI as [HI|HI]; rewrite HI in E; revert E; vm_compute; discriminate. }
  pose proof (follow_later false sample_world order (pair_disk, start pair)) as HL.
  assert (HE : map p_at (snd (follow false sample_world order (pair_disk, start pair))) = [Ended 0; Ended 0] /\
    fst (follow false sample_world order (pair_disk, start pair)) k = Some mixed) by (vm_compute; auto).
  destruct (follow false sample_world order (pair_disk, start pair)) as [fs ps]. destruct HE as [E1 E2]. cbn [fst snd] in *.
  destruct (H false sample_world pair_disk pair fs ps k HAp) with (c := mixed) as (o & args & p & d & HI & HR); try assumption.
  - vm_compute. reflexivity.
  - intros o args [E|[E|[]]]; injection E as <- <-; reflexivity.
  - intros p HP. apply (in_map p_at) in HP. rewrite E1 in HP. destruct HP as [<-|[<-|[]]]; reflexivity.
  - pose proof (ready_before _ _ _ _ _ _ _ _ HR) as EB. destruct HI as [E|[E|[]]]; injection E as <- <-; revert EB; vm_compute; discriminate.
Qed.
Print Assumptions C56_one_of_the_inputs_refuted.
