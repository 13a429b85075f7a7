From Verif Require Import Str Schema Utf8 JsonSpec GoJson ParseKF ParseBytes ParseSpec ParseProof Outcomes Path Flags Cli FlagSpec FlagProof CliSpec CliProof CliSteps CliStepsSpec.
Local Open Scope N_scope.

(** The part before the write, and the whole. *)
Lemma main_before version bf w o fs args :
  match before_write bf w o fs args with
  | Ended c => r_code (main version bf w o fs args) = c /\ r_files (main version bf w o fs args) = fs
  | Opening out json => exists p d, ready bf w o fs args p d json /\ out = out_file p d
  | _ => False
  end.
Proof.
  unfold before_write, main. destruct (command_line args) as [| |v rest] eqn:EC; [split; reflexivity|split; reflexivity|].
  unfold run_command. destruct (v_version v) eqn:EV; [split; reflexivity|]. destruct rest as [|p [|q rest]]; [split; reflexivity| |split; reflexivity].
  destruct (os_mkdir o (v_output v)) eqn:EM; [split; reflexivity|]. destruct (read_file o fs p) as [data|e] eqn:ER; [|split; reflexivity].
  destruct (parse_bytes_cases w data (if v_trace v then Trace else Default)) as [(s & HA & EP)|[HA EP]].
  - rewrite EP. cbn [no_error o_listener o_result negb]. exists p, (v_output v). split; [|reflexivity].
    destruct (proj1 (proj2 (proj2 (command_line_iff args)) v [p]) EC) as (ss & HS & HH & HV). subst v. cbn [v_output v_version] in *.
    split; [exists ss; auto|]. split; [exact EM|]. exists data. unfold read_file in ER. unfold readable.
    destruct (os_read o p); [discriminate|]. destruct (fs (resolve o p)); [|discriminate]. injection ER as ->. split; [auto|]. exists s. auto.
  - rewrite EP. split; reflexivity.
Qed.
Lemma ready_before bf w o fs args p d json : ready bf w o fs args p d json -> before_write bf w o fs args = Opening (out_file p d) json.
Proof.
  intros HR. pose proof (main_before [] bf w o fs args) as H. pose proof (ready_main [] _ _ _ _ _ _ _ _ HR) as E. cbn zeta in E.
  destruct HR as (HA & HM & data & (HR1 & HR2) & HT). apply asks_run in HA as (tr & EC). unfold before_write. rewrite EC. cbn [v_version v_output v_trace].
  rewrite HM. unfold read_file. rewrite HR1, HR2. destruct (parse_bytes_cases w data Default) as [(s & HA & EP)|[HA _]].
  2: { destruct HT as (s & HT & _). destruct (HA s HT). }
  rewrite EP. cbn [no_error o_listener o_result negb].
  rewrite (translates_fun _ _ _ (to_json bf (NSchema (map_schema bytes_of s))) json (ex_intro _ s (conj HA eq_refl)) HT). reflexivity.
Qed.
Lemma before_same bf w o fs fs' args : (forall p d, asks args p d -> fs (resolve o p) = fs' (resolve o p)) -> before_write bf w o fs args = before_write bf w o fs' args.
Proof.
  intros H. unfold before_write. destruct (command_line args) as [| |v rest] eqn:EC; [reflexivity|reflexivity|]. destruct (v_version v) eqn:EV; [reflexivity|].
  destruct rest as [|p [|q rest]]; [reflexivity| |reflexivity]. destruct (os_mkdir o (v_output v)); [reflexivity|]. unfold read_file.
  rewrite (H p (v_output v)); [reflexivity|]. destruct (proj1 (proj2 (proj2 (command_line_iff args)) v [p]) EC) as (ss & HS & HH & HV). subst v.
  cbn [v_output v_version] in *. exists ss. auto.
Qed.

(** Writing byte by byte. *)
Lemma skipn_skipn (a b : nat) (l : list N) : skipn a (skipn b l) = skipn (b + a) l.
Proof. revert l. induction b as [|b IH]; intros l; [reflexivity|]. destruct l as [|x l]; [rewrite !skipn_nil; reflexivity|]. cbn [Nat.add skipn]. apply IH. Qed.
Lemma over_nil json n : written_over n json [] = firstn n json. Proof. unfold written_over. rewrite skipn_nil, app_nil_r. reflexivity. Qed.
Lemma over_0 json old : written_over 0 json old = old. Proof. reflexivity. Qed.
Lemma over_length n json old : (n <= length json)%nat -> (length (written_over n json old) = Nat.max n (length old))%nat.
Proof. intros H. unfold written_over. rewrite app_length, firstn_length, skipn_length. lia. Qed.
Lemma firstn_S_nth (l : list N) n x : (n < length l)%nat -> firstn (S n) l = firstn n l ++ [nth n l x].
Proof. revert n. induction l as [|a l IH]; intros [|n] H; cbn in *; [lia|lia|reflexivity|]. rewrite <- IH by lia. reflexivity. Qed.
Lemma firstn_over n m json old : (n <= m)%nat -> (m <= length json)%nat -> firstn n (written_over m json old) = firstn n json.
Proof.
  intros H1 H2. unfold written_over. rewrite firstn_app, firstn_firstn, firstn_length.
  replace (n - Nat.min m (length json))%nat with 0%nat by lia. rewrite firstn_O, app_nil_r. f_equal. lia.
Qed.
Lemma skipn_over n m json old : (m <= n)%nat -> (m <= length json)%nat -> skipn n (written_over m json old) = skipn n old.
Proof.
  intros H1 H2. unfold written_over. rewrite skipn_app, firstn_length. rewrite skipn_all2 by (rewrite firstn_length; lia). cbn [app].
  rewrite skipn_skipn. f_equal. lia.
Qed.
Lemma put_over_less n m json old : (n < m)%nat -> (m <= length json)%nat -> put (written_over m json old) n (nth n json 0) = written_over m json old.
Proof.
  intros H1 H2. unfold put. rewrite firstn_over by lia. transitivity (firstn (S n) (written_over m json old) ++ skipn (S n) (written_over m json old)); [|apply firstn_skipn].
  rewrite firstn_over by lia. rewrite (firstn_S_nth json n 0) by lia. rewrite <- app_assoc. reflexivity.
Qed.
Lemma put_over_same m json old : (m < length json)%nat -> put (written_over m json old) m (nth m json 0) = written_over (S m) json old.
Proof.
  intros H. unfold put. rewrite firstn_over by lia. rewrite skipn_over by lia. unfold written_over. rewrite (firstn_S_nth json m 0) by lia.
  rewrite <- app_assoc. reflexivity.
Qed.
Lemma limit_le o json : (limit o json <= length json)%nat. Proof. unfold limit. destruct (os_write o) as [[n e]|]; lia. Qed.

(** The files at any moment. *)
Section Moments.
Variable bf : bool.
Variable w : world.
Variable fs0 : files.
Variable runs : list (os * list (list N)).
Hypothesis HA : apart runs.

Definition run_of (P : process) : os * list (list N) := (p_os P, p_args P).
(** [P] has opened file [k] and written [n] bytes of [json] to it. *)
Definition has_written (P : process) (k : list N) (n : nat) (json : list N) : Prop :=
  match p_at P with
  | Writing out j m => resolve (p_os P) out = k /\ m = n /\ j = json
  | Ended _ => exists p d, ready bf w (p_os P) fs0 (p_args P) p d json /\ os_open (p_os P) (out_file p d) = None /\
                 resolve (p_os P) (out_file p d) = k /\ n = limit (p_os P) json
  | _ => False
  end.
Definition proc_ok (P : process) : Prop :=
  match p_at P with
  | Begun => True
  | Opening out j => exists p d, ready bf w (p_os P) fs0 (p_args P) p d j /\ out = out_file p d
  | Writing out j n => exists p d, ready bf w (p_os P) fs0 (p_args P) p d j /\ out = out_file p d /\ os_open (p_os P) out = None /\ (n <= limit (p_os P) j)%nat
  | Ended c => exits bf w (p_os P) fs0 (p_args P) c
  end.
Definition file_ok (fs : files) (ps : list process) (k : list N) : Prop :=
  (~ an_output runs k -> fs k = fs0 k) /\
  forall json, only_this_json bf w fs0 runs k json ->
    ((forall P n j, In P ps -> ~ has_written P k n j) /\ fs k = fs0 k) \/
    exists n, (n <= length json)%nat /\ fs k = Some (written_over n json (content fs0 k)) /\ (exists P, In P ps /\ has_written P k n json) /\
      forall P m j, In P ps -> has_written P k m j -> (m <= n)%nat.
Definition inv (s : system) : Prop :=
  map run_of (snd s) = runs /\ (forall P, In P (snd s) -> proc_ok P) /\ forall k, file_ok (fst s) (snd s) k.

Lemma in_mid (Q p : process) l r : In Q (l ++ p :: r) <-> Q = p \/ In Q (l ++ r).
Proof. rewrite !in_app_iff. cbn [In]. intuition congruence. Qed.

Lemma file_ok_same fs fs' l p p' r k : file_ok fs (l ++ p :: r) k -> fs' k = fs k ->
  (forall m j, has_written p' k m j <-> has_written p k m j) -> file_ok fs' (l ++ p' :: r) k.
Proof.
  intros [H1 H2] E HH. split; [intros H; rewrite E; auto|]. intros json HJ. rewrite E. destruct (H2 json HJ) as [[A B]|(n & A & B & (Q & C1 & C2) & D)].
  - left. split; [|exact B]. intros Q n j HQ. apply in_mid in HQ as [-> | HQ].
    + rewrite HH. apply A. apply in_mid. auto.
    + apply A. apply in_mid. auto.
  - right. exists n. split; [exact A|]. split; [exact B|]. split.
    + apply in_mid in C1 as [-> | C1]; [exists p'; split; [apply in_mid; auto|apply HH; exact C2]|exists Q; split; [apply in_mid; auto|exact C2]].
    + intros Q' m j HQ. apply in_mid in HQ as [-> | HQ]; [rewrite HH; apply D; apply in_mid; auto|apply D; apply in_mid; auto].
Qed.

Lemma input_kept fs ps P p d : (forall k, file_ok fs ps k) -> In (run_of P) runs -> asks (p_args P) p d -> fs (resolve (p_os P) p) = fs0 (resolve (p_os P) p).
Proof. intros H HI HS. apply H. apply HA. exists (run_of P), p, d. auto. Qed.

Lemma no_write_change P P' : (forall k m j, ~ has_written P k m j) -> (forall k m j, ~ has_written P' k m j) -> forall k m j, has_written P' k m j <-> has_written P k m j.
Proof. intros H H' k m j. split; intros X; [destruct (H' _ _ _ X)|destruct (H _ _ _ X)]. Qed.

Lemma inv_moves s s' : inv s -> moves bf w s s' -> inv s'.
Proof.
  intros (I1 & I2 & I3) HM. destruct HM as [fs fs' l p p' r HS]. cbn [fst snd] in *.
  assert (HIn : In (run_of p) runs) by (rewrite <- I1; apply in_map; apply in_mid; auto).
  assert (HP : proc_ok p) by (apply I2; apply in_mid; auto).
  assert (ER : run_of p' = run_of p).
  { unfold step in HS. destruct p as [o args at_]. cbn [p_os p_args p_at] in HS.
    destruct at_; [|destruct (os_open o out)|destruct (n <? limit o json)%nat|discriminate]; injection HS as _ <-; reflexivity. }
  assert (G : proc_ok p' /\ forall k, file_ok fs' (l ++ p' :: r) k).
  2: { destruct G as [G1 G2]. split; [cbn [snd]; rewrite <- I1, !map_app; cbn [map]; rewrite ER; reflexivity|]. split; [|exact G2].
       cbn [snd]. intros Q HQ. apply in_mid in HQ as [-> | HQ]; [exact G1|apply I2; apply in_mid; auto]. }
  clear ER. unfold step in HS. destruct p as [o args at_]. cbn [p_os p_args p_at] in HS. destruct at_ as [|out json|out json n|c].
  - injection HS as <- <-.
    assert (EB : before_write bf w o fs args = before_write bf w o fs0 args).
    { apply before_same. intros p d HS. exact (input_kept _ _ (Process o args Begun) p d I3 HIn HS). }
    rewrite EB. pose proof (main_before [] bf w o fs0 args) as MB. split.
    + unfold proc_ok. cbn [p_at p_os p_args]. destruct (before_write bf w o fs0 args); [exact I|exact MB|destruct MB|]. destruct MB as [MB _]. apply (exit_code []). exact MB.
    + intros k. apply (file_ok_same fs fs l _ _ r k (I3 k) eq_refl). apply no_write_change; intros k' m j; [intros []|].
      intros HH. unfold has_written in HH. cbn [p_at p_os p_args] in HH. destruct (before_write bf w o fs0 args) eqn:EQ; try contradiction.
      destruct HH as (p & d & HR & _). apply ready_before in HR. congruence.
  - destruct HP as (p & d & HR & ->). cbn [p_os p_args] in HR. destruct (os_open o (out_file p d)) as [e|] eqn:EO.
    + injection HS as <- <-. split.
      * cbn. eapply ex_open; [exact HR|congruence].
      * intros k. apply (file_ok_same fs fs l _ _ r k (I3 k) eq_refl). apply no_write_change; intros k' m j; [intros []|].
        intros (p' & d' & HR' & EO' & _). cbn [p_os p_args] in *. destruct (ready_fun _ _ _ _ _ _ _ _ _ _ _ HR HR') as (<- & <- & _). congruence.
    + injection HS as <- <-. split; [exact (ex_intro _ p (ex_intro _ d (conj HR (conj eq_refl (conj EO (Nat.le_0_l _))))))|]. intros k. set (kk := resolve o (out_file p d)).
      assert (HO : an_output runs kk) by (exists (o, args), p, d; destruct HR; auto).
      destruct (str_eqb k kk) eqn:EK.
      2: { apply (file_ok_same fs _ l _ _ r k (I3 k)); [apply set_other; intros E; apply str_eqb_eq in E; congruence|].
           intros m j. split; [|intros []]. intros (E & _). cbn [p_os] in E. exfalso. fold kk in E. rewrite <- E in EK. rewrite (proj2 (str_eqb_eq kk kk) eq_refl) in EK. discriminate. }
      apply str_eqb_eq in EK. subst k. split; [intros H; destruct (H HO)|]. intros j HJ. pose proof (HJ _ _ _ _ HIn HR eq_refl) as <-.
      rewrite set_same. right. destruct (I3 kk) as [_ K]. destruct (K json HJ) as [[A B]|(n & A & B & (Q & C1 & C2) & D)].
      * exists 0%nat. split; [apply Nat.le_0_l|]. split; [rewrite over_0; unfold content; rewrite B; reflexivity|].
        split; [eexists; split; [apply in_mid; left; reflexivity|cbn; auto]|]. intros Q m j HQ HH. apply in_mid in HQ as [-> | HQ].
        -- destruct HH as (_ & <- & _). apply le_n.
        -- destruct (A Q m j); [apply in_mid; auto|exact HH].
      * exists n. split; [exact A|]. split; [unfold content at 1; rewrite B; reflexivity|]. split.
        -- exists Q. split; [|exact C2]. apply in_mid in C1 as [-> | C1]; [destruct C2|apply in_mid; auto].
        -- intros Q' m j HQ HH. apply in_mid in HQ as [-> | HQ]; [destruct HH as (_ & <- & _); apply Nat.le_0_l|]. eapply D; [apply in_mid; right; exact HQ|exact HH].
  - destruct HP as (p & d & HR & -> & EO & HL). cbn [p_os p_args] in *. set (kk := resolve o (out_file p d)) in *. pose proof (limit_le o json) as LL.
    destruct (n <? limit o json)%nat eqn:EL.
    + apply Nat.ltb_lt in EL. injection HS as <- <-. split; [exact (ex_intro _ p (ex_intro _ d (conj HR (conj eq_refl (conj EO EL)))))|]. intros k.
      assert (HO : an_output runs kk) by (exists (o, args), p, d; destruct HR; auto).
      destruct (str_eqb k kk) eqn:EK.
      2: { apply (file_ok_same fs _ l _ _ r k (I3 k)); [apply set_other; intros E; apply str_eqb_eq in E; congruence|].
           assert (EK' : kk <> k) by (intros E; rewrite <- E in EK; rewrite (proj2 (str_eqb_eq kk kk) eq_refl) in EK; discriminate).
           intros m j. split; intros (E & _); cbn [p_os] in E; destruct (EK' E). }
      apply str_eqb_eq in EK. subst k. split; [intros H; destruct (H HO)|]. intros j HJ. pose proof (HJ _ _ _ _ HIn HR eq_refl) as <-.
      rewrite set_same. right. destruct (I3 kk) as [_ K]. destruct (K json HJ) as [[A B]|(m & A & B & (Q & C1 & C2) & D)].
      { exfalso. apply (A (Process o args (Writing (out_file p d) json n)) n json); [apply in_mid; auto|cbn; auto]. }
      assert (Hn : (n <= m)%nat) by (apply (D (Process o args (Writing (out_file p d) json n)) n json); [apply in_mid; auto|cbn; auto]).
      unfold content at 1. rewrite B. apply Nat.lt_eq_cases in Hn as [Hn| ->].
      * exists m. split; [exact A|]. split; [rewrite put_over_less by assumption; reflexivity|]. split.
        -- exists Q. split; [|exact C2]. apply in_mid in C1 as [-> | C1]; [destruct C2 as (_ & E & _); lia|apply in_mid; auto].
        -- intros Q' m' j HQ HH. apply in_mid in HQ as [-> | HQ]; [destruct HH as (_ & <- & _); exact Hn|]. eapply D; [apply in_mid; right; exact HQ|exact HH].
      * exists (S m). split; [lia|]. split; [rewrite put_over_same by lia; reflexivity|]. split.
        -- eexists. split; [apply in_mid; left; reflexivity|cbn; auto].
        -- intros Q' m' j HQ HH. apply in_mid in HQ as [-> | HQ]; [destruct HH as (_ & <- & _); apply le_n|]. apply Nat.le_le_succ_r. eapply D; [apply in_mid; right; exact HQ|exact HH].
    + apply Nat.ltb_ge in EL. assert (n = limit o json) as -> by lia. injection HS as <- <-. split.
      * unfold proc_ok. cbn [p_at p_os p_args]. destruct (os_close o) eqn:ECl; [eapply ex_close; [exact HR|exact EO|congruence]|exact (ex_ok _ _ _ _ _ _ _ _ HR EO ECl)].
      * intros k. apply (file_ok_same fs fs l _ _ r k (I3 k) eq_refl). intros m j. unfold has_written. cbn [p_at p_os p_args]. split.
        -- intros (p' & d' & HR' & EO' & EK & ->). destruct (ready_fun _ _ _ _ _ _ _ _ _ _ _ HR HR') as (<- & <- & <-). auto.
        -- intros (E & <- & <-). exists p, d. auto.
  - discriminate.
Qed.

Lemma inv_start : inv (fs0, start runs).
Proof.
  assert (NB : forall P k n j, In P (start runs) -> ~ has_written P k n j).
  { intros P k n j HP HH. unfold start in HP. apply in_map_iff in HP as (r & <- & _). destruct HH. }
  split; [|split].
  - cbn [snd]. unfold start. rewrite map_map. etransitivity; [|apply map_id]. apply map_ext. intros [o a]. reflexivity.
  - cbn [snd]. intros P HP. unfold start in HP. apply in_map_iff in HP as (r & <- & _). exact I.
  - intros k. split; [reflexivity|]. intros json _. left. split; [|reflexivity]. intros P n j HP. apply NB. exact HP.
Qed.
Lemma inv_later s : later bf w (fs0, start runs) s -> inv s.
Proof. intros H. remember (fs0, start runs) as s0 eqn:E. induction H as [s|s s' s'' H IH HM]; subst; [apply inv_start|]. apply (inv_moves s' s''); auto. Qed.
End Moments.
