(** Runs of the rule functions with error recovery end, whatever the sets of tokens that recovery goes by. *)
From Coq Require Import ZArith Lia.
From Verif Require Import Str Tokens Grammar Tree AtnData Atn AtnParser AtnParserTable AtnParserProof GoParser ParserCode PredictSpec GoParserTable GoParserProof Predict PredictTable PredictProof Recovery RecoveryTable.
Local Open Scope Z_scope.

(** *** One statement *)
Section Stmt.
Variable A : atn.
Variable funs : list (Z * list code).
Variable P : predictor.
Variable P_at : forall (d p : Z) (input : list Z), nat.
Variable S : strategy.
Local Notation rexec := (rexec A funs P P_at S).
Definition rstmt (f : nat) (k : stack) (p : Z) (x : code) (s : rst) : outcome :=
  match x with
  | Match n t =>
      let s := set_state n s in
      seq_out (if la1 s =? t then Next (advance (report_match s)) else recover_inline S k s) check
  | MatchSet n c =>
      let s := set_state n s in
      if holds c (la1 s) then Next (advance (report_match s)) else recover_inline S k s
  | Call n r j =>
      match nth_error funs (Z.to_nat r) with
      | Some (start, body) => leave S ((n, p) :: k) (rexec f ((n, p) :: k) j body (set_state start (set_state n s)))
          (fun s' => Next (if r =? 50 then s' else set_state n s'))
      | None => Panic
      end
  | Sync n => seq_out (sync A S k (set_state n s)) check
  | If c b => if holds c (la1 s) then rexec f k p b s else Next s
  | For c b => if holds c (la1 s) then seq_out (rexec f k p b s) (rexec f k p [For c b]) else Next s
  | Do c b => seq_out (rexec f k p b s) (fun s' => if holds c (la1 s') then rexec f k p [Do c b] s' else Next s')
  | Switch cases e =>
      match case_of (la1 s) cases with
      | Some b => rexec f k p b s
      | None => if e then Exit (set_err (Some (Report NoViableAlt (here s) (Since (here s)))) s) else Next s
      end
  | Choose d cases =>
      match P d k p (rinput s) with
      | Some a => let s := set_err None s in match alt_of a cases with Some b => rexec f k p b s | None => Next s end
      | None => Exit (no_viable P_at d p s)
      end
  | Loop d e b r =>
      match P d k p (rinput s) with
      | Some a => let s := set_err None s in
          if a =? e then Next s
          else seq_out (if a =? 1 then rexec f k p b s else Next s) (fun s' => seq_out (rexec f k p r s') (rexec f k p [Loop d e b r]))
      | None => Exit (no_viable P_at d p s)
      end
  | Prec n j =>
      let s := set_state n s in
      if j >=? p then Next s else Exit (set_err (Some (Report FailedPredicate (here s) (Level j))) s)
  end.
Lemma rexec_cons f k p x c s : rexec (Datatypes.S f) k p (x :: c) s = seq_out (rstmt f k p x s) (rexec f k p c).
Proof. destruct x; reflexivity. Qed.
Lemma rexec_nil f k p s : rexec (Datatypes.S f) k p [] s = Next s. Proof. reflexivity. Qed.

(** More fuel does no harm. *)
Lemma seq_more r g : seq_out r g <> More -> r <> More.
Proof. destruct r; cbn; congruence. Qed.
Lemma leave_more k r g : leave S k r g <> More -> r <> More.
Proof. destruct r; cbn; congruence. Qed.
Lemma seq_mono r r' g g' : (r <> More -> r' = r) -> (forall s, g s <> More -> g' s = g s) -> seq_out r g <> More -> seq_out r' g' = seq_out r g.
Proof. intros Hr Hg H. rewrite Hr by (eapply seq_more; eassumption). destruct r; cbn in *; auto. Qed.
Lemma stmt_mono_of f : (forall k p c s, rexec f k p c s <> More -> rexec (Datatypes.S f) k p c s = rexec f k p c s) ->
  forall k p x s, rstmt f k p x s <> More -> rstmt (Datatypes.S f) k p x s = rstmt f k p x s.
Proof.
  intros IH k p x s H.
  destruct x as [n t|n c0|n r j|n|c0 b|c0 b|c0 b|cases e|d cases|d e b r|n j]; cbn [rstmt] in *; try reflexivity.
  - destruct (nth_error funs (Z.to_nat r)) as [(st, body)|]; [|reflexivity]. rewrite IH; [reflexivity|eapply leave_more; exact H].
  - destruct (holds c0 (la1 s)); [apply IH; exact H|reflexivity].
  - destruct (holds c0 (la1 s)); [|reflexivity]. apply seq_mono; [apply IH|intros s'; apply IH|exact H].
  - apply seq_mono; [apply IH| |exact H]. intros s' H'. destruct (holds c0 (la1 s')); [apply IH; exact H'|reflexivity].
  - destruct (case_of (la1 s) cases); [apply IH; exact H|reflexivity].
  - destruct (P d k p (rinput s)) as [a|]; [|reflexivity]. cbv zeta in *. destruct (alt_of a cases); [apply IH; exact H|reflexivity].
  - destruct (P d k p (rinput s)) as [a|]; [|reflexivity]. cbv zeta in *. destruct (a =? e); [reflexivity|]. apply seq_mono; [| |exact H].
    + intros H'. destruct (a =? 1); [apply IH; exact H'|reflexivity].
    + intros s' H'. apply seq_mono; [apply IH|intros s''; apply IH|exact H'].
Qed.
Lemma fuel_mono : forall f k p c s, rexec f k p c s <> More -> rexec (Datatypes.S f) k p c s = rexec f k p c s.
Proof.
  induction f as [|f IH]; intros k p c s H; [destruct H; reflexivity|].
  destruct c as [|x c]; [reflexivity|]. rewrite (rexec_cons (Datatypes.S f)), (rexec_cons f) in *.
  apply seq_mono; [apply stmt_mono_of; exact IH|intros s' H'; apply IH; exact H'|exact H].
Qed.
Lemma stmt_more f f' k p x s r : (f <= f')%nat -> rstmt f k p x s = r -> r <> More -> rstmt f' k p x s = r.
Proof.
  intros L H Hr. induction L as [|f' L IH]; [exact H|]. rewrite (stmt_mono_of _ (fuel_mono f')); [exact IH|]. rewrite IH. exact Hr.
Qed.
Lemma fuel_more f f' k p c s r : (f <= f')%nat -> rexec f k p c s = r -> r <> More -> rexec f' k p c s = r.
Proof.
  intros L H Hr. induction L as [|f' L IH]; [exact H|]. rewrite fuel_mono; [exact IH|]. rewrite IH. exact Hr.
Qed.
Lemma fuel_one f f' k p c s r r' : rexec f k p c s = r -> rexec f' k p c s = r' -> r <> More -> r' <> More -> r = r'.
Proof.
  intros H H' Hr Hr'. destruct (Nat.le_ge_cases f f') as [L|L]; [apply (fuel_more _ _ _ _ _ _ _ L) in H|apply (fuel_more _ _ _ _ _ _ _ L) in H']; congruence.
Qed.
End Stmt.

(** *** What gets less *)
Definition universe : list Z := map Z.of_nat (seq 0 500).
Definition unseen (s : rst) : nat := length (filter (fun n => negb (zmem n (lstates s))) universe).
Definition left (s : rst) : nat := match toks s with [] => 0 | _ => if is_last s then unseen s else 501 end%nat.
Definition meas (s : rst) : nat := (here s * 502 + left s)%nat.
Definition same (s' s : rst) : Prop := toks s' = toks s /\ left s' = left s.
Definition lt (s' s : rst) : Prop := (meas s' < meas s)%nat.
Definition le (s' s : rst) : Prop := lt s' s \/ same s' s.
Definition in_univ (s : rst) : Prop := 0 <= cur s < 500.
Lemma filter_len {T} (f : T -> bool) l : (length (filter f l) <= length l)%nat.
Proof. induction l as [|x l IH]; cbn; [lia|]. destruct (f x); cbn; lia. Qed.
Lemma unseen_le s : (unseen s <= 500)%nat.
Proof. unfold unseen. etransitivity; [apply filter_len|]. unfold universe. rewrite map_length, seq_length. lia. Qed.
Lemma left_le s : (left s <= 501)%nat.
Proof. unfold left. pose proof (unseen_le s). destruct (toks s); [lia|]. destruct (is_last s); lia. Qed.
Lemma shorter s' s : (here s' < here s)%nat -> lt s' s.
Proof. unfold lt, meas. pose proof (left_le s'). pose proof (left_le s). nia. Qed.
Lemma same_refl s : same s s. Proof. split; reflexivity. Qed.
Lemma same_trans a b c : same a b -> same b c -> same a c. Proof. unfold same. intros (H & H') (K & K'). split; congruence. Qed.
Lemma same_meas a b : same a b -> meas a = meas b. Proof. unfold same, meas, here. intros (-> & ->). reflexivity. Qed.
Lemma same_la a b : same a b -> la1 a = la1 b. Proof. unfold same, la1. intros (-> & _). reflexivity. Qed.
Lemma le_refl s : le s s. Proof. right. apply same_refl. Qed.
Lemma le_trans a b c : le a b -> le b c -> le a c.
Proof. unfold le, lt. intros [H|H] [K|K]; try (left; lia). - left. rewrite <- (same_meas _ _ K). exact H. - left. rewrite (same_meas _ _ H). exact K. - right. eapply same_trans; eassumption. Qed.
Lemma lt_le_trans a b c : lt a b -> le b c -> lt a c.
Proof. unfold lt. intros H [K|K]; [unfold lt in K; lia|]. rewrite <- (same_meas _ _ K). exact H. Qed.
Lemma le_lt_trans a b c : le a b -> lt b c -> lt a c.
Proof. unfold lt. intros [H|H] K; [unfold lt in H; lia|]. rewrite (same_meas _ _ H). exact K. Qed.
(** Only the input and the record of the last error count. *)
Lemma same_of a b : toks a = toks b -> last a = last b -> lstates a = lstates b -> same a b.
Proof. intros H1 H2 H3. split; [exact H1|]. unfold left, is_last, unseen, here. rewrite H1, H2, H3. reflexivity. Qed.
Lemma tell_same r s : same (tell r s) s.
Proof. unfold tell. destruct (mode s); [apply same_refl|apply same_of; reflexivity]. Qed.
Lemma tell_cur r s : cur (tell r s) = cur s. Proof. unfold tell. destruct (mode s); reflexivity. Qed.
Lemma tell_err r s : err (tell r s) = err s. Proof. unfold tell. destruct (mode s); reflexivity. Qed.
Lemma tell_toks r s : toks (tell r s) = toks s. Proof. unfold tell. destruct (mode s); reflexivity. Qed.
Lemma la_end s : la1 s = -1 <-> toks s = [].
Proof. unfold la1. destruct (toks s) as [|x l]; [intuition|]. unfold kind_of. split; [lia|discriminate]. Qed.
Lemma end_same a b : toks a = [] -> toks b = [] -> same a b.
Proof. intros H K. split; [congruence|]. unfold left. rewrite H, K. reflexivity. Qed.
(** A step that may drop tokens and otherwise changes nothing that counts. *)
Lemma suffix_le a b pre : toks b = pre ++ toks a -> last a = last b -> lstates a = lstates b -> le a b.
Proof.
  intros H1 H2 H3. destruct pre as [|x pre]; [right; apply same_of; auto|left; apply shorter]. unfold here. rewrite H1, app_length. cbn. lia.
Qed.
Lemma drop_until_suffix set l : exists pre, l = pre ++ drop_until set l.
Proof. induction l as [|x l (pre & IH)]; [exists []; reflexivity|]. cbn [drop_until]. destruct (zmem _ set); [exists []; reflexivity|exists (x :: pre); cbn; congruence]. Qed.
Lemma consume_until_le set s : le (consume_until set s) s.
Proof. destruct (drop_until_suffix set (toks s)) as (pre & H). eapply suffix_le; [exact H|reflexivity|reflexivity]. Qed.
Lemma advance_lt s : la1 s <> -1 -> (here (advance s) < here s)%nat.
Proof. intros H. unfold here, advance. cbn [toks]. rewrite la_end in H. destruct (toks s); [destruct H; reflexivity|cbn; lia]. Qed.
(** A matched token: something is gained, unless it is the end of file. *)
Lemma matched_le s : le (advance (report_match s)) s /\ (la1 s <> -1 -> lt (advance (report_match s)) s).
Proof.
  split; [|intros H; apply shorter; exact (advance_lt (report_match s) H)]. destruct (Z.eq_dec (la1 s) (-1)) as [E|E]; [|left; apply shorter; exact (advance_lt (report_match s) E)].
  apply la_end in E. right. apply end_same; [cbn; rewrite E; reflexivity|exact E].
Qed.
Lemma advance_le s : le (advance s) s.
Proof.
  destruct (Z.eq_dec (la1 s) (-1)) as [E|E]; [|left; apply shorter; apply advance_lt; exact E].
  apply la_end in E. right. apply end_same; [cbn; rewrite E; reflexivity|exact E].
Qed.

(** Recover. *)
Lemma filter_strict (f g : Z -> bool) l x : (forall y, f y = true -> g y = true) -> In x l -> g x = true -> f x = false -> (length (filter f l) < length (filter g l))%nat.
Proof.
  intros Hfg. induction l as [|y l IH]; intros Hin Hg Hf; [destruct Hin|]. assert (L : (length (filter f l) <= length (filter g l))%nat).
  { clear - Hfg. induction l as [|z l IH]; cbn; [lia|]. destruct (f z) eqn:E; [rewrite (Hfg _ E); cbn; lia|destruct (g z); cbn; lia]. }
  cbn [filter]. destruct Hin as [->|Hin]; [rewrite Hf, Hg; cbn; lia|]. specialize (IH Hin Hg Hf). destruct (f y) eqn:E; [rewrite (Hfg _ E); cbn; lia|destruct (g y); cbn; lia].
Qed.
Lemma in_universe n : 0 <= n < 500 -> In n universe.
Proof. intros H. unfold universe. apply in_map_iff. exists (Z.to_nat n). split; [lia|]. apply in_seq. lia. Qed.
Section Recover.
Variable S : strategy.
Lemma recover_gains k s s' : recover S k s = Some s' -> in_univ s -> le s' s /\ (la1 s <> -1 -> lt s' s) /\ cur s' = cur s /\ err s' = err s /\ mode s' = mode s /\ reports s' = reports s.
Proof.
  unfold recover. intros H Hu. destruct (recovery S k) as [r|]; [|discriminate].
  set (s0 := if is_last s && zmem (cur s) (lstates s) then advance s else s) in *. cbv zeta in H.
  set (s1 := RSt (toks s0) (err s0) (mode s0) (Some (here s0)) (cur s0 :: lstates s0) (cur s0) (reports s0)) in *. injection H as <-.
  assert (Hs0 : cur s0 = cur s /\ err s0 = err s /\ mode s0 = mode s /\ reports s0 = reports s) by (unfold s0; destruct (_ && _); auto).
  assert (Hlt : la1 s <> -1 -> lt s1 s).
  { intros Hla. unfold s0 in s1. destruct (is_last s && zmem (cur s) (lstates s)) eqn:E.
    - apply shorter. exact (advance_lt s Hla).
    - unfold lt, meas. change (here s1) with (here s). enough (left s1 < left s)%nat by lia.
      unfold left. change (toks s1) with (toks s). rewrite la_end in Hla. destruct (toks s) eqn:Et; [destruct Hla; reflexivity|].
      assert (L1 : is_last s1 = true) by (unfold is_last, here, s1; cbn [last]; apply Nat.eqb_eq; unfold here; rewrite Et; reflexivity). rewrite L1.
      destruct (is_last s); [|pose proof (unseen_le s1); lia]. cbn [andb] in E. unfold unseen. apply (filter_strict _ _ _ (cur s)); [|apply in_universe; exact Hu|rewrite E; reflexivity|].
      + intros y. cbn [s1 lstates zmem existsb]. rewrite !negb_true_iff, orb_false_iff. tauto.
      + cbn [s1 lstates zmem existsb]. rewrite Z.eqb_refl. reflexivity. }
  assert (Hle : le s1 s).
  { destruct (Z.eq_dec (la1 s) (-1)) as [E|E]; [|left; apply Hlt; exact E]. apply la_end in E. right. apply end_same; [|exact E].
    unfold s1, s0. destruct (_ && _); cbn; rewrite E; reflexivity. }
  split; [eapply le_trans; [apply consume_until_le|exact Hle]|]. split; [intros Hla; eapply le_lt_trans; [apply consume_until_le|exact (Hlt Hla)]|]. exact Hs0.
Qed.
Lemma error_exit_gains k s s' : error_exit S k s = Some s' -> in_univ s -> le s' s /\ (err s <> None -> la1 s <> -1 -> lt s' s) /\ (err s = None -> s' = s) /\ err s' = None /\ cur s' = cur s.
Proof.
  unfold error_exit. destruct (err s) as [r|] eqn:E; [|intros H _; injection H as <-; rewrite E; auto using le_refl; repeat split; auto using le_refl; congruence].
  destruct (recover S k (tell r s)) as [s1|] eqn:Er; [|discriminate]. intros H Hu. injection H as <-.
  assert (Hu' : in_univ (tell r s)) by (unfold in_univ; rewrite tell_cur; exact Hu). apply recover_gains in Er as (H1 & H2 & H3 & _); [|exact Hu'].
  assert (K : same (set_err None s1) s1) by (apply same_of; reflexivity). pose proof (tell_same r s) as T.
  split; [eapply le_trans; [right; exact K|]; eapply le_trans; [exact H1|right; exact T]|]. split.
  - intros _ Hla. apply (le_lt_trans _ s1); [right; exact K|]. apply (lt_le_trans _ (tell r s)); [|right; exact T]. apply H2. rewrite (same_la _ _ T). exact Hla.
  - split; [congruence|]. split; [reflexivity|]. cbn. rewrite H3. apply tell_cur.
Qed.
Lemma delete_le k s o : delete_one S k s = Some (Some o) -> le o s /\ cur o = cur s /\ err o = err s /\ mode o = false.
Proof.
  unfold delete_one. destruct (expected S k (cur s)) as [e|]; [|discriminate]. destruct (zmem (la2 s) e); [|discriminate]. intros H. injection H as <-.
  split; [|cbn; rewrite tell_cur, tell_err; auto]. set (t := tell (Report Unwanted (here s) (Expecting e)) s). pose proof (tell_same (Report Unwanted (here s) (Expecting e)) s) as T. fold t in T.
  eapply le_trans; [|right; exact T]. destruct (matched_le t) as (H & _). exact H.
Qed.
End Recover.

(** *** The run ends *)
Local Opaque meas left.
Definition of_table (P : predictor) : Prop := forall d k p ts, In d asked -> 0 <= p <= 11 ->
  exists l, answers d (hd (-1) (kinds ts ++ [-1])) = Some l /\ In (P d k p (kinds ts ++ [-1])) l.
Section Ends.
Variable A : atn.
Variable P : predictor.
Variable P_at : forall (d p : Z) (input : list Z), nat.
Variable S : strategy.
Hypothesis P_known : of_table P.
Local Notation rexec := (rexec A rule_functions P P_at S).
Local Notation rstmt := (rstmt A rule_functions P P_at S).
Local Notation pass := (pass rule_functions).
Local Notation good := (good rule_functions).
Local Opaque deep.
Definition Good (c : list code) : Prop := exists f, good f c = true.
Definition fine (b : bool) (s : rst) (r : outcome) : Prop :=
  match r with
  | Next s' => (lt s' s \/ same s' s /\ b = true) /\ in_univ s'
  | Exit s' => le s' s /\ in_univ s' /\ err s' <> None
  | Panic => True
  | More => False
  end.
Lemma fine_more b s r : fine b s r -> r <> More. Proof. intros H ->. exact H. Qed.
Lemma fine_weaken b b' s r : (b = true -> b' = true) -> fine b s r -> fine b' s r.
Proof. intros Hb. destruct r; cbn; auto. intros ([H|(H & K)] & H'); auto. Qed.
Lemma fine_le b s1 s r : le s1 s -> (b = true -> same s1 s) -> fine b s1 r -> fine b s r.
Proof.
  intros Hle Hb. destruct r as [s'|s'| |]; cbn; auto.
  - intros ([H|(H & K)] & H'); split; auto; [left; eapply lt_le_trans; eassumption|right; split; [eapply same_trans; [exact H|auto]|exact K]].
  - intros (H & H'). split; [eapply le_trans; eassumption|exact H'].
Qed.
Lemma fine_lt b b' s1 s r : lt s1 s -> fine b s1 r -> fine b' s r.
Proof.
  intros Hlt. destruct r as [s'|s'| |]; cbn; auto.
  - intros (H & H'). split; [left|exact H']. eapply le_lt_trans; [|exact Hlt]. destruct H as [H|(H & _)]; [left|right]; exact H.
  - intros (H & H'). split; [left; eapply le_lt_trans; eassumption|exact H'].
Qed.
Lemma fine_same b s1 s r : same s1 s -> fine b s1 r -> fine b s r.
Proof. intros H. apply fine_le; [right; exact H|auto]. Qed.

(** Simple statements. *)
Lemma check_fine b s s' : (lt s' s \/ same s' s /\ b = true) -> in_univ s' -> fine b s (check s').
Proof.
  intros H Hu. unfold check. destruct (err s') as [r|] eqn:E; cbn; [|auto]. split; [|split; [exact Hu|congruence]]. destruct H as [H|(H & _)]; [left|right]; exact H.
Qed.
Lemma le_true s' s : le s' s -> lt s' s \/ same s' s /\ true = true. Proof. intros [H|H]; auto. Qed.
Lemma inline_fine k s : in_univ s -> fine true s (recover_inline S k s).
Proof.
  intros Hu. unfold recover_inline. destruct (delete_one S k s) as [[o|]|] eqn:E; [| |exact I].
  - apply delete_le in E as (H & Hc & _). split; [apply le_true; eapply le_trans; [apply advance_le|exact H]|]. unfold in_univ in *. cbn. congruence.
  - destruct (insertion S k (cur s)) as [l|]; [|exact I]. split; [|destruct (zmem _ l); [unfold in_univ; rewrite tell_cur|]; exact Hu].
    right. split; [|reflexivity]. destruct (zmem _ l); [apply tell_same|apply same_of; reflexivity].
Qed.
Lemma sync_fine k s : in_univ s -> fine true s (sync A S k s).
Proof.
  intros Hu. unfold sync. destruct (_ || _); [split; [right; split; [apply same_refl|reflexivity]|exact Hu]|]. destruct (zmem _ [3; 4; 5; 10]).
  - destruct (delete_one S k s) as [[o|]|] eqn:E; [| |exact I].
    + apply delete_le in E as (H & Hc & _). split; [apply le_true; exact H|]. unfold in_univ in *. congruence.
    + split; [right; split; [apply same_of; reflexivity|reflexivity]|exact Hu].
  - destruct (expected S k (cur s)) as [e|]; [|exact I]. destruct (recovery S k) as [r|]; [|exact I]. split; [|unfold in_univ; cbn; rewrite tell_cur; exact Hu].
    apply le_true. eapply le_trans; [apply consume_until_le|right; apply tell_same].
Qed.
Lemma seq_check b s r : fine b s r -> fine b s (seq_out r check).
Proof. destruct r as [s'|s'| |]; cbn; auto. intros (H & Hu). apply check_fine; assumption. Qed.
Lemma set_state_same n s : same (set_state n s) s. Proof. apply same_of; reflexivity. Qed.
Lemma matched_fine s : in_univ s -> fine (negb (negb (la1 s =? -1))) s (Next (advance (report_match s))).
Proof.
  intros Hu. destruct (matched_le s) as (H & H'). cbn. split; [|exact Hu]. rewrite negb_involutive. destruct (Z.eqb_spec (la1 s) (-1)) as [E|E]; [apply le_true; exact H|auto].
Qed.

(** Good code and its parts. *)
Lemma good_pass c : Good c -> forall t, In t tokens -> exists b, pass deep c t = Some b.
Proof.
  intros (f & H) t Ht. destruct f as [|f]; [discriminate H|]. cbn [RecoveryTable.good] in H. apply andb_true_iff in H as (H & _). unfold passes in H. rewrite forallb_forall in H. specialize (H t Ht).
  destruct (pass deep c t) as [b|]; [eauto|discriminate H].
Qed.
Lemma good_cons x c : Good (x :: c) -> exists f, good f c = true /\ match x with
      | Match n _ | MatchSet n _ | Sync n | Prec n _ => in_states n = true
      | Call n r j => in_states n && (0 <=? j) && (j <=? 11) && match nth_error rule_functions (Z.to_nat r) with Some _ => true | None => false end = true
      | If _ b => good f b = true
      | For c b => good f b = true /\ passes rule_functions [For c b] = true
      | Do c b => good f b = true /\ passes rule_functions [Do c b] = true
      | Switch cases _ => forallb (fun x => good f (snd x)) cases = true
      | Choose d cases => In d asked /\ forallb (fun x => good f (snd x)) cases = true
      | Loop d e b r => In d asked /\ good f b = true /\ good f r = true /\ passes rule_functions [Loop d e b r] = true
      end.
Proof.
  intros (f & H). destruct f as [|f]; [discriminate H|]. cbn [RecoveryTable.good] in H. apply andb_true_iff in H as (_ & H). apply andb_true_iff in H as (H & Hc). exists f. split; [exact Hc|].
  destruct x; try exact H; rewrite !andb_true_iff in H; try tauto; rewrite zmem_in in H; tauto.
Qed.
Lemma good_nil : Good []. Proof. exists 1%nat. vm_compute. reflexivity. Qed.
Lemma case_good f t cases b : forallb (fun x => good f (snd x)) cases = true -> case_of t cases = Some b -> Good b.
Proof.
  induction cases as [|(ts, b0) l IH]; cbn; [discriminate|]. rewrite andb_true_iff. intros (H & Hl). destruct (zmem t ts); [intros E; injection E as ->; exists f; exact H|auto].
Qed.
Lemma alt_good f a cases b : forallb (fun x => good f (snd x)) cases = true -> alt_of a cases = Some b -> Good b.
Proof.
  induction cases as [|(i, b0) l IH]; cbn; [discriminate|]. rewrite andb_true_iff. intros (H & Hl). destruct (a =? i); [intros E; injection E as ->; exists f; exact H|auto].
Qed.
(** A loop again. *)
Lemma good_one f b : good f b = true -> good f [] = true.
Proof. destruct f as [|f]; [discriminate 1|]. intros _. Transparent deep. vm_compute. reflexivity. Qed.
Opaque deep.
Lemma again_for c b f : good f b = true -> passes rule_functions [For c b] = true -> Good [For c b].
Proof. intros Hb Hp. exists (Datatypes.S f). cbn [RecoveryTable.good]. rewrite Hp, Hb, (good_one _ _ Hb). reflexivity. Qed.
Lemma again_do c b f : good f b = true -> passes rule_functions [Do c b] = true -> Good [Do c b].
Proof. intros Hb Hp. exists (Datatypes.S f). cbn [RecoveryTable.good]. rewrite Hp, Hb, (good_one _ _ Hb). reflexivity. Qed.
Lemma again_loop d e b r f : In d asked -> good f b = true -> good f r = true -> passes rule_functions [Loop d e b r] = true -> Good [Loop d e b r].
Proof. intros Hd Hb Hr Hp. apply zmem_in in Hd. exists (Datatypes.S f). cbn [RecoveryTable.good]. rewrite Hp, Hb, Hr, Hd, (good_one _ _ Hb). reflexivity. Qed.

Definition run_fine (k : stack) (p : Z) (c : list code) (b : bool) (s : rst) : Prop := exists f, fine b s (rexec f k p c s).
Definition stmt_fine (k : stack) (p : Z) (x : code) (b : bool) (s : rst) : Prop := exists f, fine b s (rstmt f k p x s).
Lemma fine_at f f' k p c b s s1 : (f <= f')%nat -> fine b s (rexec f k p c s1) -> fine b s (rexec f' k p c s1).
Proof. intros L H. rewrite (fuel_more A rule_functions P P_at S f f' k p c s1 _ L eq_refl (fine_more _ _ _ H)). exact H. Qed.
Lemma run_at f f' k p c s r : (f <= f')%nat -> rexec f k p c s = r -> r <> More -> rexec f' k p c s = r.
Proof. apply fuel_more. Qed.

(** One thing after another: the second starts with something gained, or with the same next token. *)
Lemma seq_fine k p c1 b1 b2 s (g : nat -> rst -> outcome) :
  run_fine k p c1 b1 s ->
  (forall f s1, g f s1 <> More -> g (Datatypes.S f) s1 = g f s1) ->
  (forall s1, in_univ s1 -> lt s1 s \/ same s1 s /\ b1 = true -> exists f, fine b2 s (g f s1)) ->
  exists f, fine b2 s (seq_out (rexec f k p c1 s) (g f)).
Proof.
  intros (f1 & H1) Hg H2. destruct (rexec f1 k p c1 s) as [s1|s1| |] eqn:E1.
  - destruct H1 as (H1 & Hu). destruct (H2 s1 Hu H1) as (f2 & H). exists (f1 + f2)%nat. rewrite (run_at f1 (f1 + f2) _ _ _ _ (Next s1)); [|lia|exact E1|congruence].
    cbn [seq_out]. assert (G : forall n, g (n + f2)%nat s1 = g f2 s1). { induction n as [|n IHn]; [reflexivity|]. cbn [plus]. rewrite Hg; [exact IHn|]. rewrite IHn. eapply fine_more; exact H. }
    rewrite G. exact H.
  - exists f1. rewrite E1. exact H1.
  - exists f1. rewrite E1. exact I.
  - destruct H1.
Qed.
Lemma cons_fine k p x c b1 b2 s :
  stmt_fine k p x b1 s ->
  (forall s1, in_univ s1 -> lt s1 s \/ same s1 s /\ b1 = true -> exists f, fine b2 s (rexec f k p c s1)) ->
  run_fine k p (x :: c) b2 s.
Proof.
  intros (f1 & H1) H2. unfold run_fine. destruct (rstmt f1 k p x s) as [s1|s1| |] eqn:E1.
  - destruct H1 as (H1 & Hu). destruct (H2 s1 Hu H1) as (f2 & H). exists (Datatypes.S (f1 + f2)). rewrite rexec_cons, (stmt_more A rule_functions P P_at S f1 (f1 + f2) k p x s (Next s1)); [|lia|exact E1|congruence].
    cbn [seq_out]. eapply fine_at; [|exact H]. lia.
  - exists (Datatypes.S f1). rewrite rexec_cons, E1. exact H1.
  - exists (Datatypes.S f1). rewrite rexec_cons, E1. exact I.
  - destruct H1.
Qed.
Definition prec_ok (p : Z) : Prop := 0 <= p <= 11.
Definition all_below (m : nat) : Prop := forall s, (meas s < m)%nat -> forall c k p, Good c -> prec_ok p -> in_univ s -> run_fine k p c true s.
Lemma in_la s : In (la1 s) tokens.
Proof. unfold la1. apply in_tokens. destruct (toks s) as [|x l]; [lia|]. unfold kind_of. pose proof (kind_range (ty x)). lia. Qed.
Lemma hd_la s : hd (-1) (rinput s) = la1 s.
Proof. unfold rinput, la1. destruct (toks s); reflexivity. Qed.
Lemma fun_good r start body : nth_error rule_functions (Z.to_nat r) = Some (start, body) -> in_states start = true /\ Good body.
Proof.
  intros H. apply nth_error_In in H. pose proof all_good as G. rewrite forallb_forall in G. specialize (G _ H). cbn [fst snd] in G. apply andb_true_iff in G as (G1 & G2). split; [exact G1|]. eexists. exact G2.
Qed.
Lemma in_states_univ n s : in_states n = true -> in_univ (set_state n s).
Proof. unfold in_states, in_univ. cbn. lia. Qed.
Lemma join_in (F : option Z -> option bool) l b a : fold_right (fun a m => join (F a) m) (Some false) l = Some b -> In a l -> exists ba, F a = Some ba /\ (ba = true -> b = true).
Proof.
  revert b. induction l as [|y l IH]; intros b H Hin; [destruct Hin|]. cbn [fold_right] in H. unfold join at 1 in H. destruct (F y) as [by_|] eqn:Ey; [|discriminate H].
  destruct (fold_right _ _ l) as [bl|] eqn:El; [|discriminate H]. injection H as <-. destruct Hin as [->|Hin]; [exists by_; split; [exact Ey|intros ->; reflexivity]|].
  destruct (IH bl eq_refl Hin) as (ba & E & Hb). exists ba. split; [exact E|]. intros K. rewrite (Hb K). apply orb_true_r.
Qed.
(** Below: everything ends; after a gain, use it. *)
Lemma after_gain m s s1 c k p b : all_below m -> meas s = m -> lt s1 s -> Good c -> prec_ok p -> in_univ s1 -> exists f, fine b s (rexec f k p c s1).
Proof.
  intros Hm E Hlt Hg Hp Hu. destruct (Hm s1) with (c := c) (k := k) (p := p) as (f & H); auto; [unfold lt in Hlt; lia|]. exists f. eapply fine_lt; eassumption.
Qed.
Lemma leave_fine k b0 n (keep : bool) s0 s r : same s0 s -> in_states n = true -> fine b0 s0 r ->
  fine (if la1 s =? -1 then true else b0) s (leave S k r (fun s' => Next (if keep then s' else set_state n s'))).
Proof.
  intros Hs Hn Hr. apply (fine_same _ _ _ _ Hs) in Hr. clear Hs. assert (Hcur : forall s', in_univ s' -> in_univ (if keep then s' else set_state n s')).
  { intros s' H. destruct keep; [exact H|apply in_states_univ; exact Hn]. }
  assert (Hsame : forall s', same (if keep then s' else set_state n s') s') by (intros s'; destruct keep; [apply same_refl|apply set_state_same]).
  destruct r as [s1|s1| |]; cbn [leave]; [| |exact I|exact Hr].
  - destruct Hr as (Hr & Hu). destruct (error_exit S k s1) as [s2|] eqn:E; [|exact I]. apply error_exit_gains in E as (Hle & Hlt & Hsm & _ & Hc); [|exact Hu].
    assert (Hu2 : in_univ s2) by (unfold in_univ in *; congruence). cbn [fine]. split; [|apply Hcur; exact Hu2].
    assert (G : lt s2 s \/ same s2 s /\ (if la1 s =? -1 then true else b0) = true).
    { destruct Hr as [Hr|(Hr & Hb)]; [left; eapply le_lt_trans; eassumption|]. destruct (Z.eqb_spec (la1 s) (-1)) as [E|E]; [apply le_true; eapply le_trans; [exact Hle|right; exact Hr]|].
      destruct (err s1) eqn:Ee; [left; apply (lt_le_trans _ s1); [apply Hlt; [congruence|rewrite (same_la _ _ Hr); exact E]|right; exact Hr]|].
      rewrite (Hsm eq_refl). right. split; [exact Hr|exact Hb]. }
    destruct G as [G|(G & Gb)]; [left; eapply le_lt_trans; [right; apply Hsame|exact G]|right; split; [eapply same_trans; [apply Hsame|exact G]|exact Gb]].
  - destruct Hr as (Hr & Hu & He). destruct (error_exit S k s1) as [s2|] eqn:E; [|exact I]. apply error_exit_gains in E as (Hle & Hlt & Hsm & _ & Hc); [|exact Hu].
    assert (Hu2 : in_univ s2) by (unfold in_univ in *; congruence). cbn [fine]. split; [|apply Hcur; exact Hu2].
    assert (G : lt s2 s \/ same s2 s /\ (if la1 s =? -1 then true else b0) = true).
    { destruct Hr as [Hr|Hr]; [left; eapply le_lt_trans; eassumption|]. destruct (Z.eqb_spec (la1 s) (-1)) as [E|E]; [apply le_true; eapply le_trans; [exact Hle|right; exact Hr]|].
      left; apply (lt_le_trans _ s1); [apply Hlt; [exact He|rewrite (same_la _ _ Hr); exact E]|right; exact Hr]. }
    destruct G as [G|(G & Gb)]; [left; eapply le_lt_trans; [right; apply Hsame|exact G]|right; split; [eapply same_trans; [apply Hsame|exact G]|exact Gb]].
Qed.
Lemma exit_fine b s r : in_univ s -> fine b s (Exit (set_err (Some r) s)).
Proof. intros Hu. cbn. split; [right; apply same_of; reflexivity|]. split; [exact Hu|discriminate]. Qed.
Lemma next_fine s s' : same s' s -> in_univ s' -> fine true s (Next s').
Proof. intros H Hu. cbn. auto. Qed.
Lemma below_fine m : all_below m -> forall F c s k p b, meas s = m -> Good c -> prec_ok p -> in_univ s -> pass F c (la1 s) = Some b -> run_fine k p c b s.
Proof.
  intros Hm. induction F as [|F IH]; intros c s k p b Em Hg Hp Hu Hpass; [discriminate Hpass|].
  destruct c as [|x c]; cbn [RecoveryTable.pass] in Hpass; [injection Hpass as <-; exists 1%nat; apply next_fine; [apply same_refl|exact Hu]|].
  match type of Hpass with match ?m with _ => _ end = _ => destruct m as [bx|] eqn:Ex; [|discriminate Hpass] end.
  apply good_cons in Hg as (fg & Hgc & Hx).
  apply (cons_fine k p x c bx b s).
  2: { intros s1 Hu1 [Hlt|(Hs & ->)]; [eapply after_gain; try eassumption; exists fg; exact Hgc|].
       destruct (IH c s1 k p b) as (f & H); auto; [rewrite (same_meas _ _ Hs); exact Em|exists fg; exact Hgc|rewrite (same_la _ _ Hs); exact Hpass|]. exists f. eapply fine_same; eassumption. }
  clear Hpass b c Hgc.
  assert (IH' : forall c b, Good c -> pass F c (la1 s) = Some b -> run_fine k p c b s) by (intros; eapply IH; eassumption).
  destruct x as [n t|n c0|n r j|n|c0 b|c0 b|c0 b|cases e|d cases|d e b r|n j]; cbv beta iota in Ex, Hx; unfold stmt_fine; cbn [RecoveryProof.rstmt]; cbv zeta.
  - exists O. injection Ex as <-. apply (fine_same _ (set_state n s)); [apply set_state_same|]. apply seq_check. change (la1 s) with (la1 (set_state n s)).
    pose proof (in_states_univ n s Hx) as Hun. destruct (Z.eqb_spec (la1 (set_state n s)) t) as [<-|_]; [apply (matched_fine _ Hun)|apply inline_fine; exact Hun].
  - exists O. injection Ex as <-. apply (fine_same _ (set_state n s)); [apply set_state_same|]. change (la1 s) with (la1 (set_state n s)).
    pose proof (in_states_univ n s Hx) as Hun. destruct (holds c0 (la1 (set_state n s))); [apply (matched_fine _ Hun)|apply inline_fine; exact Hun].
  - rewrite !andb_true_iff in Hx. destruct Hx as (((Hn & Hj1) & Hj2) & _). destruct (nth_error rule_functions (Z.to_nat r)) as [(start, body)|] eqn:Ef; [|discriminate Ex].
    destruct (fun_good _ _ _ Ef) as (Hst & Hgb). destruct (pass F body (la1 s)) as [b0|] eqn:Eb; [|discriminate Ex]. injection Ex as <-.
    set (s0 := set_state start (set_state n s)). assert (Hs0 : same s0 s) by (apply same_of; reflexivity).
    destruct (IH body s0 ((n, p) :: k) j b0) as (f & H); [rewrite (same_meas _ _ Hs0); exact Em|exact Hgb|unfold prec_ok; lia|exact (in_states_univ start (set_state n s) Hst)|exact Eb|]. exists f. apply (leave_fine _ b0 n (r =? 50) s0 s); assumption.
  - exists O. injection Ex as <-. apply (fine_same _ (set_state n s)); [apply set_state_same|]. apply seq_check. apply sync_fine. apply in_states_univ. exact Hx.
  - destruct (holds c0 (la1 s)); [destruct (IH' b bx) as (f & H); [exists fg; exact Hx|exact Ex|]; exists f; exact H|].
    injection Ex as <-. exists O. apply next_fine; [apply same_refl|exact Hu].
  - destruct (holds c0 (la1 s)); [|injection Ex as <-; exists O; apply next_fine; [apply same_refl|exact Hu]].
    destruct (pass F b (la1 s)) as [[|]|] eqn:Eb; try discriminate Ex. injection Ex as <-. destruct Hx as (Hgb & Hps).
    apply (seq_fine k p b false false s (fun f => rexec f k p [For c0 b])); [apply IH'; [exists fg; exact Hgb|exact Eb]|intros f s1; apply fuel_mono|].
    intros s1 Hu1 [Hlt|(_ & Hf)]; [|discriminate Hf]. eapply after_gain; try eassumption. eapply again_for; eassumption.
  - destruct Hx as (Hgb & Hps). destruct (pass F b (la1 s)) as [bb|] eqn:Eb; [|discriminate Ex].
    apply (seq_fine k p b bb bx s (fun f s1 => if holds c0 (la1 s1) then rexec f k p [Do c0 b] s1 else Next s1)); [apply IH'; [exists fg; exact Hgb|exact Eb]| |].
    { intros f s1. destruct (holds c0 (la1 s1)); [apply fuel_mono|reflexivity]. }
    intros s1 Hu1 [Hlt|(Hs & ->)].
    + destruct (holds c0 (la1 s1)); [eapply after_gain; try eassumption; eapply again_do; eassumption|]. exists O. cbn. auto.
    + rewrite (same_la _ _ Hs). destruct (holds c0 (la1 s)); [discriminate Ex|]. injection Ex as <-. exists O. apply next_fine; assumption.
  - destruct (case_of (la1 s) cases) as [b|] eqn:Ec.
    + destruct (IH' b bx) as (f & H); [eapply case_good; eassumption|exact Ex|]. exists f. exact H.
    + injection Ex as <-. exists O. destruct e; [apply exit_fine; exact Hu|apply next_fine; [apply same_refl|exact Hu]].
  - destruct Hx as (Hd & Hx). destruct (P_known d k p (toks s) Hd Hp) as (l & El & Hin). fold (rinput s) in El, Hin. rewrite hd_la in El. rewrite El in Ex.
    destruct (join_in _ _ _ _ Ex Hin) as (ba & Ea & Hb). destruct (P d k p (rinput s)) as [a|]; [|exists O; unfold no_viable; apply exit_fine; exact Hu].
    destruct (alt_of a cases) as [b|] eqn:Eal.
    + assert (Hs0 : same (set_err None s) s) by (apply same_of; reflexivity). destruct (IH b (set_err None s) k p ba) as (f & H); [rewrite (same_meas _ _ Hs0); exact Em|eapply alt_good; eassumption|exact Hp|exact Hu|exact Ea|]. exists f. apply (fine_weaken ba); [exact Hb|]. eapply fine_same; [|exact H]. apply same_of; reflexivity.
    + injection Ea as <-. rewrite (Hb eq_refl). exists O. apply next_fine; [apply same_of; reflexivity|exact Hu].
  - destruct Hx as (Hd & Hgb & Hgr & Hps). destruct (P_known d k p (toks s) Hd Hp) as (l & El & Hin). fold (rinput s) in El, Hin. rewrite hd_la in El. rewrite El in Ex.
    destruct (join_in _ _ _ _ Ex Hin) as (ba & Ea & Hb). destruct (P d k p (rinput s)) as [a|]; [|exists O; unfold no_viable; apply exit_fine; exact Hu].
    destruct (a =? e); [injection Ea as <-; rewrite (Hb eq_refl); exists O; apply next_fine; [apply same_of; reflexivity|exact Hu]|].
    set (s0 := set_err None s). assert (Hs0 : same s0 s) by (apply same_of; reflexivity).
    assert (Hmono : forall f s', seq_out (rexec f k p r s') (rexec f k p [Loop d e b r]) <> More ->
      seq_out (rexec (Datatypes.S f) k p r s') (rexec (Datatypes.S f) k p [Loop d e b r]) = seq_out (rexec f k p r s') (rexec f k p [Loop d e b r])).
    { intros f s' H. apply seq_mono; [apply fuel_mono|intros s''; apply fuel_mono|exact H]. }
    assert (Hagain : Good [Loop d e b r]) by (eapply again_loop; eassumption).
    assert (Hgain : forall s1, in_univ s1 -> lt s1 s0 -> exists f, fine ba s0 (seq_out (rexec f k p r s1) (rexec f k p [Loop d e b r]))).
    { intros s1 Hu1 Hlt. assert (Hlt' : (meas s1 < m)%nat) by (unfold lt in Hlt; rewrite (same_meas _ _ Hs0) in Hlt; lia).
      destruct (seq_fine k p r true true s1 (fun f => rexec f k p [Loop d e b r])) as (f & H).
      - apply Hm; auto. exists fg. exact Hgr.
      - intros f s2. apply fuel_mono.
      - intros s2 Hu2 Hs2. assert (Hle2 : le s2 s1) by (destruct Hs2 as [K|(K & _)]; [left|right]; exact K).
        destruct (Hm s2) with (c := [Loop d e b r]) (k := k) (p := p) as (f & H); auto; [destruct Hle2 as [K|K]; [unfold lt in K; lia|rewrite (same_meas _ _ K); exact Hlt']|].
        exists f. destruct Hle2 as [K|K]; [eapply fine_lt; eassumption|eapply fine_same; eassumption].
      - exists f. eapply fine_lt; eassumption. }
    destruct (a =? 1) eqn:Ea1.
    + destruct (pass F b (la1 s)) as [bb|] eqn:Eb; [|discriminate Ea].
      destruct (seq_fine k p b bb ba s0 (fun f s' => seq_out (rexec f k p r s') (rexec f k p [Loop d e b r]))) as (f & H); [|exact Hmono| |].
      * apply IH; [rewrite (same_meas _ _ Hs0); exact Em|exists fg; exact Hgb|exact Hp|exact Hu|exact Eb].
      * intros s1 Hu1 [Hlt|(Hs & ->)]; [apply Hgain; assumption|]. destruct (pass F r (la1 s)) as [[|]|] eqn:Er; try discriminate Ea.
        destruct (seq_fine k p r false false s1 (fun f => rexec f k p [Loop d e b r])) as (f & H).
        -- apply (IH r s1); [rewrite (same_meas _ _ Hs), (same_meas _ _ Hs0); exact Em|exists fg; exact Hgr|exact Hp|exact Hu1|rewrite (same_la _ _ Hs); exact Er].
        -- intros f s2. apply fuel_mono.
        -- intros s2 Hu2 [Hlt|(_ & K)]; [|discriminate K]. apply (after_gain m s1 s2); [exact Hm|rewrite (same_meas _ _ Hs), (same_meas _ _ Hs0); exact Em|exact Hlt|exact Hagain|exact Hp|exact Hu2].
        -- exists f. injection Ea as <-. eapply fine_same; eassumption.
      * exists f. apply (fine_weaken ba); [exact Hb|]. eapply fine_same; eassumption.
    + cbn [seq_out]. destruct (pass F r (la1 s)) as [[|]|] eqn:Er; try discriminate Ea. injection Ea as <-.
      destruct (seq_fine k p r false false s0 (fun f => rexec f k p [Loop d e b r])) as (f & H).
      * apply (IH r s0); [rewrite (same_meas _ _ Hs0); exact Em|exists fg; exact Hgr|exact Hp|exact Hu|exact Er].
      * intros f s2. apply fuel_mono.
      * intros s2 Hu2 [Hlt|(_ & K)]; [|discriminate K]. apply (after_gain m s0 s2); [exact Hm|rewrite (same_meas _ _ Hs0); exact Em|exact Hlt|exact Hagain|exact Hp|exact Hu2].
      * exists f. apply (fine_weaken false); [exact Hb|]. eapply fine_same; eassumption.
  - exists O. injection Ex as <-. pose proof (in_states_univ n s Hx) as Hun. destruct (j >=? p).
    + apply next_fine; [apply set_state_same|exact Hun].
    + cbn. split; [right; apply same_of; reflexivity|]. split; [exact Hun|discriminate].
Qed.
Lemma run_ends s : forall c k p, Good c -> prec_ok p -> in_univ s -> run_fine k p c true s.
Proof.
  remember (meas s) as m eqn:Em. revert s Em. induction m as [m IH] using lt_wf_ind. intros s Em c k p Hg Hp Hu.
  destruct (good_pass c Hg (la1 s) (in_la s)) as (b & Hb). destruct (below_fine m) with (F := deep) (c := c) (s := s) (k := k) (p := p) (b := b) as (f & H); auto.
  - intros s1 Hs1 c1 k1 p1. eapply (IH (meas s1)); [exact Hs1|reflexivity].
  - exists f. eapply fine_weaken; [|exact H]. auto.
Qed.
End Ends.
