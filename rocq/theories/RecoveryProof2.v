(** Runs with error recovery: no panic; an error is reported exactly if the run of GoParser.v fails; how many are reported. *)
From Coq Require Import ZArith Lia.
From Verif Require Import Str Tokens Grammar Tree AtnData Atn AtnParser AtnParserTable AtnParserProof GoParser ParserCode PredictSpec GoParserTable GoParserProof Predict PredictTable PredictProof
  Recovery RecoveryTable RecoveryProof RecoveryCheck.
Local Open Scope Z_scope.

(** *** The parts of checked code *)
Section Parts.
Variable simple : code -> bool.
Variable st : bool.
Definition Every (b : bool) (c : list code) : Prop := exists f, every simple st f b c = true.
Lemma every_cons b x c : Every b (x :: c) -> Every (is_sync x) c /\ match x with
      | If _ b | For _ b | Do _ b => Every false b
      | Switch cases _ => forall t b, case_of t cases = Some b -> Every false b
      | Choose _ cases => (st = true -> b = true) /\ forall a b, alt_of a cases = Some b -> Every false b
      | Loop _ _ body r => (st = true -> b = true) /\ Every false body /\ Every false r /\ (st = true -> exists n, r = [Sync n])
      | x => simple x = true
      end.
Proof.
  intros (f & H). destruct f as [|f]; [discriminate H|]. cbn [every] in H. apply andb_true_iff in H as (H & Hc). split; [exists f; exact Hc|].
  destruct x as [n t|n c0|n r j|n|c0 b0|c0 b0|c0 b0|cases e|d cases|d e b0 r|n j]; try exact H; try (exists f; exact H).
  - intros t b0. revert H. clear Hc. induction cases as [|(ts, b1) l IH]; cbn; [discriminate|]. rewrite andb_true_iff. intros (H & Hl). destruct (zmem t ts); [intros E; injection E as ->; exists f; exact H|auto].
  - apply andb_true_iff in H as (H1 & H). split; [intros ->; exact H1|]. intros a b0. revert H. clear Hc. induction cases as [|(i, b1) l IH]; cbn; [discriminate|]. rewrite andb_true_iff. intros (H & Hl).
    destruct (a =? i); [intros E; injection E as ->; exists f; exact H|auto].
  - rewrite !andb_true_iff in H. destruct H as (((H1 & H2) & H3) & H4). split; [intros ->; exact H1|]. split; [exists f; exact H2|]. split; [exists f; exact H3|]. intros ->. cbn [negb orb] in H4.
    destruct r as [|[n t|n c0|n r0 j|n|c0 b1|c0 b1|c0 b1|cases e0|d0 cases|d0 e0 b1 r|n j] [|]]; try discriminate H4. exists n. reflexivity.
Qed.
Lemma every_nil b : Every b []. Proof. exists 1%nat. reflexivity. Qed.
(** A loop taken up again. *)
Lemma every_again b b' x c : match x with For _ _ | Do _ _ => True | Loop _ _ _ _ => b' = true | _ => False end -> Every b (x :: c) -> Every b' [x].
Proof.
  intros Hx (f & H). destruct f as [|f]; [discriminate H|]. exists (S f). cbn [every] in *. apply andb_true_iff in H as (H & Hc).
  assert (Hn : every simple st f (is_sync x) [] = true) by (destruct f; [discriminate Hc|reflexivity]). rewrite Hn, andb_true_r.
  destruct x as [n t|n c0|n r j|n|c0 b0|c0 b0|c0 b0|cases e|d cases|d e b0 r|n j]; try (exfalso; exact Hx); try exact H.
  subst b'. rewrite !andb_true_iff in H. destruct H as (((_ & H2) & H3) & H4). rewrite orb_true_r, H2, H3, H4. reflexivity.
Qed.
End Parts.

(** *** A relation that every primitive step keeps, every run keeps *)
Section Keep.
Variable A : atn.
Variable P : predictor.
Variable P_at : forall (d p : Z) (input : list Z), nat.
Variable S : strategy.
Variable simple : code -> bool.
Local Notation rexec := (rexec A rule_functions P P_at S).
Local Notation rstmt := (rstmt A rule_functions P P_at S).
Variable Rel : rst -> rst -> Prop.
Variable Stack : stack -> Prop.
Hypothesis Rrefl : forall s, Rel s s.
Hypothesis Rtrans : forall a b c, Rel a b -> Rel b c -> Rel a c.
Hypothesis Rstate : forall n s, Rel s (set_state n s).
Hypothesis Rerr : forall e s, Rel s (set_err e s).
Hypothesis Rexit : forall k s s', Stack k -> error_exit S k s = Some s' -> Rel s s'.
Hypothesis Rsimple : forall f k p x s, Stack k -> simple x = true -> match x with Match _ _ | MatchSet _ _ | Sync _ => True | _ => False end ->
  match rstmt f k p x s with Next s' | Exit s' => Rel s s' | _ => True end.
Hypothesis Scall : forall n r j p k, Stack k -> simple (Call n r j) = true -> Stack ((n, p) :: k).
Hypothesis fun_every : forall n r j start body, simple (Call n r j) = true -> nth_error rule_functions (Z.to_nat r) = Some (start, body) -> Every simple false false body.
Local Notation Every := (Every simple false).
Definition kept (s : rst) (r : outcome) : Prop := match r with Next s' | Exit s' => Rel s s' | _ => True end.
Lemma kept_from a b r : Rel a b -> kept b r -> kept a r.
Proof. intros H. destruct r; cbn; eauto. Qed.
Lemma kept_seq s r g : kept s r -> (forall s', r = Next s' -> kept s' (g s')) -> kept s (seq_out r g).
Proof. intros H Hg. destruct r as [s'|s'| |]; cbn in *; auto. eapply kept_from; [exact H|apply Hg; reflexivity]. Qed.
Lemma keep : forall f k p b c s, Stack k -> Every b c -> kept s (rexec f k p c s).
Proof.
  induction f as [|f IH]; intros k p b c s Hk Hc; [exact I|]. destruct c as [|x c]; [apply Rrefl|]. pose proof Hc as Hall. rewrite rexec_cons. apply every_cons in Hc as (Hc & Hx).
  apply kept_seq; [|intros s' _; eapply IH; eassumption]. clear Hc.
  destruct x as [n t|n c0|n r j|n|c0 b0|c0 b0|c0 b0|cases e|d cases|d e b0 r|n j]; try (apply Rsimple; [exact Hk|exact Hx|exact I]); cbn [RecoveryProof.rstmt]; cbv zeta.
  - destruct (nth_error rule_functions (Z.to_nat r)) as [(start, body)|] eqn:Ef; [|exact I].
    pose proof (IH ((n, p) :: k) j false body (set_state start (set_state n s)) (Scall _ _ _ p _ Hk Hx) (fun_every _ _ _ _ _ Hx Ef)) as G.
    assert (Hs : Rel s (set_state start (set_state n s))) by eauto. apply (kept_from _ _ _ Hs) in G.
    destruct (rexec f ((n, p) :: k) j body (set_state start (set_state n s))) as [s1|s1| |]; cbn [leave]; try exact I;
      (destruct (error_exit S ((n, p) :: k) s1) as [s2|] eqn:E; [|exact I]); (apply Rexit in E; [|eapply Scall; eassumption]); cbn [kept] in *; destruct (r =? 50); eauto.
  - destruct (holds c0 (la1 s)); [eapply IH; eassumption|apply Rrefl].
  - destruct (holds c0 (la1 s)); [|apply Rrefl]. apply kept_seq; [eapply IH; eassumption|]. intros s' _. apply (IH k p false); [exact Hk|]. eapply every_again; [exact I|exact Hall].
  - apply kept_seq; [eapply IH; eassumption|]. intros s' _. destruct (holds c0 (la1 s')); [|apply Rrefl]. apply (IH k p false); [exact Hk|]. eapply every_again; [exact I|exact Hall].
  - destruct (case_of (la1 s) cases) as [b0|] eqn:Ec; [eapply IH; eauto|]. destruct e; cbn; auto.
  - destruct Hx as (_ & Hx). destruct (P d k p (rinput s)) as [a|]; [|apply Rerr]. apply (kept_from _ (set_err None s)); [apply Rerr|]. destruct (alt_of a cases) as [b0|] eqn:Ea; [eapply IH; eauto|apply Rrefl].
  - destruct Hx as (_ & Hb & Hr & _). destruct (P d k p (rinput s)) as [a|]; [|apply Rerr]. apply (kept_from _ (set_err None s)); [apply Rerr|]. destruct (a =? e); [apply Rrefl|].
    apply kept_seq; [destruct (a =? 1); [eapply IH; eassumption|apply Rrefl]|]. intros s' _. apply kept_seq; [eapply IH; eassumption|]. intros s'' _. apply (IH k p true); [exact Hk|]. eapply every_again; [reflexivity|exact Hall].
  - destruct (j >=? p); cbn [kept]; eauto.
Qed.
End Keep.

(** *** Reports are never taken back *)
Lemma all_every simple st : forallb (fun e : Z * list code => every simple st 40 false (snd e)) rule_functions = true ->
  forall r start body, nth_error rule_functions r = Some (start, body) -> Every simple st false body.
Proof. intros H r start body E. apply nth_error_In in E. rewrite forallb_forall in H. exists 40%nat. exact (H _ E). Qed.
Definition anything (x : code) : bool := true.
Lemma anything_ok : forallb (fun e : Z * list code => every anything false 40 false (snd e)) rule_functions = true. Proof. vm_compute. reflexivity. Qed.
Definition grows (s s' : rst) : Prop := exists l, reports s' = reports s ++ l.
Lemma grows_refl s : grows s s. Proof. exists []. rewrite app_nil_r. reflexivity. Qed.
Lemma grows_trans a b c : grows a b -> grows b c -> grows a c. Proof. intros (l & H) (m & K). exists (l ++ m). rewrite K, H, app_assoc. reflexivity. Qed.
Lemma grows_eq a b : reports b = reports a -> grows a b. Proof. intros H. exists []. rewrite H, app_nil_r. reflexivity. Qed.
Lemma grows_tell r s : grows s (tell r s). Proof. unfold tell. destruct (mode s); [apply grows_refl|]. exists [r]. reflexivity. Qed.
Section Grow.
Variable A : atn.
Variable P : predictor.
Variable P_at : forall (d p : Z) (input : list Z), nat.
Variable S : strategy.
Local Notation rexec := (rexec A rule_functions P P_at S).
Local Notation rstmt := (rstmt A rule_functions P P_at S).
Lemma grows_delete k s s' : delete_one S k s = Some (Some s') -> grows s s'.
Proof.
  unfold delete_one. destruct (expected S k (cur s)) as [e|]; [|discriminate]. destruct (zmem (la2 s) e); [|discriminate]. intros H. injection H as <-.
  eapply grows_trans; [apply grows_tell|]. apply grows_eq. reflexivity.
Qed.
Lemma grows_inline k s : match recover_inline S k s with Next s' | Exit s' => grows s s' | _ => True end.
Proof.
  unfold recover_inline. destruct (delete_one S k s) as [[o|]|] eqn:E; [| |exact I]; [apply grows_delete in E; exact E|]. destruct (insertion S k (cur s)) as [l|]; [|exact I].
  destruct (zmem _ l); [apply grows_tell|apply grows_eq; reflexivity].
Qed.
Lemma grows_sync k s : match sync A S k s with Next s' | Exit s' => grows s s' | _ => True end.
Proof.
  unfold sync. destruct (_ || _); [apply grows_refl|]. destruct (zmem _ _).
  - destruct (delete_one S k s) as [[o|]|] eqn:E; [| |exact I]; [apply grows_delete in E; exact E|apply grows_eq; reflexivity].
  - destruct (expected S k (cur s)); [|exact I]. destruct (recovery S k); [|exact I]. eapply grows_trans; [apply grows_tell|]. apply grows_eq. reflexivity.
Qed.
Lemma grows_check s r : match r with Next s' | Exit s' => grows s s' | _ => True end -> match seq_out r check with Next s' | Exit s' => grows s s' | _ => True end.
Proof. destruct r as [s'|s'| |]; cbn; auto. unfold check. destruct (err s'); auto. Qed.
Lemma recover_same k s s' : recover S k s = Some s' -> err s' = err s /\ mode s' = mode s /\ reports s' = reports s.
Proof. unfold recover. destruct (recovery S k); [|discriminate]. intros H. injection H as <-. destruct (_ && _); auto. Qed.
Lemma grows_exit k s s' : error_exit S k s = Some s' -> grows s s'.
Proof.
  unfold error_exit. destruct (err s) as [r|]; [|intros H; injection H as <-; apply grows_refl]. destruct (recover S k (tell r s)) as [s1|] eqn:E; [|discriminate]. intros H. injection H as <-.
  apply recover_same in E as (_ & _ & E). eapply grows_trans; [apply (grows_tell r)|]. apply grows_eq. exact E.
Qed.
Lemma run_grows f k p b c s : Every anything false b c -> match rexec f k p c s with Next s' | Exit s' => grows s s' | _ => True end.
Proof.
  intros Hc. refine (keep A P P_at S anything grows (fun _ => True) grows_refl grows_trans _ _ _ _ _ _ f k p b c s I Hc); auto.
  - intros n u. apply grows_eq. reflexivity.
  - intros e u. apply grows_eq. reflexivity.
  - intros k0 u u' _. apply grows_exit.
  - intros f0 k0 p0 x u _ _ Hx. destruct x as [n t|n c0|n r j|n|c0 b0|c0 b0|c0 b0|cases e|d cases|d e b0 r|n j]; try destruct Hx; cbn [RecoveryProof.rstmt]; cbv zeta.
    + apply grows_check. destruct (la1 _ =? t); [apply grows_eq; reflexivity|]. apply (grows_inline k0 (set_state n u)).
    + destruct (holds c0 _); [apply grows_eq; reflexivity|]. apply (grows_inline k0 (set_state n u)).
    + apply grows_check. apply (grows_sync k0 (set_state n u)).
  - intros n r j start body _ H. eapply all_every; [exact anything_ok|exact H].
Qed.
End Grow.

(** *** Weaker checks *)
Lemma every_weaken s1 s2 (H12 : forall x, s1 x = true -> s2 x = true) st f : forall b c, every s1 st f b c = true -> every s2 false f b c = true.
Proof.
  induction f as [|f IH]; intros b c H; [discriminate H|]. destruct c as [|x c]; [reflexivity|]. cbn [every] in *. apply andb_true_iff in H as (H & Hc). rewrite (IH _ _ Hc), andb_true_r.
  assert (G : forall T (cases : list (T * list code)), forallb (fun x => every s1 st f false (snd x)) cases = true -> forallb (fun x => every s2 false f false (snd x)) cases = true).
  { intros T cases. rewrite !forallb_forall. intros K y Hy. apply IH. apply K. exact Hy. }
  destruct x as [n t|n c0|n r j|n|c0 b0|c0 b0|c0 b0|cases e|d cases|d e b0 r|n j]; try (apply H12; exact H); try (apply IH; exact H).
  - apply G. exact H.
  - apply andb_true_iff in H as (_ & H). apply G. exact H.
  - rewrite !andb_true_iff in H. destruct H as (((_ & H2) & H3) & _). rewrite (IH _ _ H2), (IH _ _ H3). reflexivity.
Qed.
Lemma any_of s1 st b c : Every s1 st b c -> Every anything false b c.
Proof. intros (f & H). exists f. eapply every_weaken; [|exact H]. reflexivity. Qed.

(** *** An error that has happened is reported in the end *)
Definition bad (b : bool) (s : rst) : Prop := reports s <> [] \/ err s <> None /\ b = false.
Definition bad_out (r : outcome) : Prop := match r with Next s | Exit s => bad false s | _ => True end.
Lemma grows_some s s' : reports s <> [] -> grows s s' -> reports s' <> [].
Proof. intros H (l & E) K. rewrite K in E. destruct (reports s); [destruct H; reflexivity|discriminate E]. Qed.
Section Bad.
Variable A : atn.
Variable P : predictor.
Variable P_at : forall (d p : Z) (input : list Z), nat.
Variable S : strategy.
Local Notation rexec := (rexec A rule_functions P P_at S).
Local Notation rstmt := (rstmt A rule_functions P P_at S).
Local Notation Every := (Every (call_ok parser_atn) true).
(** In recovery mode something has been reported. *)
Definition told (s : rst) : Prop := mode s = true -> reports s <> [].
Lemma told_tell r s : told s -> told (tell r s) /\ reports (tell r s) <> [].
Proof. unfold told, tell. destruct (mode s) eqn:E; [auto|]. intros _. cbn. split; [intros _|]; destruct (reports s); discriminate. Qed.
Lemma told_keep f k p b c s : Every b c -> told s -> match rexec f k p c s with Next s' | Exit s' => told s' | _ => True end.
Proof.
  intros Hc. refine (_ (keep A P P_at S anything (fun s s' => told s -> told s') (fun _ => True) _ _ _ _ _ _ _ _ f k p b c s I (any_of _ _ _ _ Hc))); auto.
  - unfold kept. destruct (rexec f k p c s); auto.
  - intros k0 u u' _. unfold error_exit. destruct (err u) as [r|]; [|intros H; injection H as <-; auto]. destruct (recover S k0 (tell r u)) as [s1|] eqn:E; [|discriminate]. intros H Hu. injection H as <-.
    apply recover_same in E as (_ & E1 & E2). intros _. cbn. rewrite E2. apply told_tell. exact Hu.
  - intros f0 k0 p0 x u _ _ Hx.
    assert (D : forall u o, delete_one S k0 u = Some (Some o) -> told o).
    { intros v o. unfold delete_one. destruct (expected S k0 (cur v)) as [e|]; [|discriminate]. destruct (zmem (la2 v) e); [|discriminate]. intros H. injection H as <-. intros K. discriminate K. }
    assert (C : forall r, match r with Next s' | Exit s' => told u -> told s' | _ => True end -> match seq_out r check with Next s' | Exit s' => told u -> told s' | _ => True end).
    { intros r. destruct r as [s'|s'| |]; cbn; auto. unfold check. destruct (err s'); auto. }
    assert (Inl : forall v, match recover_inline S k0 v with Next s' | Exit s' => told v -> told s' | _ => True end).
    { intros v. unfold recover_inline. destruct (delete_one S k0 v) as [[o|]|] eqn:E; [| |exact I]; [apply D in E; intros _; exact E|]. destruct (insertion S k0 (cur v)) as [l|]; [|exact I].
      intros Hv. destruct (zmem _ l); [apply told_tell; exact Hv|exact Hv]. }
    destruct x as [n t|n c0|n r j|n|c0 b0|c0 b0|c0 b0|cases e|d cases|d e b0 r|n j]; try destruct Hx; cbn [RecoveryProof.rstmt]; cbv zeta.
    + apply C. destruct (la1 _ =? t); [intros _ K; discriminate K|]. apply (Inl (set_state n u)).
    + destruct (holds c0 _); [intros _ K; discriminate K|]. apply (Inl (set_state n u)).
    + apply C. unfold sync. destruct (_ || _); [exact (fun H => H)|]. destruct (zmem _ _).
      * destruct (delete_one S k0 _) as [[o|]|] eqn:E; [| |exact I]; [apply D in E; intros _; exact E|exact (fun H => H)].
      * destruct (expected S k0 _); [|exact I]. destruct (recovery S k0); [|exact I]. intros Hu. exact (proj1 (told_tell _ (set_state n u) Hu)).
  - intros n r j start body _ H. eapply all_every; [exact anything_ok|exact H].
Qed.
(** At the end of a function an error left over is reported. *)
Lemma bad_exit k s s' : told s -> bad false s -> error_exit S k s = Some s' -> reports s' <> [].
Proof.
  intros Ht Hb H. destruct Hb as [Hb|(Hb & _)]; [eapply grows_some; [exact Hb|eapply grows_exit; exact H]|]. unfold error_exit in H. destruct (err s) as [r|]; [|destruct Hb; reflexivity].
  destruct (recover S k (tell r s)) as [s1|] eqn:E; [|discriminate H]. injection H as <-. apply recover_same in E as (_ & _ & E). cbn. rewrite E. apply told_tell. exact Ht.
Qed.
Lemma fun_all r start body : nth_error rule_functions (Z.to_nat r) = Some (start, body) -> Every false body.
Proof. apply all_every. exact synced_ok. Qed.
Lemma every_one b x c : Every b (x :: c) -> Every b [x].
Proof.
  intros (f & H). destruct f as [|f]; [discriminate H|]. exists (Datatypes.S f). cbn [every] in *. apply andb_true_iff in H as (H & Hc).
  assert (Hn : every (call_ok parser_atn) true f (is_sync x) [] = true) by (destruct f; [discriminate Hc|reflexivity]). rewrite Hn, andb_true_r. exact H.
Qed.
Lemma stmt_told f k p b x c s : Every b (x :: c) -> told s -> match rstmt f k p x s with Next s' | Exit s' => told s' | _ => True end.
Proof.
  intros Hc Ht. pose proof (told_keep (Datatypes.S (Datatypes.S f)) k p b [x] s (every_one _ _ _ Hc) Ht) as T. rewrite rexec_cons in T.
  destruct (rstmt f k p x s) as [s1|s1| |] eqn:E; try exact I; rewrite (stmt_more A rule_functions P P_at S f (Datatypes.S f) k p x s _ ltac:(lia) E) in T by congruence; exact T.
Qed.
Lemma delete_err k s o : delete_one S k s = Some (Some o) -> err o = err s.
Proof. intros H. apply delete_le in H. tauto. Qed.
Lemma inline_err k s s' : recover_inline S k s = Next s' -> err s <> None -> err s' <> None.
Proof.
  unfold recover_inline. destruct (delete_one S k s) as [[o|]|] eqn:E; [| |discriminate]; [apply delete_err in E; intros H; injection H as <-; cbn; congruence|].
  destruct (insertion S k (cur s)) as [l|]; [|discriminate]. intros H. injection H as <-. destruct (zmem _ l); [rewrite tell_err; auto|discriminate].
Qed.
Lemma inline_next k s : match recover_inline S k s with Next _ | Panic => True | _ => False end.
Proof. unfold recover_inline. destruct (delete_one S k s) as [[o|]|]; try exact I. destruct (insertion S k (cur s)); exact I. Qed.
Lemma check_err r : match r with Next s | Exit s => err s <> None | _ => True end -> match seq_out r check with Exit s => err s <> None | Next _ => False | _ => True end.
Proof. destruct r as [s|s| |]; cbn; auto. unfold check. destruct (err s) eqn:E; [intros _; congruence|auto]. Qed.
(** Something that went wrong stays. *)
Lemma stays : forall f k p b c s, Every b c -> told s -> bad b s -> bad_out (rexec f k p c s).
Proof.
  induction f as [|f IH]; intros k p b c s Hc Ht Hb; [exact I|].
  destruct Hb as [Hb|(He & ->)].
  { pose proof (run_grows A P P_at S (Datatypes.S f) k p b c s (any_of _ _ _ _ Hc)) as G. destruct (rexec (Datatypes.S f) k p c s); try exact I; left; eapply grows_some; eassumption. }
  destruct c as [|x c]; [right; auto|]. rewrite rexec_cons. pose proof (every_cons _ _ _ _ _ Hc) as (Hc' & Hx).
  assert (G : match rstmt f k p x s with Next s' => bad false s' /\ is_sync x = false | Exit s' => bad false s' | _ => True end).
  2: { pose proof (stmt_told f k p _ _ _ s Hc Ht) as T. destruct (rstmt f k p x s) as [s1|s1| |] eqn:E; cbn [seq_out]; try exact I; [|exact G].
       destruct G as (G & Gs). rewrite Gs in Hc'. apply (IH k p false); assumption. }
  assert (IH' : forall c s, Every false c -> told s -> bad false s -> match rexec f k p c s with Next s' => bad false s' /\ false = false | Exit s' => bad false s' | _ => True end).
  { intros c1 s1 H1 H2 H3. pose proof (IH k p false c1 s1 H1 H2 H3) as G. destruct (rexec f k p c1 s1); auto. }
  assert (Bs : bad false s) by (right; auto).
  assert (Hseq : forall c1 x1, is_sync x1 = false -> Every false c1 -> Every false [x1] -> forall g, (forall s1, told s1 -> bad false s1 -> bad_out (g s1)) ->
    match seq_out (rexec f k p c1 s) g with Next s' => bad false s' /\ is_sync x1 = false | Exit s' => bad false s' | _ => True end).
  { intros c1 x1 Hx1 H1 H2 g Hg. pose proof (IH k p false c1 s H1 Ht Bs) as G. pose proof (told_keep f k p false c1 s H1 Ht) as T. destruct (rexec f k p c1 s) as [s1|s1| |]; cbn [seq_out]; auto.
    specialize (Hg s1 T G). destruct (g s1); auto. }
  destruct x as [n t|n c0|n r j|n|c0 b0|c0 b0|c0 b0|cases e|d cases|d e b0 r|n j]; cbn [RecoveryProof.rstmt]; cbv zeta; cbn [is_sync].
  - match goal with |- match seq_out ?r check with _ => _ end => assert (G : match r with Next s | Exit s => err s <> None | _ => True end) end.
    { destruct (la1 _ =? t); [exact He|]. pose proof (inline_next k (set_state n s)) as K. destruct (recover_inline S k (set_state n s)) eqn:E; try exact I; try destruct K. apply inline_err in E; [exact E|exact He]. }
    apply check_err in G. match goal with |- match ?r with _ => _ end => destruct r end; auto; [destruct G|right; auto].
  - destruct (holds c0 _); [split; [right; auto|reflexivity]|]. pose proof (inline_next k (set_state n s)) as K. destruct (recover_inline S k (set_state n s)) eqn:E; try exact I; try destruct K.
    apply inline_err in E; [|exact He]. split; [right; auto|reflexivity].
  - destruct (nth_error rule_functions (Z.to_nat r)) as [(start, body)|] eqn:Ef; [|exact I]. pose proof (fun_all _ _ _ Ef) as Hbody.
    pose proof (IH ((n, p) :: k) j false body (set_state start (set_state n s)) Hbody Ht Bs) as G. pose proof (told_keep f ((n, p) :: k) j false body (set_state start (set_state n s)) Hbody Ht) as T.
    destruct (rexec f ((n, p) :: k) j body (set_state start (set_state n s))) as [s1|s1| |]; cbn [leave]; auto;
      (destruct (error_exit S ((n, p) :: k) s1) as [s2|] eqn:E; [|exact I]); apply bad_exit in E; auto; (split; [left; destruct (r =? 50); exact E|reflexivity]).
  - match goal with |- match seq_out ?r check with _ => _ end => assert (G : match r with Next s | Exit s => err s <> None | _ => True end) end.
    { unfold sync. destruct (_ || _); [exact He|]. destruct (zmem _ _).
      - destruct (delete_one S k _) as [[o|]|] eqn:E; [| |exact I]; [apply delete_err in E; rewrite E; exact He|discriminate].
      - destruct (expected S k _); [|exact I]. destruct (recovery S k); [|exact I]. cbn. rewrite tell_err. exact He. }
    apply check_err in G. match goal with |- match ?r with _ => _ end => destruct r end; auto; [destruct G|right; auto].
  - destruct (holds c0 (la1 s)); [apply IH'; assumption|split; [exact Bs|reflexivity]].
  - destruct (holds c0 (la1 s)); [|split; [exact Bs|reflexivity]]. apply (Hseq b0 (For c0 b0)); [reflexivity|exact Hx|eapply every_again; [exact I|exact Hc]|].
    intros s1 T1 B1. apply (IH k p false); [eapply every_again; [exact I|exact Hc]|exact T1|exact B1].
  - apply (Hseq b0 (Do c0 b0)); [reflexivity|exact Hx|eapply every_again; [exact I|exact Hc]|].
    intros s1 T1 B1. destruct (holds c0 (la1 s1)); [|exact B1]. apply (IH k p false); [eapply every_again; [exact I|exact Hc]|exact T1|exact B1].
  - destruct (case_of (la1 s) cases) as [b0|] eqn:Ec; [apply IH'; eauto|]. destruct e; [right; split; [discriminate|reflexivity]|split; [exact Bs|reflexivity]].
  - destruct Hx as (Hx & _). discriminate (Hx eq_refl).
  - destruct Hx as (Hx & _). discriminate (Hx eq_refl).
  - destruct (j >=? p); [split; [exact Bs|reflexivity]|right; split; [discriminate|reflexivity]].
Qed.

(** *** The run of GoParser.v, and this one *)
Local Notation exec := (GoParser.exec A rule_functions P).
Definition clean (s : pst) (u : rst) : Prop := toks u = rest s /\ err u = None /\ mode u = false /\ reports u = [].
Definition agrees (r : result) (o : outcome) : Prop :=
  match r with
  | Done s' => match o with Next u' => clean s' u' | _ => False end
  | Failed => bad_out o
  | Unfinished => True
  end.
Lemma clean_la s u : clean s u -> la1 u = la s. Proof. unfold clean, la1, la. intros (-> & _). reflexivity. Qed.
Lemma clean_input s u : clean s u -> rinput u = input_of s. Proof. unfold clean, rinput, input_of. intros (-> & _). reflexivity. Qed.
Lemma clean_told s u : clean s u -> told u. Proof. intros (_ & _ & H & _). unfold told. congruence. Qed.
Lemma clean_set n s u : clean s u -> clean s (set_state n u). Proof. exact (fun H => H). Qed.
Lemma clean_err s u : clean s u -> clean s (set_err None u). Proof. unfold clean. cbn. tauto. Qed.
Lemma clean_match s u : clean s u -> clean (consume s) (advance (report_match u)).
Proof. intros (H1 & H2 & H3 & H4). unfold clean, consume, advance, report_match. cbn. rewrite H1. destruct (rest s); auto. Qed.
Lemma clean_kids s l u : clean s u -> clean (St (rest s) l) u. Proof. exact (fun H => H). Qed.
Lemma inline_bad k u : mode u = false -> bad_out (recover_inline S k u).
Proof.
  intros Hm. unfold recover_inline, delete_one. destruct (expected S k (cur u)) as [e|]; [|exact I]. destruct (zmem (la2 u) e).
  - left. cbn. unfold tell. rewrite Hm. cbn. destruct (reports u); discriminate.
  - destruct (insertion S k (cur u)) as [l|]; [|exact I]. destruct (zmem _ l); [left|right; split; [discriminate|reflexivity]]. unfold tell. rewrite Hm. cbn. destruct (reports u); discriminate.
Qed.
Lemma bad_check r : bad_out r -> bad_out (seq_out r check).
Proof. destruct r as [u|u| |]; cbn; auto. unfold check. destruct (err u); auto. Qed.
Lemma sync_bad k u : mode u = false -> sync_ok A (cur u) (la1 u) = false -> bad_out (sync A S k u).
Proof.
  intros Hm Hs. unfold sync. rewrite Hm, Hs. cbn [orb]. destruct (zmem _ _).
  - unfold delete_one. destruct (expected S k (cur u)) as [e|]; [|exact I]. destruct (zmem (la2 u) e); [|right; split; [discriminate|reflexivity]]. left. cbn. unfold tell. rewrite Hm. cbn. destruct (reports u); discriminate.
  - destruct (expected S k (cur u)); [|exact I]. destruct (recovery S k); [|exact I]. left. cbn. unfold tell. rewrite Hm. cbn. destruct (reports u); discriminate.
Qed.
Lemma stm_agrees_seq r o g h : agrees r o ->
  (forall s u, clean s u -> agrees (g s) (h u)) -> (forall u, o = Next u -> bad false u -> bad_out (h u)) ->
  agrees (andthen r g) (seq_out o h).
Proof.
  intros H Hg Hh. destruct r as [s1| |]; cbn [andthen]; [|destruct o as [u|u| |]; cbn in *; auto|exact I].
  destruct o as [u|u| |]; try (exfalso; exact H). cbn [seq_out]. apply Hg. exact H.
Qed.
Lemma run_agrees : forall f k p b c s u, Every b c -> clean s u -> agrees (exec f k p c s) (rexec f k p c u).
Proof.
  induction f as [|f IH]; intros k p b c s u Hc Hs; [exact I|]. destruct c as [|x c]; [exact Hs|]. rewrite exec_cons, rexec_cons. pose proof (every_cons _ _ _ _ _ Hc) as (Hc' & Hx).
  pose proof (clean_la _ _ Hs) as Hla. pose proof (clean_input _ _ Hs) as Hin. pose proof Hs as (Hs1 & Hs2 & Hs3 & Hs4).
  assert (Hnx : forall c0 k0 p0 b0 u0, Every b0 c0 -> told u0 -> bad b0 u0 -> bad_out (rexec f k0 p0 c0 u0)) by (intros; eapply stays; eassumption).
  assert (Hrun : forall c0 k0 p0 b0 u0, Every b0 c0 -> told u0 -> forall u1, rexec f k0 p0 c0 u0 = Next u1 -> told u1).
  { intros c0 k0 p0 b0 u0 H0 H1 u1 E. pose proof (told_keep f k0 p0 b0 c0 u0 H0 H1) as T. rewrite E in T. exact T. }
  pose proof (clean_told _ _ Hs) as Htu.
  assert (G : agrees (stm A rule_functions P f k p x s) (rstmt f k p x u)).
  2: { apply stm_agrees_seq; [exact G| |].
       - intros s1 u1 H1. eapply IH; eassumption.
       - intros u1 E B1. pose proof (stmt_told f k p b x c u Hc Htu) as T. rewrite E in T. apply (Hnx _ _ _ (is_sync x)); [exact Hc'|exact T|].
         destruct x; cbn [is_sync]; try exact B1. cbn [RecoveryProof.rstmt] in E. destruct (sync A S k (set_state n u)) as [v|v| |]; cbn [seq_out] in E; try discriminate E. unfold check in E.
         destruct (err v) eqn:Ev; [discriminate E|]. injection E as <-. destruct B1 as [B1|(B1 & _)]; [left; exact B1|congruence]. }
  assert (Hsq : forall c1 g h, Every false c1 -> (forall s u, clean s u -> agrees (g s) (h u)) -> (forall u, told u -> bad false u -> bad_out (h u)) ->
     forall s u, clean s u -> agrees (andthen (exec f k p c1 s) g) (seq_out (rexec f k p c1 u) h)).
  { intros c1 g h H1 Hg Hh s1 u1 H0. apply stm_agrees_seq; [eapply IH; eassumption|exact Hg|]. intros u2 E B. apply Hh; [|exact B]. apply (Hrun c1 k p false u1 H1 (clean_told _ _ H0) _ E). }
  destruct x as [n t|n c0|n r j|n|c0 b0|c0 b0|c0 b0|cases e|d cases|d e b0 r|n j]; cbn [RecoveryProof.rstmt stm]; cbv zeta; rewrite ?Hla, ?Hin.
  - change (la1 (set_state n u)) with (la1 u). rewrite Hla. destruct (la s =? t).
    + cbn. unfold check. change (err (advance (report_match (set_state n u)))) with (err u). rewrite Hs2. cbn. exact (clean_match s (set_state n u) Hs).
    + cbn [agrees]. apply bad_check. apply inline_bad. exact Hs3.
  - change (la1 (set_state n u)) with (la1 u). rewrite Hla. destruct (holds c0 (la s)); [exact (clean_match s (set_state n u) Hs)|]. cbn [agrees]. apply inline_bad. exact Hs3.
  - destruct (nth_error rule_functions (Z.to_nat r)) as [(start, body)|] eqn:Ef; [|exact I]. pose proof (fun_all _ _ _ Ef) as Hbody.
    set (u0 := set_state start (set_state n u)). assert (H0 : clean (St (rest s) []) u0) by exact Hs.
    pose proof (IH ((n, p) :: k) j false body _ _ Hbody H0) as G. pose proof (told_keep f ((n, p) :: k) j false body u0 Hbody (clean_told _ _ H0)) as T.
    destruct (exec f ((n, p) :: k) j body (St (rest s) [])) as [s1| |]; cbn [andthen agrees]; [| |exact I].
    + cbn [agrees] in G. destruct (rexec f ((n, p) :: k) j body u0) as [u1|u1| |]; try (exfalso; exact G). cbn [leave]. destruct G as (G1 & G2 & G3 & G4). unfold error_exit. rewrite G2.
      destruct (r =? 50); repeat split; assumption.
    + cbn [agrees] in G. destruct (rexec f ((n, p) :: k) j body u0) as [u1|u1| |]; cbn [leave]; try exact I;
        (destruct (error_exit S ((n, p) :: k) u1) as [u2|] eqn:E; [|exact I]); apply bad_exit in E; auto; left; destruct (r =? 50); exact E.
  - destruct (sync_ok A n (la s)) eqn:E.
    + cbn [agrees]. unfold sync. change (cur (set_state n u)) with n. change (la1 (set_state n u)) with (la1 u). rewrite Hla, E, orb_true_r. cbn [seq_out]. unfold check. change (err (set_state n u)) with (err u). rewrite Hs2. exact Hs.
    + cbn [agrees]. apply bad_check. apply sync_bad; [exact Hs3|]. change (cur (set_state n u)) with n. change (la1 (set_state n u)) with (la1 u). rewrite Hla. exact E.
  - destruct (holds c0 (la s)); [eapply IH; eassumption|exact Hs].
  - destruct (holds c0 (la s)); [|exact Hs]. assert (Ha : Every false [For c0 b0]) by (eapply every_again; [exact I|exact Hc]). apply Hsq; [exact Hx| | |exact Hs].
    + intros s1 u1 H1. eapply IH; eassumption.
    + intros u1 T1 B1. eapply Hnx; eassumption.
  - assert (Ha : Every false [Do c0 b0]) by (eapply every_again; [exact I|exact Hc]). apply (Hsq b0 _ (fun s' => if holds c0 (la1 s') then rexec f k p [Do c0 b0] s' else Next s')); [exact Hx| | |exact Hs].
    + intros s1 u1 H1. rewrite (clean_la _ _ H1). destruct (holds c0 (la s1)); [eapply IH; eassumption|exact H1].
    + intros u1 T1 B1. destruct (holds c0 (la1 u1)); [eapply Hnx; eassumption|exact B1].
  - destruct (case_of (la s) cases) as [b0|] eqn:Ec; [eapply IH; [eapply Hx; exact Ec|exact Hs]|]. destruct e; [|exact Hs]. right. split; [discriminate|reflexivity].
  - destruct (P d k p (input_of s)) as [a|]; [|right; split; [discriminate|reflexivity]]. destruct Hx as (_ & Hx). destruct (alt_of a cases) as [b0|] eqn:Ea; [eapply IH; [eapply Hx; exact Ea|apply clean_err; exact Hs]|apply clean_err; exact Hs].
  - destruct (P d k p (input_of s)) as [a|]; [|right; split; [discriminate|reflexivity]]. destruct Hx as (Hb & Hx1 & Hx2 & Hr). destruct (Hr eq_refl) as (m & ->). apply clean_err in Hs. destruct (a =? e); [exact Hs|].
    assert (Ha : Every true [Loop d e b0 [Sync m]]) by (eapply every_again; [reflexivity|exact Hc]).
    assert (Hno : forall u u1, rexec f k p [Sync m] u = Next u1 -> err u1 = None).
    { intros v v1 E. destruct f as [|f0]; [discriminate E|]. rewrite rexec_cons in E. destruct (rstmt f0 k p (Sync m) v) as [w|w| |] eqn:E1; try discriminate E. cbn [seq_out] in E. destruct f0; [discriminate E|]. injection E as <-.
      cbn [RecoveryProof.rstmt] in E1. destruct (sync A S k (set_state m v)) as [z|z| |]; cbn [seq_out] in E1; try discriminate E1. unfold check in E1. destruct (err z) eqn:Ez; [discriminate E1|]. injection E1 as <-. exact Ez. }
    assert (Htail : forall s1 u1, clean s1 u1 -> agrees (andthen (exec f k p [Sync m] s1) (exec f k p [Loop d e b0 [Sync m]])) (seq_out (rexec f k p [Sync m] u1) (rexec f k p [Loop d e b0 [Sync m]]))).
    { intros s1 u1 H1. apply stm_agrees_seq; [eapply IH; eassumption|intros s2 u2 H2; eapply IH; eassumption|]. intros u2 E B. eapply Hnx; [exact Ha|exact (Hrun _ _ _ _ _ Hx2 (clean_told _ _ H1) _ E)|].
      destruct B as [B|(B & _)]; [left; exact B|destruct B; eapply Hno; exact E]. }
    assert (Hbad : forall u1, told u1 -> bad false u1 -> bad_out (seq_out (rexec f k p [Sync m] u1) (rexec f k p [Loop d e b0 [Sync m]]))).
    { intros u1 T1 B1. pose proof (Hnx _ k p _ _ Hx2 T1 B1) as B2. pose proof (Hrun _ k p _ _ Hx2 T1) as T2. pose proof (Hno u1) as N. destruct (rexec f k p [Sync m] u1) as [u2|u2| |]; cbn [seq_out]; auto.
      eapply Hnx; [exact Ha|apply T2; reflexivity|]. destruct B2 as [B2|(B2 & _)]; [left; exact B2|destruct B2; apply N; reflexivity]. }
    destruct (a =? 1).
    + apply (Hsq b0 _ (fun s' => seq_out (rexec f k p [Sync m] s') (rexec f k p [Loop d e b0 [Sync m]]))); assumption.
    + cbn [andthen seq_out]. apply Htail. exact Hs.
  - destruct (j >=? p); [exact Hs|]. right. split; [discriminate|reflexivity].
Qed.
End Bad.
