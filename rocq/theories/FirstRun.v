(** The first error a run with recovery reports: where the run that stops at the first error fails.  [pexec] is a device of the
    proof: GoParser.exec without the tree, and with the place of the failure (how many tokens are left there). *)
From Coq Require Import ZArith Lia.
From Verif Require Import Str Tokens Grammar Tree AtnData Atn AtnParser AtnParserTable AtnParserProof GoParser ParserCode PredictSpec GoParserTable GoParserProof Predict PredictTable PredictProof
  Recovery RecoveryTable RecoveryProof RecoveryCheck RecoveryProof2 RecoveryProof3 FirstTable.
Local Open Scope Z_scope.

(** Why: at a token, a set of tokens or a Sync (in the state [m], in front of [la]), without an alternative, or denied a level. *)
Inductive why := AtToken (k : stack) (p m la : Z) | AtSet (k : stack) (p m la : Z) | AtSync (k : stack) (p m la : Z) | NoAlternative (since : nat) | Denied.
Inductive pres := PDone (l : list tok) | PFail (n : nat) (w : why) | PMore.
Definition pthen (r : pres) (g : list tok -> pres) : pres := match r with PDone l => g l | r => r end.
Definition pla (l : list tok) : Z := match l with x :: _ => kind_of x | [] => -1 end.
Section Pexec.
Variable A : atn.
Variable funs : list (Z * list code).
Variable P : predictor.
Variable P_at : forall (d p : Z) (input : list Z), nat.
Section Stmt.
Variable go : stack -> Z -> list code -> list tok -> pres.
Definition pstmt (k : stack) (p : Z) (x : code) (l : list tok) : pres :=
  match x with
  | Match n t => if pla l =? t then PDone (tl l) else PFail (length l) (AtToken k p n (pla l))
  | MatchSet n c => if holds c (pla l) then PDone (tl l) else PFail (length l) (AtSet k p n (pla l))
  | Call n r j => match nth_error funs (Z.to_nat r) with Some (_, body) => go ((n, p) :: k) j body l | None => PFail (length l) Denied end
  | Sync n => if sync_ok A n (pla l) then PDone l else PFail (length l) (AtSync k p n (pla l))
  | If c b => if holds c (pla l) then go k p b l else PDone l
  | For c b => if holds c (pla l) then pthen (go k p b l) (go k p [For c b]) else PDone l
  | Do c b => pthen (go k p b l) (fun l' => if holds c (pla l') then go k p [Do c b] l' else PDone l')
  | Switch cases e => match case_of (pla l) cases with Some b => go k p b l | None => if e then PFail (length l) (NoAlternative (length l)) else PDone l end
  | Choose d cases =>
      match P d k p (kinds l ++ [-1]) with
      | Some a => match alt_of a cases with Some b => go k p b l | None => PDone l end
      | None => PFail (length l - P_at d p (kinds l ++ [-1])) (NoAlternative (length l))
      end
  | Loop d e b r =>
      match P d k p (kinds l ++ [-1]) with
      | Some a => if a =? e then PDone l
          else pthen (if a =? 1 then go k p b l else PDone l) (fun l' => pthen (go k p r l') (go k p [Loop d e b r]))
      | None => PFail (length l - P_at d p (kinds l ++ [-1])) (NoAlternative (length l))
      end
  | Prec _ j => if j >=? p then PDone l else PFail (length l) Denied
  end.
End Stmt.
Fixpoint pexec (fuel : nat) (k : stack) (p : Z) (c : list code) (l : list tok) : pres :=
  match fuel, c with
  | O, _ => PMore
  | S _, [] => PDone l
  | S f, x :: c' => pthen (pstmt (pexec f) k p x l) (pexec f k p c')
  end.
Lemma pexec_cons f k p x c l : pexec (S f) k p (x :: c) l = pthen (pstmt (pexec f) k p x l) (pexec f k p c). Proof. reflexivity. Qed.
Lemma pexec_app k p c2 : forall f c1 l r, pexec f k p (c1 ++ c2) l = r ->
  match pexec f k p c1 l with PDone l1 => exists f', pexec f' k p c2 l1 = r \/ r = PMore | PFail n w => r = PFail n w | PMore => r = PMore end.
Proof.
  induction f as [|f IH]; intros c1 l r H; [exact (eq_sym H)|]. destruct c1 as [|x c1]; cbn [app] in H; [exists (S f); left; exact H|]. rewrite pexec_cons in *.
  destruct (pstmt (pexec f) k p x l) as [l1|n w|]; cbn [pthen] in *; [exact (IH _ _ _ H)|exact (eq_sym H)|exact (eq_sym H)].
Qed.
(** Tokens only go. *)
Lemma pexec_le : forall f k p c l, match pexec f k p c l with PDone l' => length l' <= length l | PFail n _ => n <= length l | PMore => True end%nat.
Proof.
  induction f as [|f IH]; intros k p c l; [exact I|]. destruct c as [|x c]; [cbn; lia|]. rewrite pexec_cons.
  assert (T : forall r g, match r with PDone l' => length l' <= length l | PFail n _ => n <= length l | PMore => True end%nat ->
    (forall l', match g l' with PDone l'' => length l'' <= length l' | PFail n _ => n <= length l' | PMore => True end%nat) ->
    match pthen r g with PDone l' => length l' <= length l | PFail n _ => n <= length l | PMore => True end%nat).
  { intros r g Hr Hg. destruct r as [l1|n w|]; cbn [pthen]; auto. specialize (Hg l1). destruct (g l1); auto; lia. }
  assert (T1 : forall k p c l, match pexec f k p c l with PDone l' => length l' <= length l | PFail n _ => n <= length l | PMore => True end%nat) by exact IH.
  apply T; [|intros l'; apply IH]. destruct x as [n t|n c0|n r j|n|c0 b0|c0 b0|c0 b0|cases e|d cases|d e b0 r|n j]; cbn [pstmt].
  - destruct (pla l =? t); [destruct l; cbn; lia|lia].
  - destruct (holds c0 (pla l)); [destruct l; cbn; lia|lia].
  - destruct (nth_error funs (Z.to_nat r)) as [(s, body)|]; [apply IH|lia].
  - destruct (sync_ok A n (pla l)); lia.
  - destruct (holds c0 (pla l)); [apply IH|lia].
  - destruct (holds c0 (pla l)); [|lia]. apply T; [apply IH|intros; apply IH].
  - apply T; [apply IH|]. intros l'. destruct (holds c0 (pla l')); [apply IH|lia].
  - destruct (case_of (pla l) cases); [apply IH|]. destruct e; lia.
  - destruct (P d k p (kinds l ++ [-1])) as [a|]; [|lia]. destruct (alt_of a cases); [apply IH|lia].
  - destruct (P d k p (kinds l ++ [-1])) as [a|]; [|lia]. destruct (a =? e); [lia|]. apply T; [destruct (a =? 1); [apply IH|lia]|].
    intros l'. pose proof (T1 k p r l') as G. destruct (pexec f k p r l') as [l2|m w|]; cbn [pthen]; auto. pose proof (T1 k p [Loop d e b0 r] l2) as G2. destruct (pexec f k p [Loop d e b0 r] l2); auto; lia.
  - destruct (j >=? p); lia.
Qed.
End Pexec.

(** *** After MatchSet, which does not check for errors, comes what does *)
Definition stops (x : code) : option (bool * Z) := match x with Match n _ => Some (false, n) | Sync n => Some (true, n) | _ => None end.
(** What comes next: a call to be entered first, whether it is a Sync, and its state. *)
Definition settler (c : list code) : option (option (Z * Z) * bool * Z) :=
  match c with
  | x :: _ =>
      match stops x, x with
      | Some (b, n), _ => Some (None, b, n)
      | None, Call m r j => match nth_error rule_functions (Z.to_nat r) with Some (_, y :: _) => match stops y with Some (b, n) => Some (Some (m, j), b, n) | None => None end | _ => None end
      | None, _ => None
      end
  | [] => None
  end.
Local Notation tr := (tr parser_atn).
Local Notation nrm := (nrm parser_atn).
(** In the ATN: from the set of [m] to the state [n], where something is named. *)
Definition leads (m : Z) (call : option (Z * Z)) (sync : bool) (n : Z) : bool :=
  match tr m with
  | [TSet false l to] =>
      existsb (in_ranges l) words && names_well n && negb (zmem (-2) (next_tokens parser_atn n)) && (sync || one_set n && negb (n =? 118)) &&
      match call with
      | None => nrm to =? nrm n
      | Some (q, j) => (nrm to =? q) && match tr q with [TRule s _ _ j'] => (j =? j') && (nrm s =? nrm n) | _ => false end
      end
  | _ => false
  end.
Definition settled (m : Z) (c : list code) : bool := match settler c with Some (call, sync, n) => leads m call sync n | None => false end.
Fixpoint setok (f : nat) (top : bool) (c : list code) : bool :=
  match f, c with
  | O, _ => false
  | S _, [] => true
  | S f, x :: c' =>
      match x with
      | MatchSet m _ => settled m c' || top && match c' with [] => true | _ => false end
      | If _ b | For _ b | Do _ b => setok f false b
      | Switch cases _ => forallb (fun x => setok f false (snd x)) cases
      | Choose _ cases => forallb (fun x => setok f false (snd x)) cases
      | Loop _ _ b r => setok f false b && setok f false r
      | _ => true
      end && setok f top c'
  end.
Lemma sets_settled : forallb (fun e => setok 40 true (snd e)) rule_functions = true. Proof. vm_compute. reflexivity. Qed.
Definition SetOk (top : bool) (c : list code) : Prop := exists f, setok f top c = true.
Lemma set_nil top : SetOk top []. Proof. exists 1%nat. reflexivity. Qed.
Lemma set_cons top x c : SetOk top (x :: c) -> SetOk top c /\ match x with
  | MatchSet m _ => settled m c = true \/ top = true /\ c = []
  | If _ b | For _ b | Do _ b => SetOk false b
  | Switch cases _ => forall t b, case_of t cases = Some b -> SetOk false b
  | Choose _ cases => forall a b, alt_of a cases = Some b -> SetOk false b
  | Loop _ _ b r => SetOk false b /\ SetOk false r
  | _ => True
  end.
Proof.
  intros (f & H). destruct f as [|f]; [discriminate H|]. cbn [setok] in H. apply andb_true_iff in H as (H & Hc). split; [exists f; exact Hc|].
  destruct x as [n t|n c0|n r j|n|c0 b0|c0 b0|c0 b0|cases e|d cases|d e b0 r|n j]; try exact I; try (exists f; exact H).
  - apply orb_true_iff in H as [H|H]; [left; exact H|right]. apply andb_true_iff in H as (-> & H). destruct c; [auto|discriminate].
  - intros t b0. revert H. clear Hc. induction cases as [|(ts, b1) l IH]; cbn; [discriminate|]. rewrite andb_true_iff. intros (H & Hl). destruct (zmem t ts); [intros E; injection E as ->; exists f; exact H|auto].
  - intros a b0. revert H. clear Hc. induction cases as [|(i, b1) l IH]; cbn; [discriminate|]. rewrite andb_true_iff. intros (H & Hl). destruct (a =? i); [intros E; injection E as ->; exists f; exact H|auto].
  - apply andb_true_iff in H as (H1 & H2). split; exists f; assumption.
Qed.
Lemma set_again top x c : match x with For _ _ | Do _ _ | Loop _ _ _ _ => True | _ => False end -> SetOk top (x :: c) -> SetOk false [x].
Proof.
  intros Hx (f & H). destruct f as [|f]; [discriminate H|]. exists (S f). cbn [setok] in *. apply andb_true_iff in H as (H & Hc).
  assert (Hn : setok f false [] = true) by (destruct f; [discriminate Hc|reflexivity]). rewrite Hn, andb_true_r.
  destruct x; try (exfalso; exact Hx); exact H.
Qed.

(** *** The first error *)
Section First.
Variable A : atn.
Variable P : predictor.
Variable P_at : forall (d p : Z) (input : list Z), nat.
Variable S : strategy.
Local Notation rexec := (rexec A rule_functions P P_at S).
Local Notation rstmt := (rstmt A rule_functions P P_at S).
Local Notation pexec := (pexec A rule_functions P P_at).
(** What a report says that is made in the state [m] in front of [la]: the tokens expected there. *)
Definition expects (k : stack) (m : Z) (r : report) : Prop := exists e, expected S k m = Some e /\ r_detail r = Expecting e.
Definition told (sync : bool) (k : stack) (m la : Z) (r : report) : Prop :=
  expects k m r /\ (r_kind r = Unwanted \/ r_kind r = Mismatch \/ sync = false /\ r_kind r = Missing /\ exists i, insertion S k m = Some i /\ zmem la i = true).
Definition explains (w : why) (r : report) : Prop :=
  match w with
  | AtToken k p m la => told false k m la r
  | AtSync k p m la => told true k m la r
  | AtSet k p m la => told false k m la r \/
      exists call sync n, leads m call sync n = true /\ told sync (match call with Some (q, _) => (q, p) :: k | None => k end) n la r
  | NoAlternative since => r_kind r = NoViableAlt /\ r_detail r = Since since
  | Denied => True
  end.
Definition because (n : nat) (w : why) (r : report) : Prop := r_left r = n /\ explains w r.
Definition said (E : report -> Prop) (s : rst) : Prop := exists r l, reports s = r :: l /\ E r.
Definition pending (E : report -> Prop) (s : rst) : Prop := reports s = [] /\ mode s = false /\ exists r, err s = Some r /\ E r.
Definition first_out (top : bool) (n : report -> Prop) (o : outcome) : Prop :=
  match o with Next s => said n s \/ top = true /\ pending n s | Exit s => said n s \/ pending n s | _ => True end.
Lemma said_grows n s s' : said n s -> grows s s' -> said n s'.
Proof. intros (r & l & E & H) (m & G). rewrite E in G. exists r, (l ++ m). auto. Qed.
Lemma said_run f k p b c s n : Every anything false b c -> said n s -> match rexec f k p c s with Next s' | Exit s' => said n s' | _ => True end.
Proof. intros Hc Hn. pose proof (run_grows A P P_at S f k p b c s Hc) as G. destruct (rexec f k p c s); auto; eapply said_grows; eassumption. Qed.
Lemma said_tell (E : report -> Prop) r s : mode s = false -> reports s = [] -> E r -> said E (tell r s).
Proof. intros Hm Hr He. exists r, []. unfold tell. rewrite Hm, Hr. auto. Qed.
Lemma exit_said k s s' n : said n s \/ pending n s -> error_exit S k s = Some s' -> said n s'.
Proof.
  intros [H|(H1 & H2 & r & H3 & H4)] E; [eapply said_grows; [exact H|eapply grows_exit; exact E]|].
  unfold error_exit in E. rewrite H3 in E. destruct (recover S k (tell r s)) as [s1|] eqn:Er; [|discriminate]. injection E as <-. apply recover_same in Er as (_ & _ & Er).
  destruct (said_tell n r s H2 H1 H4) as (r' & l & Ht & Hl). exists r', l. cbn. rewrite Er. split; [exact Ht|exact Hl].
Qed.
Definition cl (l : list tok) (u : rst) : Prop := toks u = l /\ err u = None /\ mode u = false /\ reports u = [].
Lemma cl_la l u : cl l u -> la1 u = pla l. Proof. unfold cl, la1, pla. intros (-> & _). reflexivity. Qed.
Lemma cl_input l u : cl l u -> rinput u = kinds l ++ [-1]. Proof. unfold cl, rinput. intros (-> & _). reflexivity. Qed.
Lemma cl_here l u : cl l u -> here u = length l. Proof. unfold cl, here. intros (-> & _). reflexivity. Qed.
Lemma cl_err l u : cl l u -> cl l (set_err None u). Proof. unfold cl. cbn. tauto. Qed.
Lemma cl_match l u : cl l u -> cl (tl l) (advance (report_match u)).
Proof. intros (H1 & H2 & H3 & H4). unfold cl, advance, report_match. cbn. rewrite H1. auto. Qed.
(** In place of a token that is not there *)
Lemma inline_first (E : report -> Prop) k s : mode s = false -> reports s = [] -> (forall r, r_left r = here s -> told false k (cur s) (la1 s) r -> E r) ->
  match recover_inline S k s with Next s' => said E s' \/ pending E s' /\ here s' = here s /\ la1 s' = la1 s | Panic => True | _ => False end.
Proof.
  intros Hm Hr HE. unfold recover_inline, delete_one, awaited. destruct (expected S k (cur s)) as [e|] eqn:Ee; [|exact I].
  assert (Hx : forall r, r_detail r = Expecting e -> expects k (cur s) r) by (intros r H; exists e; auto). destruct (zmem (la2 s) e).
  - left. assert (H : said E (tell (Report Unwanted (here s) (Expecting e)) s)) by (apply said_tell; [exact Hm|exact Hr|]; apply HE; [reflexivity|]; split; [apply Hx; reflexivity|left; reflexivity]). exact H.
  - destruct (insertion S k (cur s)) as [l|] eqn:Ei; [|exact I]. destruct (zmem (la1 s) l) eqn:Ez.
    + left. apply said_tell; [exact Hm|exact Hr|]. apply HE; [reflexivity|]. split; [apply Hx; reflexivity|]. right. right. split; [reflexivity|]. split; [reflexivity|]. exists l. auto.
    + right. split; [|split; reflexivity]. split; [exact Hr|]. split; [exact Hm|]. exists (Report Mismatch (here s) (Expecting e)). split; [reflexivity|]. apply HE; [reflexivity|]. split; [apply Hx; reflexivity|right; left; reflexivity].
Qed.
Lemma sync_first (E : report -> Prop) k s : mode s = false -> reports s = [] -> (forall r, r_left r = here s -> told true k (cur s) (la1 s) r -> E r) -> sync_ok A (cur s) (la1 s) = false ->
  match sync A S k s with Next s' => said E s' \/ pending E s' | Panic => True | _ => False end.
Proof.
  intros Hm Hr HE Ho. unfold sync. rewrite Hm, Ho. cbn [orb].
  assert (HU : forall e, expected S k (cur s) = Some e -> E (Report Unwanted (here s) (Expecting e))).
  { intros e Ee. apply HE; [reflexivity|]. split; [exists e; auto|left; reflexivity]. }
  destruct (zmem _ _).
  - unfold delete_one, awaited. destruct (expected S k (cur s)) as [e|] eqn:Ee; [|exact I]. destruct (zmem (la2 s) e).
    + left. assert (H : said E (tell (Report Unwanted (here s) (Expecting e)) s)) by (apply said_tell; auto). exact H.
    + right. split; [exact Hr|]. split; [exact Hm|]. exists (Report Mismatch (here s) (Expecting e)). split; [reflexivity|]. apply HE; [reflexivity|]. split; [exists e; auto|right; left; reflexivity].
  - destruct (expected S k (cur s)) as [e|] eqn:Ee; [|exact I]. destruct (recovery S k); [|exact I]. left. assert (H : said E (tell (Report Unwanted (here s) (Expecting e)) s)) by (apply said_tell; auto). exact H.
Qed.
Lemma check_first n r : match r with Next s' => said n s' \/ pending n s' | Panic => True | _ => False end -> first_out false n (seq_out r check).
Proof.
  destruct r as [s|s| |]; cbn; auto; try tauto. unfold check. destruct (err s) as [e|] eqn:E; [auto|]. intros [H|(_ & _ & r & H & _)]; [left; exact H|congruence].
Qed.
(** The error set by a MatchSet is found by the next statement. *)
Lemma stop_settles (E : report -> Prop) f k p y s b q : stops y = Some (b, q) -> pending E s -> (forall r, r_left r = here s -> told b k q (la1 s) r -> E r) ->
  match rstmt f k p y s with Exit s' => said E s' \/ pending E s' | Panic => True | _ => False end.
Proof.
  intros Hy Hp HE. pose proof Hp as (Hr & Hm & r & He & Hl). assert (Hc : forall o, (match o with Next s' => said E s' \/ pending E s' | Panic => True | _ => False end) ->
    (forall s', o = Next s' -> err s' <> None) -> match seq_out o check with Exit s' => said E s' \/ pending E s' | Panic => True | _ => False end).
  { intros o Ho Hs. destruct o as [s'|s'| |]; cbn in *; try tauto. unfold check. specialize (Hs s' eq_refl). destruct (err s'); [exact Ho|congruence]. }
  destruct y as [m t|m c0|m r0 j|m|c0 b0|c0 b0|c0 b0|cases e|d cases|d e b0 r0|m j]; try discriminate Hy; cbn [RecoveryProof.rstmt]; cbv zeta; cbn [stops] in Hy; injection Hy as <- <-.
  - destruct (la1 (set_state m s) =? t).
    + cbn. unfold check. change (err (advance (report_match (set_state m s)))) with (err s). rewrite He. right. split; [exact Hr|]. split; [reflexivity|]. exists r. auto.
    + pose proof (inline_first E k (set_state m s) Hm Hr HE) as G. assert (He' : err (set_state m s) <> None) by (cbn; congruence). apply Hc.
      * destruct (recover_inline S k (set_state m s)); tauto.
      * intros s' E0. exact (inline_err S k _ _ E0 He').
  - destruct (sync_ok A (cur (set_state m s)) (la1 (set_state m s))) eqn:Eo.
    + unfold sync. rewrite Eo, orb_true_r. cbn [seq_out]. unfold check. change (err (set_state m s)) with (err s). rewrite He. right. exact Hp.
    + apply Hc; [exact (sync_first E k (set_state m s) Hm Hr HE Eo)|]. intros s' E0. unfold sync in E0. cbn [mode set_state] in E0. rewrite Hm, Eo in E0. cbn [orb] in E0. destruct (zmem _ _) in E0.
      * destruct (delete_one S k _) as [[o|]|] eqn:Ed; [| |discriminate E0]; injection E0 as <-; [apply delete_err in Ed; rewrite Ed; cbn; congruence|discriminate].
      * destruct (expected S k _); [|discriminate E0]. destruct (recovery S k); [|discriminate E0]. injection E0 as <-. cbn. rewrite tell_err. cbn. congruence.
Qed.
Lemma any_fun r start body : nth_error rule_functions (Z.to_nat r) = Some (start, body) -> Every anything false false body.
Proof. intros H. eapply any_of. exact (fun_all r start body H). Qed.
Lemma settle : forall (E : report -> Prop) f k p c s b call sync q, Every anything false b c -> settler c = Some (call, sync, q) -> pending E s ->
  (forall r, r_left r = here s -> told sync (match call with Some (q, _) => (q, p) :: k | None => k end) q (la1 s) r -> E r) -> first_out false E (rexec f k p c s).
Proof.
  intros E f k p c s b call sync q Hb Hs Hp HE. destruct c as [|x c]; [discriminate Hs|]. destruct f as [|f]; [exact I|]. rewrite rexec_cons. cbn [settler] in Hs. destruct (stops x) as [(b1, n)|] eqn:Ex.
  - injection Hs as <- <- <-. pose proof (stop_settles E f k p x s _ _ Ex Hp HE) as G. destruct (rstmt f k p x s); cbn [seq_out]; try exact I; try (exfalso; exact G). exact G.
  - destruct x as [m t|m c0|m r0 j|m|c0 b0|c0 b0|c0 b0|cases e|d cases|d e b0 r0|m j]; try discriminate Hs. cbn [RecoveryProof.rstmt].
    destruct (nth_error rule_functions (Z.to_nat r0)) as [(start, [|y body])|] eqn:Ef; [discriminate Hs| |discriminate Hs]. destruct (stops y) as [(b1, n)|] eqn:Ey; [|discriminate Hs]. injection Hs as <- <- <-.
    destruct f as [|f]; [exact I|]. rewrite rexec_cons.
    pose proof (stop_settles E f ((m, p) :: k) j y (set_state start (set_state m s)) _ _ Ey Hp HE) as G.
    destruct (rstmt f ((m, p) :: k) j y (set_state start (set_state m s))) as [s1|s1| |]; try (exfalso; exact G); cbn [seq_out leave]; try exact I.
    destruct (error_exit S ((m, p) :: k) s1) as [s2|] eqn:Ee; [|exact I]. apply (exit_said _ _ _ _ G) in Ee. apply every_cons in Hb as (Hb & _).
    cbn [seq_out]. assert (Hs2 : said E (if r0 =? 50 then s2 else set_state m s2)) by (destruct (r0 =? 50); exact Ee).
    pose proof (said_run (Datatypes.S f) k p _ c _ E Hb Hs2) as K. destruct (rexec (Datatypes.S f) k p c _); cbn; auto.
Qed.
Definition ff (top : bool) (r : pres) (o : outcome) : Prop :=
  match r with PDone l => exists u, o = Next u /\ cl l u | PFail n w => first_out top (because n w) o | PMore => o = More end.
Lemma ff_seq top r o g h : ff false r o -> (forall l u, cl l u -> ff top (g l) (h u)) -> (forall n u, said n u -> first_out top n (h u)) -> ff top (pthen r g) (seq_out o h).
Proof.
  intros H Hg Hh. destruct r as [l|n w|]; cbn [pthen ff] in *; [destruct H as (u & -> & H); exact (Hg l u H)| |subst o; reflexivity].
  destruct o as [u|u| |]; cbn [seq_out first_out] in *; auto. destruct H as [H|(H & _)]; [exact (Hh _ u H)|discriminate H].
Qed.
Lemma said_out top f k p b c n u : Every anything false b c -> said n u -> first_out top n (rexec f k p c u).
Proof. intros Hc Hn. pose proof (said_run f k p b c u n Hc Hn) as H. destruct (rexec f k p c u); cbn; auto. Qed.
Lemma ff_top top r o : ff false r o -> ff top r o.
Proof. destruct r as [l|n w|]; cbn; auto. destruct o as [u|u| |]; cbn; auto. intros [H|(H & _)]; [auto|discriminate H]. Qed.
Lemma set_fun r start body : nth_error rule_functions (Z.to_nat r) = Some (start, body) -> SetOk true body.
Proof. intros H. exists 40%nat. pose proof sets_settled as G. rewrite forallb_forall in G. apply (G (start, body)). eapply nth_error_In. exact H. Qed.
Lemma run_first : forall f k p b top c l u, Every anything false b c -> SetOk top c -> cl l u -> ff top (pexec f k p c l) (rexec f k p c u).
Proof.
  induction f as [|f IH]; intros k p b top c l u Hc Ho Hu; [reflexivity|]. destruct c as [|x c]; [exists u; auto|]. rewrite pexec_cons, rexec_cons.
  pose proof (every_cons _ _ _ _ _ Hc) as (Hc' & Hx). pose proof (set_cons _ _ _ Ho) as (Ho' & Hy).
  pose proof (cl_la _ _ Hu) as Hla. pose proof (cl_input _ _ Hu) as Hin. pose proof (cl_here _ _ Hu) as Hh. pose proof Hu as (H1 & H2 & H3 & H4).
  assert (Hseq : ff false (pstmt A rule_functions P P_at (pexec f) k p x l) (rstmt f k p x u) -> ff top (pthen (pstmt A rule_functions P P_at (pexec f) k p x l) (pexec f k p c)) (seq_out (rstmt f k p x u) (rexec f k p c))).
  { intros G. apply ff_seq; [exact G|intros; eapply IH; eassumption|intros n v Hv; eapply said_out; eassumption]. }
  assert (Hsq : forall c1 b1 c2 b2 l u, Every anything false b1 c1 -> SetOk false c1 -> Every anything false b2 c2 -> SetOk false c2 -> cl l u ->
    ff false (pthen (pexec f k p c1 l) (pexec f k p c2)) (seq_out (rexec f k p c1 u) (rexec f k p c2))).
  { intros c1 b1 c2 b2 l0 u0 E1 S1 E2 S2 H0. apply ff_seq; [eapply IH; eassumption|intros; eapply IH; eassumption|intros; eapply said_out; eassumption]. }
  destruct x as [m t|m c0|m r0 j|m|c0 b0|c0 b0|c0 b0|cases e|d cases|d e b0 r0|m j];
    (match goal with |- context [MatchSet] => idtac | _ => apply Hseq end); cbn [RecoveryProof.rstmt pstmt]; cbv zeta; rewrite ?Hla, ?Hin.
  - change (la1 (set_state m u)) with (la1 u). rewrite Hla. destruct (pla l =? t).
    + exists (advance (report_match (set_state m u))). split; [|exact (cl_match l (set_state m u) Hu)]. cbn. unfold check. change (err (advance (report_match (set_state m u)))) with (err u). rewrite H2. reflexivity.
    + apply check_first. pose proof (inline_first (because (length l) (AtToken k p m (pla l))) k (set_state m u) H3 H4) as G. destruct (recover_inline S k (set_state m u)); specialize (G ltac:(intros r Er Hr; split; [rewrite Er; exact Hh|]; cbn [explains]; rewrite <- Hla; exact Hr)); tauto.
  - (* MatchSet *) change (la1 (set_state m u)) with (la1 u). rewrite Hla. destruct (holds c0 (pla l)).
    + cbn [pthen seq_out]. eapply IH; [exact Hc'|exact Ho'|exact (cl_match l (set_state m u) Hu)].
    + cbn [pthen ff]. pose proof (inline_first (because (length l) (AtSet k p m (pla l))) k (set_state m u) H3 H4 ltac:(intros r Er Hr; split; [rewrite Er; exact Hh|]; left; rewrite <- Hla; exact Hr)) as G.
      destruct (recover_inline S k (set_state m u)) as [v|v| |]; cbn [seq_out first_out]; try exact I; try (exfalso; exact G).
      destruct G as [G|(G & Gh & Gl)]; [eapply said_out; eassumption|]. destruct Hy as [Hy|(Ht & Hy)].
      * unfold settled in Hy. destruct (settler c) as [((call, sy), q)|] eqn:Es; [|discriminate Hy].
        pose proof (settle _ f k p c v _ _ _ _ Hc' Es G ltac:(intros r Er Hr; split; [rewrite Er, Gh; exact Hh|]; right; exists call, sy, q; split; [exact Hy|]; rewrite Gl in Hr; change (la1 (set_state m u)) with (la1 u) in Hr; rewrite Hla in Hr; exact Hr)) as K. destruct (rexec f k p c v) as [w|w| |]; cbn in *; auto. destruct K as [K|(K & _)]; [auto|discriminate K].
      * subst top c. destruct f; [exact I|]. right. auto.
  - destruct (nth_error rule_functions (Z.to_nat r0)) as [(start, body)|] eqn:Ef.
    + set (u0 := set_state start (set_state m u)). assert (H0 : cl l u0) by exact Hu.
      pose proof (IH ((m, p) :: k) j false true body l u0 (any_fun _ _ _ Ef) (set_fun _ _ _ Ef) H0) as G.
      destruct (pexec f ((m, p) :: k) j body l) as [l'|n w|]; cbn [ff] in *.
      * destruct G as (u1 & -> & G1 & G2 & G3 & G4). cbn [leave]. unfold error_exit. rewrite G2. eexists. split; [reflexivity|]. destruct (r0 =? 50); repeat split; assumption.
      * destruct (rexec f ((m, p) :: k) j body u0) as [u1|u1| |]; cbn [leave first_out] in *; try exact I;
          (destruct (error_exit S ((m, p) :: k) u1) as [u2|] eqn:E; [|exact I]); apply (exit_said _ _ _ (because n w)) in E; try tauto; left; destruct (r0 =? 50); exact E.
      * rewrite G. reflexivity.
    + exact I.
  - destruct (sync_ok A m (pla l)) eqn:E.
    + exists (set_state m u). split; [|exact Hu]. unfold sync. change (cur (set_state m u)) with m. change (la1 (set_state m u)) with (la1 u). rewrite Hla, E, orb_true_r. cbn [seq_out]. unfold check. change (err (set_state m u)) with (err u). rewrite H2. reflexivity.
    + apply check_first. apply (sync_first _ k (set_state m u) H3 H4); [intros r Er Hr; split; [rewrite Er; exact Hh|]; cbn [explains]; rewrite <- Hla; exact Hr|]. change (cur (set_state m u)) with m. change (la1 (set_state m u)) with (la1 u). rewrite Hla. exact E.
  - destruct (holds c0 (pla l)); [eapply IH; eassumption|exists u; auto].
  - destruct (holds c0 (pla l)); [|exists u; auto]. eapply Hsq; [exact Hx|exact Hy|eapply (every_again _ _ _ false); [|exact Hc]; exact I|eapply set_again; [exact I|exact Ho]|exact Hu].
  - apply (ff_seq _ _ _ _ (fun s' => if holds c0 (la1 s') then rexec f k p [Do c0 b0] s' else Next s')); [eapply IH; eassumption| |].
    + intros l1 u1 Hu1. rewrite (cl_la _ _ Hu1). destruct (holds c0 (pla l1)); [|exists u1; auto]. eapply IH; [eapply (every_again _ _ _ false); [|exact Hc]; exact I|eapply set_again; [exact I|exact Ho]|exact Hu1].
    + intros n v Hv. destruct (holds c0 (la1 v)); [eapply said_out; [eapply (every_again _ _ _ false); [|exact Hc]; exact I|exact Hv]|left; exact Hv].
  - destruct (case_of (pla l) cases) as [b0|] eqn:Ec; [eapply IH; [exact (Hx _ _ Ec)|exact (Hy _ _ Ec)|exact Hu]|]. destruct e; [|exists u; auto].
    right. split; [exact H4|]. split; [exact H3|]. exists (Report NoViableAlt (here u) (Since (here u))). split; [reflexivity|]. split; [exact Hh|]. split; [reflexivity|]. rewrite Hh. reflexivity.
  - destruct (P d k p (kinds l ++ [-1])) as [a|].
    + destruct Hx as (_ & Hx). destruct (alt_of a cases) as [b0|] eqn:Ea; [eapply IH; [exact (Hx _ _ Ea)|exact (Hy _ _ Ea)|exact (cl_err _ _ Hu)]|]. eexists. split; [reflexivity|exact (cl_err _ _ Hu)].
    + right. split; [exact H4|]. split; [exact H3|]. eexists. split; [reflexivity|]. split; [cbn; rewrite Hh, Hin; reflexivity|]. split; [reflexivity|]. cbn. rewrite Hh. reflexivity.
  - destruct (P d k p (kinds l ++ [-1])) as [a|].
    + destruct Hx as (_ & Hx1 & Hx2 & _), Hy as (Hy1 & Hy2). apply cl_err in Hu. destruct (a =? e); [eexists; split; [reflexivity|exact Hu]|].
      assert (Ha : Every anything false true [Loop d e b0 r0]) by (eapply every_again; [reflexivity|exact Hc]). assert (Hb : SetOk false [Loop d e b0 r0]) by (eapply set_again; [exact I|exact Ho]).
      apply (ff_seq _ _ _ (fun l' => pthen (pexec f k p r0 l') (pexec f k p [Loop d e b0 r0])) (fun s' => seq_out (rexec f k p r0 s') (rexec f k p [Loop d e b0 r0]))).
      * destruct (a =? 1); [eapply IH; eassumption|eexists; split; [reflexivity|exact Hu]].
      * intros l1 u1 Hu1. eapply Hsq; eassumption.
      * intros n v Hv. pose proof (said_run f k p _ r0 v n Hx2 Hv) as K. destruct (rexec f k p r0 v); cbn [seq_out]; cbn; auto. eapply said_out; eassumption.
    + right. split; [exact H4|]. split; [exact H3|]. eexists. split; [reflexivity|]. split; [cbn; rewrite Hh, Hin; reflexivity|]. split; [reflexivity|]. cbn. rewrite Hh. reflexivity.
  - destruct (j >=? p); [exists (set_state m u); auto|]. right. split; [exact H4|]. split; [exact H3|]. exists (Report FailedPredicate (here u) (Level j)). split; [reflexivity|]. split; [exact Hh|exact I].
Qed.
End First.
Theorem first_report P P_at S f ts r rs : recovering_run parser_atn rule_functions P P_at S f ts = Ended (r :: rs) ->
  exists w, pexec parser_atn rule_functions P P_at f [] 0 (main_code ++ [Match 118 (-1)]) ts = PFail (r_left r) w /\ explains S w r.
Proof.
  rewrite run_shape. intros H. assert (Hu : cl ts (start_state 0 ts)) by (repeat split).
  pose proof (run_first parser_atn P P_at S f [] 0 false true _ _ _ (any_fun 0 0 _ main_code_is) (set_fun 0 0 _ main_code_is) Hu) as G.
  destruct (pexec parser_atn rule_functions P P_at f [] 0 (main_code ++ [Match 118 (-1)]) ts) as [l|n w|]; cbn [ff] in G.
  - destruct G as (u & Eu & _ & He & _ & Hr). rewrite Eu in H. cbn [leave] in H. unfold error_exit in H. rewrite He, Hr in H. discriminate H.
  - exists w. destruct (rexec parser_atn rule_functions P P_at S f [] 0 (main_code ++ [Match 118 (-1)]) (start_state 0 ts)) as [u|u| |]; cbn [leave first_out] in *; try discriminate H;
      (destruct (error_exit S [] u) as [v|] eqn:E; [|discriminate H]); apply (exit_said S _ _ _ (because S n w)) in E; try tauto; destruct E as (r' & l & E & En & Ew); injection H as H; rewrite E in H; injection H as <- _; rewrite En; auto.
  - rewrite G in H. discriminate H.
Qed.
