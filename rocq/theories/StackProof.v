(** Calls of rule functions are nested at most as deeply as the text has tokens. *)
From Coq Require Import ZArith Lia.
From Verif Require Import Str Tokens Grammar Tree AtnData Atn AtnParser AtnParserTable GoParser ParserCode Predict Recovery RecoveryProof Stack.
Local Open Scope Z_scope.

(** *** Checks on the rule functions *)
(** [within f a b c]: calls in [c] nest to at most [a], and to fn_arg_expr (rule 50) within [b] (0: not at all). *)
Fixpoint within (f : nat) (a b : nat) (c : list code) : bool :=
  match f, c with
  | O, _ => false
  | S f, [] => true
  | S f, x :: c' =>
    match x with
    | Call _ r _ => if r =? 50 then (2 <=? b)%nat else (1 <=? a)%nat && match nth_error rule_functions (Z.to_nat r) with Some (_, body) => within f (a - 1) (b - 1) body | None => true end
    | If _ q | For _ q | Do _ q => within f a b q
    | Switch cases _ => forallb (fun x => within f a b (snd x)) cases
    | Choose _ cases => forallb (fun x => within f a b (snd x)) cases
    | Loop _ _ q r => within f a b q && within f a b r
    | _ => true
    end && within f a b c'
  end.
(** [eats f c t]: with next token [t], may [c] end (normally, with an error) and no token be consumed?  None: it may come to a call of fn_arg_expr like that. *)
Definition eat1 (rec : list code -> Z -> option (bool * bool)) (x : code) (t : Z) : option (bool * bool) :=
  match x with
  | Match _ t' => Some (if (t =? t') && negb (t =? -1) then (false, false) else (true, true))
  | MatchSet _ c => Some (if holds c t && negb (t =? -1) then (false, false) else (true, true))
  | Call _ r _ => if r =? 50 then None else match nth_error rule_functions (Z.to_nat r) with Some (_, body) => if within 9 0 0 body then match rec body t with Some (n, e) => Some (n || e, false) | None => None end else None | None => None end
  | Sync _ => Some (true, true)
  | Switch cases e => match case_of t cases with Some b => rec b t | None => Some (negb e, e) end
  | _ => None
  end.
Fixpoint eats (f : nat) (c : list code) (t : Z) : option (bool * bool) :=
  match f, c with
  | O, _ => None
  | S f, [] => Some (true, false)
  | S f, x :: c' =>
    match eat1 (eats f) x t with
    | Some (true, e) => match eats f c' t with Some (n', e') => Some (n', e || e') | None => None end
    | r => r
    end
  end.
Definition body50 : list code := match nth_error rule_functions 50 with Some (_, b) => b | None => [] end.
Definition toks_kinds : list Z := -1 :: map (fun t => Z.of_nat (tt_num t)) all_tt.
Lemma unit_within : within 60 8 8 (match rule_functions with (_, b) :: _ => b | [] => [] end) = true. Proof. vm_compute. reflexivity. Qed.
Lemma expr_within : within 60 1 2 body50 = true. Proof. vm_compute. reflexivity. Qed.
Lemma expr_eats : forallb (fun t => match eats 60 body50 t with Some _ => true | None => false end) toks_kinds = true. Proof. vm_compute. reflexivity. Qed.

Section Bound.
Variable A : atn.
Variable P : predictor.
Variable P_at : forall (d p : Z) (input : list Z), nat.
Variable S : strategy.
Local Notation rexec := (rexec A rule_functions P P_at S).
Local Notation rstmt := (rstmt A rule_functions P P_at S).
Local Notation dexec := (dexec A rule_functions P P_at S).

(** One statement, measured *)
Definition dstmt (f : nat) (k : stack) (p : Z) (x : code) (s : rst) : measured :=
  let at_ r := (r, length k) in
      match x with
      | Call n r j =>
          match nth_error rule_functions (Z.to_nat r) with
          | Some (start, body) =>
              let b := dexec f ((n, p) :: k) j body (set_state start (set_state n s)) in
              (leave S ((n, p) :: k) (fst b) (fun s' => Next (if r =? 50 then s' else set_state n s')), snd b)
          | None => at_ Panic
          end
      | If c b => if holds c (la1 s) then dexec f k p b s else at_ (Next s)
      | For c b => if holds c (la1 s) then dseq (dexec f k p b s) (dexec f k p [For c b]) else at_ (Next s)
      | Do c b => dseq (dexec f k p b s) (fun s' => if holds c (la1 s') then dexec f k p [Do c b] s' else at_ (Next s'))
      | Switch cases e => match case_of (la1 s) cases with Some b => dexec f k p b s | None => at_ (rstmt f k p x s) end
      | Choose d cases =>
          match P d k p (rinput s) with
          | Some a => let s := set_err None s in match alt_of a cases with Some b => dexec f k p b s | None => at_ (Next s) end
          | None => at_ (rstmt f k p x s)
          end
      | Loop d e b r =>
          match P d k p (rinput s) with
          | Some a => let s := set_err None s in
              if a =? e then at_ (Next s)
              else dseq (if a =? 1 then dexec f k p b s else at_ (Next s)) (fun s' => dseq (dexec f k p r s') (dexec f k p [Loop d e b r]))
          | None => at_ (rstmt f k p x s)
          end
      | _ => at_ (rstmt f k p x s)
      end.
Lemma dexec_cons f k p x c s : dexec (Datatypes.S f) k p (x :: c) s = dseq (dstmt f k p x s) (dexec f k p c).
Proof.
  destruct x; cbn [Stack.dexec dstmt RecoveryProof.rstmt]; cbv zeta; try reflexivity.
  - destruct (case_of (la1 s) cases); reflexivity.
  - destruct (P d k p (rinput s)); reflexivity.
  - destruct (P d k p (rinput s)); reflexivity.
Qed.
Lemma fst_dseq r g r' g' : fst r = r' -> (forall s, fst (g s) = g' s) -> fst (dseq r g) = seq_out r' g'.
Proof. intros <- H. unfold dseq. destruct r as ([s|s| |], n); cbn; auto. Qed.
Lemma dstmt_is f : (forall k p c s, fst (dexec f k p c s) = rexec f k p c s) -> forall k p x s, fst (dstmt f k p x s) = rstmt f k p x s.
Proof.
  intros IH k p x s. destruct x as [n t|n c|n r j|n|c b|c b|c b|cases e|d cases|d e b r|n j]; cbn [dstmt RecoveryProof.rstmt]; cbv zeta; try reflexivity.
  - destruct (nth_error rule_functions (Z.to_nat r)) as [(start, body)|]; [|reflexivity]. cbn [fst]. rewrite IH. reflexivity.
  - destruct (holds c (la1 s)); [apply IH|reflexivity].
  - destruct (holds c (la1 s)); [apply fst_dseq; auto|reflexivity].
  - apply fst_dseq; [apply IH|]. intros s'. destruct (holds c (la1 s')); [apply IH|reflexivity].
  - destruct (case_of (la1 s) cases) eqn:E; [apply IH|cbn [fst]; rewrite ?E; reflexivity].
  - destruct (P d k p (rinput s)) as [a|] eqn:E; [|cbn [fst]; rewrite ?E; reflexivity]. destruct (alt_of a cases); [apply IH|reflexivity].
  - destruct (P d k p (rinput s)) as [a|] eqn:E; [|cbn [fst]; rewrite ?E; reflexivity]. destruct (a =? e); [reflexivity|]. apply fst_dseq; [destruct (a =? 1); [apply IH|reflexivity]|]. intros s'. apply fst_dseq; auto.
Qed.
Lemma dexec_is f : forall k p c s, fst (dexec f k p c s) = rexec f k p c s.
Proof.
  induction f as [|f IH]; intros k p c s; [reflexivity|]. destruct c as [|x c]; [reflexivity|]. rewrite dexec_cons, rexec_cons. apply fst_dseq; [|intros s'; apply IH]. apply dstmt_is. exact IH.
Qed.
Lemma snd_dseq r g n : (snd r <= n)%nat -> (forall s, fst r = Next s -> (snd (g s) <= n)%nat) -> (snd (dseq r g) <= n)%nat.
Proof. intros H1 H2. unfold dseq. destruct (fst r) eqn:E; [|exact H1|exact H1|exact H1]. cbn [snd]. specialize (H2 _ eq_refl). lia. Qed.

(** *** Tokens are only consumed *)
Definition suffix (a b : list tok) : Prop := exists pre, b = pre ++ a.
Definition before (s : rst) (r : outcome) : Prop := match r with Next s' | Exit s' => suffix (toks s') (toks s) | _ => True end.
Lemma suffix_refl a : suffix a a. Proof. exists []. reflexivity. Qed.
Lemma suffix_trans a b c : suffix a b -> suffix b c -> suffix a c. Proof. intros (x & ->) (y & ->). exists (y ++ x). rewrite app_assoc. reflexivity. Qed.
Lemma suffix_tl a : suffix (tl a) a. Proof. destruct a as [|x a]; [apply suffix_refl|exists [x]; reflexivity]. Qed.
Lemma suffix_len a b : suffix a b -> (length a < length b)%nat \/ a = b.
Proof. intros ([|x p] & ->); [right; reflexivity|left; cbn; rewrite app_length; lia]. Qed.
Lemma before_seq s r g : before s r -> (forall s', r = Next s' -> before s' (g s')) -> before s (seq_out r g).
Proof. intros H G. destruct r as [s'|s'| |]; cbn; auto. specialize (G _ eq_refl). destruct (g s'); cbn in *; auto; eapply suffix_trans; eassumption. Qed.
Lemma before_check s s' : suffix (toks s') (toks s) -> before s (check s'). Proof. intros H. unfold check. destruct (err s'); exact H. Qed.
Lemma delete_suffix k s s' : delete_one S k s = Some (Some s') -> suffix (toks s') (toks s).
Proof. unfold delete_one. destruct (expected S k (cur s)); [|discriminate]. destruct (zmem _ _); [|discriminate]. intros H. injection H as <-. cbn. rewrite tell_toks. apply suffix_tl. Qed.
Lemma until_suffix set l : suffix (drop_until set l) l. Proof. destruct (drop_until_suffix set l) as (p & E). exists p. exact E. Qed.
Lemma inline_before k s : before s (recover_inline S k s).
Proof.
  unfold recover_inline. destruct (delete_one S k s) as [[s'|]|] eqn:E; [|destruct (insertion S k (cur s)); [|exact I]|exact I].
  - cbn. eapply suffix_trans; [apply suffix_tl|]. eapply delete_suffix; exact E.
  - cbn. destruct (zmem _ _); [rewrite tell_toks|]; apply suffix_refl.
Qed.
Lemma sync_before k s : before s (sync A S k s).
Proof.
  unfold sync. destruct (_ || _); [apply suffix_refl|]. destruct (zmem _ _).
  - destruct (delete_one S k s) as [[s'|]|] eqn:E; [eapply delete_suffix; exact E|apply suffix_refl|exact I].
  - destruct (expected S k (cur s)), (recovery S k); try exact I. cbn. rewrite tell_toks. apply until_suffix.
Qed.
Lemma error_exit_suffix k s s' : error_exit S k s = Some s' -> suffix (toks s') (toks s).
Proof.
  unfold error_exit. destruct (err s) as [r|]; [|intros H; injection H as <-; apply suffix_refl]. unfold recover. cbv zeta. destruct (recovery S k) as [l|]; [|discriminate].
  intros H. injection H as <-. cbn. eapply suffix_trans; [apply until_suffix|]. destruct (_ && _); cbn; rewrite tell_toks; [apply suffix_tl|apply suffix_refl].
Qed.
Lemma leave_before k r s (g : rst -> rst) : before s r -> (forall s', toks (g s') = toks s') -> before s (leave S k r (fun s' => Next (g s'))).
Proof.
  intros H G. destruct r as [s'|s'| |]; cbn in *; auto; destruct (error_exit S k s') as [s2|] eqn:E; cbn; auto; rewrite G; (eapply suffix_trans; [eapply error_exit_suffix; exact E|exact H]).
Qed.
Lemma stmt_before f : (forall k p c s, before s (rexec f k p c s)) -> forall k p x s, before s (rstmt f k p x s).
Proof.
  intros IH k p x s. destruct x as [n t|n c|n r j|n|c b|c b|c b|cases e|d cases|d e b r|n j]; cbn [RecoveryProof.rstmt]; cbv zeta.
  - change (before (set_state n s) (seq_out (if la1 (set_state n s) =? t then Next (advance (report_match (set_state n s))) else recover_inline S k (set_state n s)) check)).
    apply before_seq; [destruct (_ =? _); [cbn; apply suffix_tl|apply inline_before]|intros s' _; apply before_check, suffix_refl].
  - change (before (set_state n s) (if holds c (la1 (set_state n s)) then Next (advance (report_match (set_state n s))) else recover_inline S k (set_state n s))). destruct (holds _ _); [cbn; apply suffix_tl|apply inline_before].
  - destruct (nth_error rule_functions (Z.to_nat r)) as [(start, body)|]; [|exact I]. apply leave_before; [exact (IH _ _ _ (set_state start (set_state n s)))|]. intros s'. destruct (r =? 50); reflexivity.
  - change (before (set_state n s) (seq_out (sync A S k (set_state n s)) check)). apply before_seq; [apply sync_before|intros s' _; apply before_check, suffix_refl].
  - destruct (holds _ _); [apply IH|apply suffix_refl].
  - destruct (holds _ _); [apply before_seq; intros; apply IH|apply suffix_refl].
  - apply before_seq; [apply IH|]. intros s' _. destruct (holds _ _); [apply IH|apply suffix_refl].
  - destruct (case_of _ _); [apply IH|destruct e; apply suffix_refl].
  - destruct (P d k p (rinput s)) as [a|]; [|apply suffix_refl]. destruct (alt_of a cases); [exact (IH k p l (set_err None s))|apply suffix_refl].
  - destruct (P d k p (rinput s)) as [a|]; [|apply suffix_refl]. destruct (a =? e); [apply suffix_refl|]. change (before (set_err None s) (seq_out (if a =? 1 then rexec f k p b (set_err None s) else Next (set_err None s)) (fun s' => seq_out (rexec f k p r s') (rexec f k p [Loop d e b r])))).
    apply before_seq; [destruct (a =? 1); [apply IH|apply suffix_refl]|]. intros s' _. apply before_seq; intros; apply IH.
  - destruct (j >=? p); apply suffix_refl.
Qed.
Lemma run_before f : forall k p c s, before s (rexec f k p c s).
Proof.
  induction f as [|f IH]; intros k p c s; [exact I|]. destruct c as [|x c]; [apply suffix_refl|]. rewrite rexec_cons. apply before_seq; [apply stmt_before; exact IH|]. intros; apply IH.
Qed.

(** *** What [eats] says *)
Definition ate (n e : bool) (s : rst) (r : outcome) : Prop :=
  match r with
  | Next s' => (here s' < here s)%nat \/ (n = true /\ toks s' = toks s)
  | Exit s' => (here s' < here s)%nat \/ (e = true /\ toks s' = toks s)
  | _ => True
  end.
Lemma before_ate s r : before s r -> ate true true s r.
Proof. destruct r as [s'|s'| |]; cbn; auto; intros H; apply suffix_len in H as [H|H]; auto. Qed.
Lemma matched_less s : la1 s <> -1 -> (here (advance (report_match s)) < here s)%nat.
Proof. unfold la1, here, advance. cbn. destruct (toks s); cbn; [congruence|lia]. Qed.
Lemma ate_seq n e n' e' s r g : ate n e s r -> (forall s', r = Next s' -> before s' (g s')) -> (forall s', n = true -> r = Next s' -> toks s' = toks s -> ate n' e' s' (g s')) ->
  ate (n && n') (e || (n && e')) s (seq_out r g).
Proof.
  intros H B G. destruct r as [s'|s'| |]; cbn in *; auto.
  - specialize (B _ eq_refl). destruct H as [H|[-> H]].
    + apply before_ate in B. destruct (g s') as [s2|s2| |]; cbn in *; auto; left; unfold here in *; destruct B as [B|[_ ->]]; lia.
    + specialize (G _ eq_refl eq_refl H). destruct (g s') as [s2|s2| |]; cbn in *; auto; unfold here in *; rewrite H in G; (destruct G as [G|[-> G]]; [left; exact G|right; split; [|exact G]]); rewrite ?orb_true_r; reflexivity.
  - destruct H as [H|[-> H]]; auto.
Qed.
Lemma ate_weaken n e n' e' s r : (n = true -> n' = true) -> (e = true -> e' = true) -> ate n e s r -> ate n' e' s r.
Proof. intros H1 H2. destruct r; cbn; auto; intros [H|[H K]]; auto. Qed.
Lemma eat1_sound f : (forall F c k p s n e, eats F c (la1 s) = Some (n, e) -> ate n e s (rexec f k p c s)) ->
  forall F x k p s n1 e1, eat1 (eats F) x (la1 s) = Some (n1, e1) -> ate n1 e1 s (rstmt f k p x s).
Proof.
  intros IH F x k p s n1 e1 H. pose proof (before_ate _ _ (stmt_before f (run_before f) k p x s)) as B.
    destruct x as [n t|n c0|n r j|n|c0 b|c0 b|c0 b|cases e|d cases|d e b r|n j]; cbn [eat1] in H; try discriminate H.
    - destruct ((la1 s =? t) && negb (la1 s =? -1)) eqn:E; injection H as <- <-; [|exact B]. apply andb_true_iff in E as [E1 E2]. cbn [RecoveryProof.rstmt]. cbv zeta. change (la1 (set_state n s)) with (la1 s). rewrite E1.
      apply negb_true_iff, Z.eqb_neq in E2. pose proof (matched_less (set_state n s) E2) as L. cbn [seq_out]. unfold check. destruct (err _); left; exact L.
    - destruct (holds c0 (la1 s) && negb (la1 s =? -1)) eqn:E; injection H as <- <-; [|exact B]. apply andb_true_iff in E as [E1 E2]. cbn [RecoveryProof.rstmt]. cbv zeta. change (la1 (set_state n s)) with (la1 s). rewrite E1.
      apply negb_true_iff, Z.eqb_neq in E2. left. exact (matched_less (set_state n s) E2).
    - destruct (r =? 50) eqn:E50; [discriminate|]. cbn [RecoveryProof.rstmt]. destruct (nth_error rule_functions (Z.to_nat r)) as [(start, body)|]; [|discriminate].
      destruct (within 9 0 0 body); [|discriminate]. destruct (eats F body (la1 s)) as [[n0 e0]|] eqn:EB; [|discriminate]. injection H as <- <-. specialize (IH F body ((n, p) :: k) j (set_state start (set_state n s)) n0 e0 EB). rewrite E50.
      destruct (rexec f ((n, p) :: k) j body (set_state start (set_state n s))) as [s'|s'| |]; cbn in *; auto; destruct (error_exit S ((n, p) :: k) s') as [s2|] eqn:EE; cbn; auto; apply error_exit_suffix, suffix_len in EE; unfold here in *; cbn in *.
      + destruct IH as [IH|[-> IH]]; destruct EE as [EE|EE]; try (left; lia); [left; rewrite EE; exact IH|rewrite IH in EE; left; exact EE|right; split; [reflexivity|congruence]].
      + destruct IH as [IH|[-> IH]]; destruct EE as [EE|EE]; try (left; lia); [left; rewrite EE; exact IH|rewrite IH in EE; left; exact EE|right; split; [apply orb_true_r|congruence]].
    - injection H as <- <-. exact B.
    - cbn [RecoveryProof.rstmt]. destruct (case_of (la1 s) cases) as [b|]; [eapply IH; exact H|]. injection H as <- <-. destruct e; right; auto.
Qed.
Lemma eats_sound f : forall F c k p s n e, eats F c (la1 s) = Some (n, e) -> ate n e s (rexec f k p c s).
Proof.
  induction f as [|f IH]; intros F c k p s n e H; [exact I|]. destruct F as [|F]; [discriminate|]. destruct c as [|x c]; [injection H as <- <-; right; auto|].
  rewrite rexec_cons. cbn [eats] in H. pose proof (eat1_sound f IH F x k p s) as HX.
  destruct (eat1 (eats F) x (la1 s)) as [[n1 e1]|]; [|discriminate]. specialize (HX _ _ eq_refl).
  destruct n1.
  - destruct (eats F c (la1 s)) as [[n2 e2]|] eqn:E2; [|discriminate]. injection H as <- <-.
    apply (ate_seq true e1 n2 e2); [exact HX|intros; apply run_before|]. intros s' _ _ Es. eapply IH. unfold la1 in *. rewrite Es. exact E2.
  - injection H as <- <-. apply (ate_weaken (false && true) (e1 || (false && true))); [discriminate|rewrite orb_false_r; auto|]. apply ate_seq; [exact HX|intros; apply run_before|discriminate].
Qed.

(** *** The bound *)
Definition Within (a b : nat) (c : list code) : Prop := exists f, within f a b c = true.
Definition Eats (c : list code) (t : Z) : Prop := exists F, eats F c t <> None.
Lemma la_kinds s : In (la1 s) toks_kinds.
Proof. unfold la1. destruct (toks s) as [|x l]; [left; reflexivity|right]. apply (in_map (fun t => Z.of_nat (tt_num t))). apply (nth_error_In _ _ (tt_num_nth (ty x))). Qed.
Lemma expr_eats_at s : Eats body50 (la1 s).
Proof. exists 60%nat. pose proof expr_eats as H. rewrite forallb_forall in H. specialize (H _ (la_kinds s)). intros E. rewrite E in H. discriminate. Qed.
Lemma within_cons a b x c : Within a b (x :: c) -> Within a b c /\ match x with
    | Call _ r _ => if r =? 50 then (2 <= b)%nat else (1 <= a)%nat /\ forall st body, nth_error rule_functions (Z.to_nat r) = Some (st, body) -> Within (a - 1) (b - 1) body
    | If _ q => Within a b q
    | For d q => Within a b q /\ Within a b [For d q]
    | Do d q => Within a b q /\ Within a b [Do d q]
    | Switch cases _ => forall t q, case_of t cases = Some q -> Within a b q
    | Choose _ cases => forall i q, alt_of i cases = Some q -> Within a b q
    | Loop d e q r => Within a b q /\ Within a b r /\ Within a b [Loop d e q r]
    | _ => True
    end.
Proof.
  intros (f & H). destruct f as [|f]; [discriminate|]. cbn [within] in H. apply andb_true_iff in H as [HX HC]. split; [exists f; exact HC|].
  assert (HN : within f a b [] = true) by (destruct f; [discriminate HC|reflexivity]).
  destruct x as [n t|n c0|n r j|n|c0 q|c0 q|c0 q|cases e|d cases|d e q r|n j]; auto.
  - destruct (r =? 50); [apply Nat.leb_le; exact HX|]. apply andb_true_iff in HX as [H1 HB]. apply Nat.leb_le in H1. split; [exact H1|].
    intros st body E. rewrite E in HB. exists f. exact HB.
  - exists f. exact HX.
  - split; [exists f; exact HX|]. exists (Datatypes.S f). cbn [within]. rewrite HX. exact HN.
  - split; [exists f; exact HX|]. exists (Datatypes.S f). cbn [within]. rewrite HX. exact HN.
  - intros t q E. rewrite forallb_forall in HX. exists f. clear -HX E. induction cases as [|(l, c) cases IH]; [discriminate|]. cbn [case_of] in E. destruct (zmem t l); [injection E as <-; exact (HX (l, c) (or_introl eq_refl))|apply IH; [intros; apply HX; right; assumption|exact E]].
  - intros i q E. rewrite forallb_forall in HX. exists f. clear -HX E. induction cases as [|(l, c) cases IH]; [discriminate|]. cbn [alt_of] in E. destruct (_ =? _); [injection E as <-; exact (HX (l, c) (or_introl eq_refl))|apply IH; [intros; apply HX; right; assumption|exact E]].
  - apply andb_true_iff in HX as [H1 H2]. split; [exists f; exact H1|]. split; [exists f; exact H2|]. exists (Datatypes.S f). cbn [within]. rewrite H1, H2. exact HN.
Qed.
Definition top (a b n : nat) : nat := Nat.max a (match b with O => O | _ => b + n end).
Definition wide (f : nat) : Prop := forall a b c k p s, Within a b c -> (snd (dexec f k p c s) <= length k + top a b (here s))%nat.
Definition narrow (f : nat) : Prop := forall c k p s, Within 1 2 c -> Eats c (la1 s) -> (snd (dexec f k p c s) <= length k + 1 + here s)%nat.
Lemma less_here s r s' : before s r -> r = Next s' -> (here s' <= here s)%nat.
Proof. intros B ->. apply suffix_len in B. unfold here. destruct B as [B| ->]; lia. Qed.
Lemma stmt_wide f : wide f -> narrow f -> forall a b x c k p s, Within a b (x :: c) -> (snd (dstmt f k p x s) <= length k + top a b (here s))%nat.
Proof.
  intros W N a b x c k p s H. apply within_cons in H as [_ H].
  assert (MX : forall s', (here s' <= here s)%nat -> (length k + top a b (here s') <= length k + top a b (here s))%nat) by (intros; unfold top; destruct b; lia).
  assert (AT : (length k <= length k + top a b (here s))%nat) by lia.
  assert (RB : forall c' s0, before s0 (fst (dexec f k p c' s0))) by (intros; rewrite dexec_is; apply run_before).
  assert (WW : forall c' s', Within a b c' -> (here s' <= here s)%nat -> (snd (dexec f k p c' s') <= length k + top a b (here s))%nat) by (intros c' s' HW HL; eapply Nat.le_trans; [apply W; exact HW|apply MX; exact HL]).
  destruct x as [n t|n c0|n r j|n|c0 q|c0 q|c0 q|cases e|d cases|d e q r|n j]; cbn [dstmt]; cbv zeta; try exact AT.
  - destruct (nth_error rule_functions (Z.to_nat r)) as [(start, body)|] eqn:EF; [|exact AT]. cbn [snd]. destruct (r =? 50) eqn:E50.
    + apply Z.eqb_eq in E50. subst r. assert (EB : body = body50) by (unfold body50; change 50%nat with (Z.to_nat 50); rewrite EF; reflexivity). rewrite EB.
      assert (HN := N body50 ((n, p) :: k) j (set_state start (set_state n s)) (ex_intro _ 60%nat expr_within) (expr_eats_at _)). change (here (set_state start (set_state n s))) with (here s) in HN. cbn [length] in HN. unfold top. destruct b; lia.
    + destruct H as (H1 & H3). assert (HW := W (a - 1)%nat (b - 1)%nat body ((n, p) :: k) j (set_state start (set_state n s)) (H3 _ _ eq_refl)). change (here (set_state start (set_state n s))) with (here s) in HW. cbn [length] in HW. unfold top in *. destruct b as [|[|b]]; cbn in HW; lia.
  - destruct (holds c0 (la1 s)); [apply W; exact H|exact AT].
  - destruct H as [H1 H2]. destruct (holds c0 (la1 s)); [|exact AT]. apply snd_dseq; [apply W; exact H1|]. intros s' E. apply WW; [exact H2|]. exact (less_here _ _ _ (RB q s) E).
  - destruct H as [H1 H2]. apply snd_dseq; [apply W; exact H1|]. intros s' E. destruct (holds c0 (la1 s')); [|exact AT]. apply WW; [exact H2|]. exact (less_here _ _ _ (RB q s) E).
  - destruct (case_of (la1 s) cases) as [q|] eqn:E; [apply W; eapply H; exact E|exact AT].
  - destruct (P d k p (rinput s)) as [i|]; [|exact AT]. destruct (alt_of i cases) as [q|] eqn:E; [|exact AT]. apply (W a b q k p (set_err None s)). eapply H; exact E.
  - destruct H as (H1 & H2 & H3). destruct (P d k p (rinput s)) as [i|]; [|exact AT]. destruct (i =? e); [exact AT|]. apply snd_dseq; [destruct (i =? 1); [apply (W a b q k p (set_err None s)); exact H1|exact AT]|].
    intros s' E. assert (L : (here s' <= here s)%nat). { destruct (i =? 1); [exact (less_here (set_err None s) _ _ (RB q (set_err None s)) E)|injection E as <-; reflexivity]. }
    apply snd_dseq; [apply WW; assumption|]. intros s2 E2. pose proof (less_here _ _ _ (RB r s') E2). apply WW; [exact H3|lia].
Qed.
Lemma both f : wide f /\ narrow f.
Proof.
  induction f as [|f [W N]]; [unfold wide, narrow; split; intros; cbn [Stack.dexec snd]; lia|]. split.
  - intros a b c k p s H. destruct c as [|x c]; [cbn [Stack.dexec snd]; lia|]. rewrite dexec_cons. apply snd_dseq; [eapply stmt_wide; eassumption|]. intros s' E. rewrite (dstmt_is f (dexec_is f)) in E.
    pose proof (less_here _ _ _ (stmt_before f (run_before f) k p x s) E). apply within_cons in H as [H _]. specialize (W a b c k p s' H). unfold top in *. destruct b; lia.
  - intros c k p s H (F & HE). destruct c as [|x c]; [cbn [Stack.dexec snd]; lia|]. destruct F as [|F]; [exfalso; apply HE; reflexivity|]. rewrite dexec_cons. cbn [eats] in HE.
    destruct (eat1 (eats F) x (la1 s)) as [[n1 e1]|] eqn:E1; [|exfalso; apply HE; reflexivity].
    apply snd_dseq.
    + destruct x as [n t|n c0|n r j|n|c0 q|c0 q|c0 q|cases e|d cases|d e q r|n j]; cbn [eat1] in E1; try discriminate E1; cbn [dstmt]; cbv zeta; try (cbn [snd]; lia).
      * destruct (r =? 50) eqn:E50; [discriminate|]. destruct (nth_error rule_functions (Z.to_nat r)) as [(start, body)|] eqn:EF; [|discriminate]. cbn [snd].
        destruct (within 9 0 0 body) eqn:EW; [|discriminate]. assert (HW := W O O body ((n, p) :: k) j (set_state start (set_state n s)) (ex_intro _ 9%nat EW)). unfold top in HW. cbn [length] in HW. cbn in HW. lia.
      * destruct (case_of (la1 s) cases) as [q|] eqn:EC; [|cbn [snd]; lia]. apply within_cons in H as [_ H]. apply N; [eapply H; exact EC|]. exists F. congruence.
    + intros s' E. rewrite (dstmt_is f (dexec_is f)) in E.
      assert (HA := eat1_sound f (eats_sound f) F x k p s n1 e1 E1).
      rewrite E in HA. apply within_cons in H as [H _]. destruct HA as [HA|[-> HA]].
      * specialize (W 1%nat 2%nat c k p s' H). unfold top in W. lia.
      * assert (EE : here s' = here s) by (unfold here; rewrite HA; reflexivity). rewrite <- EE. apply N; [exact H|]. exists F. unfold la1 in *. rewrite HA. destruct (eats F c (match toks s with x :: _ => kind_of x | [] => -1 end)); [discriminate|exact HE].
Qed.
End Bound.
