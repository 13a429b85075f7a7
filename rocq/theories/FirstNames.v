(** The tokens that the first message names: each can come at the place the message is about. *)
From Coq Require Import ZArith NArith Lia Bool.
From Verif Require Import Str Tokens Grammar Tree AtnData Atn AtnParser AtnParserTable AtnParserProof GoParser ParserCode PredictSpec GoParserTable GoParserProof Predict PredictTable PredictProof
  Recovery RecoveryTable RecoveryProof RecoveryCheck RecoveryProof2 RecoveryProof3 FirstTable FirstRun FirstProof FirstProof2 FirstProof3.
Local Open Scope Z_scope.
Local Notation A := parser_atn.
Local Notation tr := (tr A).
Local Notation nrm := (nrm A).
Local Notation completes := (completes A).
Local Notation nrule q := (n_rule (node_at A q)).
Definition nodes_all (P : Z -> trans -> bool) : bool := forallb (fun i => forallb (P (Z.of_nat i)) (tr (Z.of_nat i))) (seq 0 (length (a_nodes A))).
(** Levels above 0 are asked for by fn_arg_expr alone, which then looks for operators. *)
Lemma levels_called : nodes_all (fun q t => match t with TRule _ r to j => (j <=? 0) || (r =? 50) && (n_rule (node_at A q) =? 50) && (nrm to =? 453) | _ => true end) = true. Proof. vm_compute. reflexivity. Qed.
Lemma levels_low : forallb (fun t => match op_level t with Some L => (0 <=? L) && (1 <=? t) && (t <=? 84) | None => true end) tokens = true. Proof. vm_compute. reflexivity. Qed.
(** Into the operators only from 453, to the end of file only over 118. *)
Definition op_states : list Z := Eval vm_compute in 451 :: map (fun e => match e with TEps a => a | _ => 451 end) (tr 451).
Lemma op_states_are : op_states = 451 :: map (fun e => match e with TEps a => a | _ => 451 end) (tr 451). Proof. vm_compute. reflexivity. Qed.
Definition op_state (q : Z) : bool := zmem q op_states.
Definition end_state (q : Z) : bool := (q =? 119) || (q =? 1).
Lemma kept : nodes_all (fun q t =>
  match t with
  | TEps to => (negb (op_state to) || (q =? 451) || (q =? 453)) && (negb (end_state to) || (q =? 119))
  | TAction _ _ to => negb (op_state to) && negb (end_state to)
  | TPrec _ to => negb (op_state to) && negb (end_state to) && op_state q
  | TSet neg l to => negb neg && (negb (end_state to) || (q =? 118)) && (negb (in_ranges l (-1)) || (q =? 118)) && negb (in_ranges l 0) && negb (op_state to) && (alive to || (q =? 118))
  | TRule s _ to _ => negb (op_state s) && negb (end_state s) && negb (op_state to) && negb (end_state to) && negb (op_state q)
  end) = true. Proof. vm_compute. reflexivity. Qed.
Lemma stop_1 : forallb (fun i => let q := Z.of_nat i in negb ((n_type (node_at A q) =? 7) && (n_rule (node_at A q) =? 0)) || (q =? 1)) (seq 0 (length (a_nodes A))) = true. Proof. vm_compute. reflexivity. Qed.
Lemma stop_not_op : forallb (fun i => let q := Z.of_nat i in negb (n_type (node_at A q) =? 7) || negb (op_state q)) (seq 0 (length (a_nodes A))) = true. Proof. vm_compute. reflexivity. Qed.
Local Opaque parser_atn decision_state firsts follows heights takes_in takes_end next_tokens op_level.
Definition pos (q : Z) : Z := Z.of_nat (Z.to_nat q).
Lemma node_all P q t : nodes_all P = true -> In t (tr q) -> P (pos q) t = true.
Proof. intros H Hin. unfold nodes_all in H. rewrite forallb_forall in H. destruct (node_bound q t Hin) as (Hb & He). specialize (H _ Hb). rewrite He, forallb_forall in H. exact (H t Hin). Qed.
Lemma pos_is q n : 0 < n -> (pos q =? n) = true -> q = n. Proof. unfold pos. intros H E. apply Z.eqb_eq in E. lia. Qed.
Lemma pos_op q : op_state (pos q) = op_state q.
Proof. unfold pos. destruct (Z.le_gt_cases 0 q) as [L|L]; [rewrite Z2Nat.id by exact L; reflexivity|]. replace (Z.of_nat (Z.to_nat q)) with 0 by lia. unfold op_state, zmem, op_states. cbn [existsb]. lia. Qed.
Lemma pos_node q : node_at A (pos q) = node_at A q. Proof. unfold node_at, pos. rewrite Nat2Z.id. reflexivity. Qed.

(** *** The tokens named *)
(** [t] comes next, -1 being the end of file. *)
Definition can_come (k : stack) (p q t : Z) : Prop := t = -1 /\ completes k p q [-1] \/ word t /\ live_at k p q t.
Lemma come_map k p q k' p' q' t : (forall ts, completes k p q ts -> completes k' p' q' ts) -> can_come k p q t -> can_come k' p' q' t.
Proof. intros H [(E & C)|(Hw & w & W & C)]; [left; split; [exact E|apply H; exact C]|right; split; [exact Hw|]; exists w; split; [exact W|apply H; exact C]]. Qed.
Local Transparent takes_in takes_end.
Lemma some_in f l : some f l = true -> exists x, In x l /\ f x = true.
Proof. induction l as [|x l IH]; cbn [some]; [discriminate|]. destruct (f x) eqn:E; [intros _; exists x; split; [left; reflexivity|exact E]|]. intros H. destruct (IH H) as (y & Hy & Hf). exists y. split; [right; exact Hy|exact Hf]. Qed.
Lemma takes_in_live f : forall k p q t, takes_in f q t = true -> opened k (nrule q) -> live_at k p q t.
Proof.
  induction f as [|f IH]; intros k p q t H Ho; [discriminate H|]. cbn [takes_in] in H.
  apply some_in in H as (e & Hin & H). pose proof (rule_next _ _ Hin) as Hrn. destruct e as [to|neg l to|s r to j|r a to|j to]; try discriminate H; cbn [same_rule] in Hrn; apply Z.eqb_eq in Hrn.
  - destruct (IH k p to t H ltac:(rewrite Hrn; exact Ho)) as (w & Hw & C). exists w. split; [exact Hw|]. apply (completes_step _ _ _ _ _ Hin). exact C.
  - rewrite !andb_true_iff, negb_true_iff in H. destruct H as ((-> & Hl) & Ha). destruct (alive_live k p to ltac:(rewrite Hrn; exact Ho) Ha) as (w & Hw & C). exists w. split; [exact Hw|].
    apply (completes_step _ _ _ _ _ Hin). split; [reflexivity|]. exists t, (w ++ [-1]). auto.
  - apply call_alone in Hin. destruct (call_facts _ _ _ _ _ Hin) as (_ & _ & _ & _ & _ & Hrs & _). destruct (IH ((q, p) :: k) j s t H) as (w & Hw & C); [rewrite Hrs; econstructor; [exact Hin|exact Ho]|].
    exists w. split; [exact Hw|]. eapply call_in; eassumption.
  - destruct (IH k p to t H ltac:(rewrite Hrn; exact Ho)) as (w & Hw & C). exists w. split; [exact Hw|]. apply (completes_step _ _ _ _ _ Hin). exact C.
Qed.
Lemma takes_end_live f : forall k p q, takes_end f q = true -> opened k (nrule q) -> completes k p q [-1].
Proof.
  induction f as [|f IH]; intros k p q H Ho; [discriminate H|]. cbn [takes_end] in H. destruct (q =? 118) eqn:Eq.
  - apply Z.eqb_eq in Eq. subst q. destruct tr_118 as (_ & E & _). rewrite E in Ho. apply opened_0 in Ho; [|reflexivity]. subst k. apply at_118.
  - apply some_in in H as (e & Hin & H). pose proof (rule_next _ _ Hin) as Hrn. destruct e as [to|neg l to|s r to j|r a to|j to]; try discriminate H; cbn [same_rule] in Hrn; apply Z.eqb_eq in Hrn;
      apply (completes_step _ _ _ _ _ Hin); (apply IH; [exact H|rewrite Hrn; exact Ho]).
Qed.
Local Opaque takes_in takes_end.
Lemma named_comes k p q t : names_well q = true -> zmem (-2) (next_tokens A q) = false -> In t (next_tokens A q) -> opened k (nrule q) -> can_come k p q t.
Proof.
  intros H H2 Hin Ho. unfold names_well in H. rewrite H2 in H. cbn [orb] in H. apply andb_true_iff in H as (H & _). rewrite forallb_forall in H. specialize (H t Hin). unfold named in H. destruct (t =? -1) eqn:Et.
  - apply Z.eqb_eq in Et. subst t. left. split; [reflexivity|]. eapply takes_end_live; eassumption.
  - rewrite !andb_true_iff, !Z.leb_le in H. right. split; [unfold word; lia|]. eapply takes_in_live; [exact (proj2 H)|exact Ho].
Qed.
Lemma names_some q : names_well q = true -> zmem (-2) (next_tokens A q) = false -> next_tokens A q <> [].
Proof. intros H H2. unfold names_well in H. rewrite H2 in H. cbn [orb] in H. apply andb_true_iff in H as (_ & H). destruct (next_tokens A q); [discriminate H|discriminate]. Qed.
Lemma expected_plain k m : zmem (-2) (next_tokens A m) = false -> expected (default_strategy A) k m = Some (next_tokens A m).
Proof. intros H. cbn [default_strategy expected]. destruct k as [|(n, p) k]; cbn [expected_around]; rewrite H; reflexivity. Qed.

(** *** LL1Analyzer.Look with a context *)
Inductive reaches : list Z -> Z -> Z -> Prop :=
| r_end q : n_type (node_at A q) = 7 -> reaches [] q (-2)
| r_back q ret ctx t : n_type (node_at A q) = 7 -> reaches ctx ret t -> reaches (ret :: ctx) q t
| r_call ctx q s r to j t : In (TRule s r to j) (tr q) -> reaches (to :: ctx) s t -> reaches ctx q t
| r_eps ctx q to t : In (TEps to) (tr q) -> reaches ctx to t -> reaches ctx q t
| r_act ctx q r a to t : In (TAction r a to) (tr q) -> reaches ctx to t -> reaches ctx q t
| r_prec ctx q j to t : In (TPrec j to) (tr q) -> reaches ctx to t -> reaches ctx q t
| r_set ctx q neg l to t : In (TSet neg l to) (tr q) -> xorb neg (in_ranges l t) = true -> In t tokens -> reaches ctx q t.
Section Look.
Variable B : atn.
Variable R : list Z -> Z -> Z -> Prop.
Hypothesis R_end : forall q, n_type (node_at B q) = 7 -> R [] q (-2).
Hypothesis R_back : forall q ret ctx t, n_type (node_at B q) = 7 -> R ctx ret t -> R (ret :: ctx) q t.
Hypothesis R_call : forall ctx q s r to j t, In (TRule s r to j) (n_trans (node_at B q)) -> R (to :: ctx) s t -> R ctx q t.
Hypothesis R_eps : forall ctx q to t, In (TEps to) (n_trans (node_at B q)) -> R ctx to t -> R ctx q t.
Hypothesis R_act : forall ctx q r a to t, In (TAction r a to) (n_trans (node_at B q)) -> R ctx to t -> R ctx q t.
Hypothesis R_prec : forall ctx q j to t, In (TPrec j to) (n_trans (node_at B q)) -> R ctx to t -> R ctx q t.
Hypothesis R_set : forall ctx q neg l to t, In (TSet neg l to) (n_trans (node_at B q)) -> xorb neg (in_ranges l t) = true -> In t tokens -> R ctx q t.
Definition look_through (f : nat) (ctx called : list Z) (s : list (Z * list Z) * list Z) (t : trans) : list (Z * list Z) * list Z :=
  match t with
  | TRule start r to _ => if zmem r called then s else look B f start (to :: ctx) (r :: called) s
  | TEps to | TAction _ _ to | TPrec _ to => look B f to ctx called s
  | TSet neg l to => (fst s, filter (fun t => xorb neg (in_ranges l t)) tokens ++ snd s)
  end.
Lemma look_S f q ctx called s : look B (S f) q ctx called s =
  if in_busy q ctx (fst s) then s else
  if n_type (node_at B q) =? 7
  then match ctx with [] => ((q, ctx) :: fst s, -2 :: snd s) | ret :: ctx' => look B f ret ctx' (zremove (n_rule (node_at B q)) called) ((q, ctx) :: fst s, snd s) end
  else fold_left (look_through f ctx called) (n_trans (node_at B q)) ((q, ctx) :: fst s, snd s).
Proof. reflexivity. Qed.

Lemma s_set (s : list (Z * list Z) * list Z) neg l t : In t (snd (fst s, filter (fun t => xorb neg (in_ranges l t)) tokens ++ snd s)) -> In t (snd s) \/ xorb neg (in_ranges l t) = true /\ In t tokens.
Proof. cbn [snd]. intros H. apply in_app_iff in H as [H|H]; [|left; exact H]. apply filter_In in H as (H1 & H2). right. split; assumption. Qed.
Lemma s_end (q t : Z) ctx (s : list (Z * list Z) * list Z) : In t (snd ((q, ctx) :: fst s, -2 :: snd s)) -> t = -2 \/ In t (snd s).
Proof. cbn [snd]. intros [<-|H]; auto. Qed.
Section Step.
Variable f : nat.
Hypothesis IH : forall q ctx called s t, In t (snd (look B f q ctx called s)) -> In t (snd s) \/ R ctx q t.
Lemma s_step q ctx called s e t : In e (n_trans (node_at B q)) -> In t (snd (look_through f ctx called s e)) -> In t (snd s) \/ R ctx q t.
Proof.
  intros Hin H. destruct e as [to|neg l0 to|start r to j|r a to|j to]; cbn [look_through] in H.
      - apply IH in H as [H|H]; [left; exact H|right; eapply R_eps; eassumption].
      - apply s_set in H as [H|(H1 & H2)]; [left; exact H|]. right. eapply R_set; eassumption.
      - destruct (zmem r called); [left; exact H|]. apply IH in H as [H|H]; [left; exact H|right; eapply R_call; eassumption].
      - apply IH in H as [H|H]; [left; exact H|right; eapply R_act; eassumption].
      - apply IH in H as [H|H]; [left; exact H|right; eapply R_prec; eassumption]. 
Qed.
Lemma s_all q ctx called t : forall l s0, incl l (n_trans (node_at B q)) -> In t (snd (fold_left (look_through f ctx called) l s0)) -> In t (snd s0) \/ R ctx q t.
Proof.
    induction l as [|e l IHl]; intros s0 Hi H; [left; exact H|]. cbn [fold_left] in H. assert (Hin : In e (n_trans (node_at B q))) by (apply Hi; left; reflexivity). apply IHl in H as [H|H]; [|right; exact H|intros x Hx; apply Hi; right; exact Hx].
   eapply s_step; eassumption. Qed.
End Step.
Lemma look_sound f : forall q ctx called s t, In t (snd (look B f q ctx called s)) -> In t (snd s) \/ R ctx q t.
Proof.
  induction f as [|f IH]; intros q ctx called s t H; [left; exact H|]. rewrite look_S in H. destruct (in_busy q ctx (fst s)); [left; exact H|]. destruct (n_type (node_at B q) =? 7) eqn:H7.
  - apply Z.eqb_eq in H7. destruct ctx as [|ret ctx]; [apply s_end in H as [->|H]; [right; apply R_end; exact H7|left; exact H]|]. apply IH in H as [H|H]; [left; exact H|right; apply R_back; assumption].
  - apply (s_all f IH q ctx called t _ ((q, ctx) :: fst s, snd s)) in H; [exact H|apply incl_refl].
Qed.
End Look.
Lemma look_reaches f : forall q ctx called s t, In t (snd (look A f q ctx called s)) -> In t (snd s) \/ reaches ctx q t.
Proof. apply look_sound; [exact r_end|exact r_back|exact r_call|exact r_eps|exact r_act|exact r_prec|exact r_set]. Qed.
(** The operators come after any operand: if their level is too low here, further out. *)
Lemma op_comes t L : op_level t = Some L -> In t tokens -> forall k p, opened k 50 -> levels k p -> live_at k p 453 t.
Proof.
  intros HL Ht. pose proof levels_low as G. rewrite forallb_forall in G. specialize (G t Ht). rewrite HL in G. rewrite !andb_true_iff, !Z.leb_le in G. destruct alive_100 as (H100 & H453 & H454 & R453 & R451 & R100).
  assert (Hopr : exists e, Forall word e /\ operand L e).
  { destruct (finishes _ 100 (L + 1) (le_n _) H100) as (e & stop & He & W & Hend). pose proof (walk_rule A firsts follows tables_closed _ _ _ _ W) as Hrs. rewrite R100 in Hrs. exists e. split; [exact He|].
    exists stop. split; [exact W|]. unfold ends_here in Hend. rewrite orb_true_iff, andb_true_iff, !Z.eqb_eq in Hend. destruct Hend as [->|(H7 & _)]; [destruct tr_118 as (_ & E & _); rewrite E in Hrs; discriminate Hrs|]. auto. }
  destruct Hopr as (e & He & Hop). induction k as [|(n, p') k IH]; intros p Ho Hl.
  - inversion Ho.
  - destruct (Z.le_gt_cases p L) as [Hp|Hp].
    + destruct (alive_live ((n, p') :: k) p 453) as (w & Hw & C); [rewrite R453; exact Ho|exact H453|]. exists (e ++ w). split; [apply Forall_app; auto|]. apply (completes_step _ _ _ (TEps 451)); [rewrite tr_453; left; reflexivity|].
      cbn [goes_on]. rewrite <- app_assoc. eapply op_build; [exact HL|lia|exact Hop|exact C].
    + destruct Hl as ((s & r & to & Et) & Hl). pose proof (node_all _ n (TRule s r to p) levels_called ltac:(rewrite Et; left; reflexivity)) as K. cbv beta iota in K. rewrite pos_node, orb_true_iff, !andb_true_iff, !Z.eqb_eq, Z.leb_le in K.
      destruct K as [K|((-> & Kn) & Kt)]; [lia|]. inversion Ho as [|k0 n0 p0 s0 r0 to0 j0 Et0 Ho' E1 E2]; subst. rewrite Kn in Ho'. destruct (IH p' Ho' Hl) as (w & Hw & C). exists w. split; [exact Hw|].
      destruct stop_101 as (H7 & Hr & T1 & T2). apply (completes_step _ _ _ (TEps 454)); [rewrite T2; right; left; reflexivity|]. apply (completes_step _ _ _ (TEps 101)); [rewrite T1; left; reflexivity|].
      eapply call_out; [exact Et|exact H7|exact Hr|]. apply completes_from_nrm. rewrite Kt. exact C.
Qed.
Fixpoint returning (k : stack) (ctx : list Z) : Prop :=
  match k, ctx with
  | [], [] => True
  | (n, _) :: k', to :: ctx' => (exists s r j, tr n = [TRule s r to j]) /\ returning k' ctx'
  | _, _ => False
  end.
Lemma reaches_comes ctx q t : reaches ctx q t -> forall k p, returning k ctx -> opened k (nrule q) -> levels k p -> t <> -2 ->
  can_come k p q t \/ op_state q = true /\ In t tokens /\ exists L, op_level t = Some L.
Proof.
  induction 1 as [q H7|q ret ctx t H7 H IH|ctx q s r to j t Hin H IH|ctx q to t Hin H IH|ctx q r a to t Hin H IH|ctx q j to t Hin H IH|ctx q neg l to t Hin Hx Ht]; intros k p Hk Ho Hl Hne; [congruence| | | | | |].
  - destruct k as [|(n, p') k]; [destruct Hk|]. destruct Hk as ((s & r & j & Et) & Hk). destruct Hl as ((s' & r' & to' & Et') & Hl). rewrite Et in Et'. injection Et' as <- <- <- ->.
    inversion Ho as [|k0 n0 p0 s0 r0 to0 j0 Et0 Ho' E1 E2]; subst. rewrite Et in Et0. injection Et0 as <- Er <- <-.
    destruct (call_facts _ _ _ _ _ Et) as (_ & _ & _ & _ & _ & _ & Hrt). destruct (IH k p' Hk ltac:(rewrite Hrt; exact Ho') Hl Hne) as [C|(C & _)].
    + left. eapply come_map; [|exact C]. intros ts. apply call_out with (s := s) (r := r); [exact Et|exact H7|auto].
    + pose proof (node_all _ n _ kept ltac:(rewrite Et; left; reflexivity)) as K. cbv beta iota in K. rewrite !andb_true_iff, !negb_true_iff in K. destruct K as ((((_ & _) & K) & _) & _). congruence.
  - pose proof (call_alone _ _ _ _ _ Hin) as Et. destruct (call_facts _ _ _ _ _ Et) as (_ & _ & _ & _ & _ & Hrs & _). destruct (IH ((q, p) :: k) j) as [C|(C & _)]; [split; [eauto|exact Hk]|rewrite Hrs; econstructor; [exact Et|exact Ho]|split; [eauto|exact Hl]|exact Hne| |].
    + left. eapply come_map; [|exact C]. intros ts. apply (call_in _ _ _ _ _ _ _ _ Et Hrs).
    + pose proof (node_all _ q _ kept Hin) as K. cbv beta iota in K. rewrite !andb_true_iff, !negb_true_iff in K. destruct K as ((((K & _) & _) & _) & _). congruence.
  - destruct (IH k p Hk ltac:(rewrite (eps_rule _ _ Hin); exact Ho) Hl Hne) as [C|(C & Ht & L & HL)].
    + left. eapply come_map; [|exact C]. intros ts Hts. apply (completes_step _ _ _ _ _ Hin). exact Hts.
    + pose proof (node_all _ q _ kept Hin) as K. cbv beta iota in K. rewrite C in K. cbn [negb orb] in K. apply andb_true_iff in K as (K & _). apply orb_true_iff in K as [K|K]; apply pos_is in K; try lia; subst q.
      * right. split; [reflexivity|]. eauto.
      * left. right. pose proof levels_low as G. rewrite forallb_forall in G. specialize (G t Ht). rewrite HL in G. rewrite !andb_true_iff, !Z.leb_le in G. split; [unfold word; lia|].
        destruct alive_100 as (_ & _ & _ & R453 & _). rewrite R453 in Ho. eapply op_comes; eassumption.
  - pose proof (rule_next _ _ Hin) as Hrn. cbn [same_rule] in Hrn. apply Z.eqb_eq in Hrn. destruct (IH k p Hk ltac:(rewrite Hrn; exact Ho) Hl Hne) as [C|(C & _)].
    + left. eapply come_map; [|exact C]. intros ts Hts. apply (completes_step _ _ _ _ _ Hin). exact Hts.
    + pose proof (node_all _ q _ kept Hin) as K. cbv beta iota in K. rewrite andb_true_iff, !negb_true_iff in K. destruct K. congruence.
  - pose proof (node_all _ q _ kept Hin) as K. cbv beta iota in K. rewrite !andb_true_iff, !negb_true_iff, pos_op in K. destruct K as (_ & K). right. split; [exact K|].
    unfold op_state in K. apply zmem_in in K. rewrite op_states_are in K. destruct K as [<-|K]; [exfalso; apply op_known in Hin as (? & ? & E & _); discriminate E|].
    apply in_map_iff in K as (e & E & He). destruct (op_known e He) as (L & l & El & Hl'). apply op_alt_spec in El as (a & b & c & d & -> & Ea & Eb & _). subst a. rewrite Ea in Hin. destruct Hin as [Hin|[]]. injection Hin as <- <-.
    assert (G : In t tokens /\ in_ranges l t = true).
    { inversion H as [q' H7|q' ret ctx' t' H7 H'|ctx' q' s r to' j' t' Hi|ctx' q' to' t' Hi|ctx' q' r a to' t' Hi|ctx' q' j' to' t' Hi|ctx' q' neg l' to' t' Hi Hx Ht]; subst; try (rewrite Eb in Hi; destruct Hi as [Hi|[]]; try discriminate Hi).
      - exfalso. congruence.
      - exfalso. rewrite (stop_no_trans A firsts follows tables_closed _ H7) in Eb. discriminate Eb.
      - injection Hi as <- <- <-. rewrite xorb_false_l in Hx. auto. }
    destruct G as (Ht & Hr). eauto.
  - pose proof (node_all _ q _ kept Hin) as K. cbv beta iota in K. rewrite !andb_true_iff, !orb_true_iff, !negb_true_iff in K. destruct K as (((((-> & _) & K1) & K2) & _) & K3). rewrite xorb_false_l in Hx. left.
    pose proof (rule_next _ _ Hin) as Hrn. cbn [same_rule] in Hrn. apply Z.eqb_eq in Hrn. apply in_tokens in Ht. destruct (Z.eq_dec t (-1)) as [->|H1].
    + left. split; [reflexivity|]. destruct K1 as [K1|K1]; [congruence|]. apply pos_is in K1; [|lia]. subst q. destruct tr_118 as (_ & E & _). rewrite E in Ho. apply opened_0 in Ho; [|reflexivity]. subst k. apply at_118.
    + right. assert (t <> 0) by (intros ->; congruence). split; [unfold word; lia|]. destruct K3 as [K3|K3].
      * destruct (alive_live k p to ltac:(rewrite Hrn; exact Ho) K3) as (w & Hw & C). exists w. split; [exact Hw|]. apply (completes_step _ _ _ _ _ Hin). split; [reflexivity|]. exists t, (w ++ [-1]). auto.
      * apply pos_is in K3; [|lia]. subst q. exfalso. destruct tr_118 as (E & _). rewrite E in Hin. destruct Hin as [Hin|[]]. injection Hin as <- <-. unfold in_ranges in Hx. cbn [existsb fst snd] in Hx. lia.
Qed.
Lemma reaches_end ctx q t : reaches ctx q t -> forall k, returning k ctx -> opened k (nrule q) -> t = -2 -> end_state q = true.
Proof.
  induction 1 as [q H7|q ret ctx t H7 H IH|ctx q s r to j t Hin H IH|ctx q to t Hin H IH|ctx q r a to t Hin H IH|ctx q j to t Hin H IH|ctx q neg l to t Hin Hx Ht]; intros k Hk Ho Ht2.
  - destruct k as [|(n, p) k]; [|destruct Hk]. assert (E : nrule q = 0) by (inversion Ho; congruence). pose proof stop_1 as G. rewrite forallb_forall in G.
    destruct (Nat.lt_ge_cases (Z.to_nat q) (length (a_nodes A))) as [L|L].
    + specialize (G (Z.to_nat q) ltac:(apply in_seq; lia)). cbv zeta in G. fold (pos q) in G. rewrite pos_node, H7, E in G. cbn [Z.eqb Pos.eqb andb negb orb] in G. apply pos_is in G; [|lia]. subst q. reflexivity.
    + exfalso. unfold node_at in H7. rewrite nth_overflow in H7 by exact L. discriminate H7.
  - destruct k as [|(n, p') k]; [destruct Hk|]. destruct Hk as ((s & r & j & Et) & Hk). inversion Ho as [|k0 n0 p0 s0 r0 to0 j0 Et0 Ho' E1 E2]; subst. rewrite Et in Et0. injection Et0 as <- Er <- <-.
    destruct (call_facts _ _ _ _ _ Et) as (_ & _ & _ & _ & _ & _ & Hrt). pose proof (IH k Hk ltac:(rewrite Hrt; exact Ho') eq_refl) as C.
    pose proof (node_all _ n _ kept ltac:(rewrite Et; left; reflexivity)) as K. cbv beta iota in K. rewrite !andb_true_iff, !negb_true_iff in K. destruct K as (((_ & _) & K) & _). congruence.
  - pose proof (call_alone _ _ _ _ _ Hin) as Et. destruct (call_facts _ _ _ _ _ Et) as (_ & _ & _ & _ & _ & Hrs & _). pose proof (IH ((q, 0) :: k) ltac:(split; [eauto|exact Hk]) ltac:(rewrite Hrs; econstructor; [exact Et|exact Ho]) Ht2) as C.
    pose proof (node_all _ q _ kept Hin) as K. cbv beta iota in K. rewrite !andb_true_iff, !negb_true_iff in K. destruct K as ((((_ & K) & _) & _) & _). congruence.
  - pose proof (IH k Hk ltac:(rewrite (eps_rule _ _ Hin); exact Ho) Ht2) as C. pose proof (node_all _ q _ kept Hin) as K. cbv beta iota in K. rewrite C in K. cbn [negb orb] in K. apply andb_true_iff in K as (_ & K). apply pos_is in K; [|lia]. subst q. reflexivity.
  - pose proof (rule_next _ _ Hin) as Hrn. cbn [same_rule] in Hrn. apply Z.eqb_eq in Hrn. pose proof (IH k Hk ltac:(rewrite Hrn; exact Ho) Ht2) as C.
    pose proof (node_all _ q _ kept Hin) as K. cbv beta iota in K. rewrite andb_true_iff, !negb_true_iff in K. destruct K. congruence.
  - pose proof (rule_next _ _ Hin) as Hrn. cbn [same_rule] in Hrn. apply Z.eqb_eq in Hrn. pose proof (IH k Hk ltac:(rewrite Hrn; exact Ho) Ht2) as C.
    pose proof (node_all _ q _ kept Hin) as K. cbv beta iota in K. rewrite !andb_true_iff, !negb_true_iff in K. destruct K as ((_ & K) & _). congruence.
  - subst t. apply in_tokens in Ht. lia.
Qed.
Lemma returns_returning k r ctx : opened k r -> returns_of A k = Some ctx -> returning k ctx.
Proof.
  intros Ho. revert ctx. induction Ho as [|k n p s r to j Et Ho IH]; intros ctx E; cbn [returns_of] in E.
  - injection E as <-. exact I.
  - unfold follow_state in E. change (n_trans (node_at A n)) with (tr n) in E. rewrite Et in E. destruct (returns_of A k) as [l|]; [|discriminate E]. injection E as <-. cbn [returning]. split; [eauto|apply IH; reflexivity].
Qed.

(** *** What a report names *)
Local Notation D := (default_strategy A).
Definition after_it (k : stack) (p m t la : Z) : Prop := word t /\ (la = -1 /\ completes k p m [t; -1] \/ word la /\ exists w, Forall word w /\ completes k p m (t :: la :: w ++ [-1])).
Lemma told_names sync k p m la r : told D sync k m la r -> names_well m = true -> zmem (-2) (next_tokens A m) = false -> opened k (nrule m) -> levels k p ->
  (sync = false -> one_set m = true /\ (refuses m la = true \/ m <> 118)) ->
  exists l, r_detail r = Expecting l /\ l <> [] /\ (forall t, In t l -> can_come k p m t) /\ (r_kind r = Missing -> forall t, In t l -> after_it k p m t la).
Proof.
  intros ((e & Ee & Ed) & Hk) Hn H2 Ho Hl Hs. rewrite expected_plain in Ee by exact H2. injection Ee as <-. exists (next_tokens A m). split; [exact Ed|]. split; [apply names_some; assumption|].
  assert (HC : forall t, In t (next_tokens A m) -> can_come k p m t) by (intros t Ht; apply named_comes; assumption). split; [exact HC|].
  intros HM t Ht. destruct Hk as [Hk|[Hk|(Hy & _ & i & Hi & Hz)]]; [congruence|congruence|]. destruct (Hs Hy) as (H1 & Hr). clear Hs.
  unfold one_set in H1. destruct (tr m) as [|[?|[|] s to|? ? ? ?|? ? ?|? ?] [|]] eqn:Em; try discriminate H1. clear H1.
  assert (Hin : In (TSet false s to) (tr m)) by (rewrite Em; left; reflexivity). pose proof (rule_next _ _ Hin) as Hrn. cbn [same_rule] in Hrn. apply Z.eqb_eq in Hrn.
  cbn [default_strategy insertion] in Hi. unfold insertion_set in Hi. change (n_trans (node_at A m)) with (tr m) in Hi. rewrite Em in Hi. cbn [target] in Hi. unfold next_tokens_in in Hi.
  destruct (returns_of A k) as [ctx|] eqn:Ek; [|discriminate Hi]. revert Hi. generalize (200 * S (length k))%nat. intros fuel Hi. injection Hi as <-. apply zmem_in, in_map_iff in Hz as (t0 & E0 & Hz). apply look_reaches in Hz as [Hz|Hz]; [destruct Hz|].
  assert (Hk : returning k ctx) by (eapply returns_returning; [exact Ho|exact Ek]). assert (Hot : opened k (nrule to)) by (rewrite Hrn; exact Ho).
  pose proof (node_all _ m _ kept Hin) as K. cbv beta iota in K. rewrite !andb_true_iff, !orb_true_iff, !negb_true_iff in K. destruct K as (((((_ & K0) & K1) & K2) & K4) & K3).
  assert (Hne : t0 <> -2).
  { intros ->. cbn [Z.eqb Pos.eqb] in E0. subst la. pose proof (reaches_end _ _ _ Hz k Hk Hot eq_refl) as He. destruct K0 as [K0|K0]; [congruence|]. apply pos_is in K0; [|lia]. subst m. destruct Hr as [Hr|Hr]; [|congruence].
    unfold refuses in Hr. rewrite (proj1 tr_118) in Hr. discriminate Hr. }
  replace (t0 =? -2) with false in E0 by lia. subst t0.
  assert (Hset : word t /\ in_ranges s t = true).
  { destruct (HC t Ht) as [(-> & C)|(Hw & w & W & C)]; (apply (one _ _ _ _ _ Em) in C as (_ & x & ts' & E & Hx & C'); injection E as <- E).
    - exfalso. destruct K1 as [K1|K1]; [congruence|]. apply pos_is in K1; [|lia]. subst m. rewrite (proj1 tr_118) in Em. injection Em as <- <-. destruct Hr as [Hr|Hr]; [|congruence].
      assert (Hend : forall t, reaches ctx 119 t -> t <> -2 -> False).
      { intros t1 H1 Hn1. destruct tr_118 as (_ & _ & T1 & T7 & _). pose proof tr_119 as T119. assert (ctx = []). { destruct tr_118 as (_ & E0 & _). rewrite E0 in Ho. apply opened_0 in Ho; [|reflexivity]. subst k. destruct ctx; [reflexivity|destruct Hk]. } subst ctx.
        inversion H1 as [q' H7|q' ret ctx' t' H7 H'|ctx' q' s' r' to' j' t' Hi H'|ctx' q' to' t' Hi H'|ctx' q' r' a' to' t' Hi H'|ctx' q' j' to' t' Hi H'|ctx' q' neg l' to' t' Hi Hx' Ht']; subst; try congruence; rewrite T119 in Hi; destruct Hi as [Hi|[]]; try discriminate Hi.
        injection Hi as <-. inversion H' as [q' H7|q' ret ctx' t' H7 H''|ctx' q' s' r' to' j' t' Hi H''|ctx' q' to' t' Hi H''|ctx' q' r' a' to' t' Hi H''|ctx' q' j' to' t' Hi H''|ctx' q' neg l' to' t' Hi Hx' Ht']; subst; try congruence; rewrite T1 in Hi; destruct Hi. }
      exact (Hend _ Hz Hne).
    - auto. }
  destruct Hset as (Hw & Hx). split; [exact Hw|].
  assert (Step : forall ts, completes k p to ts -> completes k p m (t :: ts)) by (intros ts Hts; apply (completes_step _ _ _ _ _ Hin); split; [reflexivity|]; exists t, ts; auto).
  destruct (reaches_comes _ _ _ Hz k p Hk Hot Hl Hne) as [[(-> & C)|(Hw' & w & W & C)]|(Hop & _)]; [left; split; [reflexivity|apply Step; exact C]| |congruence].
  right. split; [exact Hw'|]. exists w. split; [exact W|apply Step; exact C].
Qed.
Lemma one_plain m : one_set m = true -> zmem (-2) (next_tokens A m) = false.
Proof. unfold one_set. destruct (tr m) as [|[?|[|] s to|? ? ? ?|? ? ?|? ?] [|]]; try discriminate. intros H. apply negb_true_iff in H. exact H. Qed.
Lemma sync_plain m la : sync_ok A m la = false -> zmem (-2) (next_tokens A m) = false.
Proof. unfold sync_ok. destruct (zmem (-2) (next_tokens A m)); [discriminate|reflexivity]. Qed.
Local Notation q0 := (nrm (start_of A 0)).
(** Where the report is about: [mid], nothing or one token, is missing before it. *)
Theorem report_names u r w rep : stuck [] 0 q0 u r w -> explains D w rep ->
  (exists n, r_kind rep = NoViableAlt /\ r_detail rep = Since n /\ (length r <= n <= S (length r))%nat) \/
  (r_kind rep = Unwanted \/ r_kind rep = Mismatch \/ r_kind rep = Missing) /\
  exists l mid k p m, r_detail rep = Expecting l /\ l <> [] /\ (length mid <= 1)%nat /\ Forall word mid /\ (forall ts, completes k p m ts -> completes [] 0 q0 (kinds u ++ mid ++ ts)) /\
    (forall t, In t l -> can_come k p m t) /\ (r_kind rep = Missing -> forall t, In t l -> after_it k p m t (pla r)).
Proof.
  intros Hs He.
  assert (Kind : forall sync k m la, told D sync k m la rep -> r_kind rep = Unwanted \/ r_kind rep = Mismatch \/ r_kind rep = Missing) by (intros sync k m la (_ & H); tauto).
  assert (Here : forall sync k p m la, la = pla r -> told D sync k m la rep -> names_well m = true -> zmem (-2) (next_tokens A m) = false -> (sync = false -> one_set m = true /\ (refuses m la = true \/ m <> 118)) -> back [] 0 q0 u k p m ->
    (r_kind rep = Unwanted \/ r_kind rep = Mismatch \/ r_kind rep = Missing) /\
    exists l mid k p m, r_detail rep = Expecting l /\ l <> [] /\ (length mid <= 1)%nat /\ Forall word mid /\ (forall ts, completes k p m ts -> completes [] 0 q0 (kinds u ++ mid ++ ts)) /\
    (forall t, In t l -> can_come k p m t) /\ (r_kind rep = Missing -> forall t, In t l -> after_it k p m t (pla r))).
  { intros sync k p m la -> Ht Hn H2 Hy (Ho & (_ & Hl) & Hb). split; [eapply Kind; exact Ht|]. destruct (told_names sync k p m _ _ Ht Hn H2 Ho Hl Hy) as (l & El & Hne & HC & HM). exists l, [], k, p, m. split; [exact El|]. split; [exact Hne|]. split; [cbn; lia|].
    split; [constructor|]. split; [intros ts Hts; apply Hb; apply (completes_nrm A firsts follows tables_closed); exact Hts|]. auto. }
  destruct w as [k p m la|k p m la|k p m la|n|]; cbn [stuck explains] in Hs, He.
  - destruct Hs as (Ela & Hn & (H1 & Hr) & Hb). right. eapply (Here false); try eassumption; [apply one_plain; exact H1|auto].
  - destruct Hs as (Ela & Hn & (H1 & Hr) & Hb). right. destruct He as [He|(call & sync & n & HL & He)]; [eapply (Here false); try eassumption; [apply one_plain; exact H1|auto]|]. split; [eapply Kind; exact He|].
    unfold leads in HL. destruct Hb as (Ho & (_ & Hl) & Hb). destruct (tr m) as [|[?|[|] s to|? ? ? ?|? ? ?|? ?] [|]] eqn:Em; try discriminate HL. rewrite !andb_true_iff, negb_true_iff in HL. destruct HL as ((((Hx & Hn') & H2) & Hy) & HL).
    apply existsb_exists in Hx as (x & Hx & Hin). apply in_words in Hx. assert (Hi : In (TSet false s to) (tr m)) by (rewrite Em; left; reflexivity). pose proof (rule_next _ _ Hi) as Hrn. cbn [same_rule] in Hrn. apply Z.eqb_eq in Hrn.
    assert (Hy' : sync = false -> one_set n = true /\ (refuses n la = true \/ n <> 118)).
    { intros ->. cbn [orb] in Hy. rewrite andb_true_iff, negb_true_iff, Z.eqb_neq in Hy. tauto. }
    assert (Step : forall ts, completes k p to ts -> completes [] 0 q0 (kinds u ++ [x] ++ ts)).
    { intros ts Hts. apply Hb. apply (completes_nrm A firsts follows tables_closed). apply (completes_step _ _ _ _ _ Hi). split; [reflexivity|]. exists x, ts. auto. }
    destruct call as [(q, j)|].
    + rewrite andb_true_iff, Z.eqb_eq in HL. destruct HL as (Eq & HL). destruct (tr q) as [|[?|? ? ?|s' r' to' j'|? ? ?|? ?] [|]] eqn:Et; try discriminate HL. rewrite andb_true_iff, !Z.eqb_eq in HL. destruct HL as (<- & Es).
      destruct (call_facts _ _ _ _ _ Et) as (_ & _ & _ & _ & _ & Hrs & _). assert (Hrq : nrule q = nrule m) by (rewrite <- Eq, rule_nrm; exact Hrn).
      assert (Ho' : opened ((q, p) :: k) (nrule n)). { rewrite <- (rule_nrm n), <- Es, rule_nrm, Hrs. econstructor; [exact Et|rewrite Hrq; exact Ho]. }
      destruct (told_names sync ((q, p) :: k) j n _ _ He Hn' H2 Ho' ltac:(split; [eauto|exact Hl]) Hy') as (l & El & Hne & HC & HM). subst la. exists l, [x], ((q, p) :: k), j, n. split; [exact El|]. split; [exact Hne|]. split; [cbn; lia|].
      split; [repeat constructor; apply Hx|]. split; [|auto]. intros ts Hts. apply Step. apply completes_from_nrm. rewrite Eq. eapply call_in; [exact Et|exact Hrs|]. apply completes_from_nrm. rewrite Es. apply (completes_nrm A firsts follows tables_closed). exact Hts.
    + apply Z.eqb_eq in HL. assert (Ho' : opened k (nrule n)) by (rewrite <- (rule_nrm n), <- HL, rule_nrm, Hrn; exact Ho).
      destruct (told_names sync k p n _ _ He Hn' H2 Ho' Hl Hy') as (l & El & Hne & HC & HM). subst la. exists l, [x], k, p, n. split; [exact El|]. split; [exact Hne|]. split; [cbn; lia|].
      split; [repeat constructor; apply Hx|]. split; [|auto]. intros ts Hts. apply Step. apply completes_from_nrm. rewrite HL. apply (completes_nrm A firsts follows tables_closed). exact Hts.
  - destruct Hs as (Ela & Hn & H1 & Hb). right. eapply (Here true); try eassumption; [eapply sync_plain; exact H1|discriminate].
  - left. exists n. destruct He. auto.
  - destruct Hs.
Qed.
