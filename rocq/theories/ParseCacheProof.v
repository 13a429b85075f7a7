(** Parsers that share their DFAs get the answers they would get alone. *)
From Coq Require Import ZArith Lia.
From Verif Require Import Str Tokens AtnData Atn AtnParser AtnParserTable AtnParserProof GoParser PredictSpec GoParserTable Predict PredictTable PredictProof Recovery FirstProof ParseCache.
Local Open Scope Z_scope.

(** *** Equal sets of configurations *)
Fixpoint pctx_eqb_eq (a : pctx) : forall b, pctx_eqb a b = true -> a = b.
Proof.
  destruct a as [|l]; intros [|m] H; try discriminate H; [reflexivity|]. f_equal. cbn in H. revert m H. induction l as [|(r, c) l IH]; intros [|(r', c') m] H; try discriminate H; [reflexivity|].
  apply andb_prop in H as (H & Hl). apply andb_prop in H as (Hr & Hc). apply Z.eqb_eq in Hr as ->. apply pctx_eqb_eq in Hc as ->. f_equal. apply IH. exact Hl.
Qed.
Lemma zs_eqb_eq a : forall b, zs_eqb a b = true -> a = b.
Proof. induction a as [|x a IH]; intros [|y b] H; try discriminate H; [reflexivity|]. cbn in H. apply andb_prop in H as (H1 & H2). apply Z.eqb_eq in H1 as ->. f_equal. auto. Qed.
Lemma config_eqb_eq a b : config_eqb a b = true -> c_state a = c_state b /\ c_alt a = c_alt b /\ c_ctx a = c_ctx b /\ c_sem a = c_sem b /\ c_supp a = c_supp b.
Proof.
  unfold config_eqb. intros H. repeat (apply andb_prop in H as (H & ?)). repeat split; try (apply Z.eqb_eq; assumption); [apply pctx_eqb_eq; assumption|apply zs_eqb_eq; assumption|apply Bool.eqb_prop; assumption].
Qed.
Fixpoint same_outer (a b : list config) : bool := match a, b with x :: a', y :: b' => (c_outer x =? c_outer y) && same_outer a' b' | _, _ => true end.
Lemma configs_eq a : forall b, configs_eqb a b = true -> same_outer a b = true -> a = b.
Proof.
  induction a as [|x a IH]; intros [|y b] H H'; try discriminate H; [reflexivity|]. cbn in H, H'. apply andb_prop in H as (H1 & H2). apply andb_prop in H' as (H3 & H4). apply config_eqb_eq in H1 as (E1 & E2 & E3 & E4 & E5). apply Z.eqb_eq in H3.
  f_equal; [destruct x, y; cbn in *; congruence|auto].
Qed.
Lemma configs_prec p a : forall b, configs_eqb a b = true -> existsb (holds_prec p) a = existsb (holds_prec p) b.
Proof.
  induction a as [|x a IH]; intros [|y b] H; try discriminate H; [reflexivity|]. cbn in H. apply andb_prop in H as (H1 & H2). apply config_eqb_eq in H1 as (_ & _ & _ & E & _).
  cbn [existsb]. rewrite (IH b H2). unfold holds_prec. rewrite E. reflexivity.
Qed.
Lemma configs_refl a : configs_eqb a a = true.
Proof.
  induction a as [|x a IH]; [reflexivity|]. cbn [configs_eqb]. rewrite IH, andb_true_r. unfold config_eqb. rewrite !Z.eqb_refl, Bool.eqb_reflx.
  assert (Hz : forall l, zs_eqb l l = true) by (induction l as [|z l IHl]; [reflexivity|cbn; rewrite Z.eqb_refl, IHl; reflexivity]). rewrite Hz.
  assert (Hp : forall c, pctx_eqb c c = true).
  { clear. fix F 1. intros [|l]; [reflexivity|]. cbn. induction l as [|(r, c) l IHl]; [reflexivity|]. rewrite Z.eqb_refl, (F c), IHl. reflexivity. }
  rewrite Hp. reflexivity.
Qed.

(** *** Computed: the sets of configurations that do not decide yet differ in more than reachesIntoOuterContext. *)
Definition sets_of (d : Z) : list (list config) :=
  flat_map (fun p => match starts d p with Some cs => cs :: flat_map (fun t => match astep d p cs t with inr cs' => [cs'] | _ => [] end) tokens | None => [] end) precs.
Definition distinct_ok (d : Z) : bool := let l := sets_of d in forallb (fun a => forallb (fun b => negb (configs_eqb a b) || same_outer a b) l) l.
Lemma all_distinct : forallb distinct_ok asked = true. Proof. vm_compute. reflexivity. Qed.
Local Opaque parser_atn decision_state tokens precs asked.
Lemma known_distinct d a b : In d asked -> In a (sets_of d) -> In b (sets_of d) -> configs_eqb a b = true -> a = b.
Proof.
  intros Hd Ha Hb H. pose proof all_distinct as G. rewrite forallb_forall in G. specialize (G d Hd). unfold distinct_ok in G. cbv zeta in G. rewrite forallb_forall in G. specialize (G a Ha). rewrite forallb_forall in G. specialize (G b Hb).
  rewrite H in G. apply configs_eq; assumption.
Qed.
Lemma start_known d p cs : 0 <= p <= 11 -> starts d p = Some cs -> In cs (sets_of d).
Proof. intros Hp H. apply in_flat_map. exists p. split; [apply in_precs; exact Hp|]. rewrite H. left. reflexivity. Qed.
Lemma next_known d p cs t cs' : 0 <= p <= 11 -> starts d p = Some cs -> In t tokens -> astep d p cs t = inr cs' -> In cs' (sets_of d).
Proof. intros Hp H Ht E. apply in_flat_map. exists p. split; [apply in_precs; exact Hp|]. rewrite H. right. apply in_flat_map. exists t. split; [exact Ht|]. rewrite E. left. reflexivity. Qed.

(** *** What a computation gets when it is alone *)
Definition right (d p : Z) (input : list Z) : reply := match adaptive_predict d [] p input with Some a => Chosen a | None => NotViable (predict_at d p input) end.
Fixpoint alone {X} (a : asking X) : X := match a with Ret x => x | Ask d p input k => alone (k (right d p input)) end.
(** It asks as the rule functions do. *)
Definition question (d p : Z) (input : list Z) : Prop := In d asked /\ 0 <= p <= 11 /\ exists ts, input = kinds ts ++ [-1].
Fixpoint legit {X} (a : asking X) : Prop := match a with Ret _ => True | Ask d p input k => question d p input /\ legit (k (right d p input)) end.
Fixpoint questions {X} (a : asking X) : nat := match a with Ret _ => O | Ask d p input k => S (questions (k (right d p input))) end.

Lemma decided_one d p : In d asked -> 0 <= p <= 11 -> exists cs, starts d p = Some cs /\ forall t, In t tokens ->
  match astep d p cs t with
  | inl Unmodelled => False
  | inl _ => True
  | inr cs' => t <> -1 /\ forall t2, In t2 tokens -> match astep d p cs' t2 with inl Unmodelled | inr _ => False | inl _ => True end
  end.
Proof.
  intros Hd Hp. pose proof all_decided as G. rewrite forallb_forall in G. specialize (G d Hd). unfold decided in G. rewrite forallb_forall in G. specialize (G p (in_precs p Hp)).
  destruct (starts d p) as [cs|]; [|discriminate G]. exists cs. split; [reflexivity|]. intros t Ht. rewrite forallb_forall in G. specialize (G t Ht).
  destruct (astep d p cs t) as [[a| |]|cs']; try exact I; [discriminate G|]. apply andb_prop in G as (G1 & G2). split; [apply negb_true_iff, Z.eqb_neq in G1; exact G1|].
  intros t2 Ht2. rewrite forallb_forall in G2. specialize (G2 t2 Ht2). destruct (astep d p cs' t2) as [[a| |]|]; try exact I; discriminate G2.
Qed.
Definition dreach (d : Z) : list config -> Z -> option (list config) := reach parser_atn prec_states (dr_of d).
Lemma astep_reach d p cs t : astep d p cs t = match dreach d cs t with
  | None => inl Unmodelled
  | Some [] => inl (on_error parser_atn p cs)
  | Some r => match unique_alt r with Some a => inl (if existsb (holds_prec p) r then Alt a else NoViable) | None => if sll_conflict parser_atn r then inl Unmodelled else inr r end
  end.
Proof. unfold astep, Predict.step, dreach, dr_of. destruct (reach _ _ _ cs t) as [[|x r]|]; reflexivity. Qed.
Lemma start_by_key d p p' : start_key d p = start_key d p' -> starts d p = starts d p'.
Proof. unfold start_key, starts, dr_of, start_set. destruct (decision_rule (decision_state d)); [intros ->; reflexivity|reflexivity]. Qed.

Section Shared.
Variable same : list config -> list config -> bool.
Hypothesis same_ok : forall a b, same a b = true -> configs_eqb a b = true.

(** *** Growing DFAs *)
Definition has (x : dfa) (i : nat) (cs : list config) (u : option Z) : Prop := exists s, nth_error (d_states x) i = Some s /\ d_configs s = cs /\ d_unique s = u.
Definition ext (x x' : dfa) : Prop := forall i cs u, has x i cs u -> has x' i cs u.
Definition edge_ok (d : Z) (x : dfa) (cs : list config) (t : Z) (to : option nat) : Prop :=
  match to with
  | None => dreach d cs t = Some []
  | Some j => exists r cs', dreach d cs t = Some r /\ r <> [] /\ has x j cs' (unique_alt r) /\ configs_eqb cs' r = true
  end.
Definition dinv (d : Z) (x : dfa) : Prop :=
  (forall i s, nth_error (d_states x) i = Some s -> (d_unique s = None -> In (d_configs s) (sets_of d)) /\ forall t to, In (t, to) (d_edges s) -> edge_ok d x (d_configs s) t to) /\
  (forall q i, In (q, i) (d_starts x) -> exists cs, has x i cs None /\ forall p, 0 <= p <= 11 -> start_key d p = q -> starts d p = Some cs).
Lemma edge_ext d x x' cs t to : ext x x' -> edge_ok d x cs t to -> edge_ok d x' cs t to.
Proof. intros E. destruct to as [j|]; [|auto]. intros (r & cs' & H1 & H2 & H3 & H4). exists r, cs'. auto. Qed.
Lemma ext_refl x : ext x x. Proof. intros i cs u H. exact H. Qed.
Lemma ext_trans x y z : ext x y -> ext y z -> ext x z. Proof. intros H H' i cs u G. auto. Qed.

Lemma find_state_spec cs u l : forall i0 i, find_state same cs u l i0 = Some i -> exists s, (i0 <= i)%nat /\ nth_error l (i - i0) = Some s /\ configs_eqb (d_configs s) cs = true /\ d_unique s = u.
Proof.
  induction l as [|s l IH]; intros i0 i H; [discriminate H|]. cbn [find_state] in H. destruct (same (d_configs s) cs && option_same (d_unique s) u) eqn:E.
  - injection H as <-. exists s. rewrite Nat.sub_diag. apply andb_prop in E as (E1 & E2). split; [lia|]. split; [reflexivity|]. split; [apply same_ok; exact E1|].
    unfold option_same in E2. destruct (d_unique s), u; try discriminate E2; [apply Z.eqb_eq in E2 as ->; reflexivity|reflexivity].
  - apply IH in H as (s' & L & Hn & H). exists s'. split; [lia|]. split; [|exact H]. replace (i - i0)%nat with (S (i - S i0)) by lia. exact Hn.
Qed.
Lemma has_app x s i cs u st : has x i cs u -> has (Dfa (d_states x ++ [s]) st) i cs u.
Proof. intros (s' & H & H'). exists s'. split; [|exact H']. cbn. rewrite nth_error_app1; [exact H|]. apply nth_error_Some. congruence. Qed.
(** addDFAState: at the number returned is a state with configurations equal in antlr's sense; everything else is as before. *)
Lemma add_state_ok d x cs u x' i : add_state same x cs u = (x', i) -> dinv d x -> (u = None -> In cs (sets_of d)) ->
  dinv d x' /\ ext x x' /\ d_starts x' = d_starts x /\ exists cs', has x' i cs' u /\ configs_eqb cs' cs = true.
Proof.
  unfold add_state. intros H (D1 & D2) Hk. destruct (find_state same cs u (d_states x) 0) as [j|] eqn:E; injection H as <- <-.
  - split; [split; assumption|]. split; [apply ext_refl|]. split; [reflexivity|]. apply find_state_spec in E as (s & _ & Hn & Hc & Hu). rewrite Nat.sub_0_r in Hn. exists (d_configs s). split; [exists s; auto|exact Hc].
  - assert (Ex : ext x (Dfa (d_states x ++ [DState cs u []]) (d_starts x))) by (intros i0 c0 u0; apply has_app). split; [split|].
    + intros i s Hn. cbn in Hn. destruct (Nat.lt_ge_cases i (length (d_states x))) as [L|L].
      * rewrite nth_error_app1 in Hn by exact L. destruct (D1 i s Hn) as (G1 & G2). split; [exact G1|]. intros t to Hin. eapply edge_ext; [exact Ex|auto].
      * rewrite nth_error_app2 in Hn by exact L. destruct (i - length (d_states x))%nat as [|m]; [|destruct m; discriminate Hn]. injection Hn as <-. cbn. split; [exact Hk|intros t to []].
    + intros q i Hin. destruct (D2 q i Hin) as (c0 & H1 & H2). exists c0. split; [apply Ex; exact H1|exact H2].
    + split; [exact Ex|]. split; [reflexivity|]. exists cs. split; [|apply configs_refl]. exists (DState cs u []). cbn. rewrite nth_error_app2, Nat.sub_diag by lia. auto.
Qed.
Lemma nth_upd {X} (l : list X) : forall i j y, nth_error (upd i y l) j = if Nat.eqb i j then match nth_error l j with Some _ => Some y | None => None end else nth_error l j.
Proof. induction l as [|z l IH]; intros i j y; [destruct i, j; cbn; try reflexivity; destruct (Nat.eqb i j); reflexivity|]. destruct i as [|i], j as [|j]; cbn; try reflexivity. apply IH. Qed.
Lemma set_edge_ok d x i t to cs u : dinv d x -> has x i cs u -> edge_ok d x cs t to -> dinv d (set_edge x i t to) /\ ext x (set_edge x i t to).
Proof.
  intros (D1 & D2) (s & Hn & <- & <-) He. unfold set_edge. rewrite Hn. set (x' := Dfa _ _).
  assert (Ex : ext x x'). { intros j c0 u0 (s' & Hj & Hc & Hu). unfold has, x'. cbn [d_states]. rewrite nth_upd, Hj. destruct (Nat.eqb_spec i j) as [->|_]; [|exists s'; auto]. rewrite Hn in Hj. injection Hj as <-. eexists. split; [reflexivity|]. cbn. auto. }
  split; [|exact Ex]. split.
  - intros j s' Hj. unfold x' in Hj. cbn [d_states] in Hj. rewrite nth_upd in Hj. destruct (Nat.eqb_spec i j) as [<-|_].
    + rewrite Hn in Hj. injection Hj as <-. cbn [d_configs d_unique d_edges]. destruct (D1 i s Hn) as (G1 & G2). split; [exact G1|]. intros t0 to0 [E|Hin]; [injection E as <- <-; eapply edge_ext; eassumption|eapply edge_ext; [exact Ex|auto]].
    + destruct (D1 j s' Hj) as (G1 & G2). split; [exact G1|]. intros t0 to0 Hin. eapply edge_ext; [exact Ex|auto].
  - intros q j Hin. destruct (D2 q j Hin) as (c0 & H1 & H2). exists c0. split; [apply Ex; exact H1|exact H2].
Qed.

(** *** One thread *)
(** The configurations after [n] tokens *)
Definition path (d p : Z) (input : list Z) (n : nat) (cs : list config) : Prop :=
  match n with
  | O => starts d p = Some cs
  | S O => exists cs0, starts d p = Some cs0 /\ astep d p cs0 (nth 0 input (-1)) = inr cs
  | _ => False
  end.
Definition at_ok (d p : Z) (input : list Z) (x : dfa) (i n : nat) (cs : list config) : Prop := has x i cs None /\ path d p input n cs.
Definition place_ok (d p : Z) (input : list Z) (x : dfa) (pl : place) : Prop :=
  match pl with
  | Idle => True
  | AddStart cs => starts d p = Some cs
  | At i n => exists cs, at_ok d p input x i n cs
  | AddTarget i n r u => exists cs, at_ok d p input x i n cs /\ dreach d cs (nth n input (-1)) = Some r /\ r <> [] /\ u = unique_alt r
  | SetEdge i n to => exists cs, at_ok d p input x i n cs /\ edge_ok d x cs (nth n input (-1)) to
  end.
Definition thread_ok {X} (c : caches) (t : thread X) : Prop :=
  legit (t_prog t) /\ match t_prog t with Ret _ => t_place t = Idle | Ask d p input _ => place_ok d p input (dfa_of c d) (t_place t) end.
(** Steps left at most *)
Definition rank (pl : place) : nat :=
  match pl with Idle => 8 | AddStart _ => 7 | At _ O => 6 | AddTarget _ O _ _ => 5 | SetEdge _ O _ => 4 | At _ _ => 3 | AddTarget _ _ _ _ => 2 | SetEdge _ _ _ => 1 end.
Definition measure {X} (t : thread X) : nat := match t_prog t with Ret _ => O | Ask _ _ _ _ => 8 * (questions (t_prog t) - 1) + rank (t_place t) end.

Lemma path_known d p input n cs : question d p input -> path d p input n cs -> In cs (sets_of d).
Proof.
  intros (Hd & Hp & ts & ->) H. destruct (input_split ts) as (t & u & E & Ht & _). rewrite E in H. destruct n as [|[|n]]; [eapply start_known; eassumption| |destruct H].
  destruct H as (cs0 & H0 & H1). eapply next_known; eassumption.
Qed.
(** What the answer is, when the path ends with token number [n]. *)
Lemma path_next d p input n cs : question d p input -> path d p input n cs ->
  match dreach d cs (nth n input (-1)) with
  | None => False
  | Some [] => right d p input = match on_error parser_atn p cs with Alt a => Chosen a | _ => NotViable n end
  | Some r =>
      match unique_alt r with
      | Some a => right d p input = if existsb (holds_prec p) r then Chosen a else NotViable 0
      | None => sll_conflict parser_atn r = false /\ (nth n input (-1) =? -1) = false /\ n = O /\ path d p input (S n) r
      end
  end.
Proof.
  intros (Hd & Hp & ts & ->) H. destruct (input_split ts) as (t & u & E & Ht & Hu). rewrite E in *. destruct (decided_one d p Hd Hp) as (cs0 & E0 & G). specialize (G t Ht).
  assert (R : right d p (t :: u) = match sim parser_atn prec_states (decision_rule (decision_state d)) p (decision_state d) (t :: u) with Alt a => Chosen a | _ => NotViable (predict_at d p (t :: u)) end).
  { unfold right, adaptive_predict. destruct (sim _ _ _ _ _ _); reflexivity. }
  assert (Es : sim parser_atn prec_states (decision_rule (decision_state d)) p (decision_state d) (t :: u) = run parser_atn prec_states (decision_rule (decision_state d)) p cs0 (t :: u)).
  { unfold sim. fold (starts d p). rewrite E0. reflexivity. }
  destruct n as [|[|n]]; [| |destruct H].
  - cbn [path nth] in *. rewrite E0 in H. injection H as <-. pose proof (astep_reach d p cs0 t) as Ea. destruct (dreach d cs0 t) as [r|]; [|rewrite Ea in G; exact G]. destruct r as [|z r].
    + rewrite R, Es, (run_one _ _ _ _ _ _ Ea), (at_one _ _ _ _ _ _ E0 Ea). destruct (on_error _ _ _); reflexivity.
    + destruct (unique_alt (z :: r)) as [a|].
      * rewrite R, Es, (run_one _ _ _ _ _ _ Ea), (at_one _ _ _ _ _ _ E0 Ea). destruct (existsb _ _); reflexivity.
      * destruct (sll_conflict parser_atn (z :: r)); [rewrite Ea in G; destruct G|]. rewrite Ea in G. destruct G as (Hne & G). split; [reflexivity|]. split; [apply Z.eqb_neq; exact Hne|]. split; [reflexivity|]. exists cs0. cbn [nth]. auto.
  - destruct H as (cs1 & H1 & H2). rewrite E0 in H1. injection H1 as <-. cbn [nth] in H2. rewrite H2 in G. destruct G as (Hne & G). destruct (Hu Hne) as (t2 & u2 & -> & Ht2). specialize (G t2 Ht2). cbn [nth].
    pose proof (astep_reach d p cs t2) as Ea. destruct (dreach d cs t2) as [r|] eqn:Er; [|rewrite Ea in G; exact G]. destruct r as [|z r].
    + rewrite R, Es, (run_two _ _ _ _ _ _ _ _ H2 Hne Ea), (at_two _ _ _ _ _ _ _ _ E0 H2 Ea). unfold dreach, dr_of in Er. rewrite Er. destruct (on_error _ _ _); reflexivity.
    + destruct (unique_alt (z :: r)) as [a|].
      * rewrite R, Es, (run_two _ _ _ _ _ _ _ _ H2 Hne Ea), (at_two _ _ _ _ _ _ _ _ E0 H2 Ea). unfold dreach, dr_of in Er. rewrite Er. destruct (existsb _ _); reflexivity.
      * exfalso. destruct (sll_conflict parser_atn (z :: r)); rewrite Ea in G; exact G.
Qed.
Lemma has_fun x i cs u cs' u' : has x i cs u -> has x i cs' u' -> cs = cs' /\ u = u'.
Proof. intros (s & H & <- & <-) (s' & H' & <- & <-). rewrite H in H'. injection H' as <-. auto. Qed.
Lemma go_ok {X} d p input (k : reply -> asking X) x i n cs to : question d p input -> dinv d x -> at_ok d p input x i n cs -> edge_ok d x cs (nth n input (-1)) to ->
  exists t', go x d p input k i n to = Some t' /\
    (t' = answered k (right d p input) \/ exists j cs', t' = Thread (Ask d p input k) (At j (S n)) /\ n = O /\ at_ok d p input x j (S n) cs').
Proof.
  intros Hq (D1 & _) ((s & Hn & Hc & Hu) & Hp) He. pose proof (path_next d p input n cs Hq Hp) as G. unfold go. destruct to as [j|]; cbn [edge_ok] in He.
  - destruct He as (r & cs' & Er & Hr & (s' & Hj & Hc' & Hu') & Hs). rewrite Er in G. rewrite Hj, Hu', Hc'. destruct r as [|z r]; [congruence|]. destruct (unique_alt (z :: r)) as [a|] eqn:Ea.
    + exists (answered k (right d p input)). split; [|left; reflexivity]. rewrite G, (configs_prec p _ _ Hs). reflexivity.
    + destruct G as (G1 & G2 & G3 & G4). assert (E : cs' = z :: r).
      { apply (known_distinct d); [apply Hq| |eapply path_known; eassumption|exact Hs]. rewrite <- Hc'. apply (D1 j s' Hj). exact Hu'. }
      rewrite E, G1, G2. eexists. split; [reflexivity|]. right. exists j, (z :: r). split; [reflexivity|]. split; [exact G3|]. split; [exists s'; rewrite <- E; auto|exact G4].
  - rewrite He in G. rewrite Hn, Hc. exists (answered k (right d p input)). split; [rewrite G; destruct (on_error parser_atn p cs); reflexivity|left; reflexivity].
Qed.
Lemma lookup_in {X} z (l : list (Z * X)) v : lookup z l = Some v -> In (z, v) l.
Proof. unfold lookup. destruct (find (fun e => fst e =? z) l) as [(z', v')|] eqn:E; [|discriminate]. intros H. injection H as <-. apply find_some in E as (Hin & Ez). cbn in Ez. apply Z.eqb_eq in Ez as <-. exact Hin. Qed.
Lemma dfa_set c d x d' : dfa_of (set_dfa c d x) d' = if d =? d' then x else dfa_of c d'.
Proof. unfold dfa_of, set_dfa, lookup. cbn [find fst]. destruct (d =? d'); reflexivity. Qed.

Definition cinv (c : caches) : Prop := forall d, In d asked -> dinv d (dfa_of c d).
Definition cext (c c' : caches) : Prop := forall d, ext (dfa_of c d) (dfa_of c' d).
Lemma cinv_set c d x : cinv c -> dinv d x -> cinv (set_dfa c d x).
Proof. intros H Hx d' Hd. rewrite dfa_set. destruct (Z.eqb_spec d d') as [<-|_]; [exact Hx|apply H; exact Hd]. Qed.
Lemma cext_set c d x : ext (dfa_of c d) x -> cext c (set_dfa c d x).
Proof. intros H d'. rewrite dfa_set. destruct (Z.eqb_spec d d') as [<-|_]; [exact H|apply ext_refl]. Qed.
Lemma at_ext d p input x x' i n cs : ext x x' -> at_ok d p input x i n cs -> at_ok d p input x' i n cs.
Proof. intros E (H & H'). split; [apply E; exact H|exact H']. Qed.
Lemma place_ext d p input x x' pl : ext x x' -> place_ok d p input x pl -> place_ok d p input x' pl.
Proof.
  intros E. destruct pl as [|cs|i n|i n r u|i n to]; cbn [place_ok]; auto.
  - intros (cs & H). exists cs. eapply at_ext; eassumption.
  - intros (cs & H & H'). exists cs. split; [eapply at_ext; eassumption|exact H'].
  - intros (cs & H & H'). exists cs. split; [eapply at_ext; eassumption|eapply edge_ext; eassumption].
Qed.
Lemma thread_ext {X} c c' (t : thread X) : cext c c' -> thread_ok c t -> thread_ok c' t.
Proof. intros E (H & H'). split; [exact H|]. destruct (t_prog t); [exact H'|]. eapply place_ext; [apply E|exact H']. Qed.

Lemma answered_ok {X} c (k : reply -> asking X) r : legit (k r) -> thread_ok c (answered k r).
Proof. intros H. split; [exact H|]. cbn. destruct (k r); [reflexivity|exact I]. Qed.
Lemma answered_less {X} d p input (k : reply -> asking X) pl : (measure (answered k (right d p input)) < measure (Thread (Ask d p input k) pl))%nat.
Proof. unfold measure, answered. cbn [t_prog t_place questions rank]. destruct (k (right d p input)); cbn [questions]; destruct pl as [|?|? [|?]|? [|?] ? ?|? [|?] ?]; cbn [rank]; lia. Qed.
(** A thread that has not finished takes a step that keeps everything right, and comes nearer to its end. *)
Theorem step_ok {X} c (t : thread X) : cinv c -> thread_ok c t ->
  match step same c t with
  | None => exists x, t_prog t = Ret x
  | Some (c', t') => cinv c' /\ cext c c' /\ thread_ok c' t' /\ alone (t_prog t') = alone (t_prog t) /\ (measure t' < measure t)%nat
  end.
Proof.
  intros Hc (Hl & Ht). destruct t as [[x|d p input k] pl]; cbn [t_prog t_place] in *; [exists x; reflexivity|]. destruct Hl as (Hq & Hl). pose proof Hq as (Hd & Hp & _). pose proof (Hc d Hd) as Hx.
  assert (Keep : forall c' pl', cext c c' -> place_ok d p input (dfa_of c' d) pl' -> thread_ok c' (Thread (Ask d p input k) pl')).
  { intros c' pl' _ H. split; [cbn [t_prog legit]; auto|exact H]. }
  unfold step. cbn [t_prog t_place]. cbv zeta. destruct pl as [|cs|i n|i n r u|i n to]; cbn [place_ok] in Ht.
  - destruct (lookup (start_key d p) (d_starts (dfa_of c d))) as [i|] eqn:El.
    + apply lookup_in in El. destruct Hx as (_ & D2). destruct (D2 _ _ El) as (cs & H1 & H2). split; [exact Hc|]. split; [intros d'; apply ext_refl|]. split; [apply Keep; [intros d'; apply ext_refl|]|split; [reflexivity|unfold measure; cbn; lia]].
      exists cs. split; [exact H1|]. apply H2; [exact Hp|reflexivity].
    + destruct (decided_one d p Hd Hp) as (cs & E & _). change (start_set parser_atn prec_states (dr_of d) p (decision_state d)) with (starts d p). rewrite E.
      split; [exact Hc|]. split; [intros d'; apply ext_refl|]. split; [apply Keep; [intros d'; apply ext_refl|exact E]|split; [reflexivity|unfold measure; cbn; lia]].
  - destruct (add_state same (dfa_of c d) cs None) as (x', i) eqn:Ea. apply (add_state_ok d) in Ea as (A1 & A2 & A3 & cs' & A4 & A5); [|exact Hx|intros _; eapply start_known; eassumption].
    assert (E : cs' = cs). { apply (known_distinct d); [exact Hd| |eapply start_known; eassumption|exact A5]. destruct A4 as (s & Hn & Hc' & Hu). rewrite <- Hc'. apply (proj1 A1 i s Hn). exact Hu. }
    subst cs'. assert (Dx : dinv d (Dfa (d_states x') ((start_key d p, i) :: d_starts x'))).
    { destruct A1 as (D1 & D2). split; [exact D1|]. intros q j [E|Hin]; [|exact (D2 q j Hin)]. injection E as <- <-. exists cs. split; [exact A4|]. intros p' Hp' Ek. rewrite (start_by_key d p' p Ek). exact Ht. }
    assert (Ex : ext (dfa_of c d) (Dfa (d_states x') ((start_key d p, i) :: d_starts x'))) by exact A2.
    split; [apply cinv_set; assumption|]. split; [apply cext_set; exact Ex|]. split; [apply Keep; [apply cext_set; exact Ex|]|split; [reflexivity|unfold measure; cbn; lia]].
    cbn [place_ok]. rewrite dfa_set, Z.eqb_refl. exists cs. split; [exact A4|exact Ht].
  - destruct Ht as (cs & Hat). pose proof Hat as ((s & Hn & Hcs & Hu) & Hpath). rewrite Hn. destruct (lookup (nth n input (-1)) (d_edges s)) as [to|] eqn:El.
    + apply lookup_in in El. assert (He : edge_ok d (dfa_of c d) cs (nth n input (-1)) to) by (rewrite <- Hcs; apply (proj1 Hx i s Hn); exact El).
      destruct (go_ok d p input k _ i n cs to Hq Hx Hat He) as (t' & -> & [->|(j & cs' & -> & Hn0 & Hat')]); (split; [exact Hc|]; split; [intros d'; apply ext_refl|]; split).
      * apply answered_ok. exact Hl.
      * split; [reflexivity|]. apply answered_less.
      * apply Keep; [intros d'; apply ext_refl|]. exists cs'. exact Hat'.
      * split; [reflexivity|]. subst n. unfold measure; cbn [t_prog t_place rank]; lia.
    + pose proof (path_next d p input n cs Hq Hpath) as G. unfold dreach in G. rewrite Hcs. destruct (reach parser_atn prec_states (dr_of d) cs (nth n input (-1))) as [[|z r]|] eqn:Er; [| |destruct G].
      * split; [exact Hc|]. split; [intros d'; apply ext_refl|]. split; [apply Keep; [intros d'; apply ext_refl|exists cs; split; [exact Hat|exact Er]]|split; [reflexivity|]]. unfold measure; cbn [t_prog t_place rank]; destruct n; lia.
      * split; [exact Hc|]. split; [intros d'; apply ext_refl|]. split; [apply Keep; [intros d'; apply ext_refl|exists cs; split; [exact Hat|split; [exact Er|split; [discriminate|reflexivity]]]]|split; [reflexivity|]]. unfold measure; cbn [t_prog t_place rank]; destruct n; lia.
  - destruct Ht as (cs & Hat & Er & Hr & ->). destruct (add_state same (dfa_of c d) r (unique_alt r)) as (x', j) eqn:Ea.
    apply (add_state_ok d) in Ea as (A1 & A2 & A3 & cs' & A4 & A5); [|exact Hx|].
    + split; [apply cinv_set; assumption|]. split; [apply cext_set; exact A2|]. split; [apply Keep; [apply cext_set; exact A2|]|split; [reflexivity|unfold measure; cbn [t_prog t_place rank]; destruct n; lia]].
      cbn [place_ok]. rewrite dfa_set, Z.eqb_refl. exists cs. split; [eapply at_ext; eassumption|]. exists r, cs'. auto.
    + intros Eu. pose proof (path_next d p input n cs Hq (proj2 Hat)) as G. rewrite Er in G. destruct r as [|z r]; [congruence|]. rewrite Eu in G. destruct G as (_ & _ & _ & G). eapply path_known; eassumption.
  - destruct Ht as (cs & Hat & He). destruct (set_edge_ok d _ i (nth n input (-1)) to cs None Hx (proj1 Hat) He) as (S1 & S2).
    destruct (go_ok d p input k _ i n cs to Hq S1 (at_ext _ _ _ _ _ _ _ _ S2 Hat) (edge_ext _ _ _ _ _ _ S2 He)) as (t' & -> & [->|(j & cs' & -> & Hn0 & Hat')]);
      (split; [apply cinv_set; assumption|]; split; [apply cext_set; exact S2|]; split).
    + apply answered_ok. exact Hl.
    + split; [reflexivity|]. apply answered_less.
    + apply Keep; [apply cext_set; exact S2|]. cbn [place_ok]. rewrite dfa_set, Z.eqb_refl. exists cs'. exact Hat'.
    + split; [reflexivity|]. subst n. unfold measure; cbn [t_prog t_place rank]; lia.
Qed.

(** *** The process *)
Definition total {X} (ths : list (thread X)) : nat := fold_right (fun t n => (measure t + n)%nat) O ths.
Lemma total_upd {X} (ths : list (thread X)) : forall i t t', nth_error ths i = Some t -> (measure t' < measure t)%nat -> (total (upd i t' ths) < total ths)%nat.
Proof.
  induction ths as [|u ths IH]; intros [|i] t t1 H L; try discriminate H; cbn [nth_error] in H; cbn [upd total fold_right].
  - injection H as ->. unfold total. lia.
  - specialize (IH i t t1 H L). unfold total in *. lia.
Qed.
Definition process_ok {X} (progs : list (asking X)) (q : caches * list (thread X)) : Prop :=
  cinv (fst q) /\ length (snd q) = length progs /\ forall i a t, nth_error progs i = Some a -> nth_error (snd q) i = Some t -> thread_ok (fst q) t /\ alone (t_prog t) = alone a.
Lemma upd_length {X} (l : list X) : forall i y, length (upd i y l) = length l.
Proof. induction l as [|z l IH]; intros [|i] y; cbn; auto. Qed.
Lemma moves_ok {X} (progs : list (asking X)) q q' : process_ok progs q -> moves same q q' -> process_ok progs q' /\ (total (snd q') < total (snd q))%nat.
Proof.
  intros (Hc & Hlen & H) M. destruct M as [c ths i t c' t' Hi Hs]. cbn [fst snd] in *. assert (Ha : exists a, nth_error progs i = Some a).
  { destruct (nth_error progs i) as [a|] eqn:E; [eauto|]. apply nth_error_None in E. assert (i < length ths)%nat by (apply nth_error_Some; congruence). lia. }
  destruct Ha as (a & Ha). destruct (H i a t Ha Hi) as (Ht & Ea). pose proof (step_ok c t Hc Ht) as G. rewrite Hs in G. destruct G as (G1 & G2 & G3 & G4 & G5).
  split; [|eapply total_upd; eassumption]. split; [exact G1|]. split; [cbn; rewrite upd_length; exact Hlen|]. intros j b u Hb Hu. cbn [fst snd] in *. rewrite nth_upd in Hu. destruct (Nat.eqb_spec i j) as [<-|_].
  - rewrite Hi in Hu. injection Hu as <-. rewrite Ha in Hb. injection Hb as <-. split; [exact G3|congruence].
  - destruct (H j b u Hb Hu) as (H1 & H2). split; [eapply thread_ext; eassumption|exact H2].
Qed.
Lemma boot_ok {X} (progs : list (asking X)) : Forall legit progs -> process_ok progs (boot progs).
Proof.
  intros Hl. split; [|split; [cbn; apply map_length|]].
  - intros d _. unfold boot. cbn [fst]. split; [intros i s H; destruct i; discriminate H|intros q i []].
  - intros i a t Ha Ht. cbn [snd boot] in Ht. rewrite nth_error_map, Ha in Ht. injection Ht as <-. rewrite Forall_forall in Hl. split; [|reflexivity]. split; [apply Hl; eapply nth_error_In; exact Ha|]. cbn. destruct a; [reflexivity|exact I].
Qed.
Lemma runs_ok {X} (progs : list (asking X)) n q0 q : process_ok progs q0 -> runs same n q0 q -> process_ok progs q /\ (n + total (snd q) <= total (snd q0))%nat.
Proof. intros H0 R. induction R as [q|n p q r R IH M]; [split; [exact H0|lia]|]. destruct (IH H0) as (H & L). destruct (moves_ok _ _ _ H M) as (H' & L'). split; [exact H'|lia]. Qed.
End Shared.
