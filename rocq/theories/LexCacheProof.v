(** Whatever the schedule, every lexer yields what it would yield alone and without a cache. *)
From Coq Require Import ZArith List Lia.
From Verif Require Import Str LexSpec ScanSpec Atn AtnLexer AtnLexerTable AtnLexerProof LexCache.
Local Open Scope Z_scope.

Lemma nth_upd_same {X} (l : list X) : forall i x y, nth_error l i = Some y -> nth_error (upd i x l) i = Some x.
Proof. induction l as [|z l IH]; intros [|i] x y H; cbn in *; try discriminate; [reflexivity|eauto]. Qed.
Lemma nth_upd_other {X} (l : list X) : forall i j x, i <> j -> nth_error (upd i x l) j = nth_error l j.
Proof. induction l as [|z l IH]; intros [|i] [|j] x H; cbn; try reflexivity; try congruence. apply IH. congruence. Qed.
Lemma upd_length {X} (l : list X) : forall i x, length (upd i x l) = length l.
Proof. induction l as [|z l IH]; intros [|i] x; cbn; auto. Qed.

Lemma configs_eqb_eq a : forall b, configs_eqb a b = true -> a = b.
Proof.
  induction a as [|x a IH]; intros [|y b] H; cbn in H; try discriminate; [reflexivity|].
  apply andb_prop in H as [H1 H2]. f_equal; [apply config_eqb_eq; exact H1|auto].
Qed.
Lemma find_state_spec cs l : forall k i, find_state cs l k = Some i -> exists x, (k <= i)%nat /\ nth_error l (i - k) = Some x /\ d_configs x = cs.
Proof.
  induction l as [|y l IH]; intros k i H; cbn in H; [discriminate|].
  destruct (configs_eqb (d_configs y) cs) eqn:E.
  - injection H as <-. exists y. split; [lia|]. rewrite Nat.sub_diag. split; [reflexivity|apply configs_eqb_eq; exact E].
  - destruct (IH _ _ H) as (x & Hle & Hn & Hx). exists x. split; [lia|]. split; [|exact Hx].
    replace (i - k)%nat with (S (i - S k)) by lia. exact Hn.
Qed.

Section Cache.
Variables (A : atn) (init : list config).
Hypothesis Hstart : start_configs A = Some init.
Hypothesis Hexec : forall s, code_points s -> s <> [] ->
  exists r n, exec A init s 0 None = Some (r, n) /\ match r with Some (_, _, m) => (1 <= m)%nat | None => True end.
Hypothesis Hevents : forall s, code_points s -> exists l, events_fuel A (length s) init s = Some l.

(** The DFA tells the truth. *)
Definition edge_ok (d : dfa) (x : dstate) (c : Z) (to : option nat) : Prop :=
  match to with
  | None => reach A (d_configs x) c = Some []
  | Some j => exists y, nth_error (d_states d) j = Some y /\ d_configs y <> [] /\ reach A (d_configs x) c = Some (d_configs y)
  end.
Definition good (d : dfa) : Prop :=
  (forall i x, nth_error (d_states d) i = Some x ->
     d_accept x = accept_of A (d_configs x) /\ forall c to, In (c, to) (d_edges x) -> edge_ok d x c to)
  /\ (forall i, d_s0 d = Some i -> exists x, nth_error (d_states d) i = Some x /\ d_configs x = init).
(** States keep their numbers and configurations. *)
Definition grows (d d' : dfa) : Prop :=
  forall i x, nth_error (d_states d) i = Some x -> exists x', nth_error (d_states d') i = Some x' /\ d_configs x' = d_configs x.
Definition state_is (d : dfa) (i : nat) (cs : list config) : Prop := exists x, nth_error (d_states d) i = Some x /\ d_configs x = cs.

Lemma grows_is d d' i cs : grows d d' -> state_is d i cs -> state_is d' i cs.
Proof. intros H (x & Hx & <-). destruct (H _ _ Hx) as (x' & H1 & H2). exists x'. auto. Qed.
Lemma grows_refl d : grows d d. Proof. intros i x H. exists x. auto. Qed.
Lemma state_is_configs d i cs : state_is d i cs -> configs_of d i = cs.
Proof. intros (x & Hx & <-). unfold configs_of. rewrite Hx. reflexivity. Qed.
Lemma edge_grows d d' x x' c to : grows d d' -> d_configs x' = d_configs x -> edge_ok d x c to -> edge_ok d' x' c to.
Proof.
  intros G E. unfold edge_ok. destruct to as [j|]; [|rewrite E; auto].
  intros (y & Hy & Hne & Hr). destruct (G _ _ Hy) as (y' & Hy' & Ey). exists y'. rewrite Ey, E. auto.
Qed.

Lemma add_state_good d cs d' i : good d -> add_state A d cs = (d', i) -> good d' /\ grows d d' /\ state_is d' i cs /\ d_s0 d' = d_s0 d.
Proof.
  intros [G1 G2]. unfold add_state. destruct (find_state cs (d_states d) 0) as [k|] eqn:E; intros H; injection H as <- <-.
  - destruct (find_state_spec _ _ _ _ E) as (x & _ & Hx & Ex). rewrite Nat.sub_0_r in Hx.
    split; [split; assumption|]. split; [apply grows_refl|]. split; [exists x; auto|reflexivity].
  - assert (Gr : grows d (Dfa (d_states d ++ [DState cs (accept_of A cs) []]) (d_s0 d))).
    { intros i x H. exists x. cbn. split; [|reflexivity]. rewrite nth_error_app1; [exact H|]. apply nth_error_Some. congruence. }
    split; [|split; [exact Gr|split; [|reflexivity]]].
    + split.
      * intros i x H. cbn in H. destruct (Nat.lt_ge_cases i (length (d_states d))) as [L|L].
        -- rewrite nth_error_app1 in H by exact L. destruct (G1 _ _ H) as [Ha He]. split; [exact Ha|].
           intros c to Hin. apply (edge_grows d _ x x); [exact Gr|reflexivity|auto].
        -- rewrite nth_error_app2 in H by exact L. destruct (i - length (d_states d))%nat as [|k]; [|destruct k; discriminate].
           cbn in H. injection H as <-. cbn. split; [reflexivity|intros c to []].
      * intros i H. destruct (G2 _ H) as (x & Hx & E'). destruct (Gr _ _ Hx) as (x' & Hx' & E''). exists x'. split; [exact Hx'|congruence].
    + exists (DState cs (accept_of A cs) []). split; [|reflexivity]. cbn. rewrite nth_error_app2 by lia. rewrite Nat.sub_diag. reflexivity.
Qed.

Lemma set_edge_grows d i c to : grows d (set_edge d i c to).
Proof.
  unfold set_edge. destruct (nth_error (d_states d) i) as [x|] eqn:E; [|apply grows_refl].
  intros j y H. cbn. destruct (Nat.eq_dec i j) as [<-|N].
  - rewrite H in E. injection E as ->. exists (DState (d_configs x) (d_accept x) ((c, to) :: d_edges x)).
    split; [eapply nth_upd_same; exact H|reflexivity].
  - exists y. rewrite nth_upd_other by exact N. auto.
Qed.
Lemma set_edge_good d i c to x : good d -> nth_error (d_states d) i = Some x -> edge_ok d x c to -> good (set_edge d i c to).
Proof.
  intros [G1 G2] Hx He. pose proof (set_edge_grows d i c to) as Gr. unfold set_edge in *. rewrite Hx in *. split.
  - intros j y Hy. cbn in Hy. destruct (Nat.eq_dec i j) as [<-|N].
    + rewrite (nth_upd_same _ _ _ _ Hx) in Hy. injection Hy as <-. cbn. destruct (G1 _ _ Hx) as [Ha Hee]. split; [exact Ha|].
      intros c' to' [H|H].
      * injection H as <- <-. apply (edge_grows d _ x); [exact Gr|reflexivity|exact He].
      * apply (edge_grows d _ x); [exact Gr|reflexivity|auto].
    + rewrite nth_upd_other in Hy by exact N. destruct (G1 _ _ Hy) as [Ha Hee]. split; [exact Ha|].
      intros c' to' H. apply (edge_grows d _ y); [exact Gr|reflexivity|auto].
  - intros j H. cbn in H. destruct (G2 _ H) as (y & Hy & E). destruct (Gr _ _ Hy) as (y' & Hy' & E'). exists y'. split; [exact Hy'|congruence].
Qed.
Lemma get_edge_ok d i c to cs : good d -> state_is d i cs -> get_edge d i c = Some to ->
  match to with None => reach A cs c = Some [] | Some j => exists cs', state_is d j cs' /\ cs' <> [] /\ reach A cs c = Some cs' end.
Proof.
  intros [G1 _] (x & Hx & <-) H. unfold get_edge in H. destruct (has_edge c); [|discriminate]. rewrite Hx in H.
  destruct (find (fun e => fst e =? c) (d_edges x)) as [[c' to']|] eqn:E; [|discriminate]. injection H as <-. cbn.
  apply find_some in E as [Hin Hc]. cbn in Hc. apply Z.eqb_eq in Hc as ->.
  destruct (G1 _ _ Hx) as [_ He]. specialize (He _ _ Hin). unfold edge_ok in He.
  destruct to' as [j|]; [|exact He]. destruct He as (y & Hy & Hne & Hr). exists (d_configs y). split; [exists y; auto|auto].
Qed.

Definition acc (cs : list config) (n : nat) (prev : option (Z * list Z * nat)) : option (Z * list Z * nat) :=
  match accept_of A cs with Some (k, acts) => Some (k, acts, n) | None => prev end.
Lemma acc_idem cs n prev : acc cs n (acc cs n prev) = acc cs n prev.
Proof. unfold acc. destruct (accept_of A cs) as [[k a]|]; reflexivity. Qed.
Lemma capture_acc d i cs n prev : good d -> state_is d i cs -> capture d i n prev = acc cs n prev.
Proof. intros [G _] (x & Hx & <-). unfold capture, acc. rewrite Hx. rewrite (proj1 (G _ _ Hx)). reflexivity. Qed.
Lemma exec_eq cs s n prev : exec A cs s n prev =
  match s with
  | [] => Some (acc cs n prev, n)
  | c :: s' => match reach A cs (Z.of_N c) with
               | None => None
               | Some [] => Some (acc cs n prev, n)
               | Some cs' => exec A cs' s' (S n) (acc cs n prev)
               end
  end.
Proof. destruct s as [|c s]; cbn [exec]; [reflexivity|]. unfold acc. destruct (reach A cs (Z.of_N c)) as [[|y l]|]; reflexivity. Qed.
Lemma exec_acc cs s n prev : exec A cs s n (acc cs n prev) = exec A cs s n prev.
Proof. rewrite (exec_eq cs s n prev), (exec_eq cs s n (acc _ _ _)), acc_idem. reflexivity. Qed.

Definition start_to (t : str) := exec A init t 0 None.
Definition place_ok (d : dfa) (s : str) (p : place) : Prop :=
  match p with
  | Next => True
  | AddStart cs => s <> [] /\ cs = init
  | Scan i more n prev => s <> [] /\ exists cs, state_is d i cs /\ exec A cs more n prev = start_to s /\ acc cs n prev = prev
  | AddTarget i c cs more n prev => s <> [] /\ cs <> [] /\ exec A cs more (S n) prev = start_to s /\
      exists cs0, state_is d i cs0 /\ reach A cs0 (Z.of_N c) = Some cs
  | SetEdge i c to more n prev => s <> [] /\ exists cs0, state_is d i cs0 /\
      match to with
      | None => reach A cs0 (Z.of_N c) = Some [] /\ start_to s = Some (prev, n)
      | Some j => exists cs, state_is d j cs /\ cs <> [] /\ reach A cs0 (Z.of_N c) = Some cs /\ exec A cs more (S n) prev = start_to s
      end
  end.
Definition thread_ok (d : dfa) (total : list event) (t : thread) : Prop :=
  code_points (t_text t) /\ place_ok d (t_text t) (t_place t) /\
  exists l, events_fuel A (length (t_text t)) init (t_text t) = Some l /\ total = t_out t ++ l.

Lemma place_grows d d' s p : grows d d' -> place_ok d s p -> place_ok d' s p.
Proof.
  intros G. pose proof (fun i cs => grows_is d d' i cs G) as GI. destruct p as [|cs|i more n prev|i c cs more n prev|i c to more n prev]; cbn; auto.
  - intros (H & cs & H1 & H2). split; [exact H|]. exists cs. auto.
  - intros (H & H1 & H2 & cs0 & H3 & H4). repeat (split; [assumption|]). exists cs0. auto.
  - intros (H & cs0 & H1 & H2). split; [exact H|]. exists cs0. split; [auto|]. destruct to as [j|]; [|exact H2].
    destruct H2 as (cs & H3 & H4). exists cs. auto.
Qed.
Lemma thread_grows d d' total t : grows d d' -> thread_ok d total t -> thread_ok d' total t.
Proof. intros G (H1 & H2 & H3). split; [exact H1|]. split; [|exact H3]. eapply place_grows; eauto. Qed.

Lemma events_mono f : forall f' s l, (f <= f')%nat -> events_fuel A f init s = Some l -> events_fuel A f' init s = Some l.
Proof.
  induction f as [|f IH]; intros f' s l Hle H.
  - destruct s as [|c s]; cbn in H; [|discriminate]. destruct f'; exact H.
  - destruct s as [|c s]; [destruct f'; exact H|]. destruct f' as [|f']; [lia|]. cbn [events_fuel] in *.
    destruct (exec A init (c :: s) 0 None) as [[[[[k acts] n]|] n0]|]; [| |discriminate].
    + destruct (events_fuel A f init (skipn n (c :: s))) as [l'|] eqn:E; [|discriminate]. rewrite (IH f' _ l') by (lia || exact E). exact H.
    + destruct (events_fuel A f init (skipn (S n0) (c :: s))) as [l'|] eqn:E; [|discriminate]. rewrite (IH f' _ l') by (lia || exact E). exact H.
Qed.
Lemma events_len f s l : code_points s -> (length s <= f)%nat -> events_fuel A f init s = Some l -> events_fuel A (length s) init s = Some l.
Proof. intros Hc Hle H. destruct (Hevents s Hc) as [l' H']. rewrite (events_mono _ f _ _ Hle H') in H. congruence. Qed.

Lemma finish_ok d total t n prev : code_points (t_text t) -> t_text t <> [] -> start_to (t_text t) = Some (prev, n) ->
  (exists l, events_fuel A (length (t_text t)) init (t_text t) = Some l /\ total = t_out t ++ l) ->
  thread_ok d total (finish A t n prev) /\ (length (t_text (finish A t n prev)) < length (t_text t))%nat.
Proof.
  intros Hc Hne He (l & Hl & Ht). destruct (Hexec _ Hc Hne) as (r & n' & Hr & Hm). unfold start_to in He. rewrite Hr in He. injection He as -> ->.
  unfold thread_ok, finish. destruct (t_text t) as [|c s]; [congruence|]. cbn [length] in Hl. cbn [events_fuel] in Hl. rewrite Hr in Hl.
  destruct prev as [[[k acts] m]|]; cbn [t_text t_place t_out place_ok].
  - destruct (events_fuel A (length s) init (skipn m (c :: s))) as [l'|] eqn:E; [|discriminate]. injection Hl as <-.
    assert (Hlen : (length (skipn m (c :: s)) <= length s)%nat) by (rewrite skipn_length; cbn [length]; lia).
    split; [|cbn [length]; lia].
    split; [apply code_points_skipn; exact Hc|]. split; [exact I|]. exists l'. split.
    + apply (events_len (length s)); [apply code_points_skipn; exact Hc|exact Hlen|exact E].
    + rewrite Ht, <- app_assoc. reflexivity.
  - destruct (events_fuel A (length s) init (skipn (S n) (c :: s))) as [l'|] eqn:E; [|discriminate]. injection Hl as <-.
    assert (Hlen : (length (skipn (S n) (c :: s)) <= length s)%nat) by (rewrite skipn_length; cbn [length]; lia).
    split; [|cbn [length] in *; lia].
    split; [apply code_points_skipn; exact Hc|]. split; [exact I|]. exists l'. split.
    + apply (events_len (length s)); [apply code_points_skipn; exact Hc|exact Hlen|exact E].
    + rewrite Ht, <- app_assoc. reflexivity.
Qed.

(** How much a lexer may still do *)
Definition cost (p : place) (s : str) : nat :=
  match p with
  | Next => 3 * length s + 3
  | AddStart _ => 3 * length s + 2
  | Scan _ more _ _ => 3 * length more + 1
  | AddTarget _ _ _ more _ _ => 3 * length more + 3
  | SetEdge _ _ _ more _ _ => 3 * length more + 2
  end.
Definition weight (L : nat) (t : thread) : nat := length (t_text t) * (3 * L + 4) + cost (t_place t) (t_text t).

Lemma weight_finish L t n prev : (length (t_text t) <= L)%nat -> (length (t_text (finish A t n prev)) < length (t_text t))%nat ->
  (weight L (finish A t n prev) < length (t_text t) * (3 * L + 4))%nat.
Proof.
  intros H1 H2. unfold weight. assert (E : t_place (finish A t n prev) = Next) by (unfold finish; destruct prev as [[[? ?] ?]|]; reflexivity).
  rewrite E. cbn [cost]. nia.
Qed.

Lemma step_ok L d total t d' t' : good d -> thread_ok d total t -> (length (t_text t) <= L)%nat -> step A d t = Some (d', t') ->
  good d' /\ grows d d' /\ thread_ok d' total t' /\ (length (t_text t') <= L)%nat /\ (weight L t' < weight L t)%nat.
Proof.
  intros G (Hc & Hp & Hl) HL. unfold step. destruct (t_place t) as [|cs|i more n prev|i c cs more n prev|i c to more n prev] eqn:EP; cbn [place_ok] in Hp.
  - destruct (t_text t) as [|c s] eqn:ET; [discriminate|]. destruct (d_s0 d) as [i|] eqn:E0.
    + intros H; injection H as <- <-. pose proof (proj2 G _ E0) as Hi. split; [exact G|]. split; [apply grows_refl|].
      unfold thread_ok, at_place, weight; cbn [t_text t_place t_out place_ok]. rewrite ET. split; [|split; [exact HL|]].
      * split; [exact Hc|]. split; [|exact Hl]. split; [discriminate|]. exists init. split; [exact Hi|].
        rewrite (capture_acc _ _ _ _ _ G Hi). split; [apply exec_acc|apply acc_idem].
      * rewrite EP. cbn [cost length]. lia.
    + rewrite Hstart. intros H; injection H as <- <-. split; [exact G|]. split; [apply grows_refl|].
      unfold thread_ok, at_place, weight; cbn [t_text t_place t_out place_ok]. rewrite ET. split; [|split; [exact HL|]].
      * split; [exact Hc|]. split; [|exact Hl]. split; [discriminate|reflexivity].
      * rewrite EP. cbn [cost length]. lia.
  - destruct Hp as [Hne ->]. destruct (add_state A d init) as [d1 i] eqn:EA. intros H; injection H as <- <-.
    destruct (add_state_good _ _ _ _ G EA) as (G1 & Gr & Hi & E0).
    assert (G' : good (Dfa (d_states d1) (Some i))).
    { split; [exact (proj1 G1)|]. intros j H. cbn in H. injection H as <-. exact Hi. }
    split; [exact G'|]. split; [exact Gr|]. unfold thread_ok, at_place, weight; cbn [t_text t_place t_out place_ok]. split; [|split; [exact HL|]].
    + split; [exact Hc|]. split; [|exact Hl]. split; [exact Hne|]. exists init. split; [exact Hi|].
      rewrite (capture_acc _ _ init _ _ G' Hi). split; [apply exec_acc|apply acc_idem].
    + rewrite EP. cbn [cost]. lia.
  - destruct Hp as (Hne & cs & Hi & He & Ha). rewrite exec_eq in He. rewrite Ha in He. destruct more as [|c more].
    + intros H; injection H as <- <-. split; [exact G|]. split; [apply grows_refl|].
      destruct (finish_ok d total t n prev Hc Hne (eq_sym He) Hl) as [H1 H2]. split; [exact H1|]. split; [lia|].
      eapply Nat.lt_le_trans; [apply (weight_finish L); assumption|]. unfold weight. lia.
    + destruct (get_edge d i (Z.of_N c)) as [to|] eqn:EE.
      * intros H; injection H as <- <-. split; [exact G|]. split; [apply grows_refl|].
        pose proof (get_edge_ok _ _ _ _ _ G Hi EE) as Hto. destruct to as [j|]; cbn [go].
        -- destruct Hto as (cs' & Hj & Hne' & Hr). rewrite Hr in He. destruct cs' as [|y cs']; [congruence|].
           unfold thread_ok, at_place, weight; cbn [t_text t_place t_out place_ok]. split; [|split; [exact HL|]].
           ++ split; [exact Hc|]. split; [|exact Hl]. split; [exact Hne|]. exists (y :: cs'). split; [exact Hj|].
              rewrite (capture_acc _ _ _ _ _ G Hj). split; [rewrite exec_acc; exact He|apply acc_idem].
           ++ rewrite EP. cbn [cost length]. lia.
        -- rewrite Hto in He. destruct (finish_ok d total t n prev Hc Hne (eq_sym He) Hl) as [H1 H2]. split; [exact H1|]. split; [lia|].
           eapply Nat.lt_le_trans; [apply (weight_finish L); assumption|]. unfold weight. lia.
      * rewrite (state_is_configs _ _ _ Hi). destruct (reach A cs (Z.of_N c)) as [[|y cs']|] eqn:ER; [| |discriminate].
        -- destruct (has_edge (Z.of_N c)); intros H; injection H as <- <-; (split; [exact G|]); (split; [apply grows_refl|]).
           ++ unfold thread_ok, at_place, weight; cbn [t_text t_place t_out place_ok]. split; [|split; [exact HL|]].
              ** split; [exact Hc|]. split; [|exact Hl]. split; [exact Hne|]. exists cs. auto.
              ** rewrite EP. cbn [cost length]. lia.
           ++ destruct (finish_ok d total t n prev Hc Hne (eq_sym He) Hl) as [H1 H2]. split; [exact H1|]. split; [lia|].
              eapply Nat.lt_le_trans; [apply (weight_finish L); assumption|]. unfold weight. lia.
        -- intros H; injection H as <- <-. split; [exact G|]. split; [apply grows_refl|].
           unfold thread_ok, at_place, weight; cbn [t_text t_place t_out place_ok]. split; [|split; [exact HL|]].
           ++ split; [exact Hc|]. split; [|exact Hl]. split; [exact Hne|]. split; [discriminate|]. split; [exact He|]. exists cs. auto.
           ++ rewrite EP. cbn [cost length]. lia.
  - destruct Hp as (Hne & Hcs & He & cs0 & Hi & Hr). destruct (add_state A d cs) as [d1 j] eqn:EA. intros H; injection H as <- <-.
    destruct (add_state_good _ _ _ _ G EA) as (G1 & Gr & Hj & E0). split; [exact G1|]. split; [exact Gr|].
    destruct (has_edge (Z.of_N c)); cbn [go]; unfold thread_ok, at_place, weight; cbn [t_text t_place t_out place_ok]; (split; [|split; [exact HL|]]).
    + split; [exact Hc|]. split; [|exact Hl]. split; [exact Hne|]. exists cs0. split; [exact (grows_is _ _ _ _ Gr Hi)|].
      exists cs. auto.
    + rewrite EP. cbn [cost]. lia.
    + split; [exact Hc|]. split; [|exact Hl]. split; [exact Hne|]. exists cs. split; [exact Hj|].
      rewrite (capture_acc _ _ _ _ _ G1 Hj). split; [rewrite exec_acc; exact He|apply acc_idem].
    + rewrite EP. cbn [cost]. lia.
  - destruct Hp as (Hne & cs0 & Hi & Hto). intros H; injection H as <- <-.
    destruct Hi as (x & Hx & Ex). pose proof (set_edge_grows d i (Z.of_N c) to) as Gr.
    assert (G1 : good (set_edge d i (Z.of_N c) to)).
    { apply (set_edge_good _ _ _ _ x G Hx). unfold edge_ok. rewrite Ex. destruct to as [j|]; [|apply Hto].
      destruct Hto as (cs & (y & Hy & Ey) & Hne' & Hr & _). exists y. rewrite Ey. auto. }
    split; [exact G1|]. split; [exact Gr|]. destruct to as [j|]; cbn [go].
    + destruct Hto as (cs & Hj & Hne' & Hr & He). pose proof (grows_is _ _ _ _ Gr Hj) as Hj'.
      unfold thread_ok, at_place, weight; cbn [t_text t_place t_out place_ok]. split; [|split; [exact HL|]].
      * split; [exact Hc|]. split; [|exact Hl]. split; [exact Hne|]. exists cs. split; [exact Hj'|].
        rewrite (capture_acc _ _ _ _ _ G1 Hj'). split; [rewrite exec_acc; exact He|apply acc_idem].
      * rewrite EP. cbn [cost]. lia.
    + destruct Hto as (Hr & He). destruct (finish_ok (set_edge d i (Z.of_N c) None) total t n prev Hc Hne He Hl) as [H1 H2].
      split; [exact H1|]. split; [lia|]. eapply Nat.lt_le_trans; [apply (weight_finish L); assumption|]. unfold weight. lia.
Qed.

Lemma step_some d total t : good d -> thread_ok d total t -> finished t \/ exists d' t', step A d t = Some (d', t').
Proof.
  intros G (Hc & Hp & Hl). unfold step, finished. destruct (t_place t) as [|cs|i more n prev|i c cs more n prev|i c to more n prev] eqn:EP; cbn [place_ok] in Hp.
  - destruct (t_text t) as [|c s]; [left; auto|right]. destruct (d_s0 d); [eauto|]. rewrite Hstart. eauto.
  - right. destruct (add_state A d cs). eauto.
  - right. destruct Hp as (Hne & cs & Hi & He & Ha). destruct more as [|c more]; [eauto|].
    destruct (get_edge d i (Z.of_N c)); [eauto|]. rewrite (state_is_configs _ _ _ Hi).
    destruct (Hexec _ Hc Hne) as (r & n' & Hr & _). unfold start_to in He. rewrite Hr, exec_eq in He.
    destruct (reach A cs (Z.of_N c)) as [[|y l]|]; [eauto|eauto|discriminate].
  - right. destruct (add_state A d cs). eauto.
  - right. eauto.
Qed.

(** Processes *)
Definition process_ok (totals : list (list event)) (L : nat) (p : dfa * list thread) : Prop :=
  good (fst p) /\ length (snd p) = length totals /\
  forall i t total, nth_error (snd p) i = Some t -> nth_error totals i = Some total -> thread_ok (fst p) total t /\ (length (t_text t) <= L)%nat.
Definition load (L : nat) (ths : list thread) : nat := list_sum (map (weight L) ths).
Lemma load_upd L ths : forall i t t', nth_error ths i = Some t -> (weight L t' < weight L t)%nat -> (load L (upd i t' ths) < load L ths)%nat.
Proof.
  unfold load. induction ths as [|u ths IH]; intros [|i] t t' H Hw; cbn in H; try discriminate.
  - injection H as ->. cbn. lia.
  - specialize (IH _ _ _ H Hw). cbn [upd map]. unfold list_sum in *. cbn [fold_right]. lia.
Qed.
Lemma moves_ok totals L p q : process_ok totals L p -> moves A p q -> process_ok totals L q /\ (load L (snd q) < load L (snd p))%nat.
Proof.
  intros (G & Hlen & H) M. destruct M as [d ths i t d' t' Hi Hs]. cbn [fst snd] in *.
  assert (Hti : exists total, nth_error totals i = Some total).
  { destruct (nth_error totals i) eqn:E; [eauto|]. apply nth_error_None in E. assert (i < length ths)%nat by (apply nth_error_Some; congruence). lia. }
  destruct Hti as [total Hti]. destruct (H _ _ _ Hi Hti) as [Ht HL].
  destruct (step_ok L _ _ _ _ _ G Ht HL Hs) as (G' & Gr & Ht' & HL' & Hw). split; [|eapply load_upd; eauto].
  split; [exact G'|]. split; [cbn; rewrite upd_length; exact Hlen|]. cbn. intros j u tot Hj Htot.
  destruct (Nat.eq_dec i j) as [<-|N].
  - rewrite (nth_upd_same _ _ _ _ Hi) in Hj. injection Hj as <-. rewrite Hti in Htot. injection Htot as <-. auto.
  - rewrite nth_upd_other in Hj by exact N. destruct (H _ _ _ Hj Htot) as [H1 H2]. split; [eapply thread_grows; eauto|exact H2].
Qed.
Lemma runs_ok totals L k p q : process_ok totals L p -> runs A k p q -> process_ok totals L q /\ (k + load L (snd q) <= load L (snd p))%nat.
Proof.
  intros Hp R. induction R as [p|k p q r R IH M]; [split; [exact Hp|lia]|].
  destruct (IH Hp) as [Hq Hk]. destruct (moves_ok _ _ _ _ Hq M) as [Hr Hw]. split; [exact Hr|lia].
Qed.

Definition alone (s : str) : list event := match events_fuel A (length s) init s with Some l => l | None => [] end.
Lemma boot_ok texts : Forall code_points texts -> process_ok (map alone texts) (list_sum (map (@length N) texts)) (boot texts).
Proof.
  intros Hcp. split; [|split].
  - split; [intros i x H; destruct i; discriminate|discriminate].
  - cbn. rewrite !map_length. reflexivity.
  - cbn. intros i t total Hi Hti. rewrite nth_error_map in Hi, Hti. destruct (nth_error texts i) as [s|] eqn:E; [|discriminate].
    cbn in Hi, Hti. injection Hi as <-. injection Hti as <-. pose proof (nth_error_In _ _ E) as Hin.
    pose proof (proj1 (Forall_forall _ _) Hcp _ Hin) as Hs. split.
    + split; [exact Hs|]. split; [exact I|]. cbn. unfold alone. destruct (Hevents s Hs) as [l Hl]. rewrite Hl. exists l. auto.
    + cbn [t_text]. clear - Hin. unfold list_sum. induction texts as [|x l IH]; [destruct Hin|]. cbn [map fold_right]. destruct Hin as [->|Hin]; [lia|]. specialize (IH Hin). lia.
Qed.
End Cache.

(** The generated lexer *)
Lemma lexer_exec s : code_points s -> s <> [] ->
  exists r n, exec lexer_atn init0 s 0 None = Some (r, n) /\ match r with Some (_, _, m) => (1 <= m)%nat | None => True end.
Proof.
  intros Hs _. destruct (exec_init s Hs) as (m & v' & rest' & _ & _ & _ & _ & [(v & r & k & acts & _ & Hf & _ & Heq & _)|[_ Heq]]).
  - eexists _, _. split; [exact Heq|]. cbn. pose proof (LexShape.shape_nonempty k v (proj1 Hf)) as H. destruct v; [congruence|]. cbn. lia.
  - eexists _, _. split; [exact Heq|exact I].
Qed.
Lemma lexer_fuel s : code_points s -> exists l, events_fuel lexer_atn (length s) init0 s = Some l.
Proof. intros Hs. destruct (events_scanned (length s) s (Nat.le_refl _) Hs) as (l & H & _). eauto. Qed.

Theorem schedule_result texts k d ths : Forall code_points texts -> runs lexer_atn k (boot texts) (d, ths) ->
  length ths = length texts /\
  forall i text t, nth_error texts i = Some text -> nth_error ths i = Some t ->
    exists rest, lexer_events text = Some (t_out t ++ rest) /\ (finished t -> rest = []) /\
      (finished t \/ exists d' t', step lexer_atn d t = Some (d', t')).
Proof.
  intros Hcp R.
  destruct (runs_ok lexer_atn init0 init0_is lexer_exec lexer_fuel _ _ _ _ _ (boot_ok lexer_atn init0 lexer_fuel _ Hcp) R) as [(G & Hlen & H) _].
  cbn [fst snd] in *. rewrite map_length in Hlen. split; [exact Hlen|]. intros i text t Hi Ht.
  assert (Hti : nth_error (map (alone lexer_atn init0) texts) i = Some (alone lexer_atn init0 text)) by (rewrite nth_error_map, Hi; reflexivity).
  destruct (H _ _ _ Ht Hti) as [Ok _].
  pose proof (step_some lexer_atn init0 init0_is lexer_exec _ _ _ G Ok) as Hst.
  destruct Ok as (Hc & Hp & l & Hl & Htot). exists l. split; [|split].
  - unfold lexer_events, events. rewrite init0_is. rewrite <- Htot. unfold alone.
    destruct (lexer_fuel text (proj1 (Forall_forall _ _) Hcp _ (nth_error_In _ _ Hi))) as [l' E]. rewrite E. reflexivity.
  - intros [_ E]. rewrite E in Hl. cbn in Hl. injection Hl as <-. reflexivity.
  - exact Hst.
Qed.
Theorem schedule_ends texts : Forall code_points texts -> exists n, forall k q, runs lexer_atn k (boot texts) q -> (k <= n)%nat.
Proof.
  intros Hcp. eexists. intros k q R.
  destruct (runs_ok lexer_atn init0 init0_is lexer_exec lexer_fuel _ _ _ _ _ (boot_ok lexer_atn init0 lexer_fuel _ Hcp) R) as [_ Hk].
  eapply Nat.le_trans; [|exact Hk]. lia.
Qed.
