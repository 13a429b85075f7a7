(** The ATN simulation yields what ScanSpec.v says: AtnLexerTable.v and an induction on the text. *)
From Coq Require Import ZArith Sorting.Sorted.
From Verif Require Import RegexProof Lexer LexSpec LexShape LexerProof Atn AtnLexer AtnLexerTable ScanSpec.
Local Open Scope Z_scope.

(** *** Running the simulation *)
Lemma mem_in e l : mem e l = true -> In e l.
Proof. unfold mem. intros H. apply existsb_exists in H as (x & Hx & E). apply entry_eqb_eq in E. congruence. Qed.

Definition hid_of (k : tt) : Z := if is_layout k then 1 else 0.

Section Run.
Variable A : atn.
Variable B : list N.
Variable T : list entry.
Hypothesis HT : table_ok A B T = true.

Lemma table_good e : In e T -> good A B T e = true.
Proof. unfold table_ok in HT. rewrite !andb_true_iff, forallb_forall in HT. intros H. apply HT. exact H. Qed.
Lemma rep_in c : In (rep B c) B.
Proof.
  unfold table_ok in HT. rewrite !andb_true_iff in HT. destruct HT as [_ H0]. apply inN_spec in H0.
  destruct (rep_spec B c) as (_ & _ & [->|H]); assumption.
Qed.
Lemma table_step e c : In e T -> (c <= 1114111)%N ->
  (reach A (fst e) (Z.of_N c) = Some [] /\ nstep c (snd e) = []) \/
  (exists x l, reach A (fst e) (Z.of_N c) = Some (x :: l) /\ nstep c (snd e) <> [] /\ In (x :: l, nstep c (snd e)) T).
Proof.
  intros He Hc. pose proof (table_good e He) as G. unfold good in G. rewrite !andb_true_iff in G. destruct G as [[[G1 _] _] G].
  rewrite forallb_forall in G. specialize (G (rep B c) (rep_in c)).
  assert (HA : atn_in B A = true) by (unfold table_ok in HT; rewrite !andb_true_iff in HT; apply HT).
  unfold succ in G. rewrite reach_rep in G by assumption. rewrite nstep_rep in G by assumption.
  destruct (reach A (fst e) (Z.of_N c)) as [[|x l]|]; [left|right|discriminate].
  - destruct (nstep c (snd e)); [auto|discriminate].
  - destruct (nstep c (snd e)) as [|p rs] eqn:E; [discriminate|]. exists x, l. split; [reflexivity|]. split; [discriminate|].
    cbn in G. rewrite andb_true_r in G. apply mem_in in G. exact G.
Qed.
Lemma table_accept e : In e T ->
  match accept_of A (fst e) with
  | None => first_nullable (snd e) = None
  | Some (n, acts) => exists k, first_nullable (snd e) = Some k /\ n = Z.of_nat (tt_num k) /\ channel_of A acts = hid_of k
  end.
Proof.
  intros He. pose proof (table_good e He) as G. unfold good in G. rewrite !andb_true_iff in G. destruct G as [[[_ G] _] _].
  unfold same_accept in G. destruct (accept_of A (fst e)) as [[n acts]|]; destruct (first_nullable (snd e)) as [k|]; try discriminate; [|reflexivity].
  rewrite andb_true_iff, !Z.eqb_eq in G. exists k. unfold hid_of. rewrite <- hidden_layout. tauto.
Qed.
Lemma table_promising e w : In e T -> snd e <> [] -> Res w (snd e) -> promising w.
Proof.
  intros He Hn [_ HR]. pose proof (table_good e He) as G. unfold good in G. rewrite !andb_true_iff in G. destruct G as [[_ G] _].
  destruct (snd e) as [|[k r] l]; [congruence|]. cbn in G. rewrite andb_true_iff in G. destruct G as [G _].
  apply inhabited_matches in G as [u Hu]. exists k, u. apply HR. exists r. split; [left; reflexivity|exact Hu].
Qed.
Lemma not_promising w : Res w [] -> ~ promising w.
Proof. intros [_ HR] (k & u & H). apply HR in H as (r & [] & _). Qed.

(** The last accept, and where the simulation stops. *)
Lemma exec_cases s : forall e w prev, In e T -> snd e <> [] -> Res w (snd e) -> code_points s ->
  exists m v' rest', s = v' ++ rest' /\ m = length (w ++ v') /\ promising (w ++ v')
    /\ (match rest' with [] => True | c :: _ => ~ promising ((w ++ v') ++ [c]) end)
    /\ ((exists v r k acts, s = v ++ r /\ firstk k (w ++ v)
         /\ (forall k' u' r', s = u' ++ r' -> token_shape k' (w ++ u') -> (length u' <= length v)%nat)
         /\ exec A (fst e) s (length w) prev = Some (Some (Z.of_nat (tt_num k), acts, length (w ++ v)), m)
         /\ channel_of A acts = hid_of k)
       \/ ((forall k' u' r', s = u' ++ r' -> ~ token_shape k' (w ++ u')) /\ exec A (fst e) s (length w) prev = Some (prev, m))).
Proof.
  induction s as [|c s IH]; intros e w prev He Hne HR Hcp.
  - exists (length w), [], []. rewrite !app_nil_r. split; [reflexivity|]. split; [reflexivity|].
    split; [exact (table_promising e w He Hne HR)|]. split; [exact I|].
    cbn [exec]. pose proof (table_accept e He) as Ha. destruct (accept_of A (fst e)) as [[n acts]|].
    + destruct Ha as (k & Hf & -> & Hch). left. exists [], [], k, acts. rewrite !app_nil_r. split; [reflexivity|].
      split; [exact (first_nullable_some w _ k HR Hf)|]. split; [|split; [reflexivity|exact Hch]].
      intros k' u' r' H _. symmetry in H. apply app_eq_nil in H as [-> _]. cbn; lia.
    + right. split; [|reflexivity]. intros k' u' r' H. symmetry in H. apply app_eq_nil in H as [-> _].
      rewrite app_nil_r. exact (first_nullable_none w _ k' HR Ha).
  - inversion Hcp as [|c0 s0 Hc Hs]; subst c0 s0. cbn [exec]. pose proof (table_accept e He) as Ha.
    set (prev' := match accept_of A (fst e) with Some (k, acts) => Some (k, acts, length w) | None => prev end : option (Z * list Z * nat)).
    assert (Hrest : forall m : nat, (forall k' u' r', s = u' ++ r' -> ~ token_shape k' (w ++ c :: u')) ->
       (exists (v r : list N) (k : tt) (acts : list Z), c :: s = v ++ r /\ firstk k (w ++ v)
         /\ (forall k' u' r', c :: s = u' ++ r' -> token_shape k' (w ++ u') -> (length u' <= length v)%nat)
         /\ Some (prev', m) = Some (Some (Z.of_nat (tt_num k), acts, length (w ++ v)), m)
         /\ channel_of A acts = hid_of k)
       \/ ((forall k' u' r', c :: s = u' ++ r' -> ~ token_shape k' (w ++ u')) /\ Some (prev', m) = Some (prev, m))).
    { intros m Hno. unfold prev'. destruct (accept_of A (fst e)) as [[n acts]|].
      - destruct Ha as (k & Hf & -> & Hch). left. exists [], (c :: s), k, acts. rewrite !app_nil_r. split; [reflexivity|].
        split; [exact (first_nullable_some w _ k HR Hf)|]. split; [|split; [reflexivity|exact Hch]].
        intros k' u' r' H Hk. destruct u' as [|x u']; [cbn; lia|]. injection H as <- H. exfalso. exact (Hno _ _ _ H Hk).
      - right. split; [|reflexivity]. intros k' u' r' H. destruct u' as [|x u'].
        + rewrite app_nil_r. exact (first_nullable_none w _ k' HR Ha).
        + injection H as <- H. eauto. }
    pose proof (Res_nstep w c _ HR) as HR'.
    destruct (table_step e c He Hc) as [[Hreach Hst]|(x & l & Hreach & Hst & Hin)].
    + rewrite Hreach. rewrite Hst in HR'. exists (length w), [], (c :: s). rewrite !app_nil_r.
      split; [reflexivity|]. split; [reflexivity|]. split; [exact (table_promising e w He Hne HR)|].
      split; [exact (not_promising _ HR')|]. apply Hrest. intros k' u' r' _ Hk. apply (not_promising _ HR').
      exists k', u'. rewrite <- app_assoc. exact Hk.
    + rewrite Hreach.
      destruct (IH (x :: l, nstep c (snd e)) (w ++ [c]) prev' Hin Hst HR' Hs) as (m & v' & rest' & -> & Hm & Hp & Hnp & HC).
      cbn [fst] in HC. replace (length (w ++ [c])) with (S (length w)) in HC by (rewrite app_length; cbn; lia).
      exists m, (c :: v'), rest'. rewrite <- app_assoc in Hm, Hp, Hnp. cbn [app] in Hm, Hp, Hnp.
      split; [reflexivity|]. split; [exact Hm|]. split; [exact Hp|]. split; [exact Hnp|].
      destruct HC as [(v & r & k & acts & Es & Hf & Hmax & Heq & Hch)|[Hno Heq]].
      * left. exists (c :: v), r, k, acts. rewrite <- app_assoc in Hf, Heq. cbn [app] in Hf, Heq.
        split; [cbn [app]; rewrite Es; reflexivity|]. split; [exact Hf|]. split; [|split; [exact Heq|exact Hch]].
        intros k' u' r' H Hk. destruct u' as [|y u']; [cbn; lia|]. injection H as <- H.
        cbn. apply le_n_S. eapply Hmax; [exact H|]. rewrite <- app_assoc. exact Hk.
      * rewrite Heq. apply Hrest. intros k' u' r' H Hk. apply (Hno k' _ _ H). rewrite <- app_assoc. exact Hk.
Qed.
End Run.

(** *** The whole token source *)
Definition item_of (e : event) : item :=
  match e with Token k ch t => Seen (Z.to_nat k) (ch =? 1) t | Bad t => Skipped t end.

Lemma exec_init s : code_points s ->
  exists m v' rest', s = v' ++ rest' /\ m = length v' /\ promising v'
    /\ (match rest' with [] => True | c :: _ => ~ promising (v' ++ [c]) end)
    /\ ((exists v r k acts, s = v ++ r /\ firstk k v
         /\ (forall k' u' r', s = u' ++ r' -> token_shape k' u' -> (length u' <= length v)%nat)
         /\ exec lexer_atn init0 s 0 None = Some (Some (Z.of_nat (tt_num k), acts, length v), m)
         /\ channel_of lexer_atn acts = hid_of k)
       \/ ((forall k' u' r', s = u' ++ r' -> ~ token_shape k' u') /\ exec lexer_atn init0 s 0 None = Some (None, m))).
Proof.
  intros Hs. destruct table_exists as (T & HT & Hin). apply mem_in in Hin.
  exact (exec_cases lexer_atn B0 T HT s (init0, lex_rules) [] None Hin ltac:(discriminate) Res_init Hs).
Qed.

Lemma code_points_skipn n s : code_points s -> code_points (skipn n s).
Proof. unfold code_points. rewrite !Forall_forall. intros H x Hx. apply H. rewrite <- (firstn_skipn n s). apply in_or_app. right; exact Hx. Qed.

Lemma events_scanned fuel : forall s, (length s <= fuel)%nat -> code_points s ->
  exists l, events_fuel lexer_atn fuel init0 s = Some l /\ scanned s (map item_of l).
Proof.
  induction fuel as [|f IH]; intros s Hlen Hcp.
  - destruct s; [|cbn in Hlen; lia]. exists []. split; [reflexivity|constructor].
  - destruct s as [|c s]; [exists []; split; [reflexivity|constructor]|]. cbn [events_fuel].
    remember (c :: s) as z eqn:Ez. assert (Hz : z <> []) by (subst; discriminate).
    destruct (exec_init z Hcp) as (m & v' & rest' & Es & Hm & Hp & Hnp & [(v & r & k & acts & Hs & Hf & Hmax & Heq & Hch)|[Hno Heq]]); rewrite Heq.
    + assert (Hv : v <> []) by exact (shape_nonempty k v (proj1 Hf)).
      assert (Hl : (length (skipn (length v) z) <= f)%nat).
      { rewrite skipn_length. destruct v; [congruence|]. cbn [length]. lia. }
      destruct (IH _ Hl (code_points_skipn _ _ Hcp)) as (l & -> & Hl').
      eexists. split; [reflexivity|]. cbn [map item_of]. rewrite Hch, Nat2Z.id.
      replace (hid_of k =? 1) with (is_layout k) by (unfold hid_of; destruct (is_layout k); reflexivity).
      assert (Ef : firstn (length v) z = v) by (rewrite Hs; apply firstn_app_l).
      assert (Er : skipn (length v) z = r).
      { rewrite Hs. rewrite skipn_app, Nat.sub_diag, skipn_all. reflexivity. }
      rewrite Ef. apply (sc_token z (Tok k v) (skipn (length v) z)); [|exact Hl'].
      rewrite Er. unfold first_token; cbn [ty tx]. split; [exact Hs|]. split; [exact Hv|]. split; [apply Hf|]. split; [|apply Hf].
      intros k' u' r' E Hk. exact (Hmax _ _ _ E Hk).
    + assert (Hl : (length (skipn (S m) z) <= f)%nat).
      { rewrite skipn_length. lia. }
      destruct (IH _ Hl (code_points_skipn _ _ Hcp)) as (l & -> & Hl').
      eexists. split; [reflexivity|]. cbn [map item_of]. apply (sc_error z _ (skipn (S m) z)); [exact Hno| |exact Hl'].
      split; [symmetry; apply firstn_skipn|].
      destruct rest' as [|d rest'].
      * rewrite app_nil_r in Es. subst v' m. assert (E : firstn (S (length z)) z = z) by (apply firstn_all2; lia). rewrite E.
        split; [exact Hz|]. right. split; [exact Hp|]. apply skipn_all2. lia.
      * assert (E : firstn (S m) z = v' ++ [d]).
        { rewrite Es, Hm. change (v' ++ d :: rest') with (v' ++ [d] ++ rest'). rewrite app_assoc.
          replace (S (length v')) with (length (v' ++ [d])) by (rewrite app_length; cbn; lia). apply firstn_app_l. }
        rewrite E. split; [destruct v'; discriminate|]. left. exists v', d. auto.
Qed.

(** The specification determines the result. *)
Lemma first_token_fun s t r t' r' : first_token s t r -> first_token s t' r' -> t = t' /\ r = r'.
Proof.
  intros H H'. apply next_token_spec in H as [H1 H2]. apply next_token_spec in H' as [H1' H2'].
  rewrite H1 in H1'. injection H1' as Ek El. destruct t as [k u], t' as [k' u']; cbn in *. subst k'.
  assert (u = u').
  { rewrite H2 in H2'. rewrite <- (firstn_app_l u r), H2', El. apply firstn_app_l. }
  subst u'. split; [reflexivity|]. rewrite H2 in H2'. apply app_inv_head in H2'. exact H2'.
Qed.
Lemma promising_prefix u v : promising (u ++ v) -> promising u.
Proof. intros (k & w & H). exists k, (v ++ w). rewrite app_assoc. exact H. Qed.
Lemma app_le {X} (a b c d : list X) : a ++ b = c ++ d -> (length a <= length c)%nat -> exists e, c = a ++ e /\ b = e ++ d.
Proof.
  revert c; induction a as [|x a IH]; intros c E Hl; [exists c; auto|].
  destruct c as [|y c]; [cbn in Hl; lia|]. injection E as -> E. cbn in Hl. destruct (IH c E ltac:(lia)) as (e & -> & ->).
  exists e. auto.
Qed.
Lemma skipped_fun s u r u' r' : skipped s u r -> skipped s u' r' -> u = u' /\ r = r'.
Proof.
  assert (HH : forall u r u' r', skipped s u r -> skipped s u' r' -> (length u <= length u')%nat -> u = u' /\ r = r').
  { clear. intros u r u' r' (E & Hn & H) (E' & Hn' & H') Hl. rewrite E in E'. destruct (app_le _ _ _ _ E' Hl) as (e & -> & ->).
    destruct e as [|x e]; [rewrite app_nil_r; auto|exfalso].
    assert (Hp : promising u).
    { destruct H' as [(v & c & Ev & Hv & _)|[H' _]]; [|exact (promising_prefix _ _ H')].
      destruct (exists_last (l := x :: e) ltac:(discriminate)) as (e' & y & Ee). rewrite Ee, app_assoc in Ev.
      apply app_inj_tail in Ev as [<- _]. exact (promising_prefix _ _ Hv). }
    destruct H as [(v & c & _ & _ & H)|[_ H]]; [exact (H Hp)|]. discriminate. }
  intros H H'. destruct (Nat.le_ge_cases (length u) (length u')) as [Hl|Hl]; [exact (HH _ _ _ _ H H' Hl)|].
  destruct (HH _ _ _ _ H' H Hl); auto.
Qed.
Lemma scanned_fun s l l' : scanned s l -> scanned s l' -> l = l'.
Proof.
  intros H; revert l'; induction H as [|s t rest l Hf Hl IH|s u rest l Hno Hsk Hl IH]; intros l' H'.
  - inversion H' as [|s t rest l0 Hf|s u rest l0 _ Hsk]; subst; [reflexivity| |].
    + destruct Hf as (E & Hn & _). symmetry in E. apply app_eq_nil in E as [E _]. congruence.
    + destruct Hsk as (E & Hn & _). symmetry in E. apply app_eq_nil in E as [E _]. congruence.
  - inversion H' as [|s' t' rest' l0 Hf' Hl'|s' u rest' l0 Hno Hsk]; subst.
    + destruct Hf as (E & Hn & _). symmetry in E. apply app_eq_nil in E as [E _]. congruence.
    + destruct (first_token_fun _ _ _ _ _ Hf Hf') as [-> ->]. f_equal. apply IH. assumption.
    + exfalso. destruct Hf as (E & _ & Hsh & _). exact (Hno _ _ _ E Hsh).
  - inversion H' as [|s' t' rest' l0 Hf' Hl'|s' u' rest' l0 Hno' Hsk' Hl']; subst.
    + destruct Hsk as (E & Hn & _). symmetry in E. apply app_eq_nil in E as [E _]. congruence.
    + exfalso. destruct Hf' as (E & _ & Hsh & _). exact (Hno _ _ _ E Hsh).
    + destruct (skipped_fun _ _ _ _ _ Hsk Hsk') as [-> ->]. f_equal. apply IH. assumption.
Qed.

Theorem lexer_events_spec s : code_points s -> exists l, lexer_events s = Some l /\ forall its, scanned s its <-> its = map item_of l.
Proof.
  intros Hcp. unfold lexer_events, events. rewrite init0_is.
  destruct (events_scanned (length s) s (le_n _) Hcp) as (l & -> & Hl). exists l. split; [reflexivity|].
  intros its. split; [intros H; exact (scanned_fun _ _ _ H Hl)|intros ->; exact Hl].
Qed.

(** No error is reported exactly for the texts [lex] accepts, and then the tokens are the same. *)
Definition item_tok (t : tok) : item := Seen (tt_num (ty t)) (is_layout (ty t)) (tx t).
Lemma tokens_scanned s ts : tokens_of s ts -> scanned s (map item_tok ts).
Proof. induction 1 as [|s t rest ts Hf Hts IH]; cbn [map]; [constructor|]. exact (sc_token _ _ _ _ Hf IH). Qed.
Lemma scanned_tokens s its : scanned s its -> (forall u, ~ In (Skipped u) its) -> exists ts, tokens_of s ts /\ its = map item_tok ts.
Proof.
  induction 1 as [|s t rest l Hf Hl IH|s u rest l Hno Hsk Hl IH]; intros Hb.
  - exists []. split; [constructor|reflexivity].
  - destruct IH as (ts & Hts & ->); [intros u Hu; apply (Hb u); right; exact Hu|].
    exists (t :: ts). split; [econstructor; eassumption|reflexivity].
  - exfalso. apply (Hb u). left. reflexivity.
Qed.
Theorem lexer_events_lex s ts : code_points s ->
  (lex s = Some ts <-> exists l, lexer_events s = Some l /\ map item_of l = map item_tok ts).
Proof.
  intros Hcp. destruct (lexer_events_spec s Hcp) as (l & Hl & Hsp). rewrite lex_spec. split.
  - intros H. exists l. split; [exact Hl|]. symmetry. apply Hsp. apply tokens_scanned. exact H.
  - intros (l' & Hl' & E). rewrite Hl in Hl'. injection Hl' as <-. pose proof (proj2 (Hsp (map item_of l)) eq_refl) as H.
    rewrite E in H. assert (Hnb : forall u, ~ In (Skipped u) (map item_tok ts)).
    { intros u Hu. apply in_map_iff in Hu as (t & Ht & _). discriminate. }
    destruct (scanned_tokens _ _ H Hnb) as (ts' & Hts & E'). replace ts with ts'; [exact Hts|].
    clear -E'. revert ts' E'. induction ts as [|t ts IH]; intros [|t' ts'] E'; try discriminate; [reflexivity|].
    cbn in E'. injection E' as E1 _ E2 E3. f_equal; [|apply IH; exact E3].
    destruct t as [k u], t' as [k' u']; cbn in *. f_equal; [|congruence]. apply tt_eqb_eq. unfold tt_eqb. apply Nat.eqb_eq. congruence.
Qed.

(** The same with the runtime's own events. *)
Lemma item_of_inj ts : forall l, map item_of l = map item_tok ts -> (forall k ch t, In (Token k ch t) l -> 0 <= k /\ (ch = 0 \/ ch = 1)) ->
  l = map (fun t => Token (Z.of_nat (tt_num (ty t))) (if is_layout (ty t) then 1 else 0) (tx t)) ts.
Proof.
  induction ts as [|t ts IH]; intros [|e l] E HC; try discriminate; [reflexivity|]. cbn [map] in *. injection E as E1 E2.
  rewrite <- (IH l E2) by (intros; apply (HC _ _ t0); right; assumption). f_equal.
  destruct e as [k ch u|u]; [|discriminate]. cbn in E1. unfold item_tok in E1. injection E1 as E1 E3 E4. subst u.
  destruct (HC k ch (tx t) (or_introl eq_refl)) as [Hk Hch]. f_equal; [lia|]. rewrite <- E3. destruct Hch as [->| ->]; reflexivity.
Qed.
Lemma events_channels fuel : forall s l, (length s <= fuel)%nat -> code_points s -> events_fuel lexer_atn fuel init0 s = Some l ->
  forall k ch t, In (Token k ch t) l -> 0 <= k /\ (ch = 0 \/ ch = 1).
Proof.
  induction fuel as [|f IH]; intros s l Hlen Hcp.
  - destruct s; [|cbn in Hlen; lia]. cbn. intros E; injection E as <-. intros k ch t [].
  - destruct s as [|c s]; [intros E; injection E as <-; intros k ch t []|]. cbn [events_fuel].
    remember (c :: s) as z eqn:Ez.
    destruct (exec_init z Hcp) as (m & v' & rest' & Es & Hm & _ & _ & [(v & r & kk & acts & Hs & Hf & Hmax & Heq & Hch)|[Hno Heq]]); rewrite Heq.
    + assert (Hv : v <> []) by exact (shape_nonempty kk v (proj1 Hf)).
      assert (Hl : (length (skipn (length v) z) <= f)%nat).
      { rewrite skipn_length. destruct v; [congruence|]. cbn [length]. lia. }
      destruct (events_fuel lexer_atn f init0 (skipn (length v) z)) as [l'|] eqn:E; [|discriminate]. intros E'; injection E' as <-.
      intros k ch t [H|H]; [|exact (IH _ _ Hl (code_points_skipn _ _ Hcp) E _ _ _ H)].
      injection H as <- <- _. rewrite Hch. unfold hid_of. destruct (is_layout kk); lia.
    + assert (Hl : (length (skipn (S m) z) <= f)%nat) by (rewrite skipn_length; lia).
      destruct (events_fuel lexer_atn f init0 (skipn (S m) z)) as [l'|] eqn:E; [|discriminate]. intros E'; injection E' as <-.
      intros k ch t [H|H]; [discriminate|exact (IH _ _ Hl (code_points_skipn _ _ Hcp) E _ _ _ H)].
Qed.
Lemma lexer_channels s l : code_points s -> lexer_events s = Some l -> forall k ch t, In (Token k ch t) l -> 0 <= k /\ (ch = 0 \/ ch = 1).
Proof. unfold lexer_events, events. rewrite init0_is. intros Hcp. exact (events_channels _ _ _ (le_n _) Hcp). Qed.

Theorem lexer_events_exact s : code_points s -> exists evs, lexer_events s = Some evs /\ forall ts, tokens_of s ts <->
  evs = map (fun t => Token (Z.of_nat (tt_num (ty t))) (if is_layout (ty t) then 1 else 0) (tx t)) ts.
Proof.
  intros Hcp. destruct (lexer_events_spec s Hcp) as (l & Hl & Hsp). exists l. split; [exact Hl|]. intros ts. rewrite <- lex_spec. split.
  - intros H. apply (lexer_events_lex s ts Hcp) in H as (l' & Hl' & E). rewrite Hl in Hl'. injection Hl' as <-.
    exact (item_of_inj ts l E (lexer_channels s l Hcp Hl)).
  - intros E. apply lexer_events_lex; [exact Hcp|]. exists l. split; [exact Hl|]. rewrite E, map_map. apply map_ext. intros t.
    unfold item_of, item_tok. rewrite Nat2Z.id. destruct (is_layout (ty t)); reflexivity.
Qed.
Lemma no_bad_tokens s l : code_points s -> lexer_events s = Some l -> (forall u, ~ In (Bad u) l) -> exists ts, tokens_of s ts.
Proof.
  intros Hcp Hl Hb. destruct (lexer_events_spec s Hcp) as (l' & Hl' & Hsp). rewrite Hl in Hl'. injection Hl' as <-.
  destruct (scanned_tokens s (map item_of l) (proj2 (Hsp _) eq_refl)) as (ts & Hts & _); [|eauto].
  intros u Hu. apply in_map_iff in Hu as (e & He & Hin). destruct e; [discriminate|]. exact (Hb _ Hin).
Qed.
