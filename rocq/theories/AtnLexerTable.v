(** A table of pairs (configurations of the ATN simulation, rules of LexRules.v after the same text), explored and checked by
    computation over representatives of the character classes: the two sides agree on accepting and on going on. *)
From Coq Require Import ZArith Sorting.Sorted.
From Verif Require Import RegexProof Lexer LexSpec LexShape LexerProof Atn AtnLexer.
Local Open Scope Z_scope.

(** *** Equality tests *)
Lemma zs_eqb_eq a b : zs_eqb a b = true -> a = b.
Proof.
  revert b; induction a as [|x a IH]; intros [|y b]; cbn; try discriminate; auto.
  rewrite andb_true_iff, Z.eqb_eq. intros [-> H]. f_equal; auto.
Qed.
Lemma config_eqb_eq a b : config_eqb a b = true -> a = b.
Proof.
  unfold config_eqb. rewrite !andb_true_iff, Z.eqb_eq, Nat.eqb_eq, Bool.eqb_true_iff.
  intros ((((H1 & H2) & H3) & H4) & H5). apply zs_eqb_eq in H3. apply zs_eqb_eq in H5. destruct a, b; cbn in *; congruence.
Qed.

Definition range_eqb (a b : N * N) : bool := (fst a =? fst b)%N && (snd a =? snd b)%N.
Fixpoint list_eqb {A} (f : A -> A -> bool) (a b : list A) : bool :=
  match a, b with [], [] => true | x :: a', y :: b' => f x y && list_eqb f a' b' | _, _ => false end.
Lemma list_eqb_eq {A} (f : A -> A -> bool) : (forall x y, f x y = true -> x = y) -> forall a b, list_eqb f a b = true -> a = b.
Proof.
  intros Hf a. induction a as [|x a IH]; intros [|y b]; cbn; try discriminate; auto.
  rewrite andb_true_iff. intros [H1 H2]. f_equal; auto.
Qed.
Lemma range_eqb_eq a b : range_eqb a b = true -> a = b.
Proof. unfold range_eqb. rewrite andb_true_iff, !N.eqb_eq. destruct a, b; cbn; intros [-> ->]; reflexivity. Qed.
Definition cset_eqb (a b : cset) : bool :=
  match a, b with CIn x, CIn y => list_eqb range_eqb x y | CNot x, CNot y => list_eqb range_eqb x y | _, _ => false end.
Lemma cset_eqb_eq a b : cset_eqb a b = true -> a = b.
Proof. destruct a, b; cbn; try discriminate; intros H; f_equal; apply (list_eqb_eq range_eqb range_eqb_eq _ _ H). Qed.
Fixpoint re_eqb (a b : re) : bool :=
  match a, b with
  | Emp, Emp => true | Eps, Eps => true
  | Chr x, Chr y => cset_eqb x y
  | Cat a1 a2, Cat b1 b2 => re_eqb a1 b1 && re_eqb a2 b2
  | Alt a1 a2, Alt b1 b2 => re_eqb a1 b1 && re_eqb a2 b2
  | Star x, Star y => re_eqb x y
  | _, _ => false
  end.
Lemma re_eqb_eq a b : re_eqb a b = true -> a = b.
Proof.
  revert b; induction a; intros []; cbn; try discriminate; auto; rewrite ?andb_true_iff.
  - intros H; f_equal; apply cset_eqb_eq; exact H.
  - intros [? ?]; f_equal; auto.
  - intros [? ?]; f_equal; auto.
  - intros ?; f_equal; auto.
Qed.

(** *** Normal forms of rules: alternatives collected and not repeated *)
Fixpoint alts (r : re) : list re :=
  match r with
  | Emp => [] | Alt a b => alts a ++ alts b | Cat a b => map (fun x => cat x b) (alts a) | r => [r]
  end.
Fixpoint dedup (l : list re) : list re :=
  match l with [] => [] | x :: l' => let d := dedup l' in if existsb (re_eqb x) d then d else x :: d end.
Fixpoint unions (l : list re) : re := match l with [] => Emp | [x] => x | x :: l' => Alt x (unions l') end.
Definition norm (r : re) : re := unions (dedup (alts r)).

Lemma alts_correct r s : (exists x, In x (alts r) /\ matches x s) <-> matches r s.
Proof.
  revert s; induction r as [| |cs|a IHa b IHb|a IHa b IHb|a IHa]; intros s; cbn [alts].
  - split; [intros (x & [] & _)|intros H; inversion H].
  - split; [intros (x & [<-|[]] & H); exact H|intros H; exists Eps; split; [left; reflexivity|exact H]].
  - split; [intros (x & [<-|[]] & H); exact H|intros H; eexists; split; [left; reflexivity|exact H]].
  - split.
    + intros (x & Hin & H). apply in_map_iff in Hin as (y & <- & Hin). apply cat_correct, matches_cat in H as (u & v & -> & Hu & Hv).
      constructor; [|exact Hv]. apply IHa. eauto.
    + intros H. apply matches_cat in H as (u & v & -> & Hu & Hv). apply IHa in Hu as (x & Hin & Hx).
      exists (cat x b). split; [apply in_map_iff; eauto|]. apply cat_correct. constructor; assumption.
  - rewrite matches_alt, <- IHa, <- IHb. split.
    + intros (x & Hin & H). apply in_app_iff in Hin as [Hin|Hin]; [left|right]; eauto.
    + intros [(x & Hin & H)|(x & Hin & H)]; exists x; split; auto; apply in_app_iff; auto.
  - split; [intros (x & [<-|[]] & H); exact H|intros H; eexists; split; [left; reflexivity|exact H]].
Qed.
Lemma dedup_in l x : In x (dedup l) <-> In x l.
Proof.
  induction l as [|y l IH]; cbn [dedup]; [reflexivity|]. destruct (existsb (re_eqb y) (dedup l)) eqn:E.
  - rewrite IH. split; [right; assumption|]. intros [<-|H]; [|exact H]. apply existsb_exists in E as (z & Hz & E).
    apply re_eqb_eq in E. subst z. apply IH. exact Hz.
  - cbn [In]. rewrite IH. reflexivity.
Qed.
Lemma unions_correct l s : matches (unions l) s <-> exists x, In x l /\ matches x s.
Proof.
  induction l as [|x l IH]; cbn [unions].
  - split; [intros H; inversion H|intros (x & [] & _)].
  - destruct l as [|y l].
    + split; [intros H; exists x; split; [left; reflexivity|exact H]|intros (z & [<-|[]] & H); exact H].
    + rewrite matches_alt, IH. split.
      * intros [H|(z & Hin & H)]; [exists x; split; [left; reflexivity|exact H]|exists z; split; [right; exact Hin|exact H]].
      * intros (z & [<-|Hin] & H); [left; exact H|right; eauto].
Qed.
Lemma norm_correct r s : matches (norm r) s <-> matches r s.
Proof.
  unfold norm. rewrite unions_correct, <- alts_correct. split; intros (x & Hin & H); exists x; split; auto; apply dedup_in; exact Hin.
Qed.

Definition nstep (c : N) (rs : list (tt * re)) : list (tt * re) :=
  filter (fun p => negb (is_emp (snd p))) (map (fun p => (fst p, norm (deriv c (snd p)))) rs).
Lemma Res_nstep w c rs : Res w rs -> Res (w ++ [c]) (nstep c rs).
Proof.
  intros [Hs HR]. split.
  - apply SS_map_filter; [reflexivity|exact Hs].
  - intros k u. rewrite <- app_assoc. cbn [app]. rewrite <- HR. unfold nstep. split.
    + intros (r & Hin & Hm). apply filter_In in Hin as [Hin _]. apply in_map_iff in Hin as ([k' r'] & E & Hin).
      cbn in E. injection E as -> <-. exists r'. split; [exact Hin|]. apply deriv_correct, norm_correct. exact Hm.
    + intros (r & Hin & Hm). exists (norm (deriv c r)). apply deriv_correct, norm_correct in Hm. split; [|exact Hm].
      apply filter_In. split.
      * apply in_map_iff. exists (k, r). auto.
      * cbn. destruct (norm (deriv c r)); try reflexivity. inversion Hm.
Qed.

(** *** Character classes *)
(** [B] is a list of boundaries; [rep] is the last one not above [c]. *)
Definition rep (B : list N) (c : N) : N := fold_left (fun m b => if (b <=? c)%N && (m <=? b)%N then b else m) B 0%N.
Lemma rep_gen B : forall m c, (m <= c)%N ->
  let r := fold_left (fun m b => if (b <=? c)%N && (m <=? b)%N then b else m) B m in
  (m <= r <= c)%N /\ (forall b, In b B -> (b <= c)%N -> (b <= r)%N) /\ (r = m \/ In r B).
Proof.
  induction B as [|b B IH]; intros m c Hm; cbn [fold_left]; [cbn; split; [lia|split; [intros ? []|auto]]|].
  destruct ((b <=? c)%N && (m <=? b)%N) eqn:E.
  - apply andb_true_iff in E as [E1 E2]. apply N.leb_le in E1, E2. destruct (IH b c E1) as (H1 & H2 & H3). cbn in *.
    split; [lia|]. split.
    + intros x [<-|Hx] Hc; [lia|auto].
    + destruct H3 as [H3|H3]; auto.
  - apply andb_false_iff in E. destruct (IH m c Hm) as (H1 & H2 & H3). cbn in *. split; [lia|]. split.
    + intros x [<-|Hx] Hc; [|auto]. destruct E as [E|E]; apply N.leb_gt in E; lia.
    + destruct H3 as [H3|H3]; auto.
Qed.
Lemma rep_spec B c : (rep B c <= c)%N /\ (forall b, In b B -> (b <= c)%N -> (b <= rep B c)%N) /\ (rep B c = 0%N \/ In (rep B c) B).
Proof. destruct (rep_gen B 0%N c ltac:(lia)) as (H1 & H2 & H3). unfold rep. split; [lia|]. split; assumption. Qed.

Definition inN (B : list N) (b : N) : bool := existsb (N.eqb b) B.
Lemma inN_spec B b : inN B b = true -> In b B.
Proof. unfold inN. intros H. apply existsb_exists in H as (x & Hx & E). apply N.eqb_eq in E. congruence. Qed.

(** Boundaries of a set are in [B]: the set does not distinguish [c] from [rep B c]. *)
Definition range_in (B : list N) (r : N * N) : bool := inN B (fst r) && inN B (snd r + 1).
Lemma range_rep B r c : range_in B r = true -> in_range (rep B c) r = in_range c r.
Proof.
  unfold range_in. rewrite andb_true_iff. intros [H1 H2]. apply inN_spec in H1, H2. destruct (rep_spec B c) as (Ha & Hb & _).
  apply bool_ext. unfold in_range. rewrite !andb_true_iff, !N.leb_le. split.
  - intros [H3 H4]. split; [lia|]. destruct (N.le_gt_cases c (snd r)) as [H|H]; [exact H|].
    specialize (Hb _ H2 ltac:(lia)). lia.
  - intros [H3 H4]. split; [exact (Hb _ H1 H3)|lia].
Qed.
Definition cset_in (B : list N) (cs : cset) : bool := match cs with CIn l => forallb (range_in B) l | CNot l => forallb (range_in B) l end.
Lemma ranges_rep B l c : forallb (range_in B) l = true -> existsb (in_range (rep B c)) l = existsb (in_range c) l.
Proof.
  induction l as [|r l IH]; cbn; [reflexivity|]. rewrite andb_true_iff. intros [H1 H2]. rewrite range_rep, IH; auto.
Qed.
Lemma cset_rep B cs c : cset_in B cs = true -> cmem (rep B c) cs = cmem c cs.
Proof. destruct cs; cbn; intros H; rewrite ranges_rep; auto. Qed.
Fixpoint re_in (B : list N) (r : re) : bool :=
  match r with
  | Emp | Eps => true | Chr cs => cset_in B cs | Cat a b | Alt a b => re_in B a && re_in B b | Star a => re_in B a
  end.
Lemma deriv_rep B r c : re_in B r = true -> deriv (rep B c) r = deriv c r.
Proof.
  induction r as [| |cs|a IHa b IHb|a IHa b IHb|a IHa]; cbn [re_in deriv]; auto.
  - intros H. rewrite cset_rep; auto.
  - rewrite andb_true_iff. intros [H1 H2]. rewrite IHa, IHb; auto.
  - rewrite andb_true_iff. intros [H1 H2]. rewrite IHa, IHb; auto.
  - intros H. rewrite IHa; auto.
Qed.
Definition rules_in (B : list N) (rs : list (tt * re)) : bool := forallb (fun p => re_in B (snd p)) rs.
Lemma nstep_rep B rs c : rules_in B rs = true -> nstep (rep B c) rs = nstep c rs.
Proof.
  unfold nstep, rules_in. intros H. f_equal. rewrite forallb_forall in H. apply map_ext_in. intros p Hp. rewrite deriv_rep; auto.
Qed.

(** The same for the ATN. *)
Definition zrange_in (B : list N) (r : Z * Z) : bool := (0 <=? fst r) && (0 <=? snd r) && range_in B (Z.to_N (fst r), Z.to_N (snd r)).
Lemma in_set_rep B l c : forallb (zrange_in B) l = true -> in_set (Z.of_N (rep B c)) l = in_set (Z.of_N c) l.
Proof.
  unfold in_set. induction l as [|r l IH]; cbn [forallb existsb]; [reflexivity|]. rewrite andb_true_iff. intros [H1 H2]. rewrite IH; auto.
  f_equal. unfold zrange_in in H1. rewrite !andb_true_iff, !Z.leb_le in H1. destruct H1 as [[Ha Hb] Hr].
  pose proof (range_rep B _ c Hr) as E. unfold in_range in E; cbn [fst snd] in E.
  assert (HH : forall x, ((fst r <=? Z.of_N x) && (Z.of_N x <=? snd r))%bool = ((Z.to_N (fst r) <=? x)%N && (x <=? Z.to_N (snd r))%N)%bool).
  { intros x. apply bool_ext. rewrite !andb_true_iff, !N.leb_le, !Z.leb_le. lia. }
  rewrite !HH. exact E.
Qed.
Definition trans_in (B : list N) (t : trans) : bool := match t with TSet _ l _ => forallb (zrange_in B) l | _ => true end.
Definition atn_in (B : list N) (A : atn) : bool := forallb (fun n => forallb (trans_in B) (n_trans n)) (a_nodes A).
Lemma matches_sym_rep B neg l c : forallb (zrange_in B) l = true -> (c <= 1114111)%N ->
  matches_sym neg l (Z.of_N (rep B c)) = matches_sym neg l (Z.of_N c).
Proof.
  intros H Hc. unfold matches_sym. rewrite in_set_rep by exact H. destruct neg; [|reflexivity]. f_equal.
  destruct (rep_spec B c) as (Ha & _). unfold max_char. apply bool_ext. rewrite !andb_true_iff, !Z.leb_le. lia.
Qed.
Lemma node_at_in B A q : atn_in B A = true -> forallb (trans_in B) (n_trans (node_at A q)) = true.
Proof.
  unfold atn_in, node_at. rewrite forallb_forall. intros H.
  destruct (nth_in_or_default (Z.to_nat q) (a_nodes A) (Node 0 (-1) false [])) as [Hin| ->]; [apply H; exact Hin|reflexivity].
Qed.
Lemma reach_trans_rep B A c : (c <= 1114111)%N -> forall ts x reached cs skip, forallb (trans_in B) ts = true ->
  reach_trans A x (Z.of_N (rep B c)) reached ts cs skip = reach_trans A x (Z.of_N c) reached ts cs skip.
Proof.
  intros Hc ts. induction ts as [|t ts IH]; intros x reached cs skip; cbn [forallb reach_trans]; [reflexivity|].
  rewrite andb_true_iff. intros [H1 H2]. destruct t; cbn [reach_trans]; try (apply IH; exact H2).
  cbn in H1. rewrite matches_sym_rep by assumption. destruct (matches_sym neg l (Z.of_N c)); [|apply IH; exact H2].
  destruct (closure A depth (move A x to) cs reached) as [[cs' r]|]; [apply IH; exact H2|reflexivity].
Qed.
Lemma reach_rep B A c l : atn_in B A = true -> (c <= 1114111)%N -> reach A l (Z.of_N (rep B c)) = reach A l (Z.of_N c).
Proof.
  intros HA Hc. unfold reach. generalize (@nil config) as cs, 0%nat as skip. induction l as [|x l IH]; intros cs skip; cbn [reach_from]; [reflexivity|].
  destruct (Nat.eqb (c_alt x) skip && c_ng x); [apply IH|]. rewrite reach_trans_rep by (auto using node_at_in).
  destruct (reach_trans A x (Z.of_N c) (Nat.eqb (c_alt x) skip) (n_trans (node_at A (c_state x))) cs skip) as [[cs' skip']|]; [apply IH|reflexivity].
Qed.

(** *** The table *)
Definition entry := (list config * list (tt * re))%type.
Definition rule_eqb (a b : tt * re) : bool := tt_eqb (fst a) (fst b) && re_eqb (snd a) (snd b).
Lemma rule_eqb_eq a b : rule_eqb a b = true -> a = b.
Proof. unfold rule_eqb. rewrite andb_true_iff, tt_eqb_eq. intros [H1 H2]. apply re_eqb_eq in H2. destruct a, b; cbn in *; congruence. Qed.
Definition entry_eqb (a b : entry) : bool := list_eqb config_eqb (fst a) (fst b) && list_eqb rule_eqb (snd a) (snd b).
Lemma entry_eqb_eq a b : entry_eqb a b = true -> a = b.
Proof.
  unfold entry_eqb. rewrite andb_true_iff. intros [H1 H2]. apply (list_eqb_eq _ config_eqb_eq) in H1. apply (list_eqb_eq _ rule_eqb_eq) in H2.
  destruct a, b; cbn in *; congruence.
Qed.

(** Successors of an entry; [None] if the two sides disagree on whether there is one. *)
Definition succ (A : atn) (c : N) (e : entry) : option (list entry) :=
  match reach A (fst e) (Z.of_N c), nstep c (snd e) with
  | Some [], [] => Some []
  | Some (x :: l), p :: rs => Some [(x :: l, p :: rs)]
  | _, _ => None
  end.
Definition mem (e : entry) (l : list entry) : bool := existsb (entry_eqb e) l.
Definition fresh (es : list entry) (seen : list entry) : list entry :=
  fold_left (fun acc e => if mem e acc || mem e seen then acc else e :: acc) es [].
Fixpoint explore (A : atn) (B : list N) (fuel : nat) (todo seen : list entry) : list entry :=
  match fuel, todo with
  | S f, e :: todo' =>
      if mem e seen then explore A B f todo' seen
      else let next := flat_map (fun c => match succ A c e with Some l => l | None => [] end) B in
           explore A B f (fresh next seen ++ todo') (e :: seen)
  | _, _ => seen
  end.
(** A rule that can still be completed. *)
Fixpoint inhabited (B : list N) (r : re) : bool :=
  match r with
  | Emp => false | Eps => true | Chr cs => existsb (fun c => cmem c cs) B
  | Cat a b => inhabited B a && inhabited B b | Alt a b => inhabited B a || inhabited B b | Star _ => true
  end.
Lemma inhabited_matches B r : inhabited B r = true -> exists u, matches r u.
Proof.
  induction r as [| |cs|a IHa b IHb|a IHa b IHb|a IHa]; cbn.
  - discriminate.
  - intros _. exists []. constructor.
  - intros H. apply existsb_exists in H as (c & _ & H). exists [c]. constructor. exact H.
  - rewrite andb_true_iff. intros [H1 H2]. destruct (IHa H1) as [u Hu], (IHb H2) as [v Hv]. exists (u ++ v)%list. constructor; assumption.
  - rewrite orb_true_iff. intros [H|H]; [destruct (IHa H) as [u Hu]|destruct (IHb H) as [u Hu]]; exists u; [apply m_altl|apply m_altr]; exact Hu.
  - intros _. exists []. constructor.
Qed.
Definition same_accept (A : atn) (e : entry) : bool :=
  match accept_of A (fst e), first_nullable (snd e) with
  | None, None => true
  | Some (k, acts), Some t => (k =? Z.of_nat (tt_num t)) && (channel_of A acts =? if hidden t then 1 else 0)
  | _, _ => false
  end.
Definition good (A : atn) (B : list N) (T : list entry) (e : entry) : bool :=
  rules_in B (snd e) && same_accept A e && forallb (fun p => inhabited B (snd p)) (snd e)
  && forallb (fun c => match succ A c e with Some l => forallb (fun e' => mem e' T) l | None => false end) B.
Definition table_ok (A : atn) (B : list N) (T : list entry) : bool := forallb (good A B T) T && atn_in B A && inN B 0.

Fixpoint re_bounds (r : re) : list N :=
  match r with
  | Emp | Eps => []
  | Chr (CIn l) | Chr (CNot l) => flat_map (fun r => [fst r; snd r + 1]%N) l
  | Cat a b | Alt a b => re_bounds a ++ re_bounds b
  | Star a => re_bounds a
  end.
Definition bounds (A : atn) (rs : list (tt * re)) : list N :=
  nodup N.eq_dec (0%N :: flat_map (fun p => re_bounds (snd p)) rs
    ++ flat_map (fun n => flat_map (fun t => match t with TSet _ l _ => flat_map (fun r => [Z.to_N (fst r); Z.to_N (snd r) + 1]%N) l | _ => [] end) (n_trans n)) (a_nodes A)).
Definition B0 : list N := Eval vm_compute in bounds lexer_atn lex_rules.
Definition init0 : list config := Eval vm_compute in match start_configs lexer_atn with Some l => l | None => [] end.
Lemma init0_is : start_configs lexer_atn = Some init0. Proof. vm_compute. reflexivity. Qed.

Lemma table_checked :
  (let T := explore lexer_atn B0 (Nat.pow 2 15) [(init0, lex_rules)] [] in table_ok lexer_atn B0 T && mem (init0, lex_rules) T) = true.
Proof. vm_cast_no_check (eq_refl true). Qed.
Lemma table_exists : exists T, table_ok lexer_atn B0 T = true /\ mem (init0, lex_rules) T = true.
Proof. eexists. apply andb_true_iff. exact table_checked. Qed.

