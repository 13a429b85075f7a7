(** filepath.Base, Ext, Clean and Join against the specification. *)
From Verif Require Import Str Path PathSpec.
Local Open Scope N_scope.

(** ** Elements *)
Lemma split_parts s : parts s (split_slash s).
Proof.
  induction s as [|c r IH]; [apply pa_one; intros []|]. cbn [split_slash]. destruct (N.eqb_spec c slash) as [->|Hc].
  - apply (pa_more [] r); [intros []|exact IH].
  - destruct (split_slash r) as [|p l]; [inversion IH|]. inversion IH as [p' Hp E|p' q l' Hp Hq E]; subst.
    + apply pa_one. intros [Hi|Hi]; [apply Hc; exact Hi|exact (Hp Hi)].
    + apply (pa_more (c :: p)); [|exact Hq]. intros [Hi|Hi]; [apply Hc; exact Hi|exact (Hp Hi)].
Qed.
Lemma parts_fun s l l' : parts s l -> parts s l' -> l = l'.
Proof.
  intros H; revert l'. assert (HS : forall p q x y, ~ In 47 p -> ~ In 47 q -> p ++ 47 :: x = q ++ 47 :: y -> p = q /\ x = y).
  { clear. induction p as [|a p IH]; intros [|b q] x y Hp Hq E.
    - injection E as ->. auto.
    - injection E as <- _. exfalso. apply Hq. left; reflexivity.
    - injection E as -> _. exfalso. apply Hp. left; reflexivity.
    - injection E as -> E. destruct (IH q x y) as [-> ->]; auto; intros H; [apply Hp|apply Hq]; right; exact H. }
  induction H as [p Hp|p q l Hp Hq IH]; intros l' H'; inversion H' as [p' Hp' E|p' q' l2 Hp' Hq' E]; subst.
  - reflexivity.
  - exfalso. apply Hp. apply in_or_app. right; left; reflexivity.
  - exfalso. apply Hp'. apply in_or_app. right; left; reflexivity.
  - destruct (HS _ _ _ _ Hp' Hp E) as [-> ->]. f_equal. apply IH; exact Hq'.
Qed.
Lemma split_none p : ~ In 47 p -> split_slash p = [p].
Proof. intros H. eapply parts_fun; [apply split_parts|apply pa_one; exact H]. Qed.
Lemma split_app d f : ~ In 47 f -> split_slash (d ++ slash :: f) = split_slash d ++ [f].
Proof.
  intros Hf. induction d as [|c d IH]; [cbn; rewrite split_none by exact Hf; reflexivity|]. cbn [app split_slash]. rewrite IH.
  destruct (c =? slash); [reflexivity|]. pose proof (split_parts d) as HP. destruct (split_slash d); [inversion HP|reflexivity].
Qed.
Lemma split_join l : l <> [] -> Forall (fun p => ~ In 47 p) l -> split_slash (join_slash l) = l.
Proof.
  intros Hl HF. eapply parts_fun; [apply split_parts|]. induction HF as [|p l Hp HF IH]; [congruence|]. destruct l as [|q l]; [apply pa_one; exact Hp|].
  apply (pa_more p); [exact Hp|apply IH; discriminate].
Qed.
Lemma rooted_iff s : is_rooted s = true <-> rooted s.
Proof.
  unfold rooted. destruct s as [|c r]; cbn; [split; [discriminate|intros (x & E); discriminate]|]. rewrite N.eqb_eq. split.
  - intros ->. exists r. reflexivity.
  - intros (x & E). injection E as -> _. reflexivity.
Qed.

(** ** Walking *)
Definition step (b : bool) (st : nat * list (list N)) (p : list N) : nat * list (list N) :=
  let (u, l) := st in
  if str_eqb p [] || str_eqb p [dot] then st
  else if str_eqb p [dot; dot] then
    match l with [] => if b then st else (S u, []) | _ => (u, removelast l) end
  else (u, l ++ [p]).
Lemma step_stay b st p : p = [] \/ p = lit "." -> step b st p = st.
Proof. intros [-> | ->]; destruct st; reflexivity. Qed.
Lemma step_up b u l x : step b (u, l ++ [x]) (lit "..") = (u, l).
Proof. cbn. destruct (l ++ [x]) eqn:E; [destruct l; discriminate|]. rewrite <- E, removelast_last. reflexivity. Qed.
Lemma step_down b u l p : p <> [] -> p <> lit "." -> p <> lit ".." -> step b (u, l) p = (u, l ++ [p]).
Proof.
  intros H1 H2 H3. unfold step. apply str_eqb_neq in H1. rewrite H1. replace (str_eqb p [dot]) with false by (symmetry; apply str_eqb_neq; exact H2).
  replace (str_eqb p [dot; dot]) with false by (symmetry; apply str_eqb_neq; exact H3). reflexivity.
Qed.
Lemma walk_iff (R : Prop) b u l ps u' l' : (R <-> b = true) -> (walk R u l ps u' l' <-> fold_left (step b) ps (u, l) = (u', l')).
Proof.
  intros HR. split.
  - induction 1 as [u l|p u l r u' l' Hp H IH|x u l r u' l' H IH|u r u' l' HT H IH|u r u' l' HT H IH|p u l r u' l' N1 N2 N3 H IH]; cbn [fold_left].
    + reflexivity.
    + rewrite step_stay by exact Hp. exact IH.
    + rewrite step_up. exact IH.
    + apply HR in HT. subst b. exact IH.
    + destruct b; [exfalso; apply HT, HR; reflexivity|]. exact IH.
    + rewrite step_down by assumption. exact IH.
  - revert u l. induction ps as [|p ps IH]; intros u l; cbn [fold_left]; [intros E; injection E as -> ->; constructor|]. intros E.
    destruct (str_eq_dec p []) as [->|N1]; [apply wk_stay; [auto|apply IH; exact E]|].
    destruct (str_eq_dec p (lit ".")) as [->|N2]; [apply wk_stay; [auto|apply IH; exact E]|].
    destruct (str_eq_dec p (lit "..")) as [->|N3].
    + destruct l as [|x l] using rev_ind.
      * destruct b; [apply wk_top; [apply HR; reflexivity|apply IH; exact E]|]. apply wk_above; [intros H; apply HR in H; discriminate|apply IH; exact E].
      * rewrite step_up in E. apply wk_up. apply IH. exact E.
    + rewrite step_down in E by assumption. apply wk_down; try assumption. apply IH; exact E.
Qed.
Lemma leads_iff p R u l : leads p R u l <-> (R <-> rooted p) /\ fold_left (step (is_rooted p)) (split_slash p) (O, []) = (u, l).
Proof.
  unfold leads. assert (HR : rooted p <-> is_rooted p = true) by (symmetry; apply rooted_iff). split; intros [H1 H2]; (split; [exact H1|]).
  - destruct H2 as (ps & HP & HW). rewrite (parts_fun _ _ _ (split_parts p) HP). apply (walk_iff _ _ _ _ _ _ _ HR). exact HW.
  - exists (split_slash p). split; [apply split_parts|]. apply (walk_iff _ _ _ _ _ _ _ HR). exact H2.
Qed.
Lemma leads_fun p R u l R' u' l' : leads p R u l -> leads p R' u' l' -> (R <-> R') /\ u = u' /\ l = l'.
Proof. rewrite !leads_iff. intros [H1 E1] [H2 E2]. rewrite E1 in E2. injection E2 as -> ->. tauto. Qed.

(** ** Clean *)
Definition ordinary (p : list N) : Prop := p <> [] /\ p <> lit "." /\ p <> lit ".." /\ ~ In 47 p.
Definition stack_of (st : nat * list (list N)) : list (list N) := rev (repeat (lit "..") (fst st) ++ snd st).
Definition good_state (b : bool) (st : nat * list (list N)) : Prop := Forall ordinary (snd st) /\ (b = true -> fst st = O).
Lemma stack_snoc u l x : stack_of (u, l ++ [x]) = x :: stack_of (u, l).
Proof. unfold stack_of. cbn [fst snd]. rewrite app_assoc, rev_app_distr. reflexivity. Qed.
Lemma rev_repeat {A} (x : A) n : rev (repeat x n) = repeat x n.
Proof.
  induction n as [|n IH]; [reflexivity|]. cbn. rewrite IH. clear IH. induction n as [|n IH]; [reflexivity|]. cbn. rewrite IH. reflexivity.
Qed.
Lemma stack_nil u : stack_of (u, []) = repeat (lit "..") u.
Proof. unfold stack_of. cbn [fst snd]. rewrite app_nil_r. apply rev_repeat. Qed.
Lemma clean_step_is b st p : good_state b st -> ~ In 47 p -> clean_step b (stack_of st) p = stack_of (step b st p) /\ good_state b (step b st p).
Proof.
  intros [HF Hb] Hp. destruct st as [u l]. cbn [fst snd] in *.
  destruct (str_eq_dec p []) as [->|N1]; [split; [reflexivity|split; assumption]|].
  destruct (str_eq_dec p (lit ".")) as [->|N2]; [split; [reflexivity|split; assumption]|].
  destruct (str_eq_dec p (lit "..")) as [->|N3].
  - destruct l as [|x l] using rev_ind.
    + rewrite stack_nil. destruct u as [|u].
      * destruct b; split; try reflexivity; split; cbn; auto; discriminate.
      * destruct b; [specialize (Hb eq_refl); discriminate|]. split; [|split; [constructor|discriminate]].
        change (step false (S u, []) (lit "..")) with (S (S u), @nil (list N)). rewrite stack_nil. reflexivity.
    + clear IHl. rewrite step_up, stack_snoc. apply Forall_app in HF as [HF Hx]. inversion Hx as [|? ? (X1 & X2 & X3 & _) _]; subst. split; [|split; assumption].
      unfold clean_step. change (str_eqb (lit "..") [] || str_eqb (lit "..") [dot]) with false. change (str_eqb (lit "..") [dot; dot]) with true. cbv iota.
      replace (str_eqb x [dot; dot]) with false by (symmetry; apply str_eqb_neq; exact X3). reflexivity.
  - rewrite step_down, stack_snoc by assumption. split.
    + unfold clean_step. pose proof N1 as N1'. apply str_eqb_neq in N1'. rewrite N1'. replace (str_eqb p [dot]) with false by (symmetry; apply str_eqb_neq; exact N2).
      replace (str_eqb p [dot; dot]) with false by (symmetry; apply str_eqb_neq; exact N3). reflexivity.
    + split; [|exact Hb]. cbn. apply Forall_app. split; [exact HF|]. constructor; [split; auto|constructor].
Qed.
Lemma clean_fold b ps st : good_state b st -> Forall (fun p => ~ In 47 p) ps ->
  fold_left (clean_step b) ps (stack_of st) = stack_of (fold_left (step b) ps st) /\ good_state b (fold_left (step b) ps st).
Proof.
  intros HG HF. revert st HG. induction HF as [|p ps Hp HF IH]; intros st HG; [split; [reflexivity|exact HG]|]. cbn [fold_left].
  destruct (clean_step_is b st p HG Hp) as [-> HG']. apply IH; exact HG'.
Qed.
Lemma parts_slash s l : parts s l -> Forall (fun p => ~ In 47 p) l.
Proof. induction 1; constructor; auto. Qed.
Lemma elements_is s : exists u l, fold_left (step (is_rooted s)) (split_slash s) (O, []) = (u, l) /\ elements s = repeat (lit "..") u ++ l /\ Forall ordinary l /\ (is_rooted s = true -> u = O).
Proof.
  unfold elements. assert (HG : good_state (is_rooted s) (O, [])) by (split; [constructor|reflexivity]).
  destruct (clean_fold (is_rooted s) (split_slash s) (O, []) HG (parts_slash _ _ (split_parts s))) as [E HG']. change (stack_of (O, [])) with (@nil (list N)) in E. rewrite E.
  destruct (fold_left (step (is_rooted s)) (split_slash s) (O, [])) as [u l]. exists u, l. split; [reflexivity|]. unfold stack_of. rewrite rev_involutive. split; [reflexivity|exact HG'].
Qed.
Lemma fold_names b u l0 l : Forall ordinary l -> fold_left (step b) l (u, l0) = (u, l0 ++ l).
Proof.
  intros H. revert l0. induction H as [|p l (H1 & H2 & H3 & _) HF IH]; intros l0; [rewrite app_nil_r; reflexivity|]. cbn [fold_left]. rewrite step_down by assumption.
  rewrite IH, <- app_assoc. reflexivity.
Qed.
Lemma fold_ups u v : fold_left (step false) (repeat (lit "..") u) (v, []) = ((u + v)%nat, []).
Proof. revert v; induction u as [|u IH]; intros v; [reflexivity|]. cbn [repeat fold_left]. change (step false (v, []) (lit "..")) with (S v, @nil (list N)). rewrite IH. f_equal. lia. Qed.
Lemma clean_leads s R u l : leads s R u l -> leads (clean s) R u l.
Proof.
  rewrite !leads_iff. intros [HR E]. destruct (elements_is s) as (u' & l' & E' & EE & HF & Hu). rewrite E in E'. injection E' as <- <-.
  assert (HNS : Forall (fun p => ~ In 47 p) (elements s)).
  { rewrite EE. apply Forall_app. split; [|eapply Forall_impl; [|exact HF]; intros p Hp; apply Hp]. apply Forall_forall. intros p Hp. apply repeat_spec in Hp. subst p. cbn. intuition discriminate. }
  assert (HW : forall b, (b = true -> u = O) -> fold_left (step b) (repeat (lit "..") u ++ l) (O, []) = (u, l)).
  { intros b Hb. rewrite fold_left_app. destruct b.
    - rewrite (Hb eq_refl). cbn [repeat fold_left]. apply fold_names; exact HF.
    - rewrite fold_ups, Nat.add_0_r. apply fold_names; exact HF. }
  unfold clean. destruct (is_rooted s) eqn:ER.
  - split; [rewrite HR; split; intros _; [exists (join_slash (elements s)); reflexivity|apply rooted_iff; exact ER]|].
    change (is_rooted (slash :: join_slash (elements s))) with true. change (split_slash (slash :: join_slash (elements s))) with ([] :: split_slash (join_slash (elements s))).
    cbn [fold_left]. change (step true (O, []) []) with (O, @nil (list N)). destruct (elements s) as [|p ps] eqn:EL.
    + cbn. symmetry in EE. apply app_eq_nil in EE as [EE ->]. rewrite (Hu eq_refl). reflexivity.
    + rewrite split_join by (congruence || exact HNS). rewrite EE. apply HW. exact Hu.
  - assert (NR : ~ rooted s) by (intros X; apply rooted_iff in X; congruence). destruct (elements s) as [|p ps] eqn:EL.
    + symmetry in EE. apply app_eq_nil in EE as [EE ->]. destruct u; [|discriminate]. split; [|reflexivity]. rewrite HR. split; [tauto|intros (x & X); discriminate].
    + assert (NR' : is_rooted (join_slash (p :: ps)) = false).
      { destruct p as [|c p].
        - exfalso. destruct u; [|discriminate]. cbn in EE. subst l. inversion HF as [|? ? (X & _) _]. congruence.
        - inversion HNS as [|? ? X _]; subst. assert (Hc : c <> slash) by (intros ->; apply X; left; reflexivity). destruct ps; cbn; apply N.eqb_neq; exact Hc. }
      split; [rewrite HR; split; [tauto|intros X; apply rooted_iff in X; congruence]|]. rewrite NR', split_join by (congruence || exact HNS). rewrite EE. apply HW. discriminate.
Qed.
Theorem join_leads d f R u l : leads d R u l -> ordinary f -> leads (join d f) R u (l ++ [f]).
Proof.
  intros H (F1 & F2 & F3 & F4). unfold join. apply clean_leads. rewrite leads_iff in *. destruct H as [HR E]. destruct d as [|c d].
  - cbn in E. injection E as <- <-. assert (NR : is_rooted f = false).
    { destruct f as [|c f]; [congruence|]. cbn. apply N.eqb_neq. intros ->. apply F4. left; reflexivity. }
    split; [rewrite HR; split; intros X; apply rooted_iff in X; [discriminate|congruence]|]. rewrite NR, split_none by exact F4. cbn [fold_left]. apply step_down; assumption.
  - change ((c :: d) ++ slash :: f) with (c :: d ++ slash :: f) at 1 2. split.
    + rewrite HR, <- !rooted_iff. reflexivity.
    + change (is_rooted (c :: d ++ slash :: f)) with (is_rooted (c :: d)). change (c :: d ++ slash :: f) with ((c :: d) ++ slash :: f).
      rewrite split_app by exact F4. rewrite fold_left_app, E. cbn [fold_left]. apply step_down; assumption.
Qed.

(** ** Base and Ext *)
Lemma until_app b r : ~ In 47 b -> until_slash (b ++ 47 :: r) = b.
Proof. induction b as [|c b IH]; intros H; [reflexivity|]. cbn. destruct (N.eqb_spec c slash) as [->|_]; [exfalso; apply H; left; reflexivity|]. f_equal. apply IH. intros X; apply H; right; exact X. Qed.
Lemma until_all b : ~ In 47 b -> until_slash b = b.
Proof. induction b as [|c b IH]; intros H; [reflexivity|]. cbn. destruct (N.eqb_spec c slash) as [->|_]; [exfalso; apply H; left; reflexivity|]. f_equal. apply IH. intros X; apply H; right; exact X. Qed.
Lemma strip_app sl r : Forall (fun c => c = 47) sl -> (forall c r', r = c :: r' -> c <> 47) -> strip_slashes (sl ++ r) = r.
Proof.
  intros H Hr. induction H as [|c sl -> H IH]; cbn; [|exact IH]. destruct r as [|c r]; [reflexivity|]. cbn. destruct (N.eqb_spec c slash) as [->|_]; [exfalso; eapply Hr; reflexivity|reflexivity].
Qed.
Theorem base_last p b : last_element p b -> base p = b.
Proof.
  intros (Hb & Hs & d & sl & -> & Hsl & Hd). unfold base. destruct (d ++ b ++ sl) as [|x y] eqn:E; [apply app_eq_nil in E as [_ E]; apply app_eq_nil in E as [E _]; congruence|].
  rewrite <- E. clear x y E. rewrite !rev_app_distr, <- app_assoc, strip_app.
  - assert (HU : until_slash (rev b ++ rev d) = rev b).
    { assert (Hs' : ~ In 47 (rev b)) by (rewrite <- in_rev; exact Hs). destruct Hd as [->|(d' & ->)]; [cbn; rewrite app_nil_r; apply until_all; exact Hs'|].
      rewrite rev_app_distr. cbn [rev lit app]. apply until_app; exact Hs'. }
    rewrite HU, rev_involutive. destruct b; [congruence|reflexivity].
  - apply Forall_rev. exact Hsl.
  - intros c r' E. assert (Hs' : ~ In 47 (rev b)) by (rewrite <- in_rev; exact Hs). destruct (rev b) as [|y z] eqn:EB; [apply (f_equal (@rev N)) in EB; rewrite rev_involutive in EB; cbn in EB; congruence|].
    injection E as <- _. intros ->. apply Hs'. left; reflexivity.
Qed.
Lemma ext_none r acc : ~ In 46 r -> ext_rev r acc = [].
Proof. revert acc; induction r as [|c r IH]; intros acc H; [reflexivity|]. cbn. destruct (c =? slash); [reflexivity|]. destruct (N.eqb_spec c dot) as [->|_]; [exfalso; apply H; left; reflexivity|]. apply IH. intros X; apply H; right; exact X. Qed.
Lemma ext_some e r acc : ~ In 46 e -> ~ In 47 e -> ext_rev (e ++ 46 :: r) acc = 46 :: rev e ++ acc.
Proof.
  revert acc; induction e as [|c e IH]; intros acc H H'; [reflexivity|]. cbn. destruct (N.eqb_spec c slash) as [->|_]; [exfalso; apply H'; left; reflexivity|].
  destruct (N.eqb_spec c dot) as [->|_]; [exfalso; apply H; left; reflexivity|]. rewrite IH, <- app_assoc; [reflexivity|intros X; apply H; right; exact X|intros X; apply H'; right; exact X].
Qed.
(** Ext is a suffix of the name, so the slice in root.go 55 is in range. *)
Theorem ext_stem b n : ~ In 47 b -> stem b n -> b = n ++ ext b.
Proof.
  intros Hs [[Hd ->]|(e & -> & He)]; unfold ext.
  - rewrite ext_none by (rewrite <- in_rev; exact Hd). rewrite app_nil_r. reflexivity.
  - rewrite !rev_app_distr. cbn [rev lit app]. change (N_of_ascii ".") with 46. rewrite <- app_assoc. cbn [app].
    rewrite ext_some; [rewrite rev_involutive, app_nil_r; reflexivity|rewrite <- in_rev; exact He|]. rewrite <- in_rev. intros X. apply Hs. apply in_or_app. right. right. exact X.
Qed.
Lemma stem_exists b : exists n, stem b n.
Proof.
  destruct (in_dec N.eq_dec 46 b) as [H|H]; [|exists b; left; auto].
  assert (HX : exists n e, b = n ++ 46 :: e /\ ~ In 46 e).
  { induction b as [|c b IH]; [destruct H|]. destruct (in_dec N.eq_dec 46 b) as [Hb|Hb].
    - destruct (IH Hb) as (n & e & -> & He). exists (c :: n), e. auto.
    - destruct H as [->|H]; [|contradiction]. exists [], b. auto. }
  destruct HX as (n & e & E & He). exists n. right. exists e. auto.
Qed.
Lemma stem_fun b n n' : ~ In 47 b -> stem b n -> stem b n' -> n = n'.
Proof. intros Hs H H'. apply (ext_stem b n Hs) in H. apply (ext_stem b n' Hs) in H'. rewrite H in H' at 1. apply app_inv_tail in H'. exact H'. Qed.
