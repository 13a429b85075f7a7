(** The regular expressions of LexRules.v denote exactly the shapes of LexSpec.v. *)
From Verif Require Import Regex RegexProof LexRules LexSpec.
Local Open Scope N_scope.

Lemma cmem_letter c : cmem c c_letter = is_letter c.
Proof. unfold cmem, c_letter, is_letter, in_range; cbn [existsb fst snd]. rewrite orb_false_r. reflexivity. Qed.

Lemma bool_ext (a b : bool) : (a = true <-> b = true) -> a = b.
Proof. destruct a, b; intuition congruence. Qed.

Ltac bdec := repeat rewrite ?orb_true_iff, ?andb_true_iff, ?negb_true_iff, ?orb_false_iff, ?andb_false_iff,
  ?N.leb_le, ?N.eqb_eq, ?N.leb_gt, ?N.eqb_neq, ?orb_false_r.

Lemma cmem_word c : cmem c c_word = is_wordch c.
Proof.
  apply bool_ext. unfold cmem, c_word, is_wordch, is_letter, is_digit, in_range; cbn [existsb fst snd].
  bdec. lia.
Qed.

Lemma cmem_digit c : cmem c c_digit = is_digit c.
Proof. unfold cmem, c_digit, is_digit, in_range; cbn [existsb fst snd]. rewrite orb_false_r; reflexivity. Qed.

Lemma cmem_wsnl c : cmem c c_wsnl = is_wsnl c.
Proof.
  apply bool_ext. unfold cmem, c_wsnl, is_wsnl, is_blank, is_nl, in_range; cbn [existsb fst snd]. bdec. lia.
Qed.

Lemma cmem_sql c : cmem c c_sql = true <-> c <> 59 /\ c <> 125.
Proof. unfold cmem, c_sql, in_range; cbn [existsb fst snd]. bdec. lia. Qed.

Lemma cmem_any c : cmem c (CNot []) = true.
Proof. reflexivity. Qed.

Lemma Forall_iff {A} (P Q : A -> Prop) l : (forall x, P x <-> Q x) -> (Forall P l <-> Forall Q l).
Proof. intros H; split; intros HF; eapply Forall_impl; try exact HF; intros a; apply H. Qed.

Lemma shape_ident s : matches r_ident s <-> ident s.
Proof.
  unfold r_ident, ident. rewrite matches_cat. split.
  - intros (u & v & -> & Hu & Hv). apply matches_chr in Hu as (c & -> & Hc).
    apply matches_star_chr in Hv. exists c, v. repeat split.
    + rewrite <- cmem_letter; exact Hc.
    + eapply Forall_impl; [|exact Hv]. intros a; cbn beta. rewrite cmem_word; auto.
  - intros (c & w & -> & Hc & Hw). exists [c], w. repeat split.
    + apply matches_chr. exists c; rewrite cmem_letter; auto.
    + apply matches_star_chr. eapply Forall_impl; [|exact Hw]. intros a; cbn beta. rewrite cmem_word; auto.
Qed.

Lemma shape_sigil k s : matches (Cat (ch k) r_ident) s <-> exists w, s = [k] ++ w /\ ident w.
Proof.
  rewrite matches_cat. split.
  - intros (u & v & -> & Hu & Hv). apply matches_ch in Hu. subst u. exists v. split; [reflexivity|]. apply shape_ident; exact Hv.
  - intros (w & -> & Hw). exists [k], w. repeat split; [apply matches_ch; reflexivity|apply shape_ident; exact Hw].
Qed.

(** Case-insensitive words. *)
Lemma matches_ci l s : 97 <= l <= 122 -> (matches (ci (l - 32) l) s <-> exists c, s = [c] /\ lower1 c = l).
Proof.
  intros Hl. unfold ci. rewrite matches_chr.
  assert (HH : forall c, cmem c (CIn [(l - 32, l - 32); (l, l)]) = true <-> lower1 c = l).
  { intros c. unfold cmem, in_range, lower1; cbn [existsb fst snd]. bdec.
    destruct ((65 <=? c) && (c <=? 90)) eqn:E.
    - apply andb_true_iff in E. rewrite !N.leb_le in E. lia.
    - apply andb_false_iff in E. rewrite !N.leb_gt in E. lia. }
  split; intros (c & -> & Hc); exists c; split; auto; apply HH; exact Hc.
Qed.

Fixpoint ciw (s : str) : re :=
  match s with [] => Eps | [l] => ci (l - 32) l | l :: s' => cat (ci (l - 32) l) (ciw s') end.

Lemma matches_ciw w s : w <> [] -> Forall (fun l => 97 <= l <= 122) w -> (matches (ciw w) s <-> lower s = w).
Proof.
  revert s. induction w as [|l w IH]; intros s Hn HF; [congruence|].
  inversion HF as [|x y Hl Hw]; subst.
  destruct w as [|l' w].
  - cbn [ciw]. rewrite matches_ci by exact Hl. unfold lower. split.
    + intros (c & -> & Hc). cbn. congruence.
    + intros H. destruct s as [|c [|d s]]; try discriminate. injection H as H. eauto.
  - change (ciw (l :: l' :: w)) with (cat (ci (l - 32) l) (ciw (l' :: w))).
    rewrite cat_correct, matches_cat. split.
    + intros (u & v & -> & Hu & Hv). apply matches_ci in Hu as (c & -> & Hc); [|exact Hl].
      apply IH in Hv; [|discriminate|exact Hw]. unfold lower in *. cbn [map app]. rewrite Hv. congruence.
    + intros H. destruct s as [|c s]; [discriminate|]. injection H as Hc Hs.
      exists [c], s. repeat split.
      * apply matches_ci; eauto.
      * apply IH; [discriminate|exact Hw|exact Hs].
Qed.

Lemma shape_select s : matches r_select s <-> lower s = lit "select".
Proof. apply (matches_ciw (lit "select")); [discriminate|cbn; repeat constructor; lia]. Qed.
Lemma shape_insert s : matches r_insert s <-> lower s = lit "insert".
Proof. apply (matches_ciw (lit "insert")); [discriminate|cbn; repeat constructor; lia]. Qed.
Lemma shape_update s : matches r_update s <-> lower s = lit "update".
Proof. apply (matches_ciw (lit "update")); [discriminate|cbn; repeat constructor; lia]. Qed.
Lemma shape_delete s : matches r_delete s <-> lower s = lit "delete".
Proof. apply (matches_ciw (lit "delete")); [discriminate|cbn; repeat constructor; lia]. Qed.
Lemma shape_with s : matches r_with s <-> lower s = lit "with".
Proof. apply (matches_ciw (lit "with")); [discriminate|cbn; repeat constructor; lia]. Qed.

Lemma shape_sqlkw s : matches r_sqlkw s <-> sqlkw s.
Proof.
  unfold r_sqlkw, sqlkw, sql_words. rewrite !matches_alt, shape_select, shape_insert, shape_update, shape_delete, shape_with.
  cbn [In]. intuition auto.
Qed.

Lemma Forall_snoc {A} (P : A -> Prop) l x : Forall P (l ++ [x]) <-> Forall P l /\ P x.
Proof. rewrite Forall_app. split; intros [H1 H2]; split; auto. inversion H2; assumption. Qed.

Lemma is_wsnl_sql c : is_wsnl c = true -> c <> 59 /\ c <> 125.
Proof. unfold is_wsnl, is_blank, is_nl. bdec. lia. Qed.

Lemma shape_sqlstmt s : matches r_sqlstmt s <->
  exists k c d r, s = k ++ c :: d :: r /\ sqlkw k /\ is_wsnl c = true
                  /\ Forall (fun x => x <> 59 /\ x <> 125) (d :: r).
Proof.
  unfold r_sqlstmt. rewrite matches_cat. split.
  - intros (k & v & -> & Hk & Hv). apply shape_sqlkw in Hk. apply matches_cat in Hv as (g & q & -> & Hg & Hq).
    apply matches_plus_chr in Hg as [Hgn Hg]. apply matches_plus_chr in Hq as [Hqn Hq].
    destruct g as [|c g]; [congruence|]. inversion Hg as [|c' g' Hc Hg']; subst.
    assert (HF : Forall (fun x => x <> 59 /\ x <> 125) (g ++ q)).
    { apply Forall_app; split.
      - eapply Forall_impl; [|exact Hg']. intros a; cbn beta. rewrite cmem_wsnl. apply is_wsnl_sql.
      - eapply Forall_impl; [|exact Hq]. intros a; apply cmem_sql. }
    destruct (g ++ q) as [|d r] eqn:E.
    { apply app_eq_nil in E as [_ ->]; congruence. }
    exists k, c, d, r. repeat split; auto.
    + cbn [app]. rewrite E. reflexivity.
    + rewrite <- cmem_wsnl; exact Hc.
  - intros (k & c & d & r & -> & Hk & Hc & HF). exists k, (c :: d :: r). repeat split; [apply shape_sqlkw; exact Hk|].
    apply matches_cat. exists [c], (d :: r). repeat split.
    + apply matches_plus_chr. split; [discriminate|]. constructor; [|constructor]. rewrite cmem_wsnl; exact Hc.
    + apply matches_plus_chr. split; [discriminate|]. eapply Forall_impl; [|exact HF]. intros a; apply cmem_sql.
Qed.

Lemma shape_strbody b : matches (Star r_strchar) b <-> strbody b.
Proof.
  split.
  - intros H. remember (length b) as n eqn:En. revert b En H.
    induction n as [n IH] using lt_wf_ind. intros b En H.
    destruct b as [|c b]; [constructor|].
    apply star_cons in H as (u & v & -> & Hu & Hv).
    assert (HL : strbody v).
    { eapply IH; [|reflexivity|exact Hv]. subst n. cbn. rewrite app_length. lia. }
    apply matches_alt in Hu as [Hu|Hu].
    + apply matches_chr in Hu as (x & E & Hx). injection E as -> ->. cbn [app].
      unfold c_strch, cmem, in_range in Hx; cbn [existsb fst snd] in Hx. revert Hx; bdec; intros Hx.
      constructor; try assumption; lia.
    + apply matches_cat in Hu as (a & d & E & Ha & Hd). apply matches_ch in Ha. subst a.
      apply matches_chr in Hd as (x & -> & _). injection E as -> ->. cbn [app]. constructor; exact HL.
  - intros H. induction H as [|c s H1 H2 H3 H4 Hs IH|c s Hs IH].
    + constructor.
    + change (c :: s) with ([c] ++ s). constructor; [|exact IH]. apply matches_alt; left. apply matches_chr.
      exists c. split; [reflexivity|]. unfold c_strch, cmem, in_range; cbn [existsb fst snd]. bdec. lia.
    + change (92 :: c :: s) with ([92; c] ++ s). constructor; [|exact IH]. apply matches_alt; right.
      apply matches_cat. exists [92], [c]. repeat split; [apply matches_ch; reflexivity|].
      apply matches_chr. exists c; auto.
Qed.

Lemma shape_string s : matches r_string s <-> exists b, s = lit "'" ++ b ++ lit "'" /\ strbody b.
Proof.
  unfold r_string. rewrite matches_cat. split.
  - intros (u & v & -> & Hu & Hv). apply matches_ch in Hu. subst u.
    apply matches_cat in Hv as (b & q & -> & Hb & Hq). apply matches_ch in Hq. subst q.
    exists b. split; [reflexivity|]. apply shape_strbody; exact Hb.
  - intros (b & -> & Hb). exists [39], (b ++ [39]). repeat split; [apply matches_ch; reflexivity|].
    apply matches_cat. exists b, [39]. repeat split; [apply shape_strbody; exact Hb|apply matches_ch; reflexivity].
Qed.

(** Block comments. [nocl x] : x ++ "/" does not ... ; the body as a regular language. *)
Definition r_body : re := Star (Alt (Chr c_nstar) (Cat (ch 42) (Cat (Star (ch 42)) (Chr c_nstarslash)))).
Definition r_tail : re := Cat r_body (Cat (ch 42) (Cat (Star (ch 42)) (ch 47))).

(** Scanner view: reading the text after the opening, does the first "*/" end it? *)
Fixpoint closes (s : str) : bool :=
  match s with
  | [] => false
  | c :: s' =>
      if (c =? 42) && match s' with d :: _ => d =? 47 | [] => false end
      then match s' with [_] => true | _ => false end
      else closes s'
  end.

Lemma closes_spec s : closes s = true <->
  exists b, s = b ++ lit "*/" /\ (forall x y, b ++ lit "*/" = x ++ lit "*/" ++ y -> y = []).
Proof.
  change (lit "*/") with [42; 47].
  split.
  - induction s as [|c s IH]; cbn [closes]; [discriminate|].
    destruct ((c =? 42) && _) eqn:E.
    + apply andb_true_iff in E as [E1 E2]. apply N.eqb_eq in E1. subst c.
      destruct s as [|d [|e s]]; try discriminate. apply N.eqb_eq in E2. subst d. intros _.
      exists []. split; [reflexivity|]. intros [|p [|q x]] y H; cbn in H.
      * injection H as H; symmetry; exact H.
      * discriminate.
      * injection H as _ _ H. destruct x; discriminate.
    + intros H. destruct (IH H) as (b & -> & Hb). exists (c :: b). split; [reflexivity|].
      intros x y Hxy. destruct x as [|p x].
      * cbn in Hxy. exfalso. apply andb_false_iff in E.
        destruct b as [|b0 b]; cbn in Hxy; injection Hxy as Ec Hr.
        -- destruct y; discriminate.
        -- subst. cbn in E. destruct E; congruence.
      * injection Hxy as <- Hxy. exact (Hb _ _ Hxy).
  - intros (b & -> & Hb). induction b as [|c b IH]; [reflexivity|].
    cbn [app closes]. destruct ((c =? 42) && _) eqn:E.
    + exfalso. apply andb_true_iff in E as [E1 E2]. apply N.eqb_eq in E1. subst c.
      destruct b as [|d b]; cbn [app] in *.
      * apply N.eqb_eq in E2; discriminate.
      * apply N.eqb_eq in E2. subst d. specialize (Hb [] (b ++ [42; 47]) eq_refl).
        destruct b; discriminate.
    + apply IH. intros x y H. apply (Hb (c :: x) y). cbn. rewrite H. reflexivity.
Qed.

Lemma closes_stars n : closes (repeat 42 n ++ [42; 47]) = true.
Proof.
  induction n as [|n IH]; [reflexivity|]. cbn [repeat app closes].
  destruct n as [|n]; [reflexivity|]. cbn [repeat app] in *. cbn [N.eqb andb]. exact IH.
Qed.

Lemma matches_stars s : matches (Star (ch 42)) s <-> exists n, s = repeat 42 n.
Proof.
  unfold ch. rewrite matches_star_chr. split.
  - intros H. exists (length s). induction H as [|x l Hx Hl IH]; [reflexivity|]. cbn.
    cbn in Hx. unfold in_range in Hx; cbn in Hx. revert Hx; bdec; intros Hx. rewrite <- IH. f_equal. lia.
  - intros [n ->]. induction n; constructor; auto.
Qed.

Lemma tail_a c s : c <> 42 -> matches r_tail s -> matches r_tail (c :: s).
Proof.
  intros Hc H. unfold r_tail in *. apply matches_cat in H as (u & v & -> & Hu & Hv).
  change (c :: u ++ v) with ((c :: u) ++ v). constructor; [|exact Hv].
  apply star_cons. exists [], u. repeat split; [|exact Hu]. apply matches_alt; left. apply matches_chr.
  exists c; split; [reflexivity|]. unfold c_nstar, cmem, in_range; cbn [existsb fst snd]. bdec. lia.
Qed.

Lemma tail_b s : matches r_tail (42 :: s) -> matches r_tail (42 :: 42 :: s).
Proof.
  intros H. unfold r_tail in *. apply matches_cat in H as (u & v & E & Hu & Hv).
  destruct u as [|c u].
  - cbn in E. subst v. apply matches_cat. exists [], (42 :: 42 :: s). repeat split; [constructor|].
    apply matches_cat in Hv as (a & w & E & Ha & Hw). apply matches_ch in Ha. subst a. injection E as ->.
    apply matches_cat in Hw as (b & z & -> & Hb & Hz). apply matches_stars in Hb as [n ->].
    apply matches_cat. exists [42], (repeat 42 (S n) ++ z). repeat split; [apply matches_ch; reflexivity|].
    apply matches_cat. exists (repeat 42 (S n)), z. repeat split; [apply matches_stars; eauto|exact Hz].
  - injection E as <- ->. change (42 :: 42 :: u ++ v) with ((42 :: 42 :: u) ++ v). constructor; [|exact Hv].
    apply star_cons in Hu as (p & q & -> & Hp & Hq).
    apply star_cons. exists (42 :: p), q. repeat split; [|exact Hq].
    apply matches_alt in Hp as [Hp|Hp]; apply matches_alt; right.
    + apply matches_chr in Hp as (x & E & Hx). injection E as <- _. discriminate.
    + apply matches_cat in Hp as (a & w & E & Ha & Hw). apply matches_ch in Ha. subst a. injection E as ->.
      apply matches_cat in Hw as (b & z & -> & Hb & Hz). apply matches_stars in Hb as [n ->].
      apply matches_cat. exists [42], (repeat 42 (S n) ++ z). repeat split; [apply matches_ch; reflexivity|].
      apply matches_cat. exists (repeat 42 (S n)), z. repeat split; [apply matches_stars; eauto|exact Hz].
Qed.

Lemma tail_c x s : x <> 42 -> x <> 47 -> matches r_tail s -> matches r_tail (42 :: x :: s).
Proof.
  intros H1 H2 H. unfold r_tail in *. apply matches_cat in H as (u & v & -> & Hu & Hv).
  change (42 :: x :: u ++ v) with ((42 :: x :: u) ++ v). constructor; [|exact Hv].
  apply star_cons. exists [x], u. repeat split; [|exact Hu]. apply matches_alt; right.
  apply matches_cat. exists [42], [x]. repeat split; [apply matches_ch; reflexivity|].
  apply matches_cat. exists [], [x]. repeat split; [constructor|]. apply matches_chr.
  exists x; split; [reflexivity|]. unfold c_nstarslash, cmem, in_range; cbn [existsb fst snd]. bdec. lia.
Qed.

Lemma tail_d : matches r_tail [42; 47].
Proof.
  unfold r_tail. apply matches_cat. exists [], [42; 47]. repeat split; [constructor|].
  apply matches_cat. exists [42], [47]. repeat split; [apply matches_ch; reflexivity|].
  apply matches_cat. exists [], [47]. repeat split; [constructor|apply matches_ch; reflexivity].
Qed.

Lemma matches_tail_closes s : matches r_tail s <-> closes s = true.
Proof.
  split.
  - unfold r_tail. rewrite matches_cat. intros (u & v & -> & Hu & Hv).
    assert (Hc : closes v = true).
    { apply matches_cat in Hv as (a & w & -> & Ha & Hw). apply matches_ch in Ha. subst a.
      apply matches_cat in Hw as (b & z & -> & Hb & Hz). apply matches_ch in Hz. subst z.
      apply matches_stars in Hb as [n ->].
      replace ([42] ++ repeat 42 n ++ [47]) with (repeat 42 n ++ [42; 47]).
      { apply closes_stars. }
      clear. induction n as [|n IH]; [reflexivity|]. cbn in *. f_equal. exact IH. }
    clear Hv. remember (length u) as n eqn:En. revert u En Hu.
    induction n as [n IH] using lt_wf_ind. intros u En Hu.
    destruct u as [|c u]; [exact Hc|].
    apply star_cons in Hu as (p & q & -> & Hp & Hq).
    assert (HL : closes (q ++ v) = true).
    { eapply IH; [|reflexivity|exact Hq]. subst n. cbn. rewrite app_length; lia. }
    clear IH.
    apply matches_alt in Hp as [Hp|Hp].
    + apply matches_chr in Hp as (x & E & Hx). injection E as -> ->. cbn [app closes].
      unfold c_nstar, cmem, in_range in Hx; cbn [existsb fst snd] in Hx. revert Hx; bdec; intros Hx.
      destruct (x =? 42) eqn:Ex; [apply N.eqb_eq in Ex; lia|]. cbn [andb]. exact HL.
    + apply matches_cat in Hp as (a & w & E & Ha & Hw). apply matches_ch in Ha. subst a. injection E as -> ->.
      apply matches_cat in Hw as (b & z & -> & Hb & Hz). apply matches_stars in Hb as [k ->].
      apply matches_chr in Hz as (x & -> & Hx).
      unfold c_nstarslash, cmem, in_range in Hx; cbn [existsb fst snd] in Hx. revert Hx; bdec; intros Hx.
      assert (H1 : closes (x :: q ++ v) = true).
      { cbn [closes]. destruct (x =? 42) eqn:Ex; [apply N.eqb_eq in Ex; lia|]. exact HL. }
      clear HL Hc Hq En. induction k as [|k IHk].
      * cbn [repeat app closes]. destruct (x =? 47) eqn:Ex; [apply N.eqb_eq in Ex; lia|]. cbn [andb]. rewrite andb_false_r. exact H1.
      * cbn [repeat app] in *. cbn [closes] in *. cbn [N.eqb Pos.eqb andb] in *. exact IHk.
  - remember (length s) as n eqn:En. revert s En.
    induction n as [n IH] using lt_wf_ind. intros s En Hc.
    destruct s as [|c s]; [discriminate|]. cbn [closes] in Hc.
    destruct (N.eqb_spec c 42) as [->|Hne].
    + cbn [andb] in Hc. destruct s as [|d s]; [discriminate|].
      destruct (N.eqb_spec d 47) as [->|Hd].
      * destruct s; [exact tail_d|discriminate].
      * destruct (N.eq_dec d 42) as [->|Hd2].
        -- apply tail_b. eapply IH; [|reflexivity|exact Hc]. subst n; cbn; lia.
        -- apply tail_c; auto. eapply IH; [|reflexivity|]; [subst n; cbn; lia|].
           cbn [closes] in Hc. apply N.eqb_neq in Hd2. rewrite Hd2 in Hc. exact Hc.
    + apply tail_a; auto. eapply IH; [|reflexivity|exact Hc]. subst n; cbn; lia.
Qed.

Lemma shape_block s : matches r_block s <->
  exists b, s = lit "/*" ++ b ++ lit "*/" /\ (forall x y, b ++ lit "*/" = x ++ lit "*/" ++ y -> y = []).
Proof.
  unfold r_block. fold r_body. fold r_tail. rewrite matches_cat. split.
  - intros (u & v & -> & Hu & Hv). apply matches_ch in Hu. subst u.
    apply matches_cat in Hv as (p & q & -> & Hp & Hq). apply matches_ch in Hp. subst p.
    apply matches_tail_closes, closes_spec in Hq as (b & -> & Hb). exists b. split; [reflexivity|exact Hb].
  - intros (b & -> & Hb). exists [47], (42 :: b ++ lit "*/"). repeat split; [apply matches_ch; reflexivity|].
    apply matches_cat. exists [42], (b ++ lit "*/"). repeat split; [apply matches_ch; reflexivity|].
    apply matches_tail_closes, closes_spec. exists b. auto.
Qed.

Lemma shape_line s : matches r_line s <-> exists b, s = lit "//" ++ b /\ Forall (fun x => x <> 10 /\ x <> 13) b.
Proof.
  assert (HH : forall b, matches (Star (Chr (CNot [(10, 10); (13, 13)]))) b <-> Forall (fun x => x <> 10 /\ x <> 13) b).
  { intros b. rewrite matches_star_chr. apply Forall_iff. intros x.
    unfold cmem, in_range; cbn [existsb fst snd]. bdec. lia. }
  unfold r_line. rewrite matches_cat. split.
  - intros (u & v & -> & Hu & Hv). apply matches_ch in Hu. subst u.
    apply matches_cat in Hv as (p & q & -> & Hp & Hq). apply matches_ch in Hp. subst p.
    exists q. split; [reflexivity|]. apply HH; exact Hq.
  - intros (b & -> & Hb). exists [47], (47 :: b). repeat split; [apply matches_ch; reflexivity|].
    apply matches_cat. exists [47], b. repeat split; [apply matches_ch; reflexivity|apply HH; exact Hb].
Qed.

Lemma shape_two a b s : a <> b -> (matches (Chr (CIn [(a, a); (b, b)])) s <-> s = [a] \/ s = [b]).
Proof.
  intros Hab. rewrite matches_chr. split.
  - intros (c & -> & Hc). unfold cmem, in_range in Hc; cbn [existsb fst snd] in Hc. revert Hc; bdec; intros Hc.
    assert (c = a \/ c = b) as [->| ->] by lia; auto.
  - intros [->| ->]; [exists a|exists b]; split; auto; unfold cmem, in_range; cbn [existsb fst snd]; bdec; lia.
Qed.

Theorem rule_shape t s : matches (rule_of t) s <-> token_shape t s.
Proof.
  unfold rule_of, token_shape. destruct (literal_of t) as [w|] eqn:E; [apply matches_word|].
  destruct t; try discriminate E.
  - apply shape_select. - apply shape_insert. - apply shape_update. - apply shape_delete. - apply shape_with.
  - apply shape_ident. - apply shape_sigil. - apply shape_sigil. - apply shape_sigil.
  - unfold r_number. rewrite matches_plus_chr. apply and_iff_compat_l. apply Forall_iff. intros x; rewrite cmem_digit; tauto.
  - apply shape_string. - apply shape_sqlkw. - apply shape_sqlstmt.
  - apply shape_two; discriminate. - apply shape_two; discriminate.
  - apply shape_block. - apply shape_line.
Qed.

Lemma shape_nonempty t s : token_shape t s -> s <> [].
Proof.
  intros H ->. apply rule_shape in H. apply nullable_correct in H. revert H. destruct t; vm_compute; discriminate.
Qed.
