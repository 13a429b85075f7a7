(** A beginning of a JSON object's text is no JSON text. *)
From Verif Require Import Str Schema Utf8Spec Utf8 Utf8Proof JsonSpec GoJson JsonProof JsonUnique.
From Coq Require Import ZArith Lia.
Local Open Scope N_scope.

(** How deep in brackets, and whether within a string (and after a backslash). *)
Inductive mode3 := Out | In_ | Esc.
Definition step (st : mode3 * Z) (c : N) : mode3 * Z :=
  match fst st with
  | Out => if c =? 34 then (In_, snd st) else if (c =? 91) || (c =? 123) then (Out, snd st + 1)%Z else if (c =? 93) || (c =? 125) then (Out, snd st - 1)%Z else st
  | In_ => if c =? 34 then (Out, snd st) else if c =? 92 then (Esc, snd st) else st
  | Esc => (In_, snd st)
  end.
Definition scan (st : mode3 * Z) (t : list N) : mode3 * Z := fold_left step t st.
Lemma scan_app st a b : scan st (a ++ b) = scan (scan st a) b. Proof. apply fold_left_app. Qed.

(** Bytes and characters scan alike. *)
Lemma step_high m d c : 128 <= c -> step (m, d) c = (match m with Out => Out | _ => In_ end, d).
Proof.
  intros H. unfold step. cbn [fst snd]. assert (E : forall k, k < 128 -> (c =? k) = false) by (intros k Hk; apply N.eqb_neq; lia).
  destruct m; rewrite ?E by lia; reflexivity.
Qed.
Lemma scan_high t m d : t <> [] -> Forall (fun c => 128 <= c) t -> scan (m, d) t = (match m with Out => Out | _ => In_ end, d).
Proof.
  intros HN H. destruct H as [|c t Hc H]; [congruence|]. cbn [scan fold_left]. rewrite step_high by exact Hc. clear HN Hc.
  induction H as [|c' t Hc' H IH]; [reflexivity|]. cbn [fold_left]. rewrite step_high by exact Hc'. destruct m; exact IH.
Qed.
Lemma scan_reads bs rs : reads bs rs -> forall st, scan st bs = scan st rs.
Proof.
  induction 1 as [|r bs rs Hr H IH|b bs rs Hb H IH]; intros [m d]; [reflexivity| |].
  - change (r :: rs) with ([r] ++ rs). rewrite !scan_app. destruct (N.lt_ge_cases r 128) as [L|L]; [rewrite utf8_1 by exact L; apply IH|].
    rewrite (scan_high (utf8 r)), (scan_high [r]); [apply IH|discriminate|repeat constructor; exact L|destruct (utf8_cons r) as (x & y & ->); discriminate|apply utf8_high; assumption].
  - change (65533 :: rs) with ([65533] ++ rs). change (b :: bs) with ([b] ++ bs). rewrite !scan_app.
    assert (L : 128 <= b). { destruct (N.lt_ge_cases b 128) as [L|L]; [|exact L]. destruct (Hb b bs (ascii_scalar _ L)). rewrite utf8_1 by exact L. reflexivity. }
    rewrite (scan_high [b]), (scan_high [65533]); [apply IH|discriminate|repeat constructor; lia|discriminate|repeat constructor; exact L].
Qed.

(** A text that comes back to where it was and never goes below. *)
Definition keeps (t : list N) : Prop := forall d, scan (Out, d) t = (Out, d) /\ forall x y, t = x ++ y -> (d <= snd (scan (Out, d) x))%Z.
Lemma app_cut {A} (a b x y : list A) : a ++ b = x ++ y -> (exists z, a = x ++ z /\ y = z ++ b) \/ (exists z, x = a ++ z /\ b = z ++ y).
Proof.
  revert x. induction a as [|c a IH]; intros x E; [right; exists x; auto|]. destruct x as [|c' x]; [left; exists (c :: a); auto|].
  cbn in E. injection E as <- E. destruct (IH x E) as [(z & -> & ->)|(z & -> & ->)]; [left|right]; exists z; auto.
Qed.
Lemma keeps_nil : keeps [].
Proof. intros d. split; [reflexivity|]. intros [|c x] y E; [cbn; lia|discriminate]. Qed.
Lemma keeps_app a b : keeps a -> keeps b -> keeps (a ++ b).
Proof.
  intros HA HB d. destruct (HA d) as [A1 A2], (HB d) as [B1 B2]. split; [rewrite scan_app, A1; exact B1|]. intros x y E.
  apply app_cut in E as [(z & E & _)|(z & -> & E)]; [eapply A2; exact E|]. rewrite scan_app, A1. eapply B2; exact E.
Qed.
Lemma keeps_one c : ~ In c [34; 91; 123; 93; 125] -> keeps [c].
Proof.
  intros H d. assert (E : step (Out, d) c = (Out, d)).
  { unfold step. cbn [fst snd]. repeat match goal with |- context [c =? ?k] => replace (c =? k) with false by (symmetry; apply N.eqb_neq; intros ->; apply H; cbn; tauto) end. reflexivity. }
  split; [exact E|]. intros [|c' x] y Ex; [cbn; lia|]. injection Ex as <- Ex. symmetry in Ex. apply app_eq_nil in Ex as [-> _]. unfold scan. cbn [fold_left]. rewrite E. cbn. lia.
Qed.
Lemma keeps_all t : Forall (fun c => ~ In c [34; 91; 123; 93; 125]) t -> keeps t.
Proof. induction 1 as [|c t Hc H IH]; [apply keeps_nil|]. apply (keeps_app [c] t); [apply keeps_one; exact Hc|exact IH]. Qed.
Lemma keeps_ws a : ws a -> keeps a.
Proof. intros H. apply keeps_all. eapply Forall_impl; [|exact H]. intros c Hc K. cbn in Hc, K. intuition (subst; discriminate). Qed.
Lemma keeps_num t : jnumber t -> keeps t.
Proof.
  intros H. apply keeps_all. apply jnumber_chars in H as [H _]. eapply Forall_impl; [|exact H]. intros c Hc K. unfold numchar in Hc. cbn in Hc, K. intuition (subst; try discriminate; lia).
Qed.
(** Within a string. *)
Definition stays (t : list N) : Prop := forall d, scan (In_, d) t = (In_, d) /\ forall x y, t = x ++ y -> snd (scan (In_, d) x) = d.
Lemma stays_nil : stays [].
Proof. intros d. split; [reflexivity|]. intros [|c x] y E; [reflexivity|discriminate]. Qed.
Lemma stays_app a b : stays a -> stays b -> stays (a ++ b).
Proof.
  intros HA HB d. destruct (HA d) as [A1 A2], (HB d) as [B1 B2]. split; [rewrite scan_app, A1; exact B1|]. intros x y E.
  apply app_cut in E as [(z & E & _)|(z & -> & E)]; [eapply A2; exact E|]. rewrite scan_app, A1. eapply B2; exact E.
Qed.
Lemma stays_one c : c <> 34 -> c <> 92 -> stays [c].
Proof.
  intros H H' d. assert (E : step (In_, d) c = (In_, d)) by (unfold step; cbn [fst snd]; rewrite (proj2 (N.eqb_neq _ _) H), (proj2 (N.eqb_neq _ _) H'); reflexivity).
  split; [exact E|]. intros [|c' x] y Ex; [reflexivity|]. injection Ex as <- Ex. symmetry in Ex. apply app_eq_nil in Ex as [-> _]. unfold scan. cbn [fold_left]. rewrite E. reflexivity.
Qed.
Lemma stays_esc c : stays [92; c].
Proof.
  intros d. split; [reflexivity|]. intros x y E. destruct x as [|a [|b x]]; [reflexivity|injection E as <- E; reflexivity|]. injection E as <- <- E.
  symmetry in E. apply app_eq_nil in E as [-> _]. reflexivity.
Qed.
Lemma stays_unit n t : unit16 n t -> stays t.
Proof.
  intros [a b c d va vb vc vd Ha Hb Hc Hd]. assert (S : forall x v, hexval x v -> stays [x]) by (intros x v Hx; apply stays_one; unfold hexval in Hx; lia).
  apply (stays_app [92; 117]); [apply stays_esc|]. apply (stays_app [a]); [eauto|]. apply (stays_app [b]); [eauto|]. apply (stays_app [c] [d]); eauto.
Qed.
Lemma stays_char c t : jchar c t -> stays t.
Proof.
  intros [c' H1 H2 H3 H4| | | | | | | | |c' t' H _|h l t' u H1 H2 _ _]; try apply stays_esc.
  - apply stays_one; assumption.
  - eapply stays_unit; exact H.
  - apply stays_app; eapply stays_unit; eassumption.
Qed.
Lemma stays_chars s u : jchars s u -> stays u.
Proof. induction 1 as [|c t s u Hc H IH]; [apply stays_nil|]. apply stays_app; [eapply stays_char; exact Hc|exact IH]. Qed.
Lemma keeps_string s t : jstring s t -> keeps t.
Proof.
  intros (u & -> & H) d. destruct (stays_chars _ _ H d) as [S1 S2]. split; [rewrite !scan_app; change (scan (Out, d) [34]) with (In_, d); rewrite S1; reflexivity|].
  intros x y E. destruct x as [|c x]; [cbn; lia|]. injection E as <- E. change (scan (Out, d) (34 :: x)) with (scan (In_, d) x).
  apply app_cut in E as [(z & E & _)|(z & -> & E)]; [rewrite (S2 _ _ E); lia|]. rewrite scan_app, S1. destruct z as [|c z]; [cbn; lia|]. injection E as <- E.
  symmetry in E. apply app_eq_nil in E as [-> _]. cbn. lia.
Qed.
(** Within brackets it is one deeper. *)
Lemma in_brackets o u c : (o = 91 /\ c = 93) \/ (o = 123 /\ c = 125) -> keeps u ->
  forall d, scan (Out, d) ([o] ++ u ++ [c]) = (Out, d) /\ forall x y, [o] ++ u ++ [c] = x ++ y -> x <> [] -> y <> [] -> (d + 1 <= snd (scan (Out, d) x))%Z.
Proof.
  intros HB HU d. destruct (HU (d + 1)%Z) as [U1 U2]. assert (EO : scan (Out, d) [o] = (Out, d + 1)%Z) by (destruct HB as [[-> _]|[-> _]]; reflexivity).
  split.
  - rewrite !scan_app, EO, U1. destruct HB as [[_ ->]|[_ ->]]; unfold scan; cbn; f_equal; lia.
  - intros x y E Hx Hy. destruct x as [|c' x]; [congruence|]. injection E as <- E. change (scan (Out, d) (o :: x)) with (scan (scan (Out, d) [o]) x). rewrite EO.
    apply app_cut in E as [(z & E & _)|(z & -> & E)]; [eapply U2; exact E|]. rewrite scan_app, U1. destruct z as [|c' z]; [cbn; lia|]. injection E as _ E.
    symmetry in E. apply app_eq_nil in E as [_ E]. congruence.
Qed.
Lemma keeps_brackets o u c : (o = 91 /\ c = 93) \/ (o = 123 /\ c = 125) -> keeps u -> keeps ([o] ++ u ++ [c]).
Proof.
  intros HB HU d. destruct (in_brackets o u c HB HU d) as [I1 I2]. split; [exact I1|]. intros x y E. destruct x as [|a x]; [cbn; lia|].
  destruct y as [|b y]; [rewrite app_nil_r in E; rewrite <- E, I1; cbn; lia|]. specialize (I2 _ _ E ltac:(discriminate) ltac:(discriminate)). lia.
Qed.
Lemma keeps_word (w : list N) : In w [lit "null"; lit "true"; lit "false"; lit ","; lit ":"] -> keeps w.
Proof. intros H. apply keeps_all. repeat destruct H as [<-|H]; [..|destruct H]; repeat (constructor; [cbn; intuition discriminate|]); constructor. Qed.
Scheme jvalue_m := Minimality for jvalue Sort Prop with jelements_m := Minimality for jelements Sort Prop with jmembers_m := Minimality for jmembers Sort Prop.
Combined Scheme json_m from jvalue_m, jelements_m, jmembers_m.
Lemma keeps_json : (forall v t, jvalue v t -> keeps t) /\ (forall l t, jelements l t -> keeps t) /\ (forall l t, jmembers l t -> keeps t).
Proof.
  apply json_m; intros.
  - apply keeps_word; cbn; tauto.
  - apply keeps_word; cbn; tauto.
  - apply keeps_word; cbn; tauto.
  - apply keeps_num; assumption.
  - eapply keeps_string; eassumption.
  - apply (keeps_brackets 91 w 93); [auto|apply keeps_ws; assumption].
  - apply (keeps_brackets 91 t 93); auto.
  - apply (keeps_brackets 123 w 125); [auto|apply keeps_ws; assumption].
  - apply (keeps_brackets 123 t 125); auto.
  - repeat apply keeps_app; auto using keeps_ws.
  - repeat apply keeps_app; auto using keeps_ws. apply keeps_word; cbn; tauto.
  - repeat apply keeps_app; eauto using keeps_ws, keeps_string. apply keeps_word; cbn; tauto.
  - repeat apply keeps_app; eauto using keeps_ws, keeps_string; apply keeps_word; cbn; tauto.
Qed.
Lemma json_text_scan v t : json_text v t -> scan (Out, 0%Z) t = (Out, 0%Z) /\ t <> [].
Proof.
  intros (a & u & b & -> & Ha & Hu & Hb). split.
  - assert (K : keeps (a ++ u ++ b)) by (repeat apply keeps_app; auto using keeps_ws; eapply (proj1 keeps_json); exact Hu). apply K.
  - destruct (value_head _ _ Hu) as (c & w & -> & _). destruct a; discriminate.
Qed.

(** Characters. *)
Lemma object_cut m t : jvalue (JObj m) t -> forall x y, t = x ++ y -> y <> [] -> forall v, ~ json_text v x.
Proof.
  intros H x y E Hy v HJ. apply json_text_scan in HJ as [HS HN].
  assert (HB : exists u, keeps u /\ t = [123] ++ u ++ [125]).
  { apply object_inv in H as [(_ & w & Hw & ->)|(u & Hu & ->)]; [exists w; split; [apply keeps_ws; exact Hw|reflexivity]|exists u; split; [eapply (proj2 (proj2 keeps_json)); exact Hu|reflexivity]]. }
  destruct HB as (u & HU & ->). destruct (in_brackets 123 u 125 (or_intror (conj eq_refl eq_refl)) HU 0%Z) as [_ I]. specialize (I _ _ E HN Hy). rewrite HS in I. cbn in I. lia.
Qed.
(** Bytes: a cut within a character is as deep as one before it. *)
Lemma depth_high x : Forall (fun c => 128 <= c) x -> forall st, snd (scan st x) = snd st.
Proof. intros H [m d]. destruct x as [|c x]; [reflexivity|]. rewrite scan_high; [reflexivity|discriminate|exact H]. Qed.
Lemma reads_cut bs t : reads bs t -> forall x y, bs = x ++ y -> exists p q, t = p ++ q /\ (forall st, snd (scan st x) = snd (scan st p)) /\ (y <> [] -> q <> []) /\
  (p = [] -> Forall (fun c => 128 <= c) x).
Proof.
  assert (HN : forall b u, reads b u -> b <> [] -> u <> []) by (intros b u []; congruence).
  induction 1 as [|r bs rs Hr H IH|b bs rs Hb H IH]; intros x y E.
  - symmetry in E. apply app_eq_nil in E as [-> ->]. exists [], []. auto 6.
  - apply app_cut in E as [(z & E & ->)|(z & -> & ->)].
    + destruct z as [|c z].
      * rewrite app_nil_r in E. subst x. exists [r], rs. split; [reflexivity|]. split; [|split; [apply (HN _ _ H)|discriminate]].
        intros [m d]. pose proof (scan_reads _ _ (rd_char r [] [] Hr rd_nil) (m, d)) as S. rewrite app_nil_r in S. rewrite S. reflexivity.
      * exists [], (r :: rs). split; [reflexivity|]. assert (F0 : Forall (fun c => 128 <= c) x); [|split; [intros st; apply depth_high; exact F0|split; [discriminate|auto]]]. destruct (N.lt_ge_cases r 128) as [L|L].
        -- rewrite utf8_1 in E by exact L. destruct x as [|c' x]; [constructor|]. injection E as _ E. symmetry in E. apply app_eq_nil in E as [_ E]. discriminate.
        -- pose proof (utf8_high r Hr L) as F. rewrite E in F. apply Forall_app in F. tauto.
    + destruct (IH z y eq_refl) as (p & q & -> & S & Q & _). exists (r :: p), q. split; [reflexivity|]. split; [|split; [exact Q|discriminate]]. intros st. rewrite scan_app.
      pose proof (scan_reads _ _ (rd_char r [] [] Hr rd_nil) st) as S'. rewrite app_nil_r in S'. rewrite S'. apply S.
  - destruct x as [|b' x].
    + exists [], (65533 :: rs). split; [reflexivity|]. split; [reflexivity|]. split; [discriminate|constructor].
    + injection E as <- E. destruct (IH x y E) as (p & q & -> & S & Q & _). exists (65533 :: p), q. split; [reflexivity|]. split; [|split; [exact Q|discriminate]].
      assert (L : 128 <= b). { destruct (N.lt_ge_cases b 128) as [L|L]; [|exact L]. destruct (Hb b bs (ascii_scalar _ L)). rewrite utf8_1 by exact L. reflexivity. }
      intros [m d]. change (b :: x) with ([b] ++ x). change (65533 :: p) with ([65533] ++ p). rewrite !scan_app, (scan_high [b]), (scan_high [65533]); [apply S|discriminate|repeat constructor; lia|discriminate|repeat constructor; exact L].
Qed.
Lemma object_cut_bytes m bs t : reads bs t -> jvalue (JObj m) t -> forall x y, bs = x ++ y -> y <> [] -> forall v x', reads x x' -> ~ json_text v x'.
Proof.
  intros HR H x y E Hy v x' Hx HJ. apply json_text_scan in HJ as [HS HN].
  assert (HB : exists u, keeps u /\ t = [123] ++ u ++ [125]).
  { apply object_inv in H as [(_ & w & Hw & ->)|(u & Hu & ->)]; [exists w; split; [apply keeps_ws; exact Hw|reflexivity]|exists u; split; [eapply (proj2 (proj2 keeps_json)); exact Hu|reflexivity]]. }
  destruct HB as (u & HU & ->). destruct (reads_cut _ _ HR _ _ E) as (p & q & Et & S & Q & F). specialize (Q Hy). rewrite <- (scan_reads _ _ Hx) in HS. specialize (S (Out, 0%Z)). rewrite HS in S.
  destruct p as [|c p].
  - cbn [app] in Et. (* the first byte is the bracket *) assert (Hb : exists r, bs = 123 :: r).
    { inversion HR as [|r bs' rs' Hr H' E1 E2|b bs' rs' Hb H' E1 E2]; subst. rewrite utf8_1 by lia. eexists. reflexivity. }
    destruct Hb as (r & Eb). destruct x as [|b x]; [rewrite (reads_fun _ _ _ Hx rd_nil) in HN; congruence|]. rewrite E in Eb. injection Eb as -> Eb. specialize (F eq_refl). inversion F. lia.
  - destruct (in_brackets 123 u 125 (or_intror (conj eq_refl eq_refl)) HU 0%Z) as [_ I]. specialize (I _ _ Et ltac:(discriminate) Q). rewrite <- S in I. cbn in I. lia.
Qed.
