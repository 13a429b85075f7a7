(** ParseAnnotation finds exactly the attributes of the specification. *)
From Verif Require Import Str LexSpec Annotation AnnotSpec.
Local Open Scope N_scope.

(** ** Runs *)
Fixpoint span (p : N -> bool) (s : list N) : list N * list N :=
  match s with
  | c :: r => if p c then (c :: fst (span p r), snd (span p r)) else ([], s)
  | [] => ([], [])
  end.
Lemma span_eq p s : s = fst (span p s) ++ snd (span p s).
Proof. induction s as [|c r IH]; [reflexivity|]. cbn. destruct (p c); [cbn; congruence|reflexivity]. Qed.
Lemma span_all p s : Forall (fun c => p c = true) (fst (span p s)).
Proof. induction s as [|c r IH]; cbn; [constructor|]. destruct (p c) eqn:E; cbn; constructor; auto. Qed.
Definition fresh (p : N -> bool) (s : list N) : Prop := match s with c :: _ => p c = false | [] => True end.
Lemma span_rest p s : fresh p (snd (span p s)).
Proof. induction s as [|c r IH]; cbn; [exact I|]. destruct (p c) eqn:E; cbn; auto. Qed.
Lemma span_app p u r : Forall (fun c => p c = true) u -> fresh p r -> span p (u ++ r) = (u, r).
Proof.
  intros H Hr. induction H as [|c u Hc H IH]; cbn.
  - destruct r as [|c r]; [reflexivity|]. cbn in *. rewrite Hr. reflexivity.
  - rewrite Hc, IH. reflexivity.
Qed.
(** A continuation that cannot start with a [p]-character only sees the longest run. *)
Lemma flat_map_map {A B C} (f : B -> list C) (g : A -> B) l : flat_map f (map g l) = flat_map (fun a => f (g a)) l.
Proof. induction l as [|a l IH]; [reflexivity|]. cbn. rewrite IH. reflexivity. Qed.
Lemma flat_greedy {A} (p : N -> bool) (f : list N * list N -> list A) s : (forall u c r, p c = true -> f (u, c :: r) = []) ->
  flat_map f (rev (runs p s)) = f (span p s).
Proof.
  revert f; induction s as [|c r IH]; intros f Hf; cbn [runs span]; [cbn; apply app_nil_r|].
  destruct (p c) eqn:E; [|cbn; apply app_nil_r]. cbn [rev]. rewrite <- map_rev, flat_map_app. cbn [flat_map]. rewrite (Hf [] c r E).
  rewrite !app_nil_r, flat_map_map. exact (IH (fun ur => f (c :: fst ur, snd ur)) (fun u x q Hx => Hf (c :: u) x q Hx)).
Qed.
Lemma flat_greedy_plus {A} (p : N -> bool) (f : list N * list N -> list A) s : (forall u c r, p c = true -> f (u, c :: r) = []) ->
  flat_map f (rev (tl (runs p s))) = match fst (span p s) with [] => [] | _ => f (span p s) end.
Proof.
  intros Hf. destruct s as [|c r]; [reflexivity|]. cbn [runs tl span]. destruct (p c) eqn:E; [|reflexivity]. cbn [fst].
  rewrite <- map_rev, flat_map_map. exact (flat_greedy p (fun ur => f (c :: fst ur, snd ur)) r (fun u x q Hx => Hf (c :: u) x q Hx)).
Qed.
Lemma hd_runs_plus p s : hd_error (rev (tl (runs p s))) = match fst (span p s) with [] => None | _ => Some (span p s) end.
Proof.
  assert (H : forall s, exists l, rev (runs p s) = span p s :: l).
  { clear s. induction s as [|c r (l & IH)]; cbn [runs span]; [exists []; reflexivity|]. destruct (p c); [|exists []; reflexivity].
    cbn [rev]. rewrite <- map_rev, IH. eexists. reflexivity. }
  destruct s as [|c r]; [reflexivity|]. cbn [runs tl span]. destruct (p c); [|reflexivity]. cbn [fst]. rewrite <- map_rev. destruct (H r) as (l & ->).
  reflexivity.
Qed.

(** ** The value *)
Definition value_re : pre := PAlt (PPlus re_digit) (PSeq [PChar 39; PLazy re_dot; PChar 39]).
Definition closing (ur : list N * list N) : list (list N * list N) :=
  match snd ur with 39 :: q => [(fst ur ++ [39], q)] | _ => [] end.
Lemma closing_eq ur : closing ur = match snd ur with x :: q => if x =? 39 then [(fst ur ++ [39], q)] else [] | [] => [] end.
Proof.
  unfold closing. destruct (snd ur) as [|x q]; [reflexivity|]. destruct (N.eqb_spec x 39) as [->|H]; [reflexivity|].
  destruct x as [|x]; [reflexivity|]. do 6 (destruct x as [x|x|]; try reflexivity; try (exfalso; apply H; reflexivity)).
Qed.
Lemma tries_text s : tries (PSeq [PChar 39; PLazy re_dot; PChar 39]) s =
  match s with x :: r => if x =? 39 then map (fun vq => (39 :: fst vq, snd vq)) (flat_map closing (runs re_dot r)) else [] | [] => [] end.
Proof.
  cbn [tries]. destruct s as [|x r]; [reflexivity|]. destruct (N.eqb_spec x 39) as [->|]; [|reflexivity]. cbn [flat_map fst snd app map]. rewrite app_nil_r.
  f_equal. clear. induction (runs re_dot r) as [|[u q] l IH]; [reflexivity|]. cbn [flat_map fst snd]. rewrite <- IH. f_equal. rewrite closing_eq. cbn [fst snd].
  destruct q as [|x q]; [reflexivity|]. destruct (N.eqb_spec x 39) as [->|]; reflexivity.
Qed.
Lemma lazy_text r v q : hd_error (flat_map closing (runs re_dot r)) = Some (v, q) <->
  exists b, v = b ++ [39] /\ r = b ++ 39 :: q /\ Forall (fun c => c <> 39 /\ c <> 10) b.
Proof.
  assert (HM : forall l c, flat_map closing (map (fun ur => (c :: fst ur, snd ur)) l) = map (fun vq => (c :: fst vq, snd vq)) (flat_map closing l)).
  { intros l c. induction l as [|[u s] l IH]; [reflexivity|]. cbn [map flat_map]. rewrite IH, map_app, !closing_eq. cbn [fst snd]. f_equal.
    destruct s as [|x s]; [reflexivity|]. destruct (x =? 39); reflexivity. }
  assert (HH : forall l c, hd_error (map (fun vq : list N * list N => (c :: fst vq, snd vq)) l) = option_map (fun vq => (c :: fst vq, snd vq)) (hd_error l)).
  { intros [|a l] c; reflexivity. }
  revert v q; induction r as [|x r IH]; intros v q; cbn [runs flat_map]; rewrite closing_eq; cbn [fst snd app].
  - split; [discriminate|]. intros (b & _ & E & _). destruct b; discriminate.
  - destruct (N.eqb_spec x 39) as [->|Nx].
    + cbn [hd_error]. split.
      * intros E. injection E as <- <-. exists []. auto.
      * intros (b & -> & E & Hb). destruct b as [|y b]; [injection E as ->; reflexivity|]. injection E as <- _. inversion Hb as [|? ? [H _] _]; congruence.
    + cbn [app]. unfold re_dot at 1. destruct (N.eqb_spec x 10) as [->|N10]; cbn [negb].
      * split; [discriminate|]. intros (b & -> & E & Hb). destruct b as [|y b]; [discriminate|]. injection E as <- _. inversion Hb as [|? ? [_ H] _]; congruence.
      * rewrite HM, HH. destruct (hd_error (flat_map closing (runs re_dot r))) as [[v' q']|] eqn:E; cbn [option_map fst snd].
        -- split.
           ++ intros H. injection H as <- <-. destruct (proj1 (IH _ _) eq_refl) as (b & -> & -> & Hb). exists (x :: b). repeat split; auto.
           ++ intros (b & -> & Er & Hb). destruct b as [|y b]; [injection Er as -> _; congruence|]. injection Er as <- Er. inversion Hb; subst.
              assert (H : Some (v', q') = Some (b ++ [39], q)) by (apply IH; exists b; auto). injection H as -> ->. reflexivity.
        -- split; [discriminate|]. intros (b & -> & Er & Hb). destruct b as [|y b]; [injection Er as -> _; congruence|]. injection Er as <- Er. inversion Hb; subst.
           assert (H : None = Some (b ++ [39], q)) by (apply IH; exists b; auto). discriminate.
Qed.
Lemma re_digit_is c : re_digit c = is_digit c. Proof. reflexivity. Qed.
Lemma re_word_is c : re_word c = is_wordch c.
Proof. unfold re_word, is_wordch, is_letter, is_digit. destruct ((97 <=? c) && (c <=? 122)), ((65 <=? c) && (c <=? 90)); reflexivity. Qed.
Lemma re_space_iff c : re_space c = true <-> In c [32; 9; 10; 12; 13].
Proof. unfold re_space. rewrite !orb_true_iff, !N.eqb_eq. cbn. intuition lia. Qed.
Lemma hd_error_app {A} (l l' : list A) : hd_error (l ++ l') = match hd_error l with Some a => Some a | None => hd_error l' end.
Proof. destruct l; reflexivity. Qed.
Lemma hd_error_map {A B} (f : A -> B) l : hd_error (map f l) = option_map f (hd_error l).
Proof. destruct l; reflexivity. Qed.
Lemma value_spec s v r : hd_error (tries value_re s) = Some (v, r) <->
  s = v ++ r /\ (number v /\ (forall c r', r = c :: r' -> is_digit c = false) \/ simple_text v).
Proof.
  unfold value_re. cbn [tries]. rewrite hd_error_app, hd_runs_plus. pose proof (tries_text s) as HT. cbn [tries] in HT. rewrite HT. clear HT.
  destruct (span re_digit s) as [u q] eqn:ES. cbn [fst]. pose proof (span_eq re_digit s) as E. pose proof (span_all re_digit s) as HA. pose proof (span_rest re_digit s) as HR.
  rewrite ES in E, HA, HR. cbn [fst snd] in *. destruct u as [|c u].
  - cbn [app] in E. subst q. split.
    + destruct s as [|x s']; [discriminate|]. destruct (N.eqb_spec x 39) as [->|]; [|discriminate]. rewrite hd_error_map.
      destruct (hd_error (flat_map closing (runs re_dot s'))) as [[v' q']|] eqn:EL; [|discriminate]. cbn. intros H. injection H as <- <-.
      apply lazy_text in EL as (b & -> & -> & Hb). split; [cbn; rewrite <- app_assoc; reflexivity|]. right. exists b. auto.
    + intros [-> [[[Hn Hd] _]|(b & -> & Hb)]].
      * exfalso. destruct v as [|c v]; [congruence|]. inversion Hd as [|? ? Hc _]; subst. cbn in HR. rewrite re_digit_is in HR. congruence.
      * change (lit "'" ++ b ++ lit "'") with (39 :: b ++ [39]). cbn [app]. rewrite N.eqb_refl, hd_error_map.
        assert (H : hd_error (flat_map closing (runs re_dot ((b ++ [39]) ++ r))) = Some (b ++ [39], r)).
        { apply lazy_text. exists b. rewrite <- app_assoc. auto. }
        rewrite H. reflexivity.
  - split.
    + intros H. injection H as <- <-. split; [exact E|]. left. split; [split; [discriminate|exact HA]|]. intros d r' ->. exact HR.
    + intros [-> [[[Hn Hd] Hr]|(b & -> & Hb)]].
      * rewrite (span_app re_digit v r) in ES; [injection ES as -> ->; reflexivity|exact Hd|]. destruct r as [|d r]; [exact I|]. cbn. apply (Hr d r eq_refl).
      * exfalso. cbn in E. injection E as <- _. inversion HA as [|? ? H _]. discriminate.
Qed.
Lemma value_none_space u c s : re_space c = true -> (fun ur => map (fun vq : list (list N) * list N => (fst ur :: fst vq, snd vq)) (tries_parts [value_re] (snd ur))) (u, c :: s) = [].
Proof.
  intros H. cbn beta iota. assert (E : tries value_re (c :: s) = []).
  { unfold value_re. cbn [tries]. pose proof (tries_text (c :: s)) as HT. cbn [tries] in HT. rewrite HT. apply re_space_iff in H. cbn in H.
    destruct H as [<-|[<-|[<-|[<-|[<-|[]]]]]]; reflexivity. }
  cbn [snd tries_parts]. rewrite E. reflexivity.
Qed.

(** ** The whole expression *)
Definition after_name (s : list N) : list (list (list N) * list N) := tries_parts (tl regex_annotation) s.
Definition after_eq (s : list N) : list (list (list N) * list N) := tries_parts [PStar re_space; value_re] s.
Lemma after_eq_is s : after_eq s = map (fun vq => (fst (span re_space s) :: fst vq, snd vq)) (tries_parts [value_re] (snd (span re_space s))).
Proof.
  unfold after_eq. cbn [tries_parts tries]. fold (tries_parts [value_re]). change (tries_parts [PStar re_space; value_re] s)
    with (flat_map (fun ur => map (fun vq : list (list N) * list N => (fst ur :: fst vq, snd vq)) (tries_parts [value_re] (snd ur))) (rev (runs re_space s))).
  apply (flat_greedy re_space (fun ur => map (fun vq : list (list N) * list N => (fst ur :: fst vq, snd vq)) (tries_parts [value_re] (snd ur)))).
  intros u c r H. apply value_none_space; exact H.
Qed.
Definition eq_part (s : list N) : list (list (list N) * list N) :=
  match s with x :: r => if x =? 61 then map (fun vq => ([61] :: fst vq, snd vq)) (after_eq r) else [] | [] => [] end.
Lemma eq_part_is s : tries_parts [PChar 61; PStar re_space; value_re] s = eq_part s.
Proof.
  change (tries_parts [PChar 61; PStar re_space; value_re] s)
    with (flat_map (fun ur => map (fun vq : list (list N) * list N => (fst ur :: fst vq, snd vq)) (after_eq (snd ur))) (tries (PChar 61) s)).
  cbn [tries]. unfold eq_part. destruct s as [|x r]; [reflexivity|]. destruct (N.eqb_spec x 61) as [->|]; [|reflexivity]. cbn [flat_map]. apply app_nil_r.
Qed.
Lemma after_name_is s : after_name s = map (fun vq => (fst (span re_space s) :: fst vq, snd vq)) (eq_part (snd (span re_space s))).
Proof.
  change (after_name s) with (flat_map (fun ur => map (fun vq : list (list N) * list N => (fst ur :: fst vq, snd vq)) (tries_parts [PChar 61; PStar re_space; value_re] (snd ur))) (rev (runs re_space s))).
  rewrite (flat_greedy re_space (fun ur => map (fun vq : list (list N) * list N => (fst ur :: fst vq, snd vq)) (tries_parts [PChar 61; PStar re_space; value_re] (snd ur)))).
  - rewrite eq_part_is. reflexivity.
  - intros u c r H. cbn [fst snd]. rewrite eq_part_is. apply re_space_iff in H. cbn in H. destruct H as [<-|[<-|[<-|[<-|[<-|[]]]]]]; reflexivity.
Qed.
Lemma word_not_space c : re_word c = true -> re_space c = false /\ c <> 61.
Proof.
  unfold re_word, re_space. intros H. rewrite !orb_true_iff, !andb_true_iff, !N.leb_le, N.eqb_eq in H. rewrite !orb_false_iff, !N.eqb_neq. lia.
Qed.
Lemma whole_is s : tries_parts regex_annotation s =
  match fst (span re_word s) with [] => [] | u => map (fun vq => (u :: fst vq, snd vq)) (after_name (snd (span re_word s))) end.
Proof.
  change (tries_parts regex_annotation s) with (flat_map (fun ur => map (fun vq : list (list N) * list N => (fst ur :: fst vq, snd vq)) (after_name (snd ur))) (rev (tl (runs re_word s)))).
  rewrite (flat_greedy_plus re_word (fun ur => map (fun vq : list (list N) * list N => (fst ur :: fst vq, snd vq)) (after_name (snd ur)))).
  - destruct (fst (span re_word s)); reflexivity.
  - intros u c r H. cbn [fst snd]. rewrite after_name_is. destruct (word_not_space _ H) as [H1 H2]. cbn [span]. rewrite H1. cbn [fst snd eq_part].
    destruct (N.eqb_spec c 61); [contradiction|]. reflexivity.
Qed.
Lemma spaces_iff s : spaces s <-> Forall (fun c => re_space c = true) s.
Proof. unfold spaces. split; apply Forall_impl; intros c; apply re_space_iff. Qed.
Theorem match_here_iff s n v r : match_here s = Some (n, v, r) <-> attribute_at s n v r.
Proof.
  unfold match_here. assert (HD : forall l : list (list (list N) * list N),
    match l with (g, q) :: _ => Some (nth 0 g [], nth 4 g [], q) | [] => None end = option_map (fun gq => (nth 0 (fst gq) [], nth 4 (fst gq) [], snd gq)) (hd_error l)).
  { intros [|[g q] l]; reflexivity. }
  rewrite HD. clear HD. rewrite whole_is. split.
  - destruct (span re_word s) as [u q] eqn:E1. cbn [fst snd]. destruct u as [|c u]; [discriminate|].
    rewrite hd_error_map, after_name_is, hd_error_map. destruct (span re_space q) as [u2 q2] eqn:E2. cbn [fst snd].
    unfold eq_part. destruct q2 as [|x q2]; [discriminate|]. destruct (N.eqb_spec x 61) as [->|]; [|discriminate].
    rewrite hd_error_map, after_eq_is, hd_error_map. destruct (span re_space q2) as [u3 q3] eqn:E3. cbn [fst snd].
    cbn [tries_parts]. destruct (tries value_re q3) as [|[v' r'] l] eqn:E4; [discriminate|]. cbn. intros H. injection H as <- <- <-.
    assert (HV : hd_error (tries value_re q3) = Some (v', r')) by (rewrite E4; reflexivity). apply value_spec in HV as [-> HV].
    pose proof (span_eq re_word s) as S1. pose proof (span_all re_word s) as A1. rewrite E1 in S1, A1.
    pose proof (span_eq re_space q) as S2. pose proof (span_all re_space q) as A2. rewrite E2 in S2, A2.
    pose proof (span_eq re_space q2) as S3. pose proof (span_all re_space q2) as A3. rewrite E3 in S3, A3. cbn [fst snd] in *.
    exists u2, u3. split; [rewrite S1, S2, S3; reflexivity|]. split; [split; [discriminate|]|split; [apply spaces_iff; exact A2|split; [apply spaces_iff; exact A3|exact HV]]].
    eapply Forall_impl; [|exact A1]. cbn. intros a Ha. rewrite <- re_word_is. exact Ha.
  - intros (sp1 & sp2 & -> & [Hn Hw] & H1 & H2 & HV).
    assert (Hw' : Forall (fun c => re_word c = true) n) by (eapply Forall_impl; [|exact Hw]; intros a Ha; cbn; rewrite re_word_is; exact Ha).
    apply spaces_iff in H1, H2. change (lit "=") with [61] in *.
    assert (F1 : fresh re_word (sp1 ++ [61] ++ sp2 ++ v ++ r)).
    { destruct sp1 as [|x sp1]; [reflexivity|]. cbn. inversion H1 as [|? ? Hx _]; subst. destruct (re_word x) eqn:Ex; [|reflexivity]. apply word_not_space in Ex as [Ex _]. congruence. }
    rewrite (span_app _ _ _ Hw' F1). cbn [fst snd]. destruct n as [|c n]; [congruence|]. rewrite hd_error_map, after_name_is.
    rewrite (span_app re_space sp1) by (exact H1 || reflexivity). cbn [fst snd app eq_part]. rewrite N.eqb_refl. rewrite !hd_error_map, after_eq_is.
    assert (F2 : fresh re_space (v ++ r)).
    { destruct HV as [[[Hv Hd] _]|(b & -> & _)]; [|reflexivity]. destruct v as [|d v]; [congruence|]. cbn. inversion Hd as [|? ? Hx _]; subst.
      unfold is_digit in Hx. apply andb_prop in Hx as [X1 X2]. apply N.leb_le in X1, X2. unfold re_space.
      rewrite !orb_false_iff, !N.eqb_neq. lia. }
    rewrite (span_app re_space sp2) by assumption. cbn [fst snd]. rewrite hd_error_map. cbn [tries_parts].
    assert (HV' : hd_error (tries value_re (v ++ r)) = Some (v, r)) by (apply value_spec; auto).
    destruct (tries value_re (v ++ r)) as [|[v' r'] l]; [discriminate|]. injection HV' as -> ->. reflexivity.
Qed.
Lemma match_here_none s : match_here s = None <-> ~ starts_attribute s.
Proof.
  destruct (match_here s) as [[[n v] r]|] eqn:E.
  - split; [discriminate|]. intros H. exfalso. apply H. exists n, v, r. apply match_here_iff; exact E.
  - split; [|reflexivity]. intros _ (n & v & r & H). apply match_here_iff in H. congruence.
Qed.
Lemma attribute_shorter s n v r : attribute_at s n v r -> (length r < length s)%nat.
Proof.
  intros (sp1 & sp2 & -> & [Hn _] & _). rewrite !app_length. destruct n; [congruence|]. cbn. lia.
Qed.
Lemma attribute_fun s n v r n' v' r' : attribute_at s n v r -> attribute_at s n' v' r' -> n = n' /\ v = v' /\ r = r'.
Proof. intros H H'. apply match_here_iff in H, H'. rewrite H in H'. injection H' as -> -> ->. auto. Qed.

(** ** All of them *)
Lemma attributes_skip c s l : ~ starts_attribute (c :: s) -> (attributes_in (c :: s) l <-> attributes_in s l).
Proof.
  intros Hc. split.
  - intros H. inversion H as [s0 HN E1 E2|s0 sk here n v r l0 E HA HS HL E1 E2]; subst.
    + apply ai_none. intros a b E. apply (HN (c :: a)). rewrite E. reflexivity.
    + destruct sk as [|x sk]; [exfalso; apply Hc; cbn in E; rewrite E; eexists _, _, _; exact HA|]. injection E as <- ->.
      eapply ai_one; [reflexivity|exact HA| |exact HL]. intros a b Eab Hb. apply (HS (c :: a)); [rewrite Eab; reflexivity|exact Hb].
  - intros H. inversion H as [s0 HN E1 E2|s0 sk here n v r l0 E HA HS HL E1 E2]; subst.
    + apply ai_none. intros [|x a] b E; [cbn in E; subst b; exact Hc|]. injection E as <- E. apply (HN a b E).
    + eapply (ai_one _ (c :: sk)); [reflexivity|exact HA| |exact HL]. intros [|x a] b Eab Hb; [cbn in Eab; subst b; exact Hc|]. injection Eab as <- Eab. apply (HS a b Eab Hb).
Qed.
Lemma attributes_hit s n v r l : attribute_at s n v r -> (attributes_in s l <-> exists l', l = (n, v) :: l' /\ attributes_in r l').
Proof.
  intros HA. split.
  - intros H. inversion H as [s0 HN E1 E2|s0 sk here n' v' r' l0 E HA' HS HL E1 E2]; subst.
    + exfalso. apply (HN [] s eq_refl). eexists _, _, _; exact HA.
    + destruct sk as [|x sk]; [cbn in *; destruct (attribute_fun _ _ _ _ _ _ _ HA HA') as (-> & -> & ->); eauto|].
      exfalso. apply (HS [] (x :: sk) eq_refl); [discriminate|]. eexists _, _, _; exact HA.
  - intros (l' & -> & HL). apply (ai_one s [] s n v r l'); [reflexivity|exact HA| |exact HL]. intros a b E Hb. destruct a; [cbn in E; congruence|discriminate].
Qed.
Lemma attributes_nil l : attributes_in [] l <-> l = [].
Proof.
  split.
  - intros H. inversion H as [s0 HN E1 E2|s0 sk here n v r l0 E HA HS HL E1 E2]; subst; [reflexivity|].
    exfalso. destruct sk; [|discriminate]. cbn in E. subst here. apply attribute_shorter in HA. cbn in HA. lia.
  - intros ->. apply ai_none. intros a b E. destruct a; [|discriminate]. cbn in E. subst b. intros (n & v & r & HA). apply attribute_shorter in HA. cbn in HA. lia.
Qed.
Lemma find_all_iff fuel s l : (length s < fuel)%nat -> (find_all fuel s = l <-> attributes_in s l).
Proof.
  revert s l; induction fuel as [|f IH]; intros s l HL; [lia|]. cbn [find_all]. destruct (match_here s) as [[[n v] r]|] eqn:E.
  - apply match_here_iff in E. rewrite (attributes_hit _ _ _ _ _ E). pose proof (attribute_shorter _ _ _ _ E) as HS. split.
    + intros <-. exists (find_all f r). split; [reflexivity|]. apply IH; [lia|reflexivity].
    + intros (l' & -> & H). f_equal. apply IH; [lia|exact H].
  - apply match_here_none in E. destruct s as [|c s]; [rewrite attributes_nil; split; congruence|]. rewrite (attributes_skip _ _ _ E). apply IH. cbn in HL. lia.
Qed.

(** ** ParseAnnotation *)
Lemma split_paren_some s a b : split_paren s = Some (a, b) <-> s = a ++ lit "(" ++ b /\ ~ In 40 a.
Proof.
  revert a b; induction s as [|c s IH]; intros a b; cbn [split_paren].
  - split; [discriminate|]. intros [E _]. destruct a; discriminate.
  - destruct (N.eqb_spec c 40) as [->|Nc].
    + split; [intros H; injection H as <- <-; split; [reflexivity|intros []]|]. intros [E Hn]. destruct a as [|x a]; [injection E as ->; reflexivity|].
      injection E as <- _. exfalso. apply Hn. left. reflexivity.
    + destruct (split_paren s) as [[a' b']|] eqn:E.
      * destruct (proj1 (IH _ _) eq_refl) as [-> Hn]. split.
        -- intros H. injection H as <- <-. split; [reflexivity|]. intros [H|H]; [congruence|exact (Hn H)].
        -- intros [E' Hn']. destruct a as [|x a]; [injection E' as -> _; congruence|]. injection E' as <- E'.
           assert (H : Some (a', b') = Some (a, b)) by (apply IH; split; [exact E'|intros H; apply Hn'; right; exact H]). injection H as -> ->. reflexivity.
      * split; [discriminate|]. intros [E' Hn']. destruct a as [|x a]; [injection E' as -> _; congruence|]. injection E' as <- E'.
        assert (H : None = Some (a, b)) by (apply IH; split; [exact E'|intros H; apply Hn'; right; exact H]). discriminate.
Qed.
Lemma split_paren_none s : split_paren s = None <-> ~ In 40 s.
Proof.
  induction s as [|c s IH]; cbn [split_paren]; [split; [intros _ []|reflexivity]|]. destruct (N.eqb_spec c 40) as [->|Nc].
  - split; [discriminate|]. intros H. exfalso. apply H. left. reflexivity.
  - destruct (split_paren s) as [[a b]|]; split; try discriminate.
    + intros H. exfalso. assert (E : Some (a, b) = None) by (apply IH; intros Hi; apply H; right; exact Hi). discriminate.
    + intros _ [H|H]; [congruence|]. exact (proj1 IH eq_refl H).
    + reflexivity.
Qed.
Lemma rest_ends s a b : split_paren s = Some (a, b) -> last s 0 = 41 -> exists b', b = b' ++ [41].
Proof.
  intros E EL. apply split_paren_some in E as [Es _].
  destruct b as [|x b]; [exfalso; rewrite Es in EL; change (lit "(" ++ []) with [40] in EL; rewrite last_last in EL; discriminate|].
  destruct (exists_last (l := x :: b)) as (b' & y & Eb); [discriminate|]. exists b'. rewrite Eb. do 2 f_equal.
  rewrite Es, Eb in EL. rewrite !app_assoc in EL. rewrite last_last in EL. exact EL.
Qed.
(** Past the checks there is something after "(", so the slice expression does not panic. *)
Lemma parse_annotation_eq s : parse_annotation s =
  if (length s <? 3)%nat then AnnErr
  else match split_paren s with
       | None => AnnErr
       | Some (t, r) => if negb (last s 0 =? 41) then AnnErr else AnnOk (AnnotationValue t (find_all (S (length (removelast r))) (removelast r)))
       end.
Proof.
  unfold parse_annotation. destruct (length s <? 3)%nat; [reflexivity|]. destruct (split_paren s) as [[a b]|] eqn:E; [|reflexivity].
  destruct (N.eqb_spec (last s 0) 41) as [EL|EL]; [|reflexivity]. destruct (rest_ends _ _ _ E EL) as ([|x b'] & ->); reflexivity.
Qed.
Theorem parse_annotation_no_panic s : parse_annotation s <> AnnPanic.
Proof. rewrite parse_annotation_eq. destruct (length s <? 3)%nat, (split_paren s) as [[a b]|], (negb (last s 0 =? 41)); discriminate. Qed.
Theorem parse_annotation_err s : parse_annotation s = AnnErr <-> (length s < 3)%nat \/ ~ In 40 s \/ last s 0 <> 41.
Proof.
  rewrite parse_annotation_eq. destruct (Nat.ltb_spec (length s) 3); [split; auto|]. destruct (split_paren s) as [[a b]|] eqn:E.
  - assert (HI : In 40 s). { apply split_paren_some in E as [-> _]. apply in_or_app. right. left. reflexivity. }
    destruct (N.eqb_spec (last s 0) 41) as [EL|EL]; cbn [negb]; split; try discriminate; auto. intros [H'|[H'|H']]; [lia|contradiction|congruence].
  - split; [|reflexivity]. intros _. right; left. apply split_paren_none; exact E.
Qed.
Theorem parse_annotation_ok s t l : parse_annotation s = AnnOk (AnnotationValue t l) <-> exists body, call_form s t body /\ attributes_in body l.
Proof.
  rewrite parse_annotation_eq. unfold call_form. destruct (Nat.ltb_spec (length s) 3).
  { split; [discriminate|]. intros (body & (_ & _ & H') & _). lia. }
  destruct (split_paren s) as [[a b]|] eqn:E.
  - destruct (proj1 (split_paren_some _ _ _) E) as [Es Hn]. destruct (N.eqb_spec (last s 0) 41) as [EL|EL]; cbn [negb].
    + destruct (rest_ends _ _ _ E EL) as (b' & ->). rewrite removelast_last. split.
      * intros H'. injection H' as <- <-. exists b'. split; [split; [exact Es|split; [exact Hn|assumption]]|]. apply (find_all_iff _ _ _ (Nat.lt_succ_diag_r _)). reflexivity.
      * intros (body & (Es' & Hn' & _) & HA). assert (H' : split_paren s = Some (t, body ++ lit ")")) by (apply split_paren_some; auto).
        rewrite H' in E. injection E as -> E. apply app_inj_tail in E as [-> _]. f_equal. f_equal. apply find_all_iff; [lia|exact HA].
    + split; [discriminate|]. intros (body & (Es' & _) & _). exfalso. apply EL. rewrite Es'. rewrite !app_assoc. apply last_last.
  - split; [discriminate|]. intros (body & (Es' & Hn' & _) & _). apply split_paren_none in E. exfalso. apply E. rewrite Es'. apply in_or_app. right. left. reflexivity.
Qed.
Lemma attributes_shape s l : attributes_in s l -> Forall (fun nv => word (fst nv) /\ (number (snd nv) \/ simple_text (snd nv))) l.
Proof.
  induction 1 as [|s sk here n v r l E HA HS HL IH]; constructor; [|exact IH]. destruct HA as (sp1 & sp2 & _ & Hw & _ & _ & HV). split; [exact Hw|]. cbn. tauto.
Qed.
