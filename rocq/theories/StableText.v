(** What a message says depends on the tokens up to the one it is about. *)
From Coq Require Import ZArith Lia Bool.
From Verif Require Import Str Tokens LexSpec Grammar Atn AtnLexer ScanSpec FetchSpec Recovery Message MessageProof StableRun.
Local Open Scope nat_scope.

Definition showns (l : list event) : nat := length (filter shown l).
Lemma from_before n y : forall x, showns y < n -> n <= showns (x ++ y) -> from n (x ++ y) = from (n - showns y) x ++ y /\ from (n - showns y) x <> [].
Proof.
  induction x as [|e x IH]; intros L1 L2; [cbn [app] in L2; lia|]. cbn [app from]. unfold showns in *. cbn [app filter] in *. rewrite filter_app in *. destruct (shown e) eqn:Es; cbn [andb length] in *; rewrite ?app_length in *.
  - destruct (Nat.eqb_spec (S (length (filter shown x) + length (filter shown y))) n) as [E|E].
    + destruct (Nat.eqb_spec (S (length (filter shown x))) (n - length (filter shown y))) as [E'|E']; [|lia]. split; [reflexivity|discriminate].
    + destruct (Nat.eqb_spec (S (length (filter shown x))) (n - length (filter shown y))) as [E'|E']; [lia|]. apply IH; lia.
  - apply IH; lia.
Qed.
Lemma from_length n : forall x, length (from n x) <= length x.
Proof. induction x as [|e x IH]; [reflexivity|]. cbn [from]. destruct (_ && _); cbn [length]; lia. Qed.
Lemma firstn_front {T} n (a b : list T) : n <= length a -> firstn n (a ++ b) = firstn n a.
Proof. intros L. rewrite firstn_app. replace (n - length a) with 0 by lia. rewrite firstn_O, app_nil_r. reflexivity. Qed.
Lemma text_at_before n x y : showns y < n -> n <= showns (x ++ y) -> text_at n (x ++ y) = text_at (n - showns y) x.
Proof. intros L1 L2. unfold text_at. destruct (from_before n y x L1 L2) as (-> & H). destruct (from (n - showns y) x); [congruence|reflexivity]. Qed.
Lemma text_between_before n m x y : showns y < n -> n <= showns (x ++ y) -> showns y < m -> m <= showns (x ++ y) -> text_between n m (x ++ y) = text_between (n - showns y) (m - showns y) x.
Proof.
  intros L1 L2 L3 L4. unfold text_between. cbv zeta. destruct (from_before n y x L1 L2) as (-> & H). destruct (from_before m y x L3 L4) as (-> & H'). rewrite !app_length.
  replace (length (from (n - showns y) x) + length y - (length (from (m - showns y) x) + length y)) with (length (from (n - showns y) x) - length (from (m - showns y) x)) by lia.
  rewrite firstn_front by lia. destruct (from (m - showns y) x); [congruence|reflexivity].
Qed.
Definition since_ok (c n : nat) (r : report) : Prop := match r_detail r with Since m => c < m <= n | _ => True end.
Lemma worded_before x y1 y2 r : let c1 := showns (map ev y1) in let c2 := showns (map ev y2) in
  c1 < r_left r <= showns (map ev (x ++ y1)) -> since_ok c1 (showns (map ev (x ++ y1))) r ->
  forall r', r_kind r' = r_kind r -> r_left r' = r_left r - c1 + c2 -> r_detail r' = (match r_detail r with Since n => Since (n - c1 + c2) | d => d end) ->
  wording_of (map ev (x ++ y2)) r' = wording_of (map ev (x ++ y1)) r.
Proof.
  cbv zeta. intros H Hs r' Ek El Ed. unfold wording_of. rewrite Ek, El, Ed. unfold since_ok in Hs. rewrite !map_app in *. set (c1 := showns (map ev y1)) in *. set (c2 := showns (map ev y2)) in *.
  assert (Ec : forall y, showns (map ev x ++ map ev y) = showns (map ev x) + showns (map ev y)) by (intros y; unfold showns; rewrite filter_app, app_length; reflexivity). rewrite Ec in *. fold c1 in H, Hs.
  assert (Hd : display (r_left r - c1 + c2) (map ev x ++ map ev y2) = display (r_left r) (map ev x ++ map ev y1)).
  { unfold display. f_equal. rewrite !text_at_before by (rewrite ?Ec; fold c1 c2; lia). fold c1 c2. f_equal. lia. }
  rewrite Hd. destruct (r_kind r), (r_detail r) as [l|n|j]; try reflexivity. do 3 f_equal. destruct n as [|n]; [lia|]. replace (S n - c1 + c2) with (S (n - c1 + c2)) by lia. cbv iota. replace (S (n - c1 + c2)) with (S n - c1 + c2) by lia.
  rewrite !text_between_before by (rewrite ?Ec; fold c1 c2; lia). fold c1 c2. f_equal; lia.
Qed.
Lemma split_once (its a b a' b' : list item) : its = a ++ b -> its = a' ++ b' -> starts_visible b -> starts_visible b' -> visible_in b = visible_in b' -> a = a'.
Proof.
  intros -> E Hb Hb' Ev. apply app_eq_app in E as (c & [(E1 & E2)|(E1 & E2)]).
  - destruct c as [|i c]; [rewrite app_nil_r in E1; exact E1|]. exfalso. subst b'. cbn in Hb'. unfold visible_in in Ev. cbn [app filter] in Ev. rewrite Hb' in Ev. cbn [length] in Ev. rewrite filter_app, app_length in Ev. lia.
  - destruct c as [|i c]; [rewrite app_nil_r in E1; symmetry; exact E1|]. exfalso. subst b. cbn in Hb. unfold visible_in in Ev. cbn [app filter] in Ev. rewrite Hb in Ev. cbn [length] in Ev. rewrite filter_app, app_length in Ev. lia.
Qed.
Lemma among_app a b ts : tokens_among (a ++ b) ts -> exists ta tb, ts = ta ++ tb /\ tokens_among a ta /\ tokens_among b tb.
Proof. unfold tokens_among. rewrite filter_app. intros H. symmetry in H. apply map_eq_app in H as (ta & tb & -> & H1 & H2). exists ta, tb. auto. Qed.
Lemma among_visible b tb : tokens_among b tb -> visible_in b = length (drop_layout tb).
Proof.
  unfold tokens_among, visible_in. intros H. assert (E : filter visible b = filter visible (filter is_seen b)).
  { clear H. induction b as [|i b IH]; [reflexivity|]. destruct i as [k h t|u]; cbn [filter is_seen]; [|exact IH]. cbn [filter]. rewrite IH. reflexivity. }
  rewrite E, H. clear E H. induction tb as [|t tb IH]; [reflexivity|]. unfold drop_layout. cbn [map filter visible]. destruct (is_layout (ty t)); cbn [negb length]; unfold drop_layout in IH; rewrite IH; reflexivity.
Qed.
Lemma among_fits a b ta tb : tokens_among a ta -> tokens_among b tb -> tokens_among (a ++ b) (ta ++ tb).
Proof. unfold tokens_among. intros H1 H2. rewrite filter_app, map_app, H1, H2. reflexivity. Qed.
