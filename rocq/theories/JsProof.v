From Verif Require Import Str Utf8Spec Utf8 Utf8Proof JsSpec Js.
Local Open Scope N_scope.

Lemma encode16_utf16 t : encode16 t = concat (map utf16 t). Proof. reflexivity. Qed.
Lemma high_iff a : high a = true <-> 55296 <= a < 56320.
Proof. unfold high. rewrite andb_true_iff, N.leb_le, N.ltb_lt. reflexivity. Qed.
Lemma low_iff a : low a = true <-> 56320 <= a < 57344.
Proof. unfold low. rewrite andb_true_iff, N.leb_le, N.ltb_lt. reflexivity. Qed.
Lemma utf16_small r : r < 65536 -> utf16 r = [r]. Proof. intros H. unfold utf16. rewrite (proj2 (N.ltb_lt _ _) H). reflexivity. Qed.
Lemma utf16_big h l : h < 1024 -> l < 1024 -> utf16 (65536 + h * 1024 + l) = [55296 + h; 56320 + l].
Proof.
  intros Hh Hl. unfold utf16. rewrite (proj2 (N.ltb_ge _ _)) by lia. replace (65536 + h * 1024 + l - 65536) with (h * 1024 + l) by lia.
  rewrite div_low, mod_low by exact Hl. reflexivity.
Qed.
Lemma utf16_forms r : scalar r -> (r < 65536 /\ ~ (55296 <= r < 57344) /\ utf16 r = [r]) \/
  exists h l, h < 1024 /\ l < 1024 /\ r = 65536 + h * 1024 + l /\ utf16 r = [55296 + h; 56320 + l].
Proof.
  intros HS. destruct (N.lt_ge_cases r 65536) as [H|H].
  - left. split; [exact H|]. split; [unfold scalar in HS; lia|apply utf16_small; exact H].
  - right. exists ((r - 65536) / 1024), ((r - 65536) mod 1024). pose proof (N.mod_upper_bound (r - 65536) 1024 ltac:(lia)) as Hm.
    pose proof (N.div_mod (r - 65536) 1024 ltac:(lia)) as E. assert (Hd : (r - 65536) / 1024 < 1024) by (apply N.div_lt_upper_bound; unfold scalar in HS; lia).
    assert (ER : r = 65536 + (r - 65536) / 1024 * 1024 + (r - 65536) mod 1024) by lia. split; [exact Hd|]. split; [exact Hm|]. split; [exact ER|].
    unfold utf16. rewrite (proj2 (N.ltb_ge _ _)) by lia. reflexivity.
Qed.
Lemma decode_char r u : scalar r -> decode16 (utf16 r ++ u) = r :: decode16 u.
Proof.
  intros HS. destruct (utf16_forms r HS) as [(H1 & H2 & ->)|(h & l & Hh & Hl & -> & ->)]; cbn [app decode16].
  - destruct (high r) eqn:EH; [apply high_iff in EH; lia|]. destruct (low r) eqn:EL; [apply low_iff in EL; lia|]. reflexivity.
  - rewrite (proj2 (high_iff _)) by lia. rewrite (proj2 (low_iff _)) by lia. f_equal. lia.
Qed.
Lemma decode_bad c u : unit16 c -> (forall r v, scalar r -> c :: u <> utf16 r ++ v) -> decode16 (c :: u) = 65533 :: decode16 u.
Proof.
  intros HC H. assert (HS : 55296 <= c < 57344).
  { destruct (N.lt_ge_cases c 55296) as [L|L]; [exfalso; apply (H c u); [left; exact L|rewrite utf16_small by (unfold unit16 in HC; lia); reflexivity]|].
    destruct (N.lt_ge_cases c 57344) as [G|G]; [auto|exfalso; apply (H c u); [right; unfold unit16 in HC; lia|rewrite utf16_small by exact HC; reflexivity]]. }
  cbn [decode16]. destruct (high c) eqn:EH.
  - destruct u as [|b u]; [reflexivity|]. destruct (low b) eqn:EL; [exfalso|reflexivity]. apply high_iff in EH. apply low_iff in EL.
    apply (H (65536 + (c - 55296) * 1024 + (b - 56320)) u); [right; lia|]. rewrite utf16_big by lia. cbn [app]. do 2 (f_equal; try lia).
  - destruct (low c) eqn:EL; [reflexivity|exfalso]. assert (high c = true \/ low c = true) as [X|X]; [|congruence|congruence].
    destruct (N.lt_ge_cases c 56320); [left; apply high_iff; lia|right; apply low_iff; lia].
Qed.
Lemma reads16_units u t : reads16 u t -> Forall unit16 u -> decode16 u = t.
Proof.
  intros H. induction H as [|r u t HS H IH|c u t HB H IH]; intros HU; [reflexivity| |].
  - rewrite decode_char by exact HS. f_equal. apply IH. apply Forall_app in HU. apply HU.
  - inversion HU. rewrite decode_bad by assumption. f_equal. apply IH. assumption.
Qed.
Lemma start16 c b u r v : scalar r -> c :: b :: u = utf16 r ++ v -> ~ (55296 <= c < 57344) \/ (high c = true /\ low b = true).
Proof.
  intros HS E. destruct (utf16_forms r HS) as [(_ & H2 & E')|(h & l & Hh & Hl & _ & E')]; rewrite E' in E; cbn [app] in E.
  - apply (f_equal (hd 0)) in E. cbn [hd] in E. subst c. left. exact H2.
  - pose proof (f_equal (hd 0) E) as E1. pose proof (f_equal (fun l => hd 0 (tl l)) E) as E2. cbn [hd tl] in E1, E2. right. clear - E1 E2 Hh Hl. split; [apply high_iff|apply low_iff]; lia.
Qed.
Lemma reads16_exists : forall n u, (length u <= n)%nat -> Forall unit16 u -> reads16 u (decode16 u).
Proof.
  induction n as [|n IH]; intros u HL HU; (destruct u as [|c u]; [apply rj_nil|]); cbn [length] in HL; [lia|]. inversion HU as [|? ? HC HU']; subst.
  assert (D : (exists r v, scalar r /\ c :: u = utf16 r ++ v) \/ forall r v, scalar r -> c :: u <> utf16 r ++ v).
  { destruct (N.lt_ge_cases c 55296) as [L|L]; [left; exists c, u; split; [left; exact L|rewrite utf16_small by exact HC; reflexivity]|].
    destruct (N.lt_ge_cases c 57344) as [G|G]; [|left; exists c, u; split; [right; unfold unit16 in HC; lia|rewrite utf16_small by exact HC; reflexivity]].
    destruct u as [|b u].
    - right. intros r v HS E. destruct (utf16_forms r HS) as [(H1 & H2 & E')|(h & l & Hh & Hl & _ & E')]; rewrite E' in E; [apply (f_equal (hd 0)) in E; cbn [hd app] in E; lia|discriminate].
    - destruct (high c && low b) eqn:HB.
      + apply andb_true_iff in HB as [A B]. apply high_iff in A. apply low_iff in B. left.
        exists (65536 + (c - 55296) * 1024 + (b - 56320)), u. split; [right; lia|]. rewrite utf16_big by lia. cbn [app]. do 2 (f_equal; try lia).
      + right. intros r v HS E. destruct (start16 c b u r v HS E) as [X|[X Y]]; [auto|rewrite X, Y in HB; discriminate]. }
  destruct D as [(r & v & HS & E)|HB].
  - rewrite E in *. rewrite decode_char by exact HS. apply rj_char; [exact HS|]. apply IH; [|apply Forall_app in HU; apply HU].
    apply (f_equal (@length N)) in E. cbn [length] in E. rewrite app_length in E. destruct (utf16_forms r HS) as [(_ & _ & E')|(h & l & _ & _ & _ & E')]; rewrite E' in E; cbn in E; lia.
  - rewrite decode_bad by assumption. apply rj_bad; [exact HB|]. apply IH; [lia|exact HU'].
Qed.
Lemma reads16_iff u t : Forall unit16 u -> (reads16 u t <-> decode16 u = t).
Proof. intros HU. split; [intros H; apply reads16_units; assumption|intros <-; eapply reads16_exists; [apply le_n|exact HU]]. Qed.
Lemma reads16_scalar u t : reads16 u t -> Forall scalar t.
Proof. intros H. induction H; constructor; auto. right. lia. Qed.
Lemma reads16_text t : Forall scalar t -> reads16 (concat (map utf16 t)) t.
Proof. intros H. induction H as [|r t HS H IH]; [apply rj_nil|]. cbn [map concat]. apply rj_char; assumption. Qed.
Lemma utf16_unit r : scalar r -> Forall unit16 (utf16 r).
Proof. intros HS. unfold unit16. destruct (utf16_forms r HS) as [(H1 & _ & ->)|(h & l & Hh & Hl & _ & ->)]; repeat constructor; lia. Qed.
Lemma units_reads bs : reads16 (units bs) (runes bs) /\ Forall unit16 (units bs).
Proof.
  unfold units. rewrite encode16_utf16. split; [apply reads16_text, runes_scalar|]. pose proof (runes_scalar bs) as H. induction H as [|r t HS H IH]; [constructor|].
  cbn [map concat]. apply Forall_app. split; [apply utf16_unit; exact HS|exact IH].
Qed.
