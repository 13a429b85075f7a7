(** Lines and columns are those of the text. *)
From Coq Require Import ZArith Lia.
From Verif Require Import Str Atn AtnLexer Tokens LexSpec Recovery LexPos PlaceSpec.
Local Open Scope Z_scope.

Definition walked (p : place) (s : str) : place := fold_left step s p.
Lemma walked_app p a b : walked p (a ++ b) = walked (walked p a) b. Proof. apply fold_left_app. Qed.
Lemma firstn_snoc {X} (s : list X) n c : nth_error s n = Some c -> firstn (S n) s = firstn n s ++ [c].
Proof. revert n. induction s as [|x s IH]; intros [|n] H; try discriminate H; cbn in *; [injection H as ->; reflexivity|]. rewrite (IH n H). reflexivity. Qed.

Section Sim.
Variable A : atn.
Definition same_accept (p0 : place) (full : str) (x : option (Z * list Z * nat * place)) (y : option (Z * list Z * nat)) : Prop :=
  match x, y with Some (k, a, i, b), Some (k', a', i') => k = k' /\ a = a' /\ i = i' /\ b = walked p0 (firstn i full) | None, None => True | _, _ => False end.
Lemma exec_at_exec p0 : forall s u cs prev prev0, same_accept p0 (u ++ s) prev prev0 ->
  match exec A cs s (length u) prev0, exec_at A cs s (length u) (walked p0 u) prev with
  | Some (y, m), Some (x, m', b) => m = m' /\ same_accept p0 (u ++ s) x y /\ b = walked p0 (firstn m (u ++ s))
  | None, None => True
  | _, _ => False
  end.
Proof.
  assert (A0 : forall u s cs prev prev0, same_accept p0 (u ++ s) prev prev0 -> same_accept p0 (u ++ s) (match accept_of A cs with Some (k, acts) => Some (k, acts, length u, walked p0 u) | None => prev end) (match accept_of A cs with Some (k, acts) => Some (k, acts, length u) | None => prev0 end)).
  { intros u s cs prev prev0 H. destruct (accept_of A cs) as [(k, acts)|]; [cbn; repeat split; rewrite firstn_app, firstn_all, Nat.sub_diag, app_nil_r; reflexivity|exact H]. }
  induction s as [|c s IH]; intros u cs prev prev0 H; cbn [exec exec_at]; pose proof (A0 _ _ cs _ _ H) as H'.
  - split; [reflexivity|]. split; [exact H'|]. rewrite firstn_app, firstn_all, Nat.sub_diag, app_nil_r. reflexivity.
  - destruct (reach A cs (Z.of_N c)) as [[|x cs']|]; [|specialize (IH (u ++ [c]) (x :: cs'))|exact I].
    + split; [reflexivity|]. split; [exact H'|]. rewrite firstn_app, firstn_all, Nat.sub_diag, app_nil_r. reflexivity.
    + rewrite app_length, Nat.add_1_r, walked_app in IH. cbn [walked fold_left] in IH. rewrite <- app_assoc in IH. apply IH. exact H'.
Qed.
Fixpoint tagged (p : place) (l : list event) : list (event * place) := match l with [] => [] | e :: l' => (e, p) :: tagged (walked p (event_text e)) l' end.
Lemma places_events : forall f init s p l, events_fuel A f init s = Some l -> places_fuel A f init s p = Some (tagged p l, walked p s).
Proof.
  induction f as [|f IH]; intros init s p l H; destruct s as [|c s]; cbn [events_fuel places_fuel] in *; try (injection H as <-; reflexivity); try discriminate H.
  pose proof (exec_at_exec p (c :: s) [] init None None I) as G. cbn [length app walked fold_left] in G.
  destruct (exec A init (c :: s) 0 None) as [(y, m)|]; [|discriminate H]. destruct (exec_at A init (c :: s) 0 p None) as [((x, m'), b)|]; [|destruct G]. destruct G as (<- & Ha & ->).
  destruct y as [((k, acts), n)|]; destruct x as [(((k', acts'), n'), b)|]; cbn in Ha; try (exfalso; exact Ha).
  - destruct Ha as (-> & -> & -> & ->). destruct (events_fuel A f init (skipn n (c :: s))) as [l'|] eqn:E; [|discriminate H]. injection H as <-.
    rewrite (IH _ _ (walked p (firstn n (c :: s))) _ E). cbn [tagged event_text]. rewrite <- walked_app, firstn_skipn. reflexivity.
  - destruct (events_fuel A f init (skipn (S m) (c :: s))) as [l'|] eqn:E; [|discriminate H]. injection H as <-.
    assert (Ew : match nth_error (c :: s) m with Some c0 => step (walked p (firstn m (c :: s))) c0 | None => walked p (firstn m (c :: s)) end = walked p (firstn (S m) (c :: s))).
    { destruct (nth_error (c :: s) m) as [c0|] eqn:En; [rewrite (firstn_snoc _ _ _ En), walked_app; reflexivity|]. apply nth_error_None in En. rewrite !firstn_all2 by lia. reflexivity. }
    rewrite Ew, (IH _ _ (walked p (firstn (S m) (c :: s))) _ E). cbn [tagged event_text]. rewrite <- walked_app, firstn_skipn. reflexivity.
Qed.
End Sim.
Lemma lexer_places_events s l : lexer_events s = Some l -> lexer_places s = Some (tagged (Place 1 0) l, walked (Place 1 0) s).
Proof. unfold lexer_events, lexer_places, events, places. destruct (start_configs lexer_atn) as [init|]; [|discriminate]. apply places_events. Qed.
Lemma tagged_at l : forall p, Forall (fun x => True) l -> forall a e b, l = a ++ e :: b -> nth_error (tagged p l) (length a) = Some (e, walked p (concat (map event_text a))).
Proof.
  intros p _ a. revert l p. induction a as [|x a IH]; intros l p e b ->; [reflexivity|]. cbn [app tagged length nth_error map concat]. rewrite (IH _ _ e b eq_refl), walked_app. reflexivity.
Qed.

(** *** Counted = standing *)
Lemma walked_stands s : stands s (line (walked (Place 1 0) s)) (column (walked (Place 1 0) s)).
Proof.
  induction s as [|c s IH] using rev_ind; [exists [], []; cbn; auto|]. destruct IH as (ls & last & E & H1 & H2 & H3 & H4). rewrite walked_app. cbn [walked fold_left]. fold (walked (Place 1 0) s). unfold step.
  destruct (N.eqb_spec c 10) as [->|Hc]; cbn [line column].
  - exists (ls ++ [last]), []. rewrite map_app, concat_app. cbn [map concat]. rewrite !app_nil_r, E, <- app_assoc. split; [reflexivity|]. split; [apply Forall_app; auto|]. split; [intros []|].
    rewrite app_length. cbn [length]. rewrite E in H3. split; [rewrite H3; lia|reflexivity].
  - exists ls, (last ++ [c]). rewrite E, <- app_assoc. split; [reflexivity|]. split; [exact H1|]. split; [intros Hin; apply in_app_or in Hin as [Hin|[Hin|[]]]; [exact (H2 Hin)|congruence]|].
    rewrite E in H3, H4. split; [exact H3|]. rewrite app_length. cbn [length]. rewrite H4. lia.
Qed.
Lemma walked_line p s : ~ In 10%N s -> walked p s = Place (line p) (column p + length s).
Proof.
  revert p. induction s as [|c s IH]; intros p H; [destruct p; cbn; rewrite Nat.add_0_r; reflexivity|]. cbn [walked fold_left]. fold (walked (step p c) s). rewrite IH by (intros Hin; apply H; right; exact Hin).
  unfold step. destruct (N.eqb_spec c 10) as [->|_]; [destruct H; left; reflexivity|]. cbn. f_equal. lia.
Qed.
Lemma stands_walked s l c : stands s l c -> walked (Place 1 0) s = Place l c.
Proof.
  intros (ls & last & -> & H1 & H2 & -> & ->). rewrite walked_app. assert (G : forall k, walked (Place k 0) (concat (map (fun x => x ++ [10%N]) ls)) = Place (k + length ls) 0).
  { clear last H2. induction H1 as [|x ls Hx _ IH]; intros k; [cbn; f_equal; lia|]. cbn [map concat]. rewrite !walked_app, (walked_line _ x Hx). cbn [walked fold_left step N.eqb Pos.eqb line column]. fold (walked (Place (S k) 0) (concat (map (fun x => x ++ [10%N]) ls))). rewrite IH. cbn. f_equal. lia. }
  rewrite G, walked_line by exact H2. reflexivity.
Qed.
