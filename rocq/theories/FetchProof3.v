(** Fetch.v: the listener gets the lexing errors and the reports, in order. *)
From Coq Require Import ZArith Lia Bool.
From Verif Require Import Str Tokens LexSpec LexerProof Lexer Grammar Tree AtnData Atn ScanSpec PlaceSpec AtnLexer AtnLexerProof AtnParser AtnParserTable ParseKF GoParser ParserCode PredictSpec GoParserTable Predict LexPos LexPosProof Message
  Recovery RecoveryTable RecoveryProof Fetch FetchProof FetchProof2 FetchSpec PropAtn PropRecovery PropPlace.
Local Open Scope Z_scope.

(** *** Fuel *)
Section Fuel.
Variable A : atn.
Variable funs : list (Z * list code).
Variable P : predictor.
Variables P_at P_seen : forall (d p : Z) (input : list Z), nat.
Variable S : strategy.
Local Notation fexec := (fexec A funs P P_at P_seen S).
Lemma fseq_mono r r' g g' : (r <> FMore -> r' = r) -> (forall s, g s <> FMore -> g' s = g s) -> fseq r g <> FMore -> fseq r' g' = fseq r g.
Proof. intros Hr Hg H. destruct r as [s|s| |]; cbn [fseq] in *; try (rewrite Hr by discriminate; cbn; auto); congruence. Qed.
Lemma fleave_mono k r r' g : (r <> FMore -> r' = r) -> fleave S k r g <> FMore -> fleave S k r' g = fleave S k r g.
Proof. intros Hr H. destruct r; cbn [fleave] in *; try (rewrite Hr by discriminate; reflexivity); congruence. Qed.
Lemma fstep_mono f g (IH : forall k p c s, fexec f k p c s <> FMore -> fexec g k p c s = fexec f k p c s) k p c s : fexec (Datatypes.S f) k p c s <> FMore -> fexec (Datatypes.S g) k p c s = fexec (Datatypes.S f) k p c s.
Proof.
  destruct c as [|x c]; [reflexivity|]. cbn [Fetch.fexec]. apply fseq_mono; [|intros; apply IH; assumption].
  destruct x as [m t|m c0|m r0 j|m|c0 b0|c0 b0|c0 b0|cases e|d cases|d e b0 r0|m j]; cbv zeta; try (intros _; reflexivity).
  - destruct (nth_error funs (Z.to_nat r0)) as [(start, body)|]; [|reflexivity]. intros H. apply fleave_mono; [|exact H]. apply IH.
  - destruct (holds c0 _); [apply IH|reflexivity].
  - destruct (holds c0 _); [|reflexivity]. apply fseq_mono; [apply IH|intros; apply IH; assumption].
  - apply fseq_mono; [apply IH|]. intros s1. destruct (holds c0 _); [apply IH|reflexivity].
  - destruct (case_of _ cases); [apply IH|reflexivity].
  - destruct (P d k p _) as [a|]; [|reflexivity]. destruct (alt_of a cases); [apply IH|reflexivity].
  - destruct (P d k p _) as [a|]; [|reflexivity]. destruct (a =? e); [reflexivity|]. apply fseq_mono; [destruct (a =? 1); [apply IH|reflexivity]|]. intros s1. apply fseq_mono; [apply IH|intros; apply IH; assumption].
Qed.
Lemma ffuel_mono : forall f k p c s, fexec f k p c s <> FMore -> fexec (Datatypes.S f) k p c s = fexec f k p c s.
Proof. induction f as [|f IH]; intros k p c s H; [destruct (H eq_refl)|]. apply fstep_mono; assumption. Qed.
Lemma ffuel_more f f' k p c s r : (f <= f')%nat -> fexec f k p c s = r -> r <> FMore -> fexec f' k p c s = r.
Proof. intros L E H. induction L as [|f' L IH]; [exact E|]. rewrite ffuel_mono; congruence. Qed.
End Fuel.
Local Notation D := (default_strategy parser_atn).
Local Notation frun f ts := (fetching_run parser_atn rule_functions adaptive_predict predict_at predict_seen D f ts).
Lemma frun_more f f' ts w : (f <= f')%nat -> frun f ts = w -> w <> FUnended -> frun f' ts = w.
Proof.
  intros L E H. rewrite frun_shape in *. destruct (fexec parser_atn rule_functions adaptive_predict predict_at predict_seen D f [] 0 (main_code ++ [Match 118 (-1)]) (fstart 0 ts)) eqn:Ef; try (rewrite (ffuel_more _ _ _ _ _ _ f f' _ _ _ _ _ L Ef ltac:(discriminate)); exact E). cbn [fleave] in E. congruence.
Qed.

(** *** Interleaving *)
Lemma il_lefts {T} (a : list T) : interleaved a [] a. Proof. induction a; constructor; assumption. Qed.
Lemma il_app {T} (a b m a' b' m' : list T) : interleaved a b m -> interleaved a' b' m' -> interleaved (a ++ a') (b ++ b') (m ++ m').
Proof. induction 1; cbn; intros; [assumption|constructor; auto|constructor; auto]. Qed.
Lemma il_length {T} (a b m : list T) : interleaved a b m -> length m = (length a + length b)%nat.
Proof. induction 1; cbn; lia. Qed.
Lemma il_in {T} (a b m : list T) x : interleaved a b m -> (In x m <-> In x a \/ In x b).
Proof. induction 1; cbn; tauto. Qed.

(** *** The text up to what has been fetched *)
Definition count (l : list (event * place)) : nat := length (filter on_channel l).
Lemma from_is n : forall l, (n <= count l)%nat -> exists a, l = a ++ fetched_from n l /\ count (fetched_from n l) = n /\ match fetched_from n l with x :: _ => on_channel x = true | [] => True end.
Proof.
  induction l as [|x l IH]; cbn [fetched_from]; intros H; [exists []; cbn in *; repeat split; lia|]. unfold count in *. cbn [filter] in *. destruct (on_channel x) eqn:Ex; cbn [andb].
  - cbn [length] in *. destruct (Nat.eqb_spec (S (length (filter on_channel l))) n) as [E|E].
    + exists []. cbn [app filter]. rewrite Ex. auto.
    + destruct (IH ltac:(lia)) as (a & E1 & E2 & E3). exists (x :: a). cbn [app]. rewrite <- E1. auto.
  - destruct (IH H) as (a & E1 & E2 & E3). exists (x :: a). cbn [app]. rewrite <- E1. auto.
Qed.
Lemma to_is n l : (n <= count l)%nat -> l = fetched_to n l ++ fetched_from n l.
Proof.
  intros H. destruct (from_is n l H) as (a & E & _). unfold fetched_to. assert (G : length l = (length a + length (fetched_from n l))%nat) by (rewrite E at 1; apply app_length).
  replace (length l - length (fetched_from n l))%nat with (length a) by lia. rewrite E at 2. rewrite firstn_app, firstn_all, Nat.sub_diag, firstn_O, app_nil_r. exact E.
Qed.
Lemma messages_app a b : lexer_messages (a ++ b) = lexer_messages a ++ lexer_messages b. Proof. apply flat_map_app. Qed.
Section Merged.
Variable said : report -> str.
Lemma merged_is : forall rs l, falls (count l) (map snd rs) 0 -> interleaved (lexer_messages l) (map said (map fst rs)) (merged said l rs 0).
Proof.
  induction rs as [|(r, h) rs IH]; intros l H; cbn [merged map fst snd] in *.
  - pose proof (to_is 0 l ltac:(lia)) as E. destruct (from_is 0 l ltac:(lia)) as (_ & _ & Hc & Hs). assert (E0 : fetched_from 0 l = []). { destruct (fetched_from 0 l) as [|x m]; [reflexivity|]. unfold count in Hc. cbn [filter] in Hc. rewrite Hs in Hc. discriminate Hc. }
    rewrite E0, app_nil_r in E. rewrite E at 1. apply il_lefts.
  - destruct H as (Hh & H). rewrite (to_is h l Hh) at 1. rewrite messages_app. change (said r :: map said (map fst rs)) with ([] ++ said r :: map said (map fst rs)). apply il_app; [apply il_lefts|]. apply il_right. apply IH.
    destruct (from_is h l Hh) as (_ & _ & -> & _). exact H.
Qed.
Lemma merged_at r h rs2 : forall rs1 l, falls (count l) (map snd (rs1 ++ (r, h) :: rs2)) 0 -> exists a b u v, l = a ++ b /\ count b = h /\ match b with x :: _ => on_channel x = true | [] => True end /\
  merged said l (rs1 ++ (r, h) :: rs2) 0 = u ++ said r :: v /\ interleaved (lexer_messages a) (map said (map fst rs1)) u /\ interleaved (lexer_messages b) (map said (map fst rs2)) v.
Proof.
  induction rs1 as [|(r0, h0) rs1 IH]; intros l H; cbn [app map snd] in H; destruct H as (Hh & H); cbn [app merged].
  - destruct (from_is h l Hh) as (_ & _ & Hc & Hs). exists (fetched_to h l), (fetched_from h l), (lexer_messages (fetched_to h l)), (merged said (fetched_from h l) rs2 0). split; [apply to_is; exact Hh|]. split; [exact Hc|]. split; [exact Hs|]. split; [reflexivity|]. split; [apply il_lefts|].
    apply merged_is. rewrite Hc. exact H.
  - destruct (from_is h0 l Hh) as (_ & _ & Hc & _). destruct (IH (fetched_from h0 l)) as (a & b & u & v & E & Hb & Hs & Em & I1 & I2); [rewrite Hc; exact H|].
    exists (fetched_to h0 l ++ a), b, (lexer_messages (fetched_to h0 l) ++ said r0 :: u), v. split; [rewrite <- app_assoc, <- E; apply to_is; exact Hh|]. split; [exact Hb|]. split; [exact Hs|]. split; [rewrite Em, <- app_assoc; reflexivity|].
    split; [|exact I2]. rewrite messages_app. cbn [map fst]. change (said r0 :: map said (map fst rs1)) with ([] ++ said r0 :: map said (map fst rs1)). apply il_app; [apply il_lefts|]. apply il_right. exact I1.
Qed.
End Merged.

(** *** Events and items *)
Definition items (l : list (event * place)) : list item := map item_of (map fst l).
Lemma items_app a b : items (a ++ b) = items a ++ items b. Proof. unfold items. rewrite !map_app. reflexivity. Qed.
Lemma complaints_are : forall l before, (forall a e p b, l = a ++ (e, p) :: b -> stands (before ++ concat (map event_text (map fst a))) (line p) (column p)) -> complaints before (items l) (lexer_messages l).
Proof.
  induction l as [|(e, p) l IH]; intros before H; [constructor|]. assert (G : complaints (before ++ event_text e) (items l) (lexer_messages l)).
  { apply IH. intros a e0 p0 b E. specialize (H ((e, p) :: a) e0 p0 b ltac:(rewrite E; reflexivity)). cbn [map fst concat] in H. rewrite <- app_assoc. exact H. }
  specialize (H [] e p l eq_refl). cbn in H. rewrite app_nil_r in H. destruct e as [k ch t|t].
  - unfold items. cbn [map fst item_of]. unfold lexer_messages. cbn [flat_map lexer_message fst app]. apply cp_seen. exact G.
  - unfold items. cbn [map fst item_of]. unfold lexer_messages. cbn [flat_map lexer_message fst snd app]. apply cp_skipped; assumption.
Qed.
Lemma complaints_one before its ms : complaints before its ms -> forall ms', complaints before its ms' -> ms = ms'.
Proof.
  induction 1 as [|? ? ? ? ? ? _ IH|? ? ? ? ? ? Hs _ IH]; intros ms' H; inversion H; subst; auto. match goal with H1 : stands before ?l ?c, H2 : stands before ?l' ?c' |- _ => destruct (C49_one_place _ _ _ _ _ H1 H2) as (-> & ->) end. f_equal. auto.
Qed.
