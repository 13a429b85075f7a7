(** All of the run of Fetch.v: what is fetched at each report and at the end. *)
From Coq Require Import ZArith Lia Bool.
From Verif Require Import Str Tokens LexSpec Grammar Tree AtnData Atn AtnLexer AtnParser AtnParserTable ParseKF GoParser ParserCode PredictSpec GoParserTable GoParserProof Predict PredictTable PredictProof LexPos Message
  Recovery RecoveryTable RecoveryProof RecoveryCheck RecoveryProof2 RecoveryProof3 FirstTable FirstRun FirstProof FirstProof2 FirstProof3 PlaceRun Fetch FetchProof.
Local Open Scope Z_scope.
Local Notation D := (default_strategy parser_atn).
Local Notation run f ts := (recovering_run parser_atn rule_functions adaptive_predict predict_at D f ts).
Local Notation frun f ts := (fetching_run parser_atn rule_functions adaptive_predict predict_at predict_seen D f ts).
Local Notation frexec := (fexec parser_atn rule_functions adaptive_predict predict_at predict_seen D).
Local Notation rrexec := (rexec parser_atn rule_functions adaptive_predict predict_at D).
Local Notation whole_code := (main_code ++ [Match 118 (-1)]).

(** *** At the end everything has been read *)
Lemma exit_err f ts u : rrexec f [] 0 whole_code (start_state 0 ts) = Exit u -> err u <> None.
Proof.
  intros H. destruct (fun_good 0 0 whole_code main_code_is) as (_ & Hg). destruct (run_ends parser_atn adaptive_predict predict_at D predict_of_table (start_state 0 ts) _ [] 0 Hg) as (f' & G); [unfold prec_ok; lia|unfold in_univ; cbn; lia|].
  pose proof (fine_more _ _ _ G) as Hm. pose proof (fuel_one _ _ _ _ _ f f' [] 0 whole_code (start_state 0 ts) _ _ H eq_refl ltac:(discriminate) Hm) as E. rewrite <- E in G. cbn in G. tauto.
Qed.
Lemma last_stmt x : forall c f s u, rrexec f [] 0 (c ++ [x]) s = Next u -> exists f' s', rrexec (Datatypes.S f') [] 0 [x] s' = Next u.
Proof.
  induction c as [|y c IH]; intros f s u H; (destruct f as [|f]; [discriminate H|]); [exists f, s; exact H|]. cbn [app] in H. rewrite rexec_cons in H. destruct (rstmt _ _ _ _ _ f [] 0 y s) as [s1|s1| |]; cbn [seq_out] in H; try discriminate H. eapply IH. exact H.
Qed.
Lemma at_118 : expected D [] 118 = Some [-1] /\ insertion D [] 118 = Some [-1] /\ recovery D [] = Some []. Proof. vm_compute. repeat split. Qed.
Lemma next_end f ts u : rrexec f [] 0 whole_code (start_state 0 ts) = Next u -> toks u = [].
Proof.
  intros H. destruct (last_stmt _ _ _ _ _ H) as (f' & s & E). clear H. rewrite rexec_cons in E. cbn [rstmt] in E. cbv zeta in E. destruct at_118 as (E1 & E2 & _).
  assert (K : forall o, seq_out o (rrexec f' [] 0 []) = Next u -> o = Next u) by (intros o; destruct o; cbn [seq_out]; try discriminate; destruct f'; [discriminate|exact (fun H => H)]).
  apply K in E. clear K. assert (K : forall o, seq_out o check = Next u -> o = Next u /\ err u = None). { intros o; destruct o as [v|v| |]; cbn [seq_out]; try discriminate. unfold check. destruct (err v) eqn:Ev; [discriminate|]. intros G. injection G as <-. auto. }
  apply K in E as (E & He). clear K. change (la1 (set_state 118 s)) with (la1 s) in E. destruct (la1 s =? -1) eqn:El.
  - injection E as <-. apply Z.eqb_eq, la_end in El. unfold advance. cbn. rewrite El. reflexivity.
  - unfold recover_inline, delete_one in E. cbn [cur set_state] in E. rewrite E1, E2 in E. cbn [zmem existsb] in E. rewrite !orb_false_r in E. change (la2 (set_state 118 s)) with (la2 s) in E. change (la1 (set_state 118 s)) with (la1 s) in E. destruct (la2 s =? -1) eqn:E3.
    + injection E as <-. unfold advance, report_match. cbn [toks]. rewrite tell_toks. cbn [toks set_state]. apply Z.eqb_eq in E3. unfold la2 in E3. destruct (toks s) as [|x [|y l]]; try reflexivity. unfold kind_of in E3. pose proof (kind_range (ty y)). lia.
    + rewrite El in E. injection E as <-. discriminate He.
Qed.

(** *** The whole run *)
Lemma frun_shape f ts : frun f ts = match fleave D [] (frexec f [] 0 whole_code (fstart 0 ts)) FNext with
  | FNext s | FExit s => FEnded (combine (reports (core s)) (log s)) (seen s) | FPanic => FPanicked | FMore => FUnended end.
Proof. unfold fetching_run. pose proof main_code_is as H. destruct rule_functions as [|(start, body) l]; [discriminate H|]. cbn [nth_error] in H. injection H as -> ->. reflexivity. Qed.
Lemma fst_combine {T U} (l : list T) (m : list U) : length l = length m -> map fst (combine l m) = l.
Proof. revert m. induction l as [|x l IH]; intros [|y m] H; try discriminate H; [reflexivity|]. cbn. f_equal. apply IH. injection H as H. exact H. Qed.
Lemma snd_combine {T U} (l : list T) (m : list U) : length l = length m -> map snd (combine l m) = m.
Proof. revert m. induction l as [|x l IH]; intros [|y m] H; try discriminate H; [reflexivity|]. cbn. f_equal. apply IH. injection H as H. exact H. Qed.
Lemma same_length {T U} (R : T -> U -> Prop) l m : Forall2 R l m -> length l = length m. Proof. induction 1; cbn; congruence. Qed.
Lemma J_start ts : J (length ts) (fstart 0 ts).
Proof. unfold J, fstart, start_state, here. cbn. repeat split; auto; try discriminate. Qed.
Theorem fetched f ts rs e : frun f ts = FEnded rs e ->
  run f ts = Ended (map fst rs) /\ e = 0%nat /\ falls (length ts) (map snd rs) 0 /\ Forall (fun x => (snd x <= r_left (fst x) <= snd x + 2)%nat) rs /\ match rs with (r, h) :: _ => (r_left r <= S h)%nat | [] => True end.
Proof.
  rewrite frun_shape. intros H.
  assert (Hj : match fleave D [] (frexec f [] 0 whole_code (fstart 0 ts)) FNext with FNext s | FExit s => J (length ts) s | _ => True end).
  { pose proof (run_ok (length ts) adaptive_predict predict_at predict_seen D predict_at_le predict_seen_le f [] 0 true whole_code (fstart 0 ts) (proj2 (fun_good 0 0 _ main_code_is)) (set_fun 0 0 _ main_code_is) (calm_fun 0 0 _ main_code_is) ltac:(unfold prec_ok; lia) (J_start ts) eq_refl) as G.
    pose proof (ok_leave (length ts) D [] false _ FNext G (fun s Hs He => ok_next (length ts) s Hs He)) as K. destruct (fleave D [] (frexec f [] 0 whole_code (fstart 0 ts)) FNext); cbn in K; tauto. }
  assert (Hp : proj (fleave D [] (frexec f [] 0 whole_code (fstart 0 ts)) FNext) = leave D [] (rrexec f [] 0 whole_code (start_state 0 ts)) Next).
  { rewrite (proj_leave _ _ _ _ Next) by reflexivity. rewrite same_run. reflexivity. }
  assert (He : match fleave D [] (frexec f [] 0 whole_code (fstart 0 ts)) FNext with FNext s | FExit s => toks (core s) = [] | _ => True end).
  { pose proof (next_end f ts) as N. pose proof (exit_err f ts) as X. destruct at_118 as (_ & _ & R).
    assert (Hx : forall u v, error_exit D [] u = Some v -> err u <> None \/ toks u = [] -> toks v = []).
    { intros u v E Hu. unfold error_exit in E. destruct (err u) as [r|] eqn:Eu.
      - unfold recover in E. rewrite R in E. injection E as <-. unfold consume_until, set_err. cbn [toks]. assert (K : forall l, drop_until [] l = []) by (induction l; [reflexivity|assumption]). apply K.
      - injection E as <-. destruct Hu; [congruence|assumption]. }
    destruct (fleave D [] (frexec f [] 0 whole_code (fstart 0 ts)) FNext) as [s|s| |]; try exact I; cbn [proj] in Hp; destruct (rrexec f [] 0 whole_code (start_state 0 ts)) as [u|u| |]; cbn [leave] in Hp; try discriminate Hp;
      (destruct (error_exit D [] u) as [v|] eqn:E; [|discriminate Hp]); try discriminate Hp; injection Hp as ->; apply (Hx u v E); [right; apply N; reflexivity|left; apply X; reflexivity]. }
  rewrite run_shape, <- Hp. destruct (fleave D [] (frexec f [] 0 whole_code (fstart 0 ts)) FNext) as [s|s| |]; try discriminate H; injection H as <- <-; cbn [proj]; destruct Hj as (J1 & J2 & J3 & J4 & _); unfold here in J2; rewrite He in J2; cbn [length] in J2;
    pose proof (same_length _ _ _ J3) as Hl; (rewrite fst_combine by exact Hl); (rewrite snd_combine by exact Hl); (split; [reflexivity|]); (split; [lia|]); (split; [replace 0%nat with (seen s) by lia; exact J1|]); clear - J3 J4;
    (split; [|destruct (reports (core s)), (log s); try exact I; exact J4]); clear J4; revert J3; generalize (reports (core s)) as a, (log s) as b; intros a b J3; induction J3; cbn [combine]; constructor; auto.
Qed.
Theorem fetching_ends f ts rs : run f ts = Ended rs -> exists l, frun f ts = FEnded l 0 /\ map fst l = rs.
Proof.
  intros H. assert (exists l e, frun f ts = FEnded l e) as (l & e & E).
  { rewrite frun_shape. rewrite run_shape in H. assert (Hp : proj (fleave D [] (frexec f [] 0 whole_code (fstart 0 ts)) FNext) = leave D [] (rrexec f [] 0 whole_code (start_state 0 ts)) Next).
    { rewrite (proj_leave _ _ _ _ Next) by reflexivity. rewrite same_run. reflexivity. }
    destruct (fleave D [] (frexec f [] 0 whole_code (fstart 0 ts)) FNext); cbn [proj] in Hp; rewrite <- Hp in H; try discriminate H; eauto. }
  destruct (fetched _ _ _ _ E) as (G & -> & _). rewrite H in G. injection G as ->. eauto.
Qed.
