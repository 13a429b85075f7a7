(** Alone, a parser that asks does what GoParser.v and Recovery.v say; and it asks only what it may. *)
From Coq Require Import ZArith Lia.
From Verif Require Import Str Grammar Tree AtnData Atn AtnParser AtnParserTable AtnTree GoParser ParserCode PredictSpec GoParserTable Predict PredictTable Recovery ParseCache ParseCacheProof Asking.
Local Open Scope Z_scope.
Local Opaque parser_atn decision_state rule_functions adaptive_predict predict_at asked.

Lemma alone_bind {X Y} (m : asking X) (f : X -> asking Y) : alone (bind m f) = alone (f (alone m)).
Proof. induction m as [x|d p input k IH]; [reflexivity|]. cbn. apply IH. Qed.
Lemma legit_bind {X Y} (m : asking X) (f : X -> asking Y) : legit m -> legit (f (alone m)) -> legit (bind m f).
Proof. induction m as [x|d p input k IH]; intros H H'; [exact H'|]. cbn in *. destruct H as (Hq & H). split; [exact Hq|]. apply IH; assumption. Qed.

Section Run.
Variable A : atn.
Variable funs : list (Z * list code).
Lemma alone_athen m k : alone (athen m k) = andthen (alone m) (fun s => alone (k s)).
Proof. unfold athen. rewrite alone_bind. destruct (alone m); reflexivity. Qed.
Lemma andthen_ext r k k' : (forall s, k s = k' s) -> andthen r k = andthen r k'. Proof. intros H. destruct r; cbn; auto. Qed.
Lemma alone_aexec : forall f p k c s, alone (aexec A funs f p c s) = exec A funs adaptive_predict f k p c s.
Proof.
  assert (PK : forall d k p i, adaptive_predict d k p i = adaptive_predict d [] p i) by reflexivity.
  induction f as [|f IH]; intros p k c s; [reflexivity|]. destruct c as [|x c]; [reflexivity|]. cbn [aexec exec]. rewrite alone_athen. rewrite (andthen_ext _ _ (exec A funs adaptive_predict f k p c)) by (intros s'; apply IH). f_equal.
  destruct x as [n t|n c0|n r j|n|c0 b|c0 b|c0 b|cases e|d cases|d e b r|n j]; try reflexivity.
  - destruct (nth_error funs (Z.to_nat r)) as [(st, body)|]; [|reflexivity]. rewrite alone_athen, (IH j ((n, p) :: k)). apply andthen_ext. reflexivity.
  - destruct (holds c0 (la s)); [apply IH|reflexivity].
  - destruct (holds c0 (la s)); [|reflexivity]. rewrite alone_athen, (IH p k). apply andthen_ext. intros; apply IH.
  - rewrite alone_athen, (IH p k). apply andthen_ext. intros s'. destruct (holds c0 (la s')); [apply IH|reflexivity].
  - destruct (case_of (la s) cases); [apply IH|reflexivity].
  - cbn [alone]. unfold right. rewrite (PK d k). destruct (adaptive_predict d [] p (input_of s)) as [a|]; [|reflexivity]. destruct (alt_of a cases); [apply IH|reflexivity].
  - cbn [alone]. unfold right. rewrite (PK d k). destruct (adaptive_predict d [] p (input_of s)) as [a|]; [|reflexivity]. destruct (a =? e); [reflexivity|]. rewrite alone_athen.
    replace (alone (if a =? 1 then aexec A funs f p b s else Ret (Done s))) with (if a =? 1 then exec A funs adaptive_predict f k p b s else Done s) by (destruct (a =? 1); [symmetry; apply IH|reflexivity]).
    apply andthen_ext. intros s'. rewrite alone_athen, (IH p k). apply andthen_ext. intros; apply IH.
Qed.
Variable S : strategy.
Lemma alone_aseq m k : alone (aseq m k) = seq_out (alone m) (fun s => alone (k s)).
Proof. unfold aseq. rewrite alone_bind. destruct (alone m); reflexivity. Qed.
Lemma seq_ext r k k' : (forall s, k s = k' s) -> seq_out r k = seq_out r k'. Proof. intros H. destruct r; cbn; auto. Qed.
Lemma alone_arexec : forall f k p c s, alone (arexec A funs S f k p c s) = rexec A funs adaptive_predict predict_at S f k p c s.
Proof.
  assert (PK : forall d k p i, adaptive_predict d k p i = adaptive_predict d [] p i) by reflexivity.
  induction f as [|f IH]; intros k p c s; [reflexivity|]. destruct c as [|x c]; [reflexivity|]. cbn [arexec rexec]. rewrite alone_aseq. rewrite (seq_ext _ _ (rexec A funs adaptive_predict predict_at S f k p c)) by (intros s'; apply IH). f_equal.
  destruct x as [n t|n c0|n r j|n|c0 b|c0 b|c0 b|cases e|d cases|d e b r|n j]; try reflexivity.
  - destruct (nth_error funs (Z.to_nat r)) as [(st, body)|]; [|reflexivity]. unfold aleave. rewrite alone_bind. cbn [alone]. rewrite IH. reflexivity.
  - destruct (holds c0 (la1 s)); [apply IH|reflexivity].
  - destruct (holds c0 (la1 s)); [|reflexivity]. rewrite alone_aseq, IH. apply seq_ext. intros; apply IH.
  - rewrite alone_aseq, IH. apply seq_ext. intros s'. destruct (holds c0 (la1 s')); [apply IH|reflexivity].
  - destruct (case_of (la1 s) cases); [apply IH|reflexivity].
  - cbn [alone]. unfold right. rewrite (PK d k). destruct (adaptive_predict d [] p (rinput s)) as [a|]; [|reflexivity]. cbv zeta. destruct (alt_of a cases); [apply IH|reflexivity].
  - cbn [alone]. unfold right. rewrite (PK d k). destruct (adaptive_predict d [] p (rinput s)) as [a|]; [|reflexivity]. cbv zeta. destruct (a =? e); [reflexivity|]. rewrite alone_aseq.
    replace (alone (if a =? 1 then arexec A funs S f k p b (set_err None s) else Ret (Next (set_err None s)))) with (if a =? 1 then rexec A funs adaptive_predict predict_at S f k p b (set_err None s) else Next (set_err None s)) by (destruct (a =? 1); [symmetry; apply IH|reflexivity]).
    apply seq_ext. intros s'. rewrite alone_aseq, IH. apply seq_ext. intros; apply IH.
Qed.
Lemma alone_tree f ts : alone (tree_program A funs f ts) = source_unit_fun A funs adaptive_predict f ts.
Proof. unfold tree_program, source_unit_fun. rewrite alone_bind, (alone_aexec _ _ []). reflexivity. Qed.
Lemma alone_report f ts : alone (report_program A funs S f ts) = recovering_run A funs adaptive_predict predict_at S f ts.
Proof. unfold report_program, recovering_run. destruct funs as [|(start, body) l] eqn:E; [reflexivity|]. rewrite <- E. rewrite alone_bind. unfold aleave. rewrite alone_bind, alone_arexec. reflexivity. Qed.

(** *** Only legitimate questions *)
Fixpoint ask_ok (x : code) : bool :=
  match x with
  | Match _ _ | MatchSet _ _ | Sync _ | Prec _ _ => true
  | Call _ _ j => (0 <=? j) && (j <=? 11)
  | If _ b | For _ b | Do _ b => forallb ask_ok b
  | Switch cases _ => forallb (fun e => match e with (_, b) => forallb ask_ok b end) cases
  | Choose d cases => zmem d asked && forallb (fun e => match e with (_, b) => forallb ask_ok b end) cases
  | Loop d _ b r => zmem d asked && forallb ask_ok b && forallb ask_ok r
  end.
Hypothesis funs_ok : forallb (fun e => forallb ask_ok (snd e)) funs = true.
Lemma fun_ok r st body : nth_error funs r = Some (st, body) -> forallb ask_ok body = true.
Proof. intros H. apply nth_error_In in H. pose proof funs_ok as G. rewrite forallb_forall in G. exact (G _ H). Qed.
Lemma case_ok la cases b : forallb (fun e : list Z * list code => match e with (_, b) => forallb ask_ok b end) cases = true -> case_of la cases = Some b -> forallb ask_ok b = true.
Proof. induction cases as [|(ts, c) l IH]; intros H E; [discriminate E|]. cbn in H, E. apply andb_prop in H as (H1 & H2). destruct (zmem la ts); [injection E as <-; exact H1|auto]. Qed.
Lemma alt_ok a cases b : forallb (fun e : Z * list code => match e with (_, b) => forallb ask_ok b end) cases = true -> alt_of a cases = Some b -> forallb ask_ok b = true.
Proof. induction cases as [|(ts, c) l IH]; intros H E; [discriminate E|]. cbn in H, E. apply andb_prop in H as (H1 & H2). destruct (a =? ts); [injection E as <-; exact H1|auto]. Qed.
Lemma zmem_in z l : zmem z l = true -> In z l.
Proof. unfold zmem. rewrite existsb_exists. intros (y & H & E). apply Z.eqb_eq in E as ->. exact H. Qed.
Lemma legit_athen m k : legit m -> (forall s, legit (k s)) -> legit (athen m k).
Proof. intros H H'. apply legit_bind; [exact H|]. destruct (alone m); [apply H'|exact I|exact I]. Qed.
Lemma legit_aexec : forall f p c s, 0 <= p <= 11 -> forallb ask_ok c = true -> legit (aexec A funs f p c s).
Proof.
  induction f as [|f IH]; intros p c s Hp Hc; [exact I|]. destruct c as [|x c]; [exact I|]. cbn [aexec]. cbn [forallb] in Hc. apply andb_prop in Hc as (Hx & Hc). apply legit_athen; [|intros s'; apply IH; assumption].
  destruct x as [n t|n c0|n r j|n|c0 b|c0 b|c0 b|cases e|d cases|d e b r|n j]; try exact I; cbn [ask_ok] in Hx.
  - destruct (nth_error funs (Z.to_nat r)) as [(st, body)|] eqn:E; [|exact I]. apply legit_athen; [|intros; exact I]. apply IH; [lia|eapply fun_ok; exact E].
  - destruct (holds _ _); [apply IH; assumption|exact I].
  - destruct (holds _ _); [|exact I]. apply legit_athen; [apply IH; assumption|]. intros s'. apply IH; [exact Hp|]. cbn. rewrite Hx. reflexivity.
  - apply legit_athen; [apply IH; assumption|]. intros s'. destruct (holds _ _); [|exact I]. apply IH; [exact Hp|]. cbn. rewrite Hx. reflexivity.
  - destruct (case_of _ _) eqn:E; [|exact I]. apply IH; [exact Hp|eapply case_ok; eassumption].
  - apply andb_prop in Hx as (Hd & Hx). split; [split; [apply zmem_in; exact Hd|split; [exact Hp|exists (rest s); reflexivity]]|]. destruct (right _ _ _) as [a|m]; [|exact I]. destruct (alt_of _ _) eqn:E; [|exact I]. apply IH; [exact Hp|eapply alt_ok; eassumption].
  - apply andb_prop in Hx as (Hx & Hr). apply andb_prop in Hx as (Hd & Hb). split; [split; [apply zmem_in; exact Hd|split; [exact Hp|exists (rest s); reflexivity]]|]. destruct (right _ _ _) as [a|m]; [|exact I].
    destruct (a =? e); [exact I|]. apply legit_athen; [destruct (a =? 1); [apply IH; assumption|exact I]|]. intros s'. apply legit_athen; [apply IH; assumption|]. intros s''. apply IH; [exact Hp|]. cbn. rewrite Hd, Hb, Hr. reflexivity.
Qed.
Lemma legit_aseq m k : legit m -> (forall s, legit (k s)) -> legit (aseq m k).
Proof. intros H H'. apply legit_bind; [exact H|]. destruct (alone m); [apply H'|exact I|exact I|exact I]. Qed.
Lemma legit_arexec : forall f k p c s, 0 <= p <= 11 -> forallb ask_ok c = true -> legit (arexec A funs S f k p c s).
Proof.
  induction f as [|f IH]; intros k p c s Hp Hc; [exact I|]. destruct c as [|x c]; [exact I|]. cbn [arexec]. cbn [forallb] in Hc. apply andb_prop in Hc as (Hx & Hc). apply legit_aseq; [|intros s'; apply IH; assumption].
  destruct x as [n t|n c0|n r j|n|c0 b|c0 b|c0 b|cases e|d cases|d e b r|n j]; try exact I; cbn [ask_ok] in Hx.
  - destruct (nth_error funs (Z.to_nat r)) as [(st, body)|] eqn:E; [|exact I]. apply legit_bind; [|exact I]. apply IH; [lia|eapply fun_ok; exact E].
  - destruct (holds _ _); [apply IH; assumption|exact I].
  - destruct (holds _ _); [|exact I]. apply legit_aseq; [apply IH; assumption|]. intros s'. apply IH; [exact Hp|]. cbn. rewrite Hx. reflexivity.
  - apply legit_aseq; [apply IH; assumption|]. intros s'. destruct (holds _ _); [|exact I]. apply IH; [exact Hp|]. cbn. rewrite Hx. reflexivity.
  - destruct (case_of _ _) eqn:E; [|exact I]. apply IH; [exact Hp|eapply case_ok; eassumption].
  - apply andb_prop in Hx as (Hd & Hx). split; [split; [apply zmem_in; exact Hd|split; [exact Hp|exists (toks s); reflexivity]]|]. destruct (right _ _ _) as [a|m]; [|exact I]. cbv zeta. destruct (alt_of _ _) eqn:E; [|exact I]. apply IH; [exact Hp|eapply alt_ok; eassumption].
  - apply andb_prop in Hx as (Hx & Hr). apply andb_prop in Hx as (Hd & Hb). split; [split; [apply zmem_in; exact Hd|split; [exact Hp|exists (toks s); reflexivity]]|]. destruct (right _ _ _) as [a|m]; [|exact I].
    cbv zeta. destruct (a =? e); [exact I|]. apply legit_aseq; [destruct (a =? 1); [apply IH; assumption|exact I]|]. intros s'. apply legit_aseq; [apply IH; assumption|]. intros s''. apply IH; [exact Hp|]. cbn. rewrite Hd, Hb, Hr. reflexivity.
Qed.
Lemma legit_tree f ts : legit (tree_program A funs f ts).
Proof.
  apply legit_bind; [|exact I]. apply legit_aexec; [lia|]. pose proof funs_ok as G. destruct funs as [|(st, b) l]; [reflexivity|]. cbn in G. apply andb_prop in G as (G & _). exact G.
Qed.
Lemma legit_report f ts : legit (report_program A funs S f ts).
Proof.
  pose proof (legit_arexec f [] 0) as L. pose proof funs_ok as G. unfold report_program. clear funs_ok. revert L G. generalize funs at 1 4. intros fs. destruct funs as [|(st, b) l]; intros L G; [exact I|].
  cbn in G. apply andb_prop in G as (G & _). apply legit_bind; [|exact I]. apply legit_bind; [|exact I]. apply L; [lia|exact G].
Qed.
End Run.
Local Transparent rule_functions asked.
Lemma rule_functions_ask : forallb (fun e => forallb ask_ok (snd e)) rule_functions = true. Proof. vm_compute. reflexivity. Qed.
