(** The order of the parts of declarations: C67. *)
From Coq Require Import Permutation.
From Verif Require Import LexSpec Grammar Schema Denote Validator ValidSpec Sample ParseKF ParseSpec ParseProof Outcomes PropParse ShuffleSpec ShuffleProof.

(** C67 *)
Theorem C67_valid_in_any_order : forall x s s', mixed_schema s s' -> (valid_schema x s <-> valid_schema x s').
Proof. intros x s s' M. split; apply mixed_valid; [exact M|apply mixed_schema_sym, M]. Qed.
Print Assumptions C67_valid_in_any_order.
(** Two texts that write the same parts in another order are accepted alike; each with its own order in the schema. *)
Theorem C67_accepted_alike : forall w text text' s s' m m', writes text s -> writes text' s' -> mixed_schema s s' ->
  (parse_kf w text [] m = Outcome (Some s) [] <-> parse_kf w text' [] m' = Outcome (Some s') []).
Proof. intros w text text' s s' m m' H H' M. rewrite !C18_no_error_iff_accepted. unfold accepted. rewrite (C67_valid_in_any_order _ _ _ M). tauto. Qed.
Print Assumptions C67_accepted_alike.
(** A table's columns alone, an action's parameters alone: any order *)
Theorem C67_columns_in_any_order : forall x o n ts1 ts2 acts es t cols, Permutation (elems (tb_cols t)) cols ->
  (valid_schema x (Schema o n (Some (ts1 ++ t :: ts2)) acts es) <-> valid_schema x (Schema o n (Some (ts1 ++ Table (tb_name t) (Some cols) (tb_idx t) (tb_fks t) :: ts2)) acts es)).
Proof.
  intros x o n ts1 ts2 acts es t cols P. assert (Rc : forall c, mixed_column c c) by (intros c; repeat split; reflexivity). assert (Ri : forall c, mixed_index c c) by (intros c; repeat split; reflexivity). assert (Rf : forall c, mixed_fkey c c) by (intros c; repeat split; reflexivity).
  assert (Rl : forall l, Forall2 mixed_index l l) by (intros l; induction l; constructor; auto).
  assert (Rt : forall c, mixed_table c c) by (intros c; split; [reflexivity|]; split; [apply mixed_refl; exact Rc|]; split; [apply mixed_refl; exact Rf|left; apply Rl]).
  apply C67_valid_in_any_order. split; [|split; (apply mixed_refl; intros; repeat split; reflexivity)]. cbn [sc_tables elems]. exists (ts1 ++ t :: ts2). split; [reflexivity|]. apply Forall2_app; [induction ts1; constructor; auto|]. constructor; [|induction ts2; constructor; auto].
  split; [reflexivity|]. split; [cbn; apply mixed_perm; [exact Rc|exact P]|]. split; [apply mixed_refl; exact Rf|left; apply Rl].
Qed.
Print Assumptions C67_columns_in_any_order.
Theorem C67_parameters_in_any_order : forall x o n ts as1 as2 es a ps, Permutation (elems (ac_inputs a)) ps ->
  (valid_schema x (Schema o n ts (Some (as1 ++ a :: as2)) es) <->
   valid_schema x (Schema o n ts (Some (as1 ++ Action (ac_name a) (ac_annots a) (Some ps) (ac_public a) (ac_mut a) (ac_aux a) (ac_stmts a) :: as2)) es)).
Proof.
  intros x o n ts as1 as2 es a ps P. assert (Rc : forall c, mixed_column c c) by (intros c; repeat split; reflexivity). assert (Ri : forall c, mixed_index c c) by (intros c; repeat split; reflexivity). assert (Rf : forall c, mixed_fkey c c) by (intros c; repeat split; reflexivity).
  assert (Rl : forall l, Forall2 mixed_index l l) by (intros l; induction l; constructor; auto).
  assert (Rt : forall c, mixed_table c c) by (intros c; split; [reflexivity|]; split; [apply mixed_refl; exact Rc|]; split; [apply mixed_refl; exact Rf|left; apply Rl]).
  assert (Ra : forall c, mixed_action c c) by (intros c; repeat split; reflexivity).
  apply C67_valid_in_any_order. split; [apply mixed_refl; exact Rt|]. split; [|apply mixed_refl; intros; repeat split; reflexivity]. cbn [sc_actions elems]. exists (as1 ++ a :: as2). split; [reflexivity|]. apply Forall2_app; [induction as1; constructor; auto|]. constructor; [|induction as2; constructor; auto].
  split; [reflexivity|]. split; [exact P|reflexivity].
Qed.
Print Assumptions C67_parameters_in_any_order.

(** Not so for indexes that list other indexes, nor for statements. *)
Definition index_first : str := lit "database d; table t { a int, #i unique(a), #j index(i) }".
Definition index_last : str := lit "database d; table t { a int, #j index(i), #i unique(a) }".
Definition receiver_first : str := lit "database d; use e as token; action create($a, $b) public { select 1; } action a() public { $x = token.setup(1); create($x, 'a'); }".
Definition the_schema (text : str) : schema := match o_result (parse_kf sample_world text [] Default) with Some s => s | None => Schema [] [] None None None end.
Lemma the_schema_written text : (if o_result (parse_kf sample_world text [] Default) then True else False) -> writes text (the_schema text).
Proof. unfold the_schema. destruct (parse_kf _ _ _ _) as [[s|] l] eqn:E; [|intros []]. intros _. cbn. eapply result_writes. exact E. Qed.
Theorem C67_indexes_in_any_order_refuted : ~ (forall w text text' s s' m, writes text s -> writes text' s' -> indexes_mixed s s' ->
  parse_kf w text [] m = Outcome (Some s) [] -> parse_kf w text' [] m = Outcome (Some s') []).
Proof.
  intros H. assert (G : parse_kf sample_world index_last [] Default = Outcome (Some (the_schema index_last)) []); [|vm_compute in G; discriminate G].
  apply (H sample_world index_first index_last (the_schema index_first)); [apply the_schema_written; vm_compute; exact I|apply the_schema_written; vm_compute; exact I| |vm_compute; reflexivity].
  split; [vm_compute; reflexivity|]. split; [vm_compute; reflexivity|]. vm_compute. repeat constructor.
Qed.
Print Assumptions C67_indexes_in_any_order_refuted.
Theorem C67_statements_in_any_order_refuted : ~ (forall w text text' s s' m, writes text s -> writes text' s' -> statements_mixed s s' ->
  parse_kf w text [] m = Outcome (Some s) [] -> parse_kf w text' [] m = Outcome (Some s') []).
Proof.
  intros H. assert (G : parse_kf sample_world late_receiver [] Default = Outcome (Some (the_schema late_receiver)) []); [|vm_compute in G; discriminate G].
  apply (H sample_world receiver_first late_receiver (the_schema receiver_first)); [apply the_schema_written; vm_compute; exact I|apply the_schema_written; vm_compute; exact I| |vm_compute; reflexivity].
  split; [vm_compute; reflexivity|]. split; [vm_compute; reflexivity|]. vm_compute. repeat constructor.
Qed.
Print Assumptions C67_statements_in_any_order_refuted.

(** A case: columns, attributes, indexes, foreign key columns, key actions, extensions and parameters in another order. *)
Definition mixed_a : str := lit "database d; use e as x; use f { k: 1 } as y; table t { a int primary notnull, b text, #i unique(a, b), #j index(b), fk (a, b) ref t (a, b) on_delete do cascade on_update do restrict } action c($p, $q) public { select 1; }".
Definition mixed_b : str := lit "database d; use f { k: 1 } as y; use e as x; table t { b text, a int notnull primary, #j index(b), #i unique(b, a), fk (b, a) ref t (b, a) on_update do restrict on_delete do cascade } action c($q, $p) public { select 1; }".
Lemma swap_mixed {A} (R : A -> A -> Prop) a b a' b' : R a a' -> R b b' -> mixed R [a; b] [b'; a'].
Proof. intros Ha Hb. exists [b; a]. split; [apply perm_swap|]. repeat constructor; assumption. Qed.
Lemma one_mixed {A} (R : A -> A -> Prop) a a' : R a a' -> mixed R [a] [a'].
Proof. intros Ha. exists [a]. split; [reflexivity|]. repeat constructor; assumption. Qed.
Example C67_case : writes mixed_a (the_schema mixed_a) /\ writes mixed_b (the_schema mixed_b) /\ mixed_schema (the_schema mixed_a) (the_schema mixed_b) /\
  parse_kf sample_world mixed_a [] Default = Outcome (Some (the_schema mixed_a)) [] /\ the_schema mixed_a <> the_schema mixed_b.
Proof.
  split; [apply the_schema_written; vm_compute; exact I|]. split; [apply the_schema_written; vm_compute; exact I|].
  split; [|split; [vm_compute; reflexivity|vm_compute; discriminate]]. vm_compute. split; [|split].
  - apply one_mixed. split; [reflexivity|]. split; [apply swap_mixed; repeat split; cbn; constructor|]. split; [apply one_mixed; repeat split; cbn; constructor|]. right. split; [apply swap_mixed; repeat split; cbn; [constructor|reflexivity]|].
    cbn. intros i [<-|[<-|[]]]; cbn; intros y Hy; cbn in *; tauto.
  - apply one_mixed. repeat split. cbn. constructor.
  - apply swap_mixed; split; reflexivity.
Qed.
