(** Which token kinds can be neighbours in a program: first, last and adjacent kinds of every rule, computed from the grammar. *)
From Verif Require Import Tokens Grammar.

Definition all_nt : list nt :=
[ source_unit; database_directive; extension_directive; ext_config_list; ext_config
; annotation_decl; annotation_attr_list; annotation_attr; table_decl; column_def; column_def_list
; column_type; column_constraint; literal_value; number_value; index_def; foreign_key_action
; foreign_key_def; action_visibility; action_mutability; action_auxiliary; action_attr_list; action_decl
; param_list; parameter; database_name; extension_name; ext_config_name; table_name; action_name
; column_name; column_name_list; index_name; annotation_target_name; annotation_attr_name
; annotation_attr_value; ext_config_value; init_decl; action_stmt_list; action_stmt; sql_stmt; call_stmt
; call_receivers; call_body; variable; block_var; extension_call_name; fn_name; sfn_name; fn_arg_list
; fn_arg_expr ].
Lemma all_nt_complete n : In n all_nt. Proof. destruct n; cbn; tauto. Qed.
Definition nt_num (n : nt) : nat :=
  match n with
  | source_unit => 0 | database_directive => 1 | extension_directive => 2 | ext_config_list => 3 | ext_config => 4
  | annotation_decl => 5 | annotation_attr_list => 6 | annotation_attr => 7 | table_decl => 8 | column_def => 9 | column_def_list => 10
  | column_type => 11 | column_constraint => 12 | literal_value => 13 | number_value => 14 | index_def => 15 | foreign_key_action => 16
  | foreign_key_def => 17 | action_visibility => 18 | action_mutability => 19 | action_auxiliary => 20 | action_attr_list => 21 | action_decl => 22
  | param_list => 23 | parameter => 24 | database_name => 25 | extension_name => 26 | ext_config_name => 27 | table_name => 28 | action_name => 29
  | column_name => 30 | column_name_list => 31 | index_name => 32 | annotation_target_name => 33 | annotation_attr_name => 34
  | annotation_attr_value => 35 | ext_config_value => 36 | init_decl => 37 | action_stmt_list => 38 | action_stmt => 39 | sql_stmt => 40 | call_stmt => 41
  | call_receivers => 42 | call_body => 43 | variable => 44 | block_var => 45 | extension_call_name => 46 | fn_name => 47 | sfn_name => 48 | fn_arg_list => 49
  | fn_arg_expr => 50
  end.

Definition tmem (t : tt) (l : list tt) : bool := existsb (tt_eqb t) l.
Lemma tmem_in t l : tmem t l = true <-> In t l.
Proof.
  unfold tmem. rewrite existsb_exists. split; [intros (x & Hx & E); apply tt_eqb_eq in E; subst; exact Hx|intros H; exists t; split; [exact H|apply tt_eqb_refl]].
Qed.
Definition tadd (l m : list tt) : list tt := filter (fun t => negb (tmem t m)) l ++ m.
Lemma tadd_in t l m : In t (tadd l m) <-> In t l \/ In t m.
Proof.
  unfold tadd. rewrite in_app_iff, filter_In. destruct (tmem t m) eqn:E; [apply tmem_in in E; tauto|]. cbn. tauto.
Qed.
Definition pmem (p : tt * tt) (l : list (tt * tt)) : bool := existsb (fun q => tt_eqb (fst p) (fst q) && tt_eqb (snd p) (snd q)) l.
Lemma pmem_in p l : pmem p l = true <-> In p l.
Proof.
  unfold pmem. rewrite existsb_exists. split.
  - intros ([a b] & Hx & E). apply andb_prop in E as [E1 E2]. apply tt_eqb_eq in E1, E2. cbn in E1, E2. destruct p; cbn in *; subst. exact Hx.
  - intros H. exists p. split; [exact H|]. rewrite !tt_eqb_refl. reflexivity.
Qed.
Definition padd (l m : list (tt * tt)) : list (tt * tt) := filter (fun t => negb (pmem t m)) l ++ m.
Lemma padd_in t l m : In t (padd l m) <-> In t l \/ In t m.
Proof.
  unfold padd. rewrite in_app_iff, filter_In. destruct (pmem t m) eqn:E; [apply pmem_in in E; tauto|]. cbn. tauto.
Qed.

(** One record of facts per nonterminal. *)
Record info := Info { i_nul : bool; i_fst : list tt; i_lst : list tt; i_prs : list (tt * tt) }.
Definition no_info : info := Info false [] [] [].
Fixpoint eval (F : nt -> info) (e : ebnf) : info :=
  match e with
  | Nothing => Info true [] [] []
  | T t => Info false [t] [t] []
  | R n => F n
  | Seq a b => let x := eval F a in let y := eval F b in
      Info (i_nul x && i_nul y) (if i_nul x then tadd (i_fst x) (i_fst y) else i_fst x)
        (if i_nul y then tadd (i_lst x) (i_lst y) else i_lst y)
        (padd (list_prod (i_lst x) (i_fst y)) (padd (i_prs x) (i_prs y)))
  | Or a b => let x := eval F a in let y := eval F b in
      Info (i_nul x || i_nul y) (tadd (i_fst x) (i_fst y)) (tadd (i_lst x) (i_lst y)) (padd (i_prs x) (i_prs y))
  | Many a => let x := eval F a in
      Info true (i_fst x) (i_lst x) (padd (list_prod (i_lst x) (i_fst x)) (i_prs x))
  end.

(** * The facts hold of everything derived *)
Definition adjacent (ts : list tok) (x y : tok) : Prop := exists a b, ts = a ++ x :: y :: b.
Record fits (i : info) (ts : list tok) : Prop := {
  f_nul : ts = [] -> i_nul i = true;
  f_fst : forall t r, ts = t :: r -> In (ty t) (i_fst i);
  f_lst : forall t r, ts = r ++ [t] -> In (ty t) (i_lst i);
  f_prs : forall x y, adjacent ts x y -> In (ty x, ty y) (i_prs i) }.

Lemma adjacent_app u v x y : adjacent (u ++ v) x y -> adjacent u x y \/ adjacent v x y \/ (exists a b, u = a ++ [x] /\ v = y :: b).
Proof.
  intros (a & b & E). revert u E. induction a as [|c a IH]; intros u E; cbn in E.
  - destruct u as [|d [|e u]]; cbn in E.
    + right; left. exists [], b. exact E.
    + injection E as -> ->. right; right. exists [], b. auto.
    + injection E as -> -> <-. left. exists [], u. reflexivity.
  - destruct u as [|d u]; cbn in E.
    + right; left. exists (c :: a), b. exact E.
    + injection E as -> E. destruct (IH _ E) as [(a' & b' & ->)|[H|(a' & b' & -> & ->)]].
      * left. exists (c :: a'), b'. reflexivity.
      * right; left; exact H.
      * right; right. exists (c :: a'), b'. auto.
Qed.
Lemma fits_nil n f l p : fits (Info n f l p) [] <-> n = true.
Proof.
  split; [intros H; apply (f_nul _ _ H); reflexivity|]. intros ->. split; cbn.
  - reflexivity.
  - discriminate.
  - intros t r E. destruct r; discriminate.
  - intros x y (a & b & E). destruct a; discriminate.
Qed.
Lemma fits_app i j ts us (k : info) :
  fits i ts -> fits j us ->
  (i_nul i = true -> i_nul j = true -> i_nul k = true) ->
  incl (i_fst i) (i_fst k) -> (i_nul i = true -> incl (i_fst j) (i_fst k)) ->
  incl (i_lst j) (i_lst k) -> (i_nul j = true -> incl (i_lst i) (i_lst k)) ->
  incl (i_prs i) (i_prs k) -> incl (i_prs j) (i_prs k) -> (forall x y, In x (i_lst i) -> In y (i_fst j) -> In (x, y) (i_prs k)) ->
  fits k (ts ++ us).
Proof.
  intros [n1 f1 l1 p1] [n2 f2 l2 p2] Hn Hf1 Hf2 Hl1 Hl2 Hp1 Hp2 Hx. split.
  - intros E. apply app_eq_nil in E as [-> ->]. auto.
  - intros t r E. destruct ts as [|t' ts]; cbn in E; [apply Hf2; [auto|eapply f2; exact E]|]. injection E as -> _. apply Hf1. eapply f1; reflexivity.
  - intros t r E. destruct us as [|u us] using rev_ind.
    + rewrite app_nil_r in E. subst. apply Hl2; [auto|]. eapply l1; reflexivity.
    + rewrite app_assoc in E. apply app_inj_tail in E as [_ ->]. apply Hl1. eapply l2; reflexivity.
  - intros x y H. apply adjacent_app in H as [H|[H|(a & b & -> & ->)]]; [apply Hp1; auto|apply Hp2; auto|].
    apply Hx; [eapply l1; reflexivity|eapply f2; reflexivity].
Qed.
Lemma fits_weaken i k ts : fits i ts -> (i_nul i = true -> i_nul k = true) -> incl (i_fst i) (i_fst k) -> incl (i_lst i) (i_lst k) -> incl (i_prs i) (i_prs k) -> fits k ts.
Proof. intros [n f l p] Hn Hf Hl Hp. split; intros; [apply Hn, n|eapply Hf, f|eapply Hl, l|apply Hp, p]; eassumption. Qed.

Definition closed_at (F : nt -> info) (n : nt) : Prop :=
  let i := eval F (rule n) in
  (i_nul i = true -> i_nul (F n) = true) /\ incl (i_fst i) (i_fst (F n)) /\ incl (i_lst i) (i_lst (F n)) /\ incl (i_prs i) (i_prs (F n)).

Ltac in_tac := let x := fresh "x" in let H := fresh "H" in intros x H; cbn [i_fst i_lst i_prs];
  rewrite ?tadd_in, ?padd_in; tauto.
Theorem fits_derives F : (forall n, closed_at F n) -> forall e ts, derives e ts -> fits (eval F e) ts.
Proof.
  intros HC e ts H. induction H; cbn [eval].
  - apply fits_nil; reflexivity.
  - split; cbn; [discriminate|..].
    + intros t0 r E. injection E as -> _. auto.
    + intros t0 r E. destruct r as [|? [|]]; try discriminate. injection E as ->. auto.
    + intros a b (u & v & E). destruct u as [|? [|]]; discriminate.
  - destruct (HC n) as (h1 & h2 & h3 & h4). eapply fits_weaken; eassumption.
  - eapply fits_app; [exact IHderives1|exact IHderives2|..]; cbn [i_nul i_fst i_lst i_prs].
    + intros -> ->. reflexivity.
    + destruct (i_nul (eval F a)); [in_tac|apply incl_refl].
    + intros ->. in_tac.
    + destruct (i_nul (eval F b)); [in_tac|apply incl_refl].
    + intros ->. in_tac.
    + in_tac.
    + in_tac.
    + intros x1 y1 Hx Hy. rewrite padd_in. left. apply in_prod; assumption.
  - eapply fits_weaken; [exact IHderives|..]; cbn [i_nul i_fst i_lst i_prs]; [intros ->; reflexivity|in_tac..].
  - eapply fits_weaken; [exact IHderives|..]; cbn [i_nul i_fst i_lst i_prs]; [intros ->; apply orb_true_r|in_tac..].
  - apply fits_nil; reflexivity.
  - eapply fits_app; [exact IHderives1|exact IHderives2|..]; cbn [eval i_nul i_fst i_lst i_prs]; try (intros; reflexivity); try apply incl_refl; try (intros _; apply incl_refl).
    + in_tac.
    + intros x1 y1 Hx Hy. rewrite padd_in. left. apply in_prod; assumption.
Qed.

(** * The table *)
Definition tabulate (F : nt -> info) : nt -> info := let l := map F all_nt in fun n => nth (nt_num n) l no_info.
Fixpoint iterate (k : nat) (F : nt -> info) : nt -> info :=
  match k with O => F | S k' => iterate k' (tabulate (fun n => eval F (rule n))) end.
Definition table : list info := Eval vm_compute in map (iterate 10 (fun _ => no_info)) all_nt.
Definition kinds (n : nt) : info := nth (nt_num n) table no_info.
Definition closedb (F : nt -> info) (n : nt) : bool :=
  let i := eval F (rule n) in let j := F n in
  implb (i_nul i) (i_nul j) && forallb (fun t => tmem t (i_fst j)) (i_fst i) && forallb (fun t => tmem t (i_lst j)) (i_lst i) &&
  forallb (fun p => pmem p (i_prs j)) (i_prs i).
Lemma kinds_closed n : closed_at kinds n.
Proof.
  assert (P : forallb (closedb kinds) all_nt = true) by (vm_compute; reflexivity). rewrite forallb_forall in P.
  specialize (P n (all_nt_complete n)). unfold closedb in P. apply andb_prop in P as [P P4]. apply andb_prop in P as [P P3]. apply andb_prop in P as [P1 P2].
  rewrite forallb_forall in P2, P3, P4. split; [|split; [|split]].
  - intros E. rewrite E in P1. exact P1.
  - intros x Hx. apply tmem_in. auto.
  - intros x Hx. apply tmem_in. auto.
  - intros x Hx. apply pmem_in. auto.
Qed.
Theorem kinds_fit n ts : derives (R n) ts -> fits (kinds n) ts.
Proof. intros H. exact (fits_derives kinds kinds_closed (R n) ts H). Qed.

(** * Kinds that occur *)
Fixpoint syms (e : ebnf) : list tt :=
  match e with Nothing => [] | T t => [t] | R _ => [] | Seq a b | Or a b => syms a ++ syms b | Many a => syms a end.
Lemma derives_syms (p : tt -> bool) : forallb (fun n => forallb p (syms (rule n))) all_nt = true ->
  forall e ts, derives e ts -> forallb p (syms e) = true -> Forall (fun x => p (ty x) = true) ts.
Proof.
  intros HP e ts H. rewrite forallb_forall in HP. induction H; cbn [syms]; intros Hs; try (rewrite forallb_app in Hs; apply andb_prop in Hs as [Hs1 Hs2]); auto.
  - cbn in Hs. rewrite andb_true_r in Hs. constructor; [congruence|constructor].
  - apply IHderives, HP, all_nt_complete.
  - apply Forall_app; auto.
  - apply Forall_app; auto.
Qed.
