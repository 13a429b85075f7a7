(** Each rule of the parser ATN against an expression over symbols (tokens, rule calls with a precedence, precedence tests):
    same sequences of symbols, by a table explored and checked by computation.
    [prule] is Grammar.rule with the end of file in source_unit, and with the precedences in fn_arg_expr. *)
From Coq Require Import ZArith.
From Verif Require Import Grammar Regex RegexProof Lexer Atn AtnLexer AtnLexerTable AtnParser.
Local Open Scope Z_scope.

(** *** The rules with precedences *)
Inductive pe := PNil | PT (k : Z) | PR (r k : Z) | PP (k : Z) | PSeq (a b : pe) | POr (a b : pe) | PMany (a : pe).

Definition all_nt : list nt :=
  [source_unit; database_directive; extension_directive; ext_config_list; ext_config
  ; annotation_decl; annotation_attr_list; annotation_attr; table_decl; column_def; column_def_list
  ; column_type; column_constraint; literal_value; number_value; index_def; foreign_key_action
  ; foreign_key_def; action_visibility; action_mutability; action_auxiliary; action_attr_list; action_decl
  ; param_list; parameter; database_name; extension_name; ext_config_name; table_name; action_name
  ; column_name; column_name_list; index_name; annotation_target_name; annotation_attr_name
  ; annotation_attr_value; ext_config_value; init_decl; action_stmt_list; action_stmt; sql_stmt; call_stmt
  ; call_receivers; call_body; variable; block_var; extension_call_name; fn_name; sfn_name; fn_arg_list
  ; fn_arg_expr].
Definition nt_num (n : nt) : Z :=
  match n with
  | source_unit => 0 | database_directive => 1 | extension_directive => 2 | ext_config_list => 3 | ext_config => 4
  | annotation_decl => 5 | annotation_attr_list => 6 | annotation_attr => 7 | table_decl => 8 | column_def => 9 | column_def_list => 10
  | column_type => 11 | column_constraint => 12 | literal_value => 13 | number_value => 14 | index_def => 15 | foreign_key_action => 16
  | foreign_key_def => 17 | action_visibility => 18 | action_mutability => 19 | action_auxiliary => 20 | action_attr_list => 21 | action_decl => 22
  | param_list => 23 | parameter => 24 | database_name => 25 | extension_name => 26 | ext_config_name => 27 | table_name => 28 | action_name => 29
  | column_name => 30 | column_name_list => 31 | index_name => 32 | annotation_target_name => 33 | annotation_attr_name => 34
  | annotation_attr_value => 35 | ext_config_value => 36 | init_decl => 37 | action_stmt_list => 38 | action_stmt => 39 | sql_stmt => 40 | call_stmt => 41
  | call_receivers => 42 | call_body => 43 | variable => 44 | block_var => 45 | extension_call_name => 46 | fn_name => 47 | sfn_name => 48 | fn_arg_list => 49
  | fn_arg_expr => 50
  end.
Lemma nth_all_nt n : nth_error all_nt (Z.to_nat (nt_num n)) = Some n. Proof. destruct n; reflexivity. Qed.
Lemma nt_num_range n : 0 <= nt_num n < 51. Proof. destruct n; cbn; lia. Qed.

Definition tz (t : tt) : Z := Z.of_nat (tt_num t).
Fixpoint pe_of (e : ebnf) : pe :=
  match e with
  | Nothing => PNil | T t => PT (tz t) | R n => PR (nt_num n) 0
  | Seq a b => PSeq (pe_of a) (pe_of b) | Or a b => POr (pe_of a) (pe_of b) | Many a => PMany (pe_of a)
  end.

Definition call (k : Z) : pe := PR 50 k.
Definition toks (l : list tt) : pe := pe_of (one_of l).
Definition prim_rule : pe :=
  POr (PR 13 0) (POr (PR 44 0) (POr (PR 45 0)
    (POr (PSeq (PT (tz L_PAREN)) (PSeq (call 0) (PT (tz R_PAREN))))
    (POr (PSeq (toks [PLUS; MINUS; TILDE]) (call 11))
    (POr (PSeq (PT (tz NOT_)) (call 4))
         (PSeq (PR 48 0) (PSeq (PT (tz L_PAREN))
           (PSeq (POr (POr (PSeq (call 0) (PMany (PSeq (PT (tz COMMA)) (call 0)))) (PT (tz STAR))) PNil)
                 (PT (tz R_PAREN)))))))))).
Definition op_level (k : Z) (l : list tt) (k' : Z) : pe := PSeq (PP k) (PSeq (toks l) (call k')).
Definition op_rule : pe :=
  POr (op_level 10 [PIPE2] 11) (POr (op_level 9 [STAR; DIV; MOD] 10) (POr (op_level 8 [PLUS; MINUS] 9)
  (POr (op_level 7 [LT2; GT2; AMP; PIPE] 8) (POr (op_level 6 [LT; LT_EQ; GT; GT_EQ] 7)
  (POr (op_level 5 [ASSIGN; EQ; SQL_NOT_EQ1; SQL_NOT_EQ2] 6) (POr (op_level 3 [AND_] 4) (op_level 2 [OR_] 3))))))).
Definition expr_rule : pe := PSeq prim_rule (PMany op_rule).

Definition prule (n : nt) : pe :=
  match n with
  | source_unit => PSeq (pe_of (rule source_unit)) (PT (-1))
  | fn_arg_expr => expr_rule
  | n => pe_of (rule n)
  end.
Definition prule_at (r : Z) : pe :=
  if (0 <=? r) && (r <? 51) then match nth_error all_nt (Z.to_nat r) with Some n => prule n | None => PT (-2) end else PT (-2).
Lemma prule_at_num n : prule_at (nt_num n) = prule n.
Proof. unfold prule_at. rewrite nth_all_nt. pose proof (nt_num_range n). replace (0 <=? nt_num n) with true by (symmetry; apply Z.leb_le; lia).
  replace (nt_num n <? 51) with true by (symmetry; apply Z.ltb_lt; lia). reflexivity. Qed.

(** *** Symbols *)
Definition sym_t (t : Z) : N := Z.to_N (t + 1).
Definition sym_p (k : Z) : N := Z.to_N (500 + k).
Definition sym_r (r k : Z) : N := Z.to_N (1000 + 100 * r + k).
Fixpoint re_of (e : pe) : re :=
  match e with
  | PNil => Eps | PT k => ch (sym_t k) | PR r k => ch (sym_r r k) | PP k => ch (sym_p k)
  | PSeq a b => Cat (re_of a) (re_of b) | POr a b => Alt (re_of a) (re_of b) | PMany a => Star (re_of a)
  end.

(** Tokens of a set (all sets of the ATN are within -1..84). *)
Definition tokens : list Z := map (fun i => Z.of_nat i - 1) (seq 0 86).
Definition in_ranges (l : list (Z * Z)) (t : Z) : bool := existsb (fun r => (fst r <=? t) && (t <=? snd r)) l.
Definition edges_of (t : trans) : list (option N * Z) :=
  match t with
  | TEps to => [(None, to)]
  | TAction _ _ to => [(None, to)]
  | TSet false l to => map (fun t => (Some (sym_t t), to)) (filter (in_ranges l) tokens)
  | TSet true _ _ => []
  | TPrec k to => [(Some (sym_p k), to)]
  | TRule _ r to k => [(Some (sym_r r k), to)]
  end.
Definition edges (A : atn) (q : Z) : list (option N * Z) := flat_map edges_of (n_trans (node_at A q)).

Inductive sym_walk (A : atn) : Z -> list N -> Z -> Prop :=
| sw_stay q : sym_walk A q [] q
| sw_eps q to ws q' : In (None, to) (edges A q) -> sym_walk A to ws q' -> sym_walk A q ws q'
| sw_sym q a to ws q' : In (Some a, to) (edges A q) -> sym_walk A to ws q' -> sym_walk A q (a :: ws) q'.

(** *** The table *)
Definition zmem (q : Z) (l : list Z) : bool := existsb (Z.eqb q) l.
Lemma zmem_in q l : zmem q l = true <-> In q l.
Proof.
  unfold zmem. rewrite existsb_exists. split; [intros (x & Hx & E); apply Z.eqb_eq in E; congruence|].
  intros H. exists q. split; [exact H|apply Z.eqb_refl].
Qed.
Definition eps_to (e : option N * Z) : list Z := match fst e with None => [snd e] | Some _ => [] end.
Definition sym_to (a : N) (e : option N * Z) : list Z := match fst e with Some b => if N.eqb a b then [snd e] else [] | None => [] end.
Fixpoint eclose (A : atn) (fuel : nat) (todo seen : list Z) : list Z :=
  match fuel, todo with
  | S f, q :: todo' => if zmem q seen then eclose A f todo' seen else eclose A f (flat_map eps_to (edges A q) ++ todo') (q :: seen)
  | _, _ => seen
  end.
Definition limit : nat := 200.
Definition sstep (A : atn) (a : N) (S : list Z) : list Z := eclose A limit (flat_map (fun q => flat_map (sym_to a) (edges A q)) S) [].

Inductive eps_walk (A : atn) : Z -> Z -> Prop :=
| ew_stay q : eps_walk A q q
| ew_eps q to q' : In (None, to) (edges A q) -> eps_walk A to q' -> eps_walk A q q'.
Lemma eps_walk_trans A q q1 q2 : eps_walk A q q1 -> eps_walk A q1 q2 -> eps_walk A q q2.
Proof. induction 1 as [|q to q' Hin H IH]; intros H2; [exact H2|]. econstructor; [exact Hin|exact (IH H2)]. Qed.
Lemma eps_sym A q q1 ws q2 : eps_walk A q q1 -> sym_walk A q1 ws q2 -> sym_walk A q ws q2.
Proof. induction 1 as [|q to q' Hin H IH]; intros H2; [exact H2|]. eapply sw_eps; [exact Hin|exact (IH H2)]. Qed.
Lemma eclose_from A f : forall todo seen q, In q (eclose A f todo seen) -> In q seen \/ exists q0, In q0 todo /\ eps_walk A q0 q.
Proof.
  induction f as [|f IH]; intros todo seen q; cbn [eclose]; [auto|]. destruct todo as [|x todo]; [auto|].
  destruct (zmem x seen).
  - intros H. destruct (IH _ _ _ H) as [H1|(q0 & H1 & H2)]; [auto|]. right. exists q0. split; [right; exact H1|exact H2].
  - intros H. destruct (IH _ _ _ H) as [[<-|H1]|(q0 & H1 & H2)]; [right; exists x; split; [left; reflexivity|constructor]|auto|].
    right. apply in_app_iff in H1 as [H1|H1]; [|exists q0; split; [right; exact H1|exact H2]].
    exists x. split; [left; reflexivity|]. apply in_flat_map in H1 as ([o to] & He & Ht). destruct o; [destruct Ht|]. destruct Ht as [Ht|[]].
    cbn in Ht. subst to. eapply ew_eps; [exact He|exact H2].
Qed.

Lemma sstep_from A a S q : In q (sstep A a S) -> exists q1 q0, In q1 S /\ In (Some a, q0) (edges A q1) /\ eps_walk A q0 q.
Proof.
  unfold sstep. generalize limit as n. intros n Hq. apply eclose_from in Hq as [[]|(q0 & Hq0 & Hw)].
  apply in_flat_map in Hq0 as (q1 & Hq1 & Hq0). apply in_flat_map in Hq0 as ([o to] & Hin & Hto). unfold sym_to in Hto. cbn in Hto.
  destruct o as [b|]; [|destruct Hto]. destruct (N.eqb a b) eqn:Eab; [|destruct Hto]. apply N.eqb_eq in Eab. subst b.
  destruct Hto as [->|[]]. exists q1, q0. auto.
Qed.
Definition sentry := (list Z * re)%type.
Definition sentry_eqb (a b : sentry) : bool := zs_eqb (fst a) (fst b) && re_eqb (snd a) (snd b).
Definition smem (e : sentry) (l : list sentry) : bool := existsb (sentry_eqb e) l.
Lemma smem_in e l : smem e l = true -> In e l.
Proof.
  unfold smem. intros H. apply existsb_exists in H as ([s r] & Hx & E). unfold sentry_eqb in E. cbn in E. apply andb_true_iff in E as [E1 E2].
  apply zs_eqb_eq in E1. apply re_eqb_eq in E2. destruct e; cbn in *; congruence.
Qed.
Definition snext (A : atn) (a : N) (e : sentry) : sentry := (sstep A a (fst e), norm (deriv a (snd e))).
Lemma snext_states A a e : fst (snext A a e) = sstep A a (fst e). Proof. reflexivity. Qed.
Lemma snext_re A a e : snd (snext A a e) = norm (deriv a (snd e)). Proof. reflexivity. Qed.
Definition dead (e : sentry) : bool := match e with ([], Emp) => true | _ => false end.
Fixpoint sexplore (A : atn) (al : list N) (fuel : nat) (todo seen : list sentry) : list sentry :=
  match fuel, todo with
  | S f, e :: todo' =>
      if smem e seen || dead e then sexplore A al f todo' seen
      else sexplore A al f (map (fun a => snext A a e) al ++ todo') (e :: seen)
  | _, _ => seen
  end.
Fixpoint re_syms (al : list N) (r : re) : bool :=
  match r with
  | Emp | Eps => true
  | Chr (CIn [(x, y)]) => N.eqb x y && inN al x
  | Chr _ => false
  | Cat a b | Alt a b => re_syms al a && re_syms al b
  | Star a => re_syms al a
  end.
Definition closed (A : atn) (S : list Z) : bool := forallb (fun q => forallb (fun to => zmem to S) (flat_map eps_to (edges A q))) S.
Definition edge_in (al : list N) (e : option N * Z) : bool := match fst e with Some a => inN al a | None => true end.
Definition sgood (A : atn) (al : list N) (stop : Z) (T : list sentry) (e : sentry) : bool :=
  closed A (fst e) && Bool.eqb (zmem stop (fst e)) (nullable (snd e)) && re_syms al (snd e)
  && forallb (fun q => forallb (edge_in al) (edges A q)) (fst e)
  && forallb (fun a => let e' := snext A a e in
       (dead e' || smem e' T) && forallb (fun q => forallb (fun to => zmem to (fst e')) (flat_map (sym_to a) (edges A q))) (fst e)) al.

(** The symbols that occur in a rule. *)
Fixpoint syms_of (r : re) : list N :=
  match r with Emp | Eps => [] | Chr (CIn l) | Chr (CNot l) => map fst l | Cat a b | Alt a b => syms_of a ++ syms_of b | Star a => syms_of a end.
Definition rule_states (A : atn) (r : Z) : list Z :=
  filter (fun q => n_rule (node_at A q) =? r) (map Z.of_nat (seq 0 (length (a_nodes A)))).
Definition rule_syms (A : atn) (r : Z) : list N :=
  nodup N.eq_dec (syms_of (re_of (prule_at r)) ++
    flat_map (fun q => flat_map (fun e => match fst e with Some a => [a] | None => [] end) (edges A q)) (rule_states A r)).
Definition stop_of (A : atn) (r : Z) : Z := match filter (fun q => n_type (node_at A q) =? 7) (rule_states A r) with q :: _ => q | [] => -1 end.

Definition rule_init (A : atn) (r : Z) : sentry := (eclose A limit [start_of A r] [], norm (re_of (prule_at r))).
Lemma rule_init_from A r q : In q (fst (rule_init A r)) -> eps_walk A (start_of A r) q.
Proof. unfold rule_init. generalize limit as n. intros n Hq. cbn [fst] in Hq. apply eclose_from in Hq as [[]|(q0 & [<-|[]] & Hw)]. exact Hw. Qed.
Lemma rule_init_re A r : snd (rule_init A r) = norm (re_of (prule_at r)). Proof. reflexivity. Qed.
Definition table_limit : nat := 5000.
Definition rule_checked (A : atn) (r : Z) : bool :=
  let al := rule_syms A r in
  let T := sexplore A al table_limit [rule_init A r] [] in
  zmem (start_of A r) (fst (rule_init A r)) && smem (rule_init A r) T && forallb (sgood A al (stop_of A r) T) T.
