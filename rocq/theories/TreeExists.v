(** Every program has a parse tree. *)
From Verif Require Import Grammar Cst Tree TreeSpec ParserGrammar TreeProof.

Lemma fold_ops l : Forall (spells (Seq (one_of [PIPE2; STAR; DIV; MOD; PLUS; MINUS; LT2; GT2; AMP; PIPE; LT; LT_EQ; GT; GT_EQ;
                 ASSIGN; EQ; SQL_NOT_EQ1; SQL_NOT_EQ2; AND_; OR_]) (R fn_arg_expr))) l ->
  forall p, spells (tree_rule fn_arg_expr) p -> exists c, spells (tree_rule fn_arg_expr) c /\ lv c = lv p ++ lv (concat l).
Proof.
  induction 1 as [|u l Hu Hl IH]; intros p Hp.
  - exists p. split; [exact Hp|]. symmetry. apply app_nil_r.
  - destruct (IH ([Node fn_arg_expr p] ++ u)) as (c & Hc & E).
    + cbn [tree_rule]. do 7 apply s_or2. apply s_seq; [apply s_r; exact Hp|exact Hu].
    + exists c. split; [exact Hc|]. rewrite E. cbn [concat]. rewrite !lv_app, lv_node, app_assoc. reflexivity.
Qed.
Lemma derives_spells e ts : derives e ts -> exists cs, spells e cs /\ lv cs = ts.
Proof.
  induction 1 as [|t x Hx|n ts H (cs & Hs & E)|a b u v H1 (c1 & Hs1 & E1) H2 (c2 & Hs2 & E2)|a b u H (cs & Hs & E)|a b u H (cs & Hs & E)|a|a u v H1 (c1 & Hs1 & E1) H2 (c2 & Hs2 & E2)].
  - exists []. split; [constructor|reflexivity].
  - exists [Leaf x]. split; [constructor; exact Hx|reflexivity].
  - assert (HN : exists c, spells (tree_rule n) c /\ lv c = ts).
    { destruct n; try (exists cs; split; [exact Hs|exact E]). cbn [rule] in Hs. apply sp_seq in Hs as (p & v & -> & Hp & Hv).
      apply sp_many in Hv as (l & -> & Hl).
      assert (Hp' : spells (tree_rule fn_arg_expr) p).
      { cbn [tree_rule]. repeat (match type of Hp with spells (Or _ _) _ => apply sp_or in Hp as [Hp|Hp]; [|apply s_or2] end; [apply s_or1; exact Hp|]). apply s_or1. exact Hp. }
      destruct (fold_ops l Hl p Hp') as (c & Hc & Ec). exists c. split; [exact Hc|]. rewrite Ec, <- E, lv_app. reflexivity. }
    destruct HN as (c & Hc & Ec). exists [Node n c]. split; [constructor; exact Hc|]. rewrite lv_node. exact Ec.
  - exists (c1 ++ c2). split; [constructor; assumption|]. rewrite lv_app, E1, E2. reflexivity.
  - exists cs. split; [constructor; assumption|exact E].
  - exists cs. split; [apply s_or2; assumption|exact E].
  - exists []. split; [constructor|reflexivity].
  - exists (c1 ++ c2). split; [constructor; assumption|]. rewrite lv_app, E1, E2. reflexivity.
Qed.
Lemma program_tree ts : program ts <-> exists t, parse_tree_of ts t.
Proof.
  split.
  - intros H. apply derives_spells in H as (cs & H & E). apply sp_r in H as (c & -> & H). rewrite lv_node in E.
    exists (Node source_unit (c ++ [Eof])). exists c. split; [reflexivity|]. split; [exact H|]. cbn [leaves]. fold (lv (c ++ [Eof])).
    rewrite lv_app, app_nil_r. exact E.
  - intros (t & cs & -> & H & E). cbn [leaves] in E. fold (lv (cs ++ [Eof])) in E. rewrite lv_app, app_nil_r in E. subst ts.
    constructor. apply spells_derives. exact H.
Qed.
