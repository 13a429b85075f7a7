(** The trees the generated parser builds while it walks through its ATN (kfgrammar/kuneiform_parser.go; the runtime's
    BaseParser): Consume adds a terminal node to the current context, a rule function makes a context and its caller's
    context gets it as a child (EnterRule), and before an operator of fn_arg_expr (lines 8565-8770) PushNewRecursionContext makes a new
    context whose first child is the one built so far. *)
From Coq Require Import ZArith.
From Verif Require Import Str Grammar Tree Atn AtnParser AtnParserTable.
Local Open Scope Z_scope.

(** The input: tokens, and [None] for the end of file. *)
Definition kind_of (x : option tok) : Z := match x with Some x => Z.of_nat (tt_num (ty x)) | None => -1 end.
Definition leaf_of (x : option tok) : tree := match x with Some x => Leaf x | None => Eof end.
(** The context of rule [r]: RuleNames, lines 62-75. *)
Definition rule_at (r : Z) : nt := nth (Z.to_nat r) all_nt source_unit.

(** [builds A p q acc ts q' acc']: in a call with precedence [p], matching [ts] leads from state [q] to [q'] while the
    children of the current context grow from [acc] to [acc']. *)
Inductive builds (A : atn) : Z -> Z -> list tree -> list (option tok) -> Z -> list tree -> Prop :=
| bu_stay p q acc : builds A p q acc [] q acc
| bu_eps p q acc to ts q' acc' : In (TEps to) (n_trans (node_at A q)) -> builds A p to acc ts q' acc' -> builds A p q acc ts q' acc'
| bu_action p q acc r a to ts q' acc' : In (TAction r a to) (n_trans (node_at A q)) -> builds A p to acc ts q' acc' -> builds A p q acc ts q' acc'
| bu_token p q acc l to x ts q' acc' : In (TSet false l to) (n_trans (node_at A q)) ->
    existsb (fun r => (fst r <=? kind_of x) && (kind_of x <=? snd r)) l = true ->
    builds A p to (acc ++ [leaf_of x]) ts q' acc' -> builds A p q acc (x :: ts) q' acc'
| bu_prec p q acc k to ts q' acc' : In (TPrec k to) (n_trans (node_at A q)) -> k >= p ->
    builds A p to [Tree.Node (rule_at (n_rule (node_at A q))) acc] ts q' acc' -> builds A p q acc ts q' acc'
| bu_rule p q acc start r to k ts1 stop cs ts2 q' acc' : In (TRule start r to k) (n_trans (node_at A q)) ->
    builds A k start [] ts1 stop cs -> n_type (node_at A stop) = 7 -> n_rule (node_at A stop) = r ->
    builds A p to (acc ++ [Tree.Node (rule_at r) cs]) ts2 q' acc' -> builds A p q acc (ts1 ++ ts2) q' acc'.

(** p.Source_unit() on the tokens [ts] and the end of file. *)
Definition parser_builds (ts : list tok) (t : tree) : Prop :=
  exists stop cs, builds parser_atn 0 (start_of parser_atn 0) [] (map Some ts ++ [None]) stop cs /\
    n_type (node_at parser_atn stop) = 7 /\ n_rule (node_at parser_atn stop) = 0 /\ t = Tree.Node (rule_at 0) cs.
