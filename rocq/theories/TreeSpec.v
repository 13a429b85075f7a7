(** What a parse tree of a token sequence is: every context has children as its rule says, and the leaves are the tokens.
    The rules are those of Grammar.v, except that an operator expression is a context with two operand contexts, which
    is how the left-recursive rule of the grammar reads before ANTLR rewrites it. *)
From Verif Require Import Grammar Tree.
Local Open Scope ebnf_scope.

Definition tree_rule (n : nt) : ebnf :=
  match n with
  | fn_arg_expr =>
      R literal_value %or R variable %or R block_var
      %or (T L_PAREN & R fn_arg_expr & T R_PAREN)
      %or (one_of [PLUS; MINUS; TILDE] & R fn_arg_expr)
      %or (T NOT_ & R fn_arg_expr)
      %or (R sfn_name & T L_PAREN & (Or (R fn_arg_expr & (T COMMA & R fn_arg_expr)**) (T STAR)) ? & T R_PAREN)
      %or (R fn_arg_expr & one_of [PIPE2; STAR; DIV; MOD; PLUS; MINUS; LT2; GT2; AMP; PIPE; LT; LT_EQ; GT; GT_EQ;
                                   ASSIGN; EQ; SQL_NOT_EQ1; SQL_NOT_EQ2; AND_; OR_] & R fn_arg_expr)
  | n => rule n
  end.

(** [spells e cs]: the children [cs] are an instance of [e]. *)
Inductive spells : ebnf -> list tree -> Prop :=
| s_nothing : spells Nothing []
| s_t t x : ty x = t -> spells (T t) [Leaf x]
| s_r n cs : spells (tree_rule n) cs -> spells (R n) [Node n cs]
| s_seq a b u v : spells a u -> spells b v -> spells (Seq a b) (u ++ v)
| s_or1 a b u : spells a u -> spells (Or a b) u
| s_or2 a b u : spells b u -> spells (Or a b) u
| s_many0 a : spells (Many a) []
| s_many1 a u v : spells a u -> spells (Many a) v -> spells (Many a) (u ++ v).

(** A parse tree of the tokens [ts]: source_unit has the end of file as its last child. *)
Definition parse_tree_of (ts : list tok) (t : tree) : Prop :=
  exists cs, t = Node source_unit (cs ++ [Eof]) /\ spells (rule source_unit) cs /\ leaves t = ts.
