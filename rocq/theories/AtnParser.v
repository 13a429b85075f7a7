(** The language of the generated parser: the ways through the ATN of kfgrammar/kuneiform_parser.go 77-274, which the rule
    functions (Source_unit 715 ... fn_arg_expr 8360) and AdaptivePredict both follow.
    A rule function walks from its rule's start state to its stop state; Match consumes a token, a rule transition calls the
    rule's function with a precedence, and Precpred compares with the precedence of the current call (lines 8784-8827).
    Simplifications: the relation says which token sequences can be matched without a reported error; prediction (which of
    several ways is taken) and recovery after an error are not in it.  End of file is the token -1. *)
From Coq Require Import ZArith.
From Verif Require Import Str Atn Grammar.
Local Open Scope Z_scope.

Section Walk.
Variable A : atn.

Definition start_of (r : Z) : Z := fst (nth (Z.to_nat r) (a_rules A) (0, 0)).

(** [walk p q ts q']: in a call with precedence [p], matching [ts] leads from state [q] to state [q']. *)
Inductive walk : Z -> Z -> list Z -> Z -> Prop :=
| w_stay p q : walk p q [] q
| w_eps p q to ts q' : In (TEps to) (n_trans (node_at A q)) -> walk p to ts q' -> walk p q ts q'
| w_action p q r a to ts q' : In (TAction r a to) (n_trans (node_at A q)) -> walk p to ts q' -> walk p q ts q'
| w_token p q l to t ts q' : In (TSet false l to) (n_trans (node_at A q)) ->
    existsb (fun r => (fst r <=? t) && (t <=? snd r)) l = true -> walk p to ts q' -> walk p q (t :: ts) q'
| w_prec p q k to ts q' : In (TPrec k to) (n_trans (node_at A q)) -> k >= p -> walk p to ts q' -> walk p q ts q'
| w_rule p q start r to k ts1 stop ts2 q' : In (TRule start r to k) (n_trans (node_at A q)) ->
    walk k start ts1 stop -> n_type (node_at A stop) = 7 -> n_rule (node_at A stop) = r ->
    walk p to ts2 q' -> walk p q (ts1 ++ ts2) q'.

(** Rule 0 with precedence 0, up to its stop state. *)
Definition accepts (ts : list Z) : Prop :=
  exists stop, walk 0 (start_of 0) ts stop /\ n_type (node_at A stop) = 7 /\ n_rule (node_at A stop) = 0.
End Walk.

(** Token types as the parser sees them, end of file included. *)
Definition kinds (ts : list tok) : list Z := map (fun t => Z.of_nat (tt_num (ty t))) ts.
Definition parser_accepts (ts : list tok) : Prop := accepts parser_atn (kinds ts ++ [-1]).
