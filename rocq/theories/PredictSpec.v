(** What the rule functions need from AdaptivePredict: it answers with alternatives of the decision, and if the input can be
    completed from the decision's state at all, then it can be through the alternative answered. *)
From Coq Require Import ZArith.
From Verif Require Import Str Atn AtnParser GoParser.
Local Open Scope Z_scope.

(** [completes k p q ts]: from state [q], in a call with precedence [p] whose callers are [k], the whole of [ts] can be
    matched: first to the end of this rule, then from where the invoking state goes on, and so on to the end of rule 0. *)
Fixpoint completes (A : atn) (k : stack) (p q : Z) (ts : list Z) : Prop :=
  exists ts1 ts2 stop, ts = ts1 ++ ts2 /\ walk A p q ts1 stop /\ n_type (node_at A stop) = 7 /\
    match k with
    | [] => n_rule (node_at A stop) = 0 /\ ts2 = []
    | (n, p') :: k' => exists start to j, n_trans (node_at A n) = [TRule start (n_rule (node_at A stop)) to j] /\ completes A k' p' to ts2
    end.

Definition alternatives (A : atn) (d : Z) : list trans := n_trans (node_at A (decision_state d)).
Definition answers_alternatives (A : atn) (P : predictor) : Prop := forall d k p ts a, P d k p ts = Some a ->
  1 <= a <= Z.of_nat (length (alternatives A d)).
(** The decisions the rule functions ask about, the precedences they pass on, and inputs as they are: tokens, then the end of file. *)
Definition asked : list Z := [7; 10; 24; 30; 31].
Definition reliable (A : atn) (P : predictor) : Prop := forall d k p ts, In d asked -> 0 <= p <= 11 ->
  completes A k p (decision_state d) (kinds ts ++ [-1]) ->
  exists a to, P d k p (kinds ts ++ [-1]) = Some a /\ 1 <= a /\ nth_error (alternatives A d) (Z.to_nat (a - 1)) = Some (TEps to) /\
    completes A k p to (kinds ts ++ [-1]).
