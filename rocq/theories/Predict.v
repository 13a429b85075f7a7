(** AdaptivePredict: antlr4-go v4.13.0 parser_atn_simulator.go (not in /repo), called by the rule functions of
    kfgrammar/kuneiform_parser.go at lines 2167, 2211, 2575, 2600, 7726, 8547, 8563, 8765 (decisions 7, 7, 10, 10, 24, 31, 30, 31).
    Modelled: the SLL stage (computeStartState, applyPrecedenceFilter, computeReachSet, closure, predicates, the answer when no
    transition is left).  Two things answer [Unmodelled] here: the stage with full context, and the shortcut
    canDropLoopEntryEdgeInLeftRecursiveRule; Prop files prove that neither is ever reached with this ATN.
    The DFA cache is left out: every call computes from the start state. *)
From Coq Require Import ZArith.
From Verif Require Import Str AtnData Atn AtnParser AtnParserTable GoParser.
Local Open Scope Z_scope.

(** *** Prediction contexts: EMPTY ($, any caller), or return states with the contexts below them. *)
Inductive pctx := PEmpty | PArr (l : list (Z * pctx)).
Fixpoint pctx_eqb (a b : pctx) : bool :=
  match a, b with
  | PEmpty, PEmpty => true
  | PArr l, PArr m =>
      (fix go l m := match l, m with
        | [], [] => true
        | (r, c) :: l, (r', c') :: m => (r =? r') && pctx_eqb c c' && go l m
        | _, _ => false end) l m
  | _, _ => false
  end.
(** merge with rootIsWildcard: $ absorbs; return states in order *)
Fixpoint merge (fuel : nat) (a b : pctx) : pctx :=
  match fuel with
  | O => PEmpty
  | S f =>
    match a, b with
    | PArr l, PArr m =>
        PArr ((fix go (l : list (Z * pctx)) := fix go' (m : list (Z * pctx)) :=
          match l, m with
          | [], _ => m
          | _, [] => l
          | (r, c) :: l', (r', c') :: m' =>
              if r =? r' then (r, merge f c c') :: go l' m' else if r <? r' then (r, c) :: go l' m else (r', c') :: go' m'
          end) l m)
    | _, _ => PEmpty
    end
  end.

(** *** Configurations.  c_sem: the precedences that the semantic context tests ([]: SemanticContextNone). *)
Record config := Config { c_state : Z; c_alt : Z; c_ctx : pctx; c_sem : list Z; c_outer : Z; c_supp : bool }.
Definition config_eqb (a b : config) : bool :=
  (c_state a =? c_state b) && (c_alt a =? c_alt b) && pctx_eqb (c_ctx a) (c_ctx b) && zs_eqb (c_sem a) (c_sem b) && Bool.eqb (c_supp a) (c_supp b).
(** ATNConfigSet.Add: configurations with the same state, alternative and semantic context are merged in place. *)
Fixpoint add_config (c : config) (l : list config) : list config :=
  match l with
  | [] => [c]
  | e :: r =>
      if (c_state e =? c_state c) && (c_alt e =? c_alt c) && zs_eqb (c_sem e) (c_sem c)
      then Config (c_state e) (c_alt e) (merge 50 (c_ctx e) (c_ctx c)) (c_sem e) (Z.max (c_outer e) (c_outer c)) (c_supp e || c_supp c) :: r
      else e :: add_config c r
  end.

(** *** The ATN as the deserializer leaves it *)
Section Sim.
Variable A : atn.
(** precedence rules: the start states in the list that Atn.read_atn skips (readStates) *)
Variable prec_starts : list Z.

Definition is_stop (q : Z) : bool := n_type (node_at A q) =? 7.
Definition prec_rule (r : Z) : bool := zmem (start_of A r) prec_starts.
(** markPrecedenceDecisions *)
Definition target (t : trans) : Z := match t with TEps to | TSet _ _ to | TAction _ _ to | TPrec _ to => to | TRule s _ _ _ => s end.
Definition prec_decision (q : Z) : bool :=
  (n_type (node_at A q) =? 10) && prec_rule (n_rule (node_at A q)) &&
  match rev (n_trans (node_at A q)) with
  | t :: _ => (n_type (node_at A (target t)) =? 12) && match n_trans (node_at A (target t)) with [TEps to] => is_stop to | _ => false end
  | [] => false
  end.
(** readEdges: from the stop state of each rule an epsilon transition to every follow state, with outermostPrecedenceReturn *)
Definition returns (r : Z) : list (Z * Z) :=
  flat_map (fun n => flat_map (fun t => match t with
    | TRule _ r' to k => if r' =? r then [(to, if prec_rule r && (k =? 0) then r else -1)] else []
    | _ => [] end) (n_trans n)) (a_nodes A).
Definition is_eps (t : trans) : bool := match t with TSet _ _ _ => false | _ => true end.
(** GetEpsilonOnlyTransitions *)
Definition eps_only (q : Z) : bool :=
  if is_stop q then negb match returns (n_rule (node_at A q)) with [] => true | _ => false end
  else match n_trans (node_at A q) with [] => false | l => forallb is_eps l end.

(** *** closure.  The rule and kind of the decision: [dr] is its rule if it is a precedence decision.
    None: the shortcut canDropLoopEntryEdge... might apply. *)
Variable dr : option Z.
(** closureBusy, the configurations collected *)
Definition cset := (list config * list config)%type.
Fixpoint fold_opt {T S} (f : S -> T -> option S) (l : list T) (s : S) : option S :=
  match l with [] => Some s | x :: r => match f s x with Some s' => fold_opt f r s' | None => None end end.
(** closureCheckingStopState and closureWork *)
Fixpoint clos (fuel : nat) (c : config) (collect : bool) (depth : Z) (eofeps : bool) (s : cset) : option cset :=
  match fuel with
  | O => None
  | S f =>
    if is_stop (c_state c) then
      match c_ctx c with
      | PArr l =>
          fold_opt (fun s e => clos f (Config (fst e) (c_alt c) (snd e) (c_sem c) (c_outer c) false) collect (depth - 1) eofeps s) l s
      | PEmpty =>
          let s := if eps_only (c_state c) then s else (fst s, add_config c (snd s)) in
          fold_opt (fun s e =>
            let c' := Config (fst e) (c_alt c) (c_ctx c) (c_sem c) (c_outer c + 1)
                        (c_supp c || match dr with Some r => snd e =? r | None => false end) in
            if existsb (config_eqb c') (fst s) then Some s
            else clos f c' collect (depth - 1) eofeps (c' :: fst s, snd s)) (returns (n_rule (node_at A (c_state c)))) s
      end
    else
      if prec_decision (c_state c) && match c_ctx c with PEmpty => false | _ => true end then None else
      let s := if eps_only (c_state c) then s else (fst s, add_config c (snd s)) in
      fold_opt (fun s t =>
        match t with
        | TEps to => clos f (Config to (c_alt c) (c_ctx c) (c_sem c) (c_outer c) (c_supp c)) collect depth eofeps s
        | TAction _ _ to => clos f (Config to (c_alt c) (c_ctx c) (c_sem c) (c_outer c) (c_supp c)) false depth eofeps s
        | TPrec k to => clos f (Config to (c_alt c) (c_ctx c) (if collect && (depth =? 0) then c_sem c ++ [k] else c_sem c) (c_outer c) (c_supp c)) collect depth eofeps s
        | TRule st _ to _ => clos f (Config st (c_alt c) (PArr [(to, c_ctx c)]) (c_sem c) (c_outer c) (c_supp c)) collect (if 0 <=? depth then depth + 1 else depth) eofeps s
        | TSet neg l to =>
            if eofeps && xorb neg (in_ranges l (-1))
            then let c' := Config to (c_alt c) (c_ctx c) (c_sem c) (c_outer c) (c_supp c) in
                 if existsb (config_eqb c') (fst s) then Some s else clos f c' collect depth eofeps (c' :: fst s, snd s)
            else Some s
        end) (n_trans (node_at A (c_state c))) s
  end.
Definition closure (c : config) (collect eofeps : bool) (l : list config) : option (list config) :=
  match clos 1000 c collect 0 eofeps ([], l) with Some s => Some (snd s) | None => None end.

(** computeStartState *)
Fixpoint start_from (i : Z) (l : list trans) (cs : list config) : option (list config) :=
  match l with
  | [] => Some cs
  | t :: r => match closure (Config (target t) i PEmpty [] 0 false) true false cs with Some cs' => start_from (i + 1) r cs' | None => None end
  end.
(** applyPrecedenceFilter; [p]: the parser's precedence (Precpred: k >= p) *)
Definition holds_prec (p : Z) (c : config) : bool := forallb (fun k => k >=? p) (c_sem c).
Definition filtered (p : Z) (cs : list config) : list config :=
  let first_alt := filter (fun c => (c_alt c =? 1) && holds_prec p c) cs in
  let unsem c := Config (c_state c) (c_alt c) (c_ctx c) [] (c_outer c) (c_supp c) in
  (* statesFromAlt1: the last one of a state *)
  let from1 q := match filter (fun c => c_state c =? q) (rev first_alt) with c :: _ => Some (c_ctx c) | [] => None end in
  fold_left (fun l c => add_config c l)
    (map unsem first_alt ++
     filter (fun c => negb (c_alt c =? 1) && negb (negb (c_supp c) && match from1 (c_state c) with Some x => pctx_eqb x (c_ctx c) | None => false end)) cs) [].
Definition start_set (p q : Z) : option (list config) :=
  match start_from 1 (n_trans (node_at A q)) [] with
  | Some cs => Some (match dr with Some _ => filtered p cs | None => cs end)
  | None => None
  end.

(** getUniqueAlt *)
Definition unique_alt (cs : list config) : option Z :=
  match cs with [] => None | c :: r => if forallb (fun c' => c_alt c' =? c_alt c) r then Some (c_alt c) else None end.
(** computeReachSet (fullCtx = false): None if the shortcut might apply; the empty list is the error. *)
Definition reach (cs : list config) (t : Z) : option (list config) :=
  let skipped := if t =? -1 then filter (fun c => is_stop (c_state c)) cs else [] in
  let moved := flat_map (fun c => if is_stop (c_state c) then [] else
    flat_map (fun e => match e with
      | TSet neg l to => if xorb neg (in_ranges l t) then [Config to (c_alt c) (c_ctx c) (c_sem c) (c_outer c) (c_supp c)] else []
      | _ => [] end) (n_trans (node_at A (c_state c)))) cs in
  let inter := fold_left (fun l c => add_config c l) moved [] in
  let r1 :=
    if match skipped with [] => negb (t =? -1) && match unique_alt inter with Some _ => true | None => false end | _ => false end
    then Some inter
    else fold_opt (fun l c => closure c false (t =? -1) l) inter [] in
  match r1 with
  | None => None
  | Some r =>
      let r := if t =? -1 then filter (fun c => is_stop (c_state c)) r else r in
      Some (fold_left (fun l c => add_config c l) skipped r)
  end.

(** hasSLLConflictTerminatingPrediction *)
Definition alts_at (f : config -> bool) (cs : list config) : list Z := nodup Z.eq_dec (map c_alt (filter f cs)).
Definition sll_conflict (cs : list config) : bool :=
  forallb (fun c => is_stop (c_state c)) cs
  || (existsb (fun c => Nat.ltb 1 (length (alts_at (fun c' => (c_state c' =? c_state c) && pctx_eqb (c_ctx c') (c_ctx c)) cs))) cs
      && negb (existsb (fun c => Nat.eqb (length (alts_at (fun c' => c_state c' =? c_state c) cs)) 1) cs)).

Inductive answer := Alt (a : Z) | NoViable | Unmodelled.
(** getSynValidOrSemInvalidAltThatFinishedDecisionEntryRule *)
Definition finished_alt (cs : list config) : option Z :=
  match filter (fun c => (0 <? c_outer c) || (is_stop (c_state c) && match c_ctx c with PEmpty => true | _ => false end)) cs with
  | [] => None
  | c :: r => Some (fold_left (fun m c => Z.min m (c_alt c)) r (c_alt c))
  end.
Definition on_error (p : Z) (cs : list config) : answer :=
  match finished_alt (filter (holds_prec p) cs) with
  | Some a => Alt a
  | None => match finished_alt (filter (fun c => negb (holds_prec p c)) cs) with Some a => Alt a | None => NoViable end
  end.
(** computeTargetState and what execATN does with its result: an answer, or the next configurations.
    predicateDFAState: the alternative's predicates are or-ed over its configurations. *)
Definition step (p : Z) (cs : list config) (t : Z) : answer + list config :=
  match reach cs t with
  | None => inl Unmodelled
  | Some [] => inl (on_error p cs)
  | Some r =>
      match unique_alt r with
      | Some a => inl (if existsb (holds_prec p) r then Alt a else NoViable)
      | None => if sll_conflict r then inl Unmodelled else inr r
      end
  end.
(** execATN: the input ends with the end of file; a third thing that is [Unmodelled] is to look beyond it. *)
Fixpoint run (p : Z) (cs : list config) (ts : list Z) : answer :=
  match ts with
  | [] => Unmodelled
  | t :: ts' => match step p cs t with inl a => a | inr cs' => (if t =? -1 then Unmodelled else run p cs' ts') end
  end.
Definition sim (p q : Z) (ts : list Z) : answer := match start_set p q with Some cs => run p cs ts | None => Unmodelled end.
End Sim.

(** The precedence states of the serialized ATN. *)
Definition read_prec_states : reader (list Z) :=
  READ _ <- item; READ _ <- item; READ _ <- item; READ _ <- counted read_state; READ _ <- counted item; counted item.
Definition prec_states : list Z := Eval vm_compute in match read_prec_states parser_atn_data with Some (l, _) => l | None => [] end.
Definition decision_rule (q : Z) : option Z := if prec_decision parser_atn prec_states q then Some (n_rule (node_at parser_atn q)) else None.
(** AdaptivePredict for this parser. *)
Definition adaptive_predict : predictor := fun d _ p ts =>
  match sim parser_atn prec_states (decision_rule (decision_state d)) p (decision_state d) ts with Alt a => Some a | _ => None end.
