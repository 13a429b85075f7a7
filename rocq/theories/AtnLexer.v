(** The generated lexer as it runs: the ATN of kfgrammar/kuneiform_lexer.go 91-362 interpreted by antlr4-go v4.13.0
    lexer_atn_simulator.go (Match, execATN, computeTargetState, getReachableConfigSet, closure, getEpsilonTarget,
    computeStartState, addDFAState, failOrAccept) and lexer.go (NextToken, safeMatch, Recover); kfparser/parser.go 24-31.
    The ANTLR runtime is not in /repo; it is modelled from its published source.
    Left out: line and column counting, the DFA cache (it is modelled, and shown not to matter, in LexCache.v), modes other than the first
    (there is one), semantic predicates and EOF transitions (the ATN has none). *)
From Coq Require Import ZArith.
From Verif Require Import Str Atn.
Local Open Scope Z_scope.

(** LexerATNConfig: state, alternative, call stack (return states), "passed through a non-greedy decision", actions. *)
Record config := Config { c_state : Z; c_alt : nat; c_ctx : list Z; c_ng : bool; c_acts : list Z }.

Fixpoint zs_eqb (a b : list Z) : bool :=
  match a, b with [], [] => true | x :: a', y :: b' => (x =? y) && zs_eqb a' b' | _, _ => false end.
Definition config_eqb (a b : config) : bool :=
  (c_state a =? c_state b) && Nat.eqb (c_alt a) (c_alt b) && zs_eqb (c_ctx a) (c_ctx b) && Bool.eqb (c_ng a) (c_ng b)
  && zs_eqb (c_acts a) (c_acts b).
(** OrderedATNConfigSet.Add: in order, without repetitions *)
Definition add_config (x : config) (l : list config) : list config := if existsb (config_eqb x) l then l else l ++ [x].

(** RuleStopState has type 7 in the serialization. *)
Definition is_stop (n : node) : bool := n_type n =? 7.
Definition is_eps (t : trans) : bool := match t with TSet _ _ _ => false | _ => true end.
(** BaseATNState.AddTransition keeps epsilonOnlyTransitions *)
Definition eps_only (n : node) : bool := match n_trans n with [] => false | l => forallb is_eps l end.

(** LexerMaxCharValue *)
Definition max_char : Z := 1114111.
(** Transition.Matches *)
Definition in_set (x : Z) (l : list (Z * Z)) : bool := existsb (fun r => (fst r <=? x) && (x <=? snd r)) l.
Definition matches_sym (neg : bool) (l : list (Z * Z)) (x : Z) : bool :=
  if neg then (0 <=? x) && (x <=? max_char) && negb (in_set x l) else in_set x l.

Section Sim.
Variable A : atn.

(** NewLexerATNConfig4 and checkNonGreedyDecision: the same configuration in another state *)
Definition move (x : config) (to : Z) : config :=
  Config to (c_alt x) (c_ctx x) (c_ng x || n_nongreedy (node_at A to)) (c_acts x).
Definition with_ctx (x : config) (k : list Z) : config := Config (c_state x) (c_alt x) k (c_ng x) (c_acts x).
Definition with_acts (x : config) (l : list Z) : config := Config (c_state x) (c_alt x) (c_ctx x) (c_ng x) l.

(** getEpsilonTarget *)
Definition eps_target (x : config) (t : trans) : option config :=
  match t with
  | TEps to => Some (move x to)
  | TRule start _ follow _ => Some (with_ctx (move x start) (follow :: c_ctx x))
  | TAction _ act to =>
      match c_ctx x with
      | [] => Some (with_acts (move x to) (c_acts x ++ [act]))
      | _ => Some (move x to)
      end
  | TSet _ _ _ => None
  | TPrec _ _ => None
  end.

(** closure; the result is the configurations and "the current alternative reached an accept state".
    [None]: out of fuel (the ATN has no cycle of epsilon transitions, AtnLexerProof.v). *)
Fixpoint closure (fuel : nat) (x : config) (cs : list config) (reached : bool) : option (list config * bool) :=
  match fuel with
  | O => None
  | S f =>
    let n := node_at A (c_state x) in
    if is_stop n then
      match c_ctx x with
      | [] => Some (add_config x cs, true)
      | r :: k => closure f (with_ctx (move x r) k) cs reached
      end
    else
      let cs1 := if negb (eps_only n) && (negb reached || negb (c_ng x)) then add_config x cs else cs in
      (fix over (ts : list trans) (cs : list config) (reached : bool) : option (list config * bool) :=
         match ts with
         | [] => Some (cs, reached)
         | t :: ts' =>
           match eps_target x t with
           | None => over ts' cs reached
           | Some y =>
             match closure f y cs reached with
             | Some (cs', reached') => over ts' cs' reached'
             | None => None
             end
           end
         end) (n_trans n) cs1 reached
  end.
Definition depth : nat := 100.

(** computeStartState *)
Fixpoint start_from (i : nat) (ts : list trans) (cs : list config) : option (list config) :=
  match ts with
  | [] => Some cs
  | t :: ts' =>
      let to := match t with TEps to => to | TSet _ _ to => to | TRule s _ _ _ => s | TAction _ _ to => to | TPrec _ to => to end in
      match closure depth (Config to i [] false []) cs false with
      | Some (cs', _) => start_from (S i) ts' cs'
      | None => None
      end
  end.
Definition start_configs : option (list config) :=
  match a_modes A with m :: _ => start_from 1 (n_trans (node_at A m)) [] | [] => None end.

(** getReachableConfigSet; [skip] is SkipAlt *)
Fixpoint reach_trans (x : config) (sym : Z) (reached : bool) (ts : list trans) (cs : list config) (skip : nat)
  : option (list config * nat) :=
  match ts with
  | [] => Some (cs, skip)
  | TSet neg l to :: ts' =>
      if matches_sym neg l sym then
        match closure depth (move x to) cs reached with
        | Some (cs', r) => reach_trans x sym reached ts' cs' (if r then c_alt x else skip)
        | None => None
        end
      else reach_trans x sym reached ts' cs skip
  | _ :: ts' => reach_trans x sym reached ts' cs skip
  end.
Fixpoint reach_from (l : list config) (sym : Z) (cs : list config) (skip : nat) : option (list config) :=
  match l with
  | [] => Some cs
  | x :: l' =>
      let reached := Nat.eqb (c_alt x) skip in
      if reached && c_ng x then reach_from l' sym cs skip
      else match reach_trans x sym reached (n_trans (node_at A (c_state x))) cs skip with
           | Some (cs', skip') => reach_from l' sym cs' skip'
           | None => None
           end
  end.
Definition reach (l : list config) (sym : Z) : option (list config) := reach_from l sym [] 0.

(** addDFAState: an accept state, its token type and actions *)
Definition accept_of (l : list config) : option (Z * list Z) :=
  match find (fun x => is_stop (node_at A (c_state x))) l with
  | Some x => Some (snd (nth (Z.to_nat (n_rule (node_at A (c_state x)))) (a_rules A) (0, 0)), c_acts x)
  | None => None
  end.

(** execATN from a state: the last accepted (type, actions, length), and the number of characters consumed *)
Fixpoint exec (cs : list config) (s : str) (n : nat) (prev : option (Z * list Z * nat)) : option (option (Z * list Z * nat) * nat) :=
  let prev' := match accept_of cs with Some (k, acts) => Some (k, acts, n) | None => prev end in
  match s with
  | [] => Some (prev', n)
  | c :: s' =>
    match reach cs (Z.of_N c) with
    | None => None
    | Some [] => Some (prev', n)
    | Some (x :: cs') => exec (x :: cs') s' (S n) prev'
    end
  end.

(** LexerActionExecutor.execute; lexer action (0, 1, 0) is channel(HIDDEN), kuneiform_lexer.go line 361 *)
Definition channel_of (acts : list Z) : Z :=
  fold_left (fun ch i => match nth_error (a_actions A) (Z.to_nat i) with Some (0, d, _) => d | _ => ch end) acts 0.

(** What the token source yields: a token (type, channel, text) or a reported recognition error (text skipped). *)
Inductive event := Token (kind channel : Z) (text : str) | Bad (skipped : str).

(** NextToken until the end of the input.  After an error the characters consumed and one more are skipped (Recover). *)
Fixpoint events_fuel (fuel : nat) (init : list config) (s : str) : option (list event) :=
  match s with
  | [] => Some []
  | _ :: _ =>
    match fuel with
    | O => None
    | S f =>
      match exec init s 0 None with
      | None => None
      | Some (Some (k, acts, n), _) =>
          match events_fuel f init (skipn n s) with
          | Some l => Some (Token k (channel_of acts) (firstn n s) :: l)
          | None => None
          end
      | Some (None, n) =>
          match events_fuel f init (skipn (S n) s) with
          | Some l => Some (Bad (firstn (S n) s) :: l)
          | None => None
          end
      end
    end
  end.
Definition events (s : str) : option (list event) :=
  match start_configs with Some init => events_fuel (length s) init s | None => None end.
End Sim.

(** The lexer of kuneiform_lexer.go *)
Definition lexer_events (s : str) : option (list event) := events lexer_atn s.
