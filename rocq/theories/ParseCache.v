(** The parsers of a process with the DFAs they share: antlr4-go v4.13.0 parser_atn_simulator.go (AdaptivePredict, execATN,
    getExistingTargetState, computeTargetState, addDFAEdge, addDFAState) over decisionToDFA, which
    kfgrammar/kuneiform_parser.go 278-282 makes once per process and line 300 hands to every parser.
    Every call of ParseKF (kfparser/parser.go 31) runs a parser of its own over the shared DFAs; calls may run at the same time.
    The runtime is not in /repo; it is modelled from its published source.
    An access to a shared DFA is one step (the runtime takes the ATN's stateMu or edgeMu for it); everything between two accesses
    is local to the parser.  The sets of configurations are computed as in Predict.v. *)
From Coq Require Import ZArith.
From Verif Require Import Str AtnData Atn AtnParser AtnParserTable GoParser Predict.
Local Open Scope Z_scope.

(** *** DFAs.  A state: its configurations, the alternative it predicts (configs.uniqueAlt, set by computeTargetState for an
    accept state), and the edges set so far.  The target [None] is ATNSimulatorError. *)
Record dstate := DState { d_configs : list config; d_unique : option Z; d_edges : list (Z * option nat) }.
(** The states by number, and the start states: one for every precedence (getPrecedenceStartState) for a precedence decision,
    else one (s0), here under precedence 0. *)
Record dfa := Dfa { d_states : list dstate; d_starts : list (Z * nat) }.
Definition empty_dfa : dfa := Dfa [] [].
(** decisionToDFA, by decision; not mentioned: still empty *)
Definition caches := list (Z * dfa).
Definition lookup {X} (x : Z) (l : list (Z * X)) : option X := match find (fun e => fst e =? x) l with Some e => Some (snd e) | None => None end.
Definition dfa_of (c : caches) (d : Z) : dfa := match lookup d c with Some x => x | None => empty_dfa end.
Definition set_dfa (c : caches) (d : Z) (x : dfa) : caches := (d, x) :: c.

(** *** What asks: a computation that asks for predictions and goes on with the reply.  A parser is one (Asking.v). *)
Inductive reply := Chosen (a : Z) | NotViable (offending : nat).
Inductive asking (X : Type) := Ret (x : X) | Ask (d p : Z) (input : list Z) (k : reply -> asking X).
Arguments Ret {X}. Arguments Ask {X}.
(** Where it is: before AdaptivePredict has looked for the start state; before the start state is added; at the top of the loop of
    execATN (previousD, tokens consumed); in addDFAEdge before addDFAState; before setIthEdge. *)
Inductive place :=
| Idle
| AddStart (cs : list config)
| At (i n : nat)
| AddTarget (i n : nat) (cs : list config) (u : option Z)
| SetEdge (i n : nat) (to : option nat).
Record thread (X : Type) := Thread { t_prog : asking X; t_place : place }.
Arguments Thread {X}. Arguments t_prog {X}. Arguments t_place {X}.

Section Sim.
(** When addDFAState takes two sets of configurations for equal (DFAState.Equals). *)
Variable same : list config -> list config -> bool.
Definition option_same (a b : option Z) : bool := match a, b with Some x, Some y => x =? y | None, None => true | _, _ => false end.
Fixpoint find_state (cs : list config) (u : option Z) (l : list dstate) (i : nat) : option nat :=
  match l with [] => None | x :: l' => if same (d_configs x) cs && option_same (d_unique x) u then Some i else find_state cs u l' (S i) end.
(** addDFAState *)
Definition add_state (x : dfa) (cs : list config) (u : option Z) : dfa * nat :=
  match find_state cs u (d_states x) 0 with
  | Some i => (x, i)
  | None => (Dfa (d_states x ++ [DState cs u []]) (d_starts x), length (d_states x))
  end.
Fixpoint upd {X} (i : nat) (x : X) (l : list X) : list X :=
  match l, i with [], _ => [] | _ :: l', O => x :: l' | y :: l', S i' => y :: upd i' x l' end.
(** setIthEdge *)
Definition set_edge (x : dfa) (i : nat) (t : Z) (to : option nat) : dfa :=
  match nth_error (d_states x) i with
  | Some s => Dfa (upd i (DState (d_configs s) (d_unique s) ((t, to) :: d_edges s)) (d_states x)) (d_starts x)
  | None => x
  end.
(** The key of the start state: the parser's precedence, or 0. *)
Definition dr_of (d : Z) : option Z := decision_rule (decision_state d).
Definition start_key (d p : Z) : Z := match dr_of d with Some _ => p | None => 0 end.
Definition answered {X} (k : reply -> asking X) (r : reply) : thread X := Thread (k r) Idle.
(** What execATN does with the target of the edge from [i] by token number [n]: give the answer, or go round.
    None: full context (C46: never), or looking beyond the end of file. *)
Definition go {X} (x : dfa) (d p : Z) (input : list Z) (k : reply -> asking X) (i n : nat) (to : option nat) : option (thread X) :=
  match to with
  | None =>
      match nth_error (d_states x) i with
      | Some s => match on_error parser_atn p (d_configs s) with Alt a => Some (answered k (Chosen a)) | _ => Some (answered k (NotViable n)) end
      | None => None
      end
  | Some j =>
      match nth_error (d_states x) j with
      | Some s =>
          match d_unique s with
          | Some a => Some (answered k (if existsb (holds_prec p) (d_configs s) then Chosen a else NotViable 0))
          | None => if sll_conflict parser_atn (d_configs s) then None
                    else if nth n input (-1) =? -1 then None else Some (Thread (Ask d p input k) (At j (S n)))
          end
      | None => None
      end
  end.
(** One step; [None]: nothing to do. *)
Definition step {X} (c : caches) (t : thread X) : option (caches * thread X) :=
  match t_prog t with
  | Ret _ => None
  | Ask d p input k =>
    let x := dfa_of c d in
    let stay pl := Thread (Ask d p input k) pl in
    match t_place t with
    | Idle =>
        match lookup (start_key d p) (d_starts x) with
        | Some i => Some (c, stay (At i 0))
        | None => match start_set parser_atn prec_states (dr_of d) p (decision_state d) with Some cs => Some (c, stay (AddStart cs)) | None => None end
        end
    | AddStart cs =>
        let (x', i) := add_state x cs None in
        Some (set_dfa c d (Dfa (d_states x') ((start_key d p, i) :: d_starts x')), stay (At i 0))
    | At i n =>
        match nth_error (d_states x) i with
        | None => None
        | Some s =>
          match lookup (nth n input (-1)) (d_edges s) with
          | Some to => match go x d p input k i n to with Some t' => Some (c, t') | None => None end
          | None =>
            match reach parser_atn prec_states (dr_of d) (d_configs s) (nth n input (-1)) with
            | None => None
            | Some [] => Some (c, stay (SetEdge i n None))
            | Some r => Some (c, stay (AddTarget i n r (unique_alt r)))
            end
          end
        end
    | AddTarget i n cs u =>
        let (x', j) := add_state x cs u in Some (set_dfa c d x', stay (SetEdge i n (Some j)))
    | SetEdge i n to =>
        let x' := set_edge x i (nth n input (-1)) to in
        match go x' d p input k i n to with Some t' => Some (set_dfa c d x', t') | None => None end
    end
  end.

(** A process: the shared DFAs and its parsers, of which any may take the next step. *)
Inductive moves {X} : caches * list (thread X) -> caches * list (thread X) -> Prop :=
| moves_at c ths i t c' t' : nth_error ths i = Some t -> step c t = Some (c', t') -> moves (c, ths) (c', upd i t' ths).
Inductive runs {X} : nat -> caches * list (thread X) -> caches * list (thread X) -> Prop :=
| runs_nil p : runs 0 p p
| runs_snoc n p q r : runs n p q -> moves q r -> runs (S n) p r.
End Sim.
(** When the process starts no prediction has been made. *)
Definition boot {X} (l : list (asking X)) : caches * list (thread X) := ([], map (fun a => Thread a Idle) l).

(** The equality of antlr4-go: configurations in order, without reachesIntoOuterContext. *)
Fixpoint configs_eqb (a b : list config) : bool :=
  match a, b with [], [] => true | x :: a', y :: b' => config_eqb x y && configs_eqb a' b' | _, _ => false end.
