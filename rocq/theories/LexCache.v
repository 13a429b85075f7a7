(** The lexers of a process with the DFA they share: antlr4-go v4.13.0 lexer_atn_simulator.go (Match, MatchATN, execATN,
    getExistingTargetState, computeTargetState, addDFAEdge, addDFAState, captureSimState, failOrAccept) over
    decisionToDFA, which kfgrammar/kuneiform_lexer.go 366-370 makes once per process and line 388 hands to every lexer.
    Every call of ParseKF (kfparser/parser.go 24-25) runs a lexer of its own over the shared DFA; calls may run at the same time.
    The runtime is not in /repo; it is modelled from its published source.
    An access to the shared DFA is one step (the runtime takes a lock for it); everything between two accesses is local.
    Left out, as in AtnLexer.v: line and column counting, the end-of-file transition (no state has one). *)
From Coq Require Import ZArith.
From Verif Require Import Str Atn AtnLexer.
Local Open Scope Z_scope.

(** DFAState: configurations, prediction and actions if it accepts, edges.  The target [None] is ATNSimulatorError. *)
Record dstate := DState { d_configs : list config; d_accept : option (Z * list Z); d_edges : list (Z * option nat) }.
(** DFA: its states by number, and s0 *)
Record dfa := Dfa { d_states : list dstate; d_s0 : option nat }.
(** NewDFA, kuneiform_lexer.go 368-370 *)
Definition empty_dfa : dfa := Dfa [] None.

(** DFAState equality: the configurations, in order *)
Fixpoint configs_eqb (a b : list config) : bool :=
  match a, b with [], [] => true | x :: a', y :: b' => config_eqb x y && configs_eqb a' b' | _, _ => false end.
Fixpoint find_state (cs : list config) (l : list dstate) (i : nat) : option nat :=
  match l with [] => None | x :: l' => if configs_eqb (d_configs x) cs then Some i else find_state cs l' (S i) end.

(** LexerATNSimulatorMinDFAEdge, MaxDFAEdge *)
Definition has_edge (c : Z) : bool := (0 <=? c) && (c <=? 127).
Definition configs_of (d : dfa) (i : nat) : list config := match nth_error (d_states d) i with Some x => d_configs x | None => [] end.
(** getExistingTargetState; [None] is nil *)
Definition get_edge (d : dfa) (i : nat) (c : Z) : option (option nat) :=
  if has_edge c then
    match nth_error (d_states d) i with
    | Some x => match find (fun e => fst e =? c) (d_edges x) with Some e => Some (snd e) | None => None end
    | None => None
    end
  else None.
(** setIthEdge *)
Fixpoint upd {X} (i : nat) (x : X) (l : list X) : list X :=
  match l, i with [], _ => [] | _ :: l', O => x :: l' | y :: l', S i' => y :: upd i' x l' end.
Definition set_edge (d : dfa) (i : nat) (c : Z) (to : option nat) : dfa :=
  match nth_error (d_states d) i with
  | Some x => Dfa (upd i (DState (d_configs x) (d_accept x) ((c, to) :: d_edges x)) (d_states d)) (d_s0 d)
  | None => d
  end.

(** Where a lexer is: between tokens; in MatchATN before addDFAState; at the top of the loop of execATN (state, characters left,
    characters consumed, prevAccept); in addDFAEdge before addDFAState; and before setIthEdge. *)
Inductive place :=
| Next
| AddStart (cs : list config)
| Scan (i : nat) (more : str) (n : nat) (prev : option (Z * list Z * nat))
| AddTarget (i : nat) (c : N) (cs : list config) (more : str) (n : nat) (prev : option (Z * list Z * nat))
| SetEdge (i : nat) (c : N) (to : option nat) (more : str) (n : nat) (prev : option (Z * list Z * nat)).
(** A lexer: the text from the start of the current token, where it is, and what it has yielded. *)
Record thread := Thread { t_text : str; t_place : place; t_out : list event }.

Section Sim.
Variable A : atn.

(** addDFAState: the state with these configurations, or a new one *)
Definition add_state (d : dfa) (cs : list config) : dfa * nat :=
  match find_state cs (d_states d) 0 with
  | Some i => (d, i)
  | None => (Dfa (d_states d ++ [DState cs (accept_of A cs) []]) (d_s0 d), length (d_states d))
  end.
(** captureSimState if the state accepts *)
Definition capture (d : dfa) (i : nat) (n : nat) (prev : option (Z * list Z * nat)) : option (Z * list Z * nat) :=
  match nth_error (d_states d) i with
  | Some x => match d_accept x with Some (k, acts) => Some (k, acts, n) | None => prev end
  | None => prev
  end.
(** failOrAccept, and Recover after an error *)
Definition finish (t : thread) (n : nat) (prev : option (Z * list Z * nat)) : thread :=
  let s := t_text t in
  match prev with
  | Some (k, acts, m) => Thread (skipn m s) Next (t_out t ++ [Token k (channel_of A acts) (firstn m s)])
  | None => Thread (skipn (S n) s) Next (t_out t ++ [Bad (firstn (S n) s)])
  end.
Definition at_place (t : thread) (p : place) : thread := Thread (t_text t) p (t_out t).
(** The state [to] was reached by [c]: go on there, or stop. *)
Definition go (d : dfa) (t : thread) (to : option nat) (more : str) (n : nat) (prev : option (Z * list Z * nat)) : thread :=
  match to with
  | Some j => at_place t (Scan j more (S n) (capture d j (S n) prev))
  | None => finish t n prev
  end.

(** One step of a lexer; [None]: it has nothing to do. *)
Definition step (d : dfa) (t : thread) : option (dfa * thread) :=
  match t_place t with
  | Next =>
      match t_text t with
      | [] => None
      | s =>
        match d_s0 d with
        | Some i => Some (d, at_place t (Scan i s 0 (capture d i 0 None)))
        | None => match start_configs A with Some cs => Some (d, at_place t (AddStart cs)) | None => None end
        end
      end
  | AddStart cs =>
      let (d', i) := add_state d cs in
      let d'' := Dfa (d_states d') (Some i) in
      Some (d'', at_place t (Scan i (t_text t) 0 (capture d'' i 0 None)))
  | Scan i more n prev =>
      match more with
      | [] => Some (d, finish t n prev)
      | c :: more' =>
        match get_edge d i (Z.of_N c) with
        | Some to => Some (d, go d t to more' n prev)
        | None =>
          match reach A (configs_of d i) (Z.of_N c) with
          | None => None
          | Some [] => Some (d, if has_edge (Z.of_N c) then at_place t (SetEdge i c None more' n prev) else finish t n prev)
          | Some cs => Some (d, at_place t (AddTarget i c cs more' n prev))
          end
        end
      end
  | AddTarget i c cs more n prev =>
      let (d', j) := add_state d cs in
      Some (d', if has_edge (Z.of_N c) then at_place t (SetEdge i c (Some j) more n prev) else go d' t (Some j) more n prev)
  | SetEdge i c to more n prev =>
      let d' := set_edge d i (Z.of_N c) to in Some (d', go d' t to more n prev)
  end.

(** A process: the shared DFA and its lexers, of which any may take the next step. *)
Inductive moves : dfa * list thread -> dfa * list thread -> Prop :=
| moves_at d ths i t d' t' : nth_error ths i = Some t -> step d t = Some (d', t') -> moves (d, ths) (d', upd i t' ths).
Inductive runs : nat -> dfa * list thread -> dfa * list thread -> Prop :=
| runs_nil p : runs 0 p p
| runs_snoc k p q r : runs k p q -> moves q r -> runs (S k) p r.
End Sim.

(** The lexers of a process when it starts, one for every text that will be parsed *)
Definition boot (texts : list str) : dfa * list thread := (empty_dfa, map (fun s => Thread s Next []) texts).
(** Nothing left to scan *)
Definition finished (t : thread) : Prop := t_place t = Next /\ t_text t = [].
