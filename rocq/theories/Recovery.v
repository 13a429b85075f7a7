(** The rule functions of kfgrammar/kuneiform_parser.go with ANTLR's error recovery: what GoParser.v leaves out, the runs that
    go on after an error.  The statements are those of GoParser.v (and ParserCode.v); the runtime methods are those of antlr4-go
    v4.13.0 (not in /repo): Parser.Match, Consume, EnterRule, ExitRule, SetError, and DefaultErrorStrategy, which
    kuneiform_parser.go uses as it sets no other (GetErrorHandler at every Sync, e.g. line 754; RecoverInline, e.g. 2708;
    ReportError and Recover at every errorExit, e.g. 2244-2248).
    No tree is built here: a run that reports anything gives no schema (parser.go 64-67). *)
From Coq Require Import ZArith.
From Verif Require Import Str Grammar Tree AtnData Atn AtnParser AtnParserTable AtnTree GoParser Predict.
Local Open Scope Z_scope.

(** *** What is reported to the listeners: the kind of error and the token it is at, given by how many tokens are left there
    (0: the end of file); and what the message is made from: the tokens expected, the start token of a prediction (how many
    tokens are left there), the level that a precedence test asked for. *)
Inductive kind := Unwanted | Missing | Mismatch | NoViableAlt | FailedPredicate.
Inductive detail := Expecting (l : list Z) | Since (n : nat) | Level (j : Z).
Record report := Report { r_kind : kind; r_left : nat; r_detail : detail }.

(** *** The parser between two statements.  The position in the input (Index) is given by the tokens not yet consumed. *)
Record rst := RSt {
  toks : list tok;              (* not yet consumed *)
  err : option report;          (* GetError: the error set and not yet reported *)
  mode : bool;                  (* errorRecoveryMode *)
  last : option nat;            (* lastErrorIndex; None: -1 *)
  lstates : list Z;             (* lastErrorStates *)
  cur : Z;                      (* GetState *)
  reports : list report         (* NotifyErrorListeners, the first one first *)
}.
Definition kind_of (t : tok) : Z := Z.of_nat (tt_num (ty t)).
Definition la1 (s : rst) : Z := match toks s with x :: _ => kind_of x | [] => -1 end.
Definition la2 (s : rst) : Z := match toks s with _ :: x :: _ => kind_of x | _ => -1 end.
Definition here (s : rst) : nat := length (toks s).
Definition set_state (n : Z) (s : rst) : rst := RSt (toks s) (err s) (mode s) (last s) (lstates s) n (reports s).
Definition set_err (e : option report) (s : rst) : rst := RSt (toks s) e (mode s) (last s) (lstates s) (cur s) (reports s).
(** Consume: the end of file stays. *)
Definition advance (s : rst) : rst := RSt (tl (toks s)) (err s) (mode s) (last s) (lstates s) (cur s) (reports s).
(** ReportMatch = endErrorCondition *)
Definition report_match (s : rst) : rst := RSt (toks s) (err s) false None [] (cur s) (reports s).
(** ReportError, ReportUnwantedToken, ReportMissingToken: nothing in recovery mode, else beginErrorCondition and one report. *)
Definition tell (r : report) (s : rst) : rst :=
  if mode s then s else RSt (toks s) (err s) true (last s) (lstates s) (cur s) (reports s ++ [r]).
(** consumeUntil *)
Fixpoint drop_until (set : list Z) (l : list tok) : list tok :=
  match l with [] => [] | x :: r => if zmem (kind_of x) set then l else drop_until set r end.
Definition consume_until (set : list Z) (s : rst) : rst := RSt (drop_until set (toks s)) (err s) (mode s) (last s) (lstates s) (cur s) (reports s).

(** *** The sets of tokens that recovery looks at; None: a panic (no first transition, or not a rule transition). *)
Record strategy := Strategy {
  expected : stack -> Z -> option (list Z);      (* GetExpectedTokens: ATN.getExpectedTokens(state, ctx) *)
  insertion : stack -> Z -> option (list Z);     (* SingleTokenInsertion: NextTokens(transitions[0].target, ctx) *)
  recovery : stack -> option (list Z)            (* GetErrorRecoverySet *)
}.
Section Sets.
Variable A : atn.
Definition follow_state (n : Z) : option Z := match n_trans (node_at A n) with TRule _ _ to _ :: _ => Some to | _ => None end.
Fixpoint expected_around (k : stack) (following : list Z) : option (list Z) :=
  if zmem (-2) following then
    match k with
    | [] => Some (-1 :: zremove (-2) following)
    | (n, _) :: k' =>
        match follow_state n with
        | Some q => match expected_around k' (next_tokens A q) with Some l => Some (zremove (-2) following ++ l) | None => None end
        | None => None
        end
    end
  else Some following.
Fixpoint returns_of (k : stack) : option (list Z) :=
  match k with [] => Some [] | (n, _) :: k' => match follow_state n, returns_of k' with Some q, Some l => Some (q :: l) | _, _ => None end end.
(** LL1Analyzer.Look with a context: as [look], but at the end of everything comes the end of file. *)
Definition next_tokens_in (k : stack) (q : Z) : option (list Z) :=
  match returns_of k with
  | Some ctx => Some (map (fun t => if t =? -2 then -1 else t) (snd (look A (200 * S (length k)) q ctx [] ([], []))))
  | None => None
  end.
Definition insertion_set (k : stack) (n : Z) : option (list Z) :=
  match n_trans (node_at A n) with t :: _ => next_tokens_in k (target t) | [] => None end.
Definition recovery_set (k : stack) : option (list Z) :=
  match returns_of k with Some l => Some (zremove (-2) (flat_map (next_tokens A) l)) | None => None end.
Definition default_strategy : strategy := Strategy (fun k n => expected_around k (next_tokens A n)) insertion_set recovery_set.
End Sets.

(** *** Running.  Next: to the next statement; Exit: goto errorExit. *)
Inductive outcome := Next (s : rst) | Exit (s : rst) | Panic | More.
Definition seq_out (r : outcome) (k : rst -> outcome) : outcome := match r with Next s => k s | r => r end.
(** if p.HasError() { goto errorExit } *)
Definition check (s : rst) : outcome := match err s with Some _ => Exit s | None => Next s end.
Definition is_last (s : rst) : bool := match last s with Some n => Nat.eqb n (here s) | None => false end.

Section Run.
Variable A : atn.
Variable funs : list (Z * list code).
Variable P : predictor.
(** How many tokens after the next one the prediction saw when it found no viable alternative: its offending token. *)
Variable P_at : forall (d p : Z) (input : list Z), nat.
Variable S : strategy.

(** GetExpectedTokens, for the message *)
Definition awaited (k : stack) (s : rst) : detail := Expecting (match expected S k (cur s) with Some e => e | None => [] end).
(** SingleTokenDeletion *)
Definition delete_one (k : stack) (s : rst) : option (option rst) :=
  match expected S k (cur s) with
  | None => None
  | Some e => Some (if zmem (la2 s) e then Some (report_match (advance (tell (Report Unwanted (here s) (Expecting e)) s))) else None)
  end.
(** RecoverInline *)
Definition recover_inline (k : stack) (s : rst) : outcome :=
  match delete_one k s with
  | None => Panic
  | Some (Some s') => Next (advance s')
  | Some None =>
      match insertion S k (cur s) with
      | None => Panic
      | Some l => Next (if zmem (la1 s) l then tell (Report Missing (here s) (awaited k s)) s else set_err (Some (Report Mismatch (here s) (awaited k s))) s)
      end
  end.
(** Sync *)
Definition sync (k : stack) (s : rst) : outcome :=
  if mode s || sync_ok A (cur s) (la1 s) then Next s
  else if zmem (n_type (node_at A (cur s))) [3; 4; 5; 10] then
    match delete_one k s with
    | None => Panic
    | Some (Some s') => Next s'
    | Some None => Next (set_err (Some (Report Mismatch (here s) (awaited k s))) s)
    end
  else
    match expected S k (cur s), recovery S k with
    | Some e, Some r => Next (consume_until (e ++ r) (tell (Report Unwanted (here s) (Expecting e)) s))
    | _, _ => Panic
    end.
(** Recover *)
Definition recover (k : stack) (s : rst) : option rst :=
  let s := if is_last s && zmem (cur s) (lstates s) then advance s else s in
  let s := RSt (toks s) (err s) (mode s) (Some (here s)) (cur s :: lstates s) (cur s) (reports s) in
  match recovery S k with Some r => Some (consume_until r s) | None => None end.
(** From errorExit to the end of the function (without ExitRule): ReportError, Recover, SetError(nil) *)
Definition error_exit (k : stack) (s : rst) : option rst :=
  match err s with
  | None => Some s
  | Some r => match recover k (tell r s) with Some s' => Some (set_err None s') | None => None end
  end.
Definition leave (k : stack) (r : outcome) (cont : rst -> outcome) : outcome :=
  match r with
  | Next s | Exit s => match error_exit k s with Some s' => cont s' | None => Panic end
  | r => r
  end.
Definition rinput (s : rst) : list Z := kinds (toks s) ++ [-1].
Definition no_viable (d p : Z) (s : rst) : rst := set_err (Some (Report NoViableAlt (here s - P_at d p (rinput s)) (Since (here s)))) s.

(** [rexec fuel k p c s]: as [exec] of GoParser.v, but going on after errors.  AdaptivePredict sets the error to its own, or
    to none.  ExitRule sets the state to the invoking state; UnrollRecursionContexts (fn_arg_expr, rule 50) leaves it. *)
Fixpoint rexec (fuel : nat) (k : stack) (p : Z) (c : list code) (s : rst) : outcome :=
  match fuel, c with
  | O, _ => More
  | Datatypes.S _, [] => Next s
  | Datatypes.S f, x :: c' =>
    seq_out
      match x with
      | Match n t =>
          let s := set_state n s in
          seq_out (if la1 s =? t then Next (advance (report_match s)) else recover_inline k s) check
      | MatchSet n c =>
          let s := set_state n s in
          if holds c (la1 s) then Next (advance (report_match s)) else recover_inline k s
      | Call n r j =>
          match nth_error funs (Z.to_nat r) with
          | Some (start, body) => leave ((n, p) :: k) (rexec f ((n, p) :: k) j body (set_state start (set_state n s)))
              (fun s' => Next (if r =? 50 then s' else set_state n s'))
          | None => Panic
          end
      | Sync n => seq_out (sync k (set_state n s)) check
      | If c b => if holds c (la1 s) then rexec f k p b s else Next s
      | For c b => if holds c (la1 s) then seq_out (rexec f k p b s) (rexec f k p [For c b]) else Next s
      | Do c b => seq_out (rexec f k p b s) (fun s' => if holds c (la1 s') then rexec f k p [Do c b] s' else Next s')
      | Switch cases e =>
          match case_of (la1 s) cases with
          | Some b => rexec f k p b s
          | None => if e then Exit (set_err (Some (Report NoViableAlt (here s) (Since (here s)))) s) else Next s
          end
      | Choose d cases =>
          match P d k p (rinput s) with
          | Some a => let s := set_err None s in match alt_of a cases with Some b => rexec f k p b s | None => Next s end
          | None => Exit (no_viable d p s)
          end
      | Loop d e b r =>
          match P d k p (rinput s) with
          | Some a => let s := set_err None s in
              if a =? e then Next s
              else seq_out (if a =? 1 then rexec f k p b s else Next s) (fun s' => seq_out (rexec f k p r s') (rexec f k p [Loop d e b r]))
          | None => Exit (no_viable d p s)
          end
      | Prec n j =>
          let s := set_state n s in
          if j >=? p then Next s else Exit (set_err (Some (Report FailedPredicate (here s) (Level j))) s)
      end
      (rexec f k p c')
  end.

(** p.Source_unit() (parser.go 62) *)
Inductive whole := Ended (r : list report) | Panicked | Unended.
Definition start_state (start : Z) (ts : list tok) : rst := RSt ts None false None [] start [].
Definition recovering_run (fuel : nat) (ts : list tok) : whole :=
  match funs with
  | (start, body) :: _ =>
      match leave [] (rexec fuel [] 0 body (start_state start ts)) Next with
      | Next s | Exit s => Ended (reports s)
      | Panic => Panicked
      | More => Unended
      end
  | [] => Unended
  end.
End Run.

(** *** Where AdaptivePredict finds no viable alternative: execATN seeks back to the start before it asks the predicates of the
    alternative found, but not when no configuration is left. *)
Fixpoint looked (A : atn) (ps : list Z) (dr : option Z) (p : Z) (cs : list config) (i : nat) (ts : list Z) : nat :=
  match ts with
  | [] => i
  | t :: ts' =>
      match step A ps dr p cs t with
      | inr cs' => looked A ps dr p cs' (Datatypes.S i) ts'
      | inl _ => match reach A ps dr cs t with Some [] => i | _ => O end
      end
  end.
Definition predict_at (d p : Z) (ts : list Z) : nat :=
  let dr := decision_rule (decision_state d) in
  match start_set parser_atn prec_states dr p (decision_state d) with
  | Some cs => looked parser_atn prec_states dr p cs 0 ts
  | None => O
  end.
