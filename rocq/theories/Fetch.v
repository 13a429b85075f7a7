(** When tokens are fetched, and so when the lexer reports: Recovery.v again, with how far the token stream has been read.
    common_token_stream.go (lazyInit, Sync, fetch, Consume, LT, NextTokenOnChannel, GetTextFromInterval) of antlr4-go v4.13.0:
    the current token is always fetched, with everything before it; LA(2) of SingleTokenDeletion fetches the next one,
    AdaptivePredict all that it looks at.  Fetching a token runs the lexer, which reports what it cannot read on the way
    (lexer.go NextToken, notifyListeners).  Both report to the same listener (parser.go 31, 38). *)
From Coq Require Import ZArith.
From Verif Require Import Str Tokens LexSpec Grammar Tree AtnData Atn AtnLexer AtnParser AtnParserTable ParseKF GoParser ParserCode Predict LexPos Message Recovery.
Local Open Scope Z_scope.

(** The parser of Recovery.v; the furthest token fetched (how many tokens are left there; 0: the end of file); and where that
    was at each report. *)
Record fst_ := FSt { core : rst; seen : nat; log : list nat }.
(** After a consumption the token at the new position is fetched. *)
Definition move (g : rst -> rst) (s : fst_) : fst_ := let c := g (core s) in FSt c (Nat.min (seen s) (here c)) (log s).
Definition see (n : nat) (s : fst_) : fst_ := FSt (core s) (Nat.min (seen s) (here (core s) - n)) (log s).
Definition ftell (r : report) (s : fst_) : fst_ := FSt (tell r (core s)) (seen s) (if Recovery.mode (core s) then log s else log s ++ [seen s]).
Inductive fout := FNext (s : fst_) | FExit (s : fst_) | FPanic | FMore.
Definition fseq (r : fout) (k : fst_ -> fout) : fout := match r with FNext s => k s | r => r end.
Definition fcheck (s : fst_) : fout := match err (core s) with Some _ => FExit s | None => FNext s end.

Section Run.
Variable A : atn.
Variable funs : list (Z * list code).
Variable P : predictor.
Variable P_at : forall (d p : Z) (input : list Z), nat.
(** How many tokens after the next one the prediction looked at. *)
Variable P_seen : forall (d p : Z) (input : list Z), nat.
Variable S : strategy.

Definition fdelete_one (k : stack) (s : fst_) : option (option fst_) :=
  let s := see 1 s in
  match expected S k (cur (core s)) with
  | None => None
  | Some e => Some (if zmem (la2 (core s)) e then Some (move (fun c => report_match (advance c)) (ftell (Report Unwanted (here (core s)) (Expecting e)) s)) else None)
  end.
Definition frecover_inline (k : stack) (s : fst_) : fout :=
  match fdelete_one k s with
  | None => FPanic
  | Some (Some s') => FNext (move advance s')
  | Some None =>
      let s := see 1 s in
      match insertion S k (cur (core s)) with
      | None => FPanic
      | Some l => FNext (if zmem (la1 (core s)) l then ftell (Report Missing (here (core s)) (awaited S k (core s))) s
                         else move (set_err (Some (Report Mismatch (here (core s)) (awaited S k (core s))))) s)
      end
  end.
Definition fsync (k : stack) (s : fst_) : fout :=
  if Recovery.mode (core s) || sync_ok A (cur (core s)) (la1 (core s)) then FNext s
  else if zmem (n_type (node_at A (cur (core s)))) [3; 4; 5; 10] then
    match fdelete_one k s with
    | None => FPanic
    | Some (Some s') => FNext s'
    | Some None => let s := see 1 s in FNext (move (set_err (Some (Report Mismatch (here (core s)) (awaited S k (core s))))) s)
    end
  else
    match expected S k (cur (core s)), recovery S k with
    | Some e, Some r => FNext (move (consume_until (e ++ r)) (ftell (Report Unwanted (here (core s)) (Expecting e)) s))
    | _, _ => FPanic
    end.
Definition frecover (k : stack) (s : fst_) : option fst_ :=
  match recover S k (core s) with Some c => Some (move (fun _ => c) s) | None => None end.
Definition ferror_exit (k : stack) (s : fst_) : option fst_ :=
  match err (core s) with
  | None => Some s
  | Some r => match frecover k (ftell r s) with Some s' => Some (move (set_err None) s') | None => None end
  end.
Definition fleave (k : stack) (r : fout) (cont : fst_ -> fout) : fout :=
  match r with
  | FNext s | FExit s => match ferror_exit k s with Some s' => cont s' | None => FPanic end
  | r => r
  end.
(** AdaptivePredict *)
Definition asked (d p : Z) (s : fst_) : fst_ := see (P_seen d p (rinput (core s))) s.

Fixpoint fexec (fuel : nat) (k : stack) (p : Z) (c : list code) (s : fst_) : fout :=
  match fuel, c with
  | O, _ => FMore
  | Datatypes.S _, [] => FNext s
  | Datatypes.S f, x :: c' =>
    fseq
      match x with
      | Match n t =>
          let s := move (set_state n) s in
          fseq (if la1 (core s) =? t then FNext (move (fun c => advance (report_match c)) s) else frecover_inline k s) fcheck
      | MatchSet n c =>
          let s := move (set_state n) s in
          if holds c (la1 (core s)) then FNext (move (fun c => advance (report_match c)) s) else frecover_inline k s
      | Call n r j =>
          match nth_error funs (Z.to_nat r) with
          | Some (start, body) => fleave ((n, p) :: k) (fexec f ((n, p) :: k) j body (move (fun c => set_state start (set_state n c)) s))
              (fun s' => FNext (if r =? 50 then s' else move (set_state n) s'))
          | None => FPanic
          end
      | Sync n => fseq (fsync k (move (set_state n) s)) fcheck
      | If c b => if holds c (la1 (core s)) then fexec f k p b s else FNext s
      | For c b => if holds c (la1 (core s)) then fseq (fexec f k p b s) (fexec f k p [For c b]) else FNext s
      | Do c b => fseq (fexec f k p b s) (fun s' => if holds c (la1 (core s')) then fexec f k p [Do c b] s' else FNext s')
      | Switch cases e =>
          match case_of (la1 (core s)) cases with
          | Some b => fexec f k p b s
          | None => if e then FExit (move (set_err (Some (Report NoViableAlt (here (core s)) (Since (here (core s)))))) s) else FNext s
          end
      | Choose d cases =>
          let s := asked d p s in
          match P d k p (rinput (core s)) with
          | Some a => let s := move (set_err None) s in match alt_of a cases with Some b => fexec f k p b s | None => FNext s end
          | None => FExit (move (no_viable P_at d p) s)
          end
      | Loop d e b r =>
          let s := asked d p s in
          match P d k p (rinput (core s)) with
          | Some a => let s := move (set_err None) s in
              if a =? e then FNext s
              else fseq (if a =? 1 then fexec f k p b s else FNext s) (fun s' => fseq (fexec f k p r s') (fexec f k p [Loop d e b r]))
          | None => FExit (move (no_viable P_at d p) s)
          end
      | Prec n j =>
          let s := move (set_state n) s in
          if j >=? p then FNext s else FExit (move (set_err (Some (Report FailedPredicate (here (core s)) (Level j)))) s)
      end
      (fexec f k p c')
  end.
(** p.Source_unit() (parser.go 62): the reports, each with the furthest token fetched then; and the furthest token fetched. *)
Definition fstart (start : Z) (ts : list tok) : fst_ := FSt (start_state start ts) (length ts) [].
Inductive fwhole := FEnded (r : list (report * nat)) (at_end : nat) | FPanicked | FUnended.
Definition fetching_run (fuel : nat) (ts : list tok) : fwhole :=
  match funs with
  | (start, body) :: _ =>
      match fleave [] (fexec fuel [] 0 body (fstart start ts)) FNext with
      | FNext s | FExit s => FEnded (combine (reports (core s)) (log s)) (seen s)
      | FPanic => FPanicked
      | FMore => FUnended
      end
  | [] => FUnended
  end.
End Run.

(** *** How far AdaptivePredict looks (execATN): to the token after which the alternative is known or no configuration is left. *)
Fixpoint looked_at (A : atn) (ps : list Z) (dr : option Z) (p : Z) (cs : list config) (i : nat) (ts : list Z) : nat :=
  match ts with
  | [] => i
  | t :: ts' => match Predict.step A ps dr p cs t with inr cs' => looked_at A ps dr p cs' (Datatypes.S i) ts' | inl _ => i end
  end.
Definition predict_seen (d p : Z) (ts : list Z) : nat :=
  let dr := decision_rule (decision_state d) in
  match start_set parser_atn prec_states dr p (decision_state d) with
  | Some cs => looked_at parser_atn prec_states dr p cs 0 ts
  | None => O
  end.

(** *** What the listener gets *)
(** The tokens of the parser: those on the default channel (BaseLexer.NextToken goes on after an error). *)
Definition token_of (e : event) : list tok :=
  match e with
  | Token k 0 t => match nth_error all_tt (Z.to_nat k - 1) with Some y => [Tok y t] | None => [] end
  | _ => []
  end.
(** lexer.go notifyListeners: the text from the start of the token to the character that cannot be read *)
Definition lexer_message (x : event * place) : list str :=
  match fst x with
  | Bad t => [lit "line " ++ decimal (line (snd x)) ++ lit ":" ++ decimal (column (snd x)) ++ lit " token recognition error at: '" ++ t ++ lit "'"]
  | Token _ _ _ => []
  end.
Definition lexer_messages (l : list (event * place)) : list str := flat_map lexer_message l.
(** The rest of the text from the token with [n] tokens left on, and what is before it *)
Fixpoint fetched_from (n : nat) (l : list (event * place)) : list (event * place) :=
  match l with
  | [] => []
  | x :: r => if on_channel x && Nat.eqb (length (filter on_channel l)) n then l else fetched_from n r
  end.
Definition fetched_to (n : nat) (l : list (event * place)) : list (event * place) := firstn (length l - length (fetched_from n l)) l.
(** Each report after what the lexer had to say by then *)
Fixpoint merged (said : report -> str) (l : list (event * place)) (rs : list (report * nat)) (at_end : nat) : list str :=
  match rs with
  | [] => lexer_messages (fetched_to at_end l)
  | (r, h) :: rs' => lexer_messages (fetched_to h l) ++ said r :: merged said (fetched_from h l) rs' at_end
  end.
Definition listener_gets (text : str) (fuel : nat) : option (list str) :=
  match lexer_places text with
  | Some (l, _) =>
      match fetching_run parser_atn rule_functions adaptive_predict predict_at predict_seen (default_strategy parser_atn) fuel (flat_map (fun x => token_of (fst x)) l) with
      | FEnded rs e => Some (merged (message text (said text)) l rs e)
      | _ => None
      end
  | None => None
  end.
