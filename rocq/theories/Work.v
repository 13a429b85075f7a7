(** How much work lexing and parsing is.
    Lexer: how many times a character is looked at (lexer_atn_simulator.go, execATN: LA(1) once per step, and once more where
    the simulation stops).  Parser: how many statements of the generated rule functions are executed, error recovery
    included; the statements are those of ParserCode.v, and this is Recovery.v's [rexec] with a counter. *)
From Coq Require Import ZArith.
From Verif Require Import Str Tokens Grammar Tree AtnData Atn AtnLexer AtnParser AtnParserTable GoParser ParserCode Predict Recovery.
Local Open Scope Z_scope.

(** *** NextToken until the end of the input, as in [AtnLexer.events_fuel] *)
Fixpoint reads_fuel (A : atn) (fuel : nat) (init : list AtnLexer.config) (s : str) : option nat :=
  match s with
  | [] => Some 1%nat
  | _ :: _ =>
    match fuel with
    | O => None
    | S f =>
      match AtnLexer.exec A init s 0 None with
      | None => None
      | Some (last, m) =>
          let n := match last with Some (_, _, n) => n | None => S m end in
          match reads_fuel A f init (skipn n s) with Some l => Some (S m + l)%nat | None => None end
      end
    end
  end.
Definition lexer_reads (s : str) : option nat :=
  match start_configs lexer_atn with Some init => reads_fuel lexer_atn (length s) init s | None => None end.

(** *** The rule functions *)
Section Run.
Variable A : atn.
Variable funs : list (Z * list code).
Variable P : predictor.
Variable P_at : forall (d p : Z) (input : list Z), nat.
Variable S : strategy.

Definition counted := (outcome * nat)%type.
Definition more (n : nat) (r : counted) : counted := (fst r, (n + snd r)%nat).
Definition cseq (r : counted) (k : rst -> counted) : counted := match fst r with Next s => more (snd r) (k s) | _ => r end.
Definition free (r : outcome) : counted := (r, O).
Fixpoint wexec (fuel : nat) (k : stack) (p : Z) (c : list code) (s : rst) : counted :=
  match fuel, c with
  | O, _ => free More
  | Datatypes.S _, [] => free (Next s)
  | Datatypes.S f, x :: c' =>
    cseq (more 1
      match x with
      | Match n t =>
          let s := set_state n s in
          free (seq_out (if la1 s =? t then Next (advance (report_match s)) else recover_inline S k s) check)
      | MatchSet n c =>
          let s := set_state n s in
          free (if holds c (la1 s) then Next (advance (report_match s)) else recover_inline S k s)
      | Call n r j =>
          match nth_error funs (Z.to_nat r) with
          | Some (start, body) =>
              let b := wexec f ((n, p) :: k) j body (set_state start (set_state n s)) in
              more (snd b) (free (leave S ((n, p) :: k) (fst b) (fun s' => Next (if r =? 50 then s' else set_state n s'))))
          | None => free Panic
          end
      | Sync n => free (seq_out (sync A S k (set_state n s)) check)
      | If c b => if holds c (la1 s) then wexec f k p b s else free (Next s)
      | For c b => if holds c (la1 s) then cseq (wexec f k p b s) (wexec f k p [For c b]) else free (Next s)
      | Do c b => cseq (wexec f k p b s) (fun s' => if holds c (la1 s') then wexec f k p [Do c b] s' else free (Next s'))
      | Switch cases e =>
          match case_of (la1 s) cases with
          | Some b => wexec f k p b s
          | None => free (if e then Exit (set_err (Some (Report NoViableAlt (here s) (Since (here s)))) s) else Next s)
          end
      | Choose d cases =>
          match P d k p (rinput s) with
          | Some a => let s := set_err None s in match alt_of a cases with Some b => wexec f k p b s | None => free (Next s) end
          | None => free (Exit (no_viable P_at d p s))
          end
      | Loop d e b r =>
          match P d k p (rinput s) with
          | Some a => let s := set_err None s in
              if a =? e then free (Next s)
              else cseq (if a =? 1 then wexec f k p b s else free (Next s)) (fun s' => cseq (wexec f k p r s') (wexec f k p [Loop d e b r]))
          | None => free (Exit (no_viable P_at d p s))
          end
      | Prec n j =>
          let s := set_state n s in
          free (if j >=? p then Next s else Exit (set_err (Some (Report FailedPredicate (here s) (Level j))) s))
      end)
      (wexec f k p c')
  end.
(** p.Source_unit(): the reports, as in [recovering_run], and the statements executed *)
Definition counting_run (fuel : nat) (ts : list tok) : option (list report * nat) :=
  match funs with
  | (start, body) :: _ =>
      let r := wexec fuel [] 0 body (start_state start ts) in
      match leave S [] (fst r) Next with Next s | Exit s => Some (reports s, snd r) | _ => None end
  | [] => None
  end.
End Run.
