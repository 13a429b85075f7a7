(** The lexer: ANTLR's LexerATNSimulator.Match over the rules of LexRules.v, driven by
    BaseLexer.NextToken and CommonTokenStream (kfparser/parser.go lines 24-31).
    Simplifications: positions are dropped; the lexer stops at the first position where no rule
    matches (the real lexer reports a syntax error to the listener, skips and goes on; ParseKF fails
    either way, parser.go lines 64-67).  AtnLexer.v models the simulator over the generated table
    itself, recovery included; AtnLexerProof.v proves that the two agree. *)
From Verif Require Export LexRules.

(** One step of the simulation: advance every live rule over a character. *)
Definition step (c : N) (rs : list (tt * re)) : list (tt * re) :=
  filter (fun p => negb (is_emp (snd p))) (map (fun p => (fst p, deriv c (snd p))) rs).

Definition first_nullable (rs : list (tt * re)) : option tt :=
  match find (fun p => nullable (snd p)) rs with Some p => Some (fst p) | None => None end.

(** Longest match; [best] is the previously accepted (type, length), ANTLR's prevAccept. *)
Fixpoint munch (rs : list (tt * re)) (s : str) (n : nat) (best : option (tt * nat)) : option (tt * nat) :=
  let best' := match first_nullable rs with Some k => Some (k, n) | None => best end in
  match s with
  | [] => best'
  | c :: s' =>
      match step c rs with
      | [] => best'
      | rs' => munch rs' s' (S n) best'
      end
  end.

Definition next_token (s : str) : option (tt * nat) := munch lex_rules s 0 None.

(** All tokens of a text, hidden ones included; [None] is a token recognition error. *)
Fixpoint lex_fuel (fuel : nat) (s : str) : option (list tok) :=
  match s with
  | [] => Some []
  | _ =>
    match fuel with
    | O => None
    | S f =>
      match next_token s with
      | Some (k, S n) =>
          match lex_fuel f (skipn (S n) s) with
          | Some ts => Some (Tok k (firstn (S n) s) :: ts)
          | None => None
          end
      | _ => None
      end
    end
  end.

Definition lex (s : str) : option (list tok) := lex_fuel (length s) s.

(** Tokens the parser sees: CommonTokenStream on the default channel (parser.go line 30).
    The end-of-file token is the end of the list. *)
Definition visible (ts : list tok) : list tok := filter (fun t => negb (hidden (ty t))) ts.

Definition tokenize (s : str) : option (list tok) :=
  match lex s with Some ts => Some (visible ts) | None => None end.
