(** Lines and columns: AtnLexer.v again, with the counters of antlr4-go v4.13.0 lexer_atn_simulator.go (Line,
    CharPositionInLine, Consume, captureSimState, accept) and lexer.go (TokenStartLine, TokenStartColumn, EmitEOF, Recover),
    and the messages made of them (utils/error_listener.go 58-64). *)
From Coq Require Import ZArith.
From Verif Require Import Str Atn AtnLexer Tokens Recovery ParseKF.
Local Open Scope Z_scope.

(** Line and CharPositionInLine. *)
Record place := Place { line : nat; column : nat }.
(** LexerATNSimulator.Consume *)
Definition step (p : place) (c : N) : place := if N.eqb c 10 then Place (S (line p)) 0 else Place (line p) (S (column p)).

Section Sim.
Variable A : atn.
(** execATN; an accept state is remembered with index, line and column (captureSimState) *)
Fixpoint exec_at (cs : list config) (s : str) (n : nat) (at_ : place) (prev : option (Z * list Z * nat * place)) : option (option (Z * list Z * nat * place) * nat * place) :=
  let prev' := match accept_of A cs with Some (k, acts) => Some (k, acts, n, at_) | None => prev end in
  match s with
  | [] => Some (prev', n, at_)
  | c :: s' =>
    match reach A cs (Z.of_N c) with
    | None => None
    | Some [] => Some (prev', n, at_)
    | Some (x :: cs') => exec_at (x :: cs') s' (S n) (step at_ c) prev'
    end
  end.
(** NextToken: the counters when the token starts (TokenStartLine, TokenStartColumn); accept() sets them to those remembered;
    after an error Recover consumes one more character, if there is one.  At the end the counters are those of EmitEOF. *)
Fixpoint places_fuel (fuel : nat) (init : list config) (s : str) (at_ : place) : option (list (event * place) * place) :=
  match s with
  | [] => Some ([], at_)
  | _ :: _ =>
    match fuel with
    | O => None
    | S f =>
      match exec_at init s 0 at_ None with
      | None => None
      | Some (Some (k, acts, n, at1), _, _) =>
          match places_fuel f init (skipn n s) at1 with
          | Some (l, e) => Some ((Token k (channel_of A acts) (firstn n s), at_) :: l, e)
          | None => None
          end
      | Some (None, n, at1) =>
          match places_fuel f init (skipn (S n) s) (match nth_error s n with Some c => step at1 c | None => at1 end) with
          | Some (l, e) => Some ((Bad (firstn (S n) s), at_) :: l, e)
          | None => None
          end
      end
    end
  end.
(** A new lexer starts at line 1, column 0. *)
Definition places (s : str) : option (list (event * place) * place) :=
  match start_configs A with Some init => places_fuel (length s) init s (Place 1 0) | None => None end.
End Sim.
Definition lexer_places (s : str) : option (list (event * place) * place) := places lexer_atn s.

(** The characters of a token, or those dropped by an error. *)
Definition event_text (e : event) : str := match e with Token _ _ t => t | Bad t => t end.

(** The tokens on the default channel, as the parser's token stream has them (CommonTokenStream), with the end of file. *)
Definition on_channel (x : event * place) : bool := match fst x with Token _ 0 _ => true | _ => false end.
(** The place of an error: NotifyErrorListeners passes the line and column of the offending token. *)
Definition offending (l : list (event * place)) (eof : place) (r : report) : place :=
  let vis := filter on_channel l in nth (length vis - r_left r) (map snd vis) eof.
(** error_listener.go 58-64, line 61: the text of a message; what the runtime puts behind the place is [tail]. *)
Definition message (text : str) (tail : report -> str) (r : report) : str :=
  match lexer_places text with
  | Some (l, eof) => let p := offending l eof r in lit "line " ++ decimal (line p) ++ lit ":" ++ decimal (column p) ++ lit " " ++ tail r
  | None => []
  end.
