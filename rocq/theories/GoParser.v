(** What the rule functions of kfgrammar/kuneiform_parser.go do: a small language for the statements ANTLR's Go target writes
    (ParserCode.v has the functions themselves), and the runtime methods they call (antlr4-go v4.13.0, not in /repo: Match,
    Consume, EnterRule, EnterRecursionRule, PushNewRecursionContext, Precpred, Sync).
    AdaptivePredict is a parameter.  A run stops at the first reported error: any report makes parse.ParseKF return an error
    instead of the tree (parser.go 64-67), so what recovery does after it does not matter for the result
    (Recovery.v runs the same statements with recovery, and RecoveryProof2.v proves that the two agree). *)
From Coq Require Import ZArith.
From Verif Require Import Str Grammar Tree AtnData Atn AtnParser AtnParserTable AtnTree.
Local Open Scope Z_scope.

(** *** Statements.  The first number of a statement is that of the SetState before it. *)
(** Conditions on the next token type [_la]. *)
Inductive cond :=
| LaIs (t : Z)                    (* _la == t *)
| LaMask (base mask : Z)          (* (int64((_la-base)) & ^0x3f) == 0 && ((int64(1)<<(_la-base))&mask) != 0 *)
| LaOr (a b : cond).              (* a || b *)
Inductive code :=
| Match (n t : Z)                 (* p.SetState(n); p.Match(t); if p.HasError() { goto errorExit }, e.g. lines 2143-2150 *)
| MatchSet (n : Z) (c : cond)     (* _la = LA(1); if !(c) { RecoverInline } else { ReportMatch; Consume }, e.g. 2703-2713 *)
| Call (n r k : Z)                (* p.SetState(n); the function of rule r, with precedence k (0 if it has no parameter), e.g. 2151-2154 *)
| Sync (n : Z)                    (* p.SetState(n); p.GetErrorHandler().Sync(p); if p.HasError() { goto errorExit }, e.g. 753-757 *)
| If (c : cond) (body : list code)               (* _la = LA(1); if c {...}, e.g. 2221-2233 *)
| For (c : cond) (body : list code)              (* _la = LA(1); for c { ...; _la = LA(1) }, e.g. 738-752 *)
| Do (c : cond) (body : list code)               (* for ok := true; ok; ok = c { ...; _la = LA(1) }, 6561-6573 *)
| Switch (cases : list (list Z * list code)) (err : bool)
      (* switch LA(1) { case ...: ... default: err: SetError(NoViableAlt); goto errorExit }, e.g. 765-790; 8460-8540 without error *)
| Choose (d : Z) (cases : list (Z * list code))  (* switch AdaptivePredict(..., d, ...) { case i: ... case invalid: goto errorExit }, e.g. 7727-7745 *)
| Loop (d exit : Z) (body rest : list code)
      (* _alt = AdaptivePredict(d); for _alt != exit && _alt != invalid { if _alt == 1 { body }; rest; _alt = AdaptivePredict(d) }, e.g. 2166-2216 *)
| Prec (n k : Z).                 (* PushNewRecursionContext; p.SetState(n); if !p.Precpred(k) { SetError; goto errorExit }, e.g. 8566-8574 *)

(** [LA(1)] is read once and then tested; nothing is consumed in between. *)
Fixpoint holds (c : cond) (la : Z) : bool :=
  match c with
  | LaIs t => la =? t
  | LaMask b m => (Z.land (la - b) (Z.lnot 63) =? 0) && negb (Z.land (Z.shiftl 1 (la - b)) m =? 0)
  | LaOr a b => holds a la || holds b la
  end.

(** *** NextTokens (atn.go NextTokensNoContext: LL1Analyzer.Look(s, nil, nil)): the tokens that can come next in the rule,
    predicates seen through, -2 (epsilon) if the rule can end before one comes.
    [ctx]: the return states of the rules entered; [called]: calledRuleStack; [busy]: lookBusy. *)
Fixpoint zs_eqb (a b : list Z) : bool := match a, b with [], [] => true | x :: a, y :: b => (x =? y) && zs_eqb a b | _, _ => false end.
Definition in_busy (q : Z) (ctx : list Z) (busy : list (Z * list Z)) : bool := existsb (fun e => (fst e =? q) && zs_eqb (snd e) ctx) busy.
Definition zremove (r : Z) (l : list Z) : list Z := filter (fun x => negb (x =? r)) l.
Fixpoint look (A : atn) (fuel : nat) (q : Z) (ctx called : list Z) (s : list (Z * list Z) * list Z) : list (Z * list Z) * list Z :=
  match fuel with
  | O => s
  | S f =>
    if in_busy q ctx (fst s) then s else
    let s := ((q, ctx) :: fst s, snd s) in
    let n := node_at A q in
    if n_type n =? 7
    then match ctx with
         | [] => (fst s, -2 :: snd s)
         | ret :: ctx' => look A f ret ctx' (zremove (n_rule n) called) s
         end
    else fold_left (fun s t => match t with
           | TRule start r to _ => if zmem r called then s else look A f start (to :: ctx) (r :: called) s
           | TEps to | TAction _ _ to | TPrec _ to => look A f to ctx called s
           | TSet neg l to => (fst s, filter (fun t => xorb neg (in_ranges l t)) tokens ++ snd s)
           end) (n_trans n) s
  end.
Definition next_tokens (A : atn) (q : Z) : list Z := snd (look A 200 q [] [] ([], [])).
(** DefaultErrorStrategy.Sync: no report if the next token is among NextTokens, or epsilon is, or the state is of a kind it
    does not deal with; otherwise one of SingleTokenDeletion, SetError(InputMisMatch), ReportUnwantedToken reports. *)
Definition sync_ok (A : atn) (n la : Z) : bool :=
  zmem (-2) (next_tokens A n) || zmem la (next_tokens A n) || negb (zmem (n_type (node_at A n)) [3; 4; 5; 10; 9; 11]).

(** *** The decisions of the ATN: the list that Atn.read_atn skips. *)
Definition read_decisions : reader (list Z) :=
  READ _ <- item; READ kind <- item; READ _ <- item;
  READ _ <- counted read_state; READ _ <- counted item; READ _ <- counted item;
  READ _ <- counted (read_rule (kind =? 0)); READ _ <- counted item;
  READ sets <- counted read_set; READ _ <- counted (read_edge sets);
  counted item.
Definition decision_states : list Z := Eval vm_compute in match read_decisions parser_atn_data with Some (l, _) => l | None => [] end.
Definition decision_state (d : Z) : Z := nth (Z.to_nat d) decision_states (-1).

(** *** Running *)
(** The tokens not yet consumed (at the end LA(1) is EOF = -1), and the children of the current context. *)
Record pst := St { rest : list tok; kids : list tree }.
Definition la (s : pst) : Z := match rest s with x :: _ => Z.of_nat (tt_num (ty x)) | [] => -1 end.
(** Parser.Consume: the end of file gets a node too but stays in the stream. *)
Definition consume (s : pst) : pst := match rest s with x :: r => St r (kids s ++ [Leaf x]) | [] => St [] (kids s ++ [Eof]) end.

Inductive result := Done (s : pst) | Failed | Unfinished.
Definition andthen (r : result) (k : pst -> result) : result := match r with Done s => k s | r => r end.

(** The contexts around the current one: the state that invoked it and the precedence of the caller. *)
Definition stack := list (Z * Z).
(** AdaptivePredict(parser, tokens, decision, context): the alternative, or None if it reports no viable alternative. *)
Definition predictor := forall (d : Z) (k : stack) (p : Z) (input : list Z), option Z.
Definition input_of (s : pst) : list Z := kinds (rest s) ++ [-1].

Fixpoint case_of (la : Z) (cases : list (list Z * list code)) : option (list code) :=
  match cases with [] => None | (ts, b) :: l => if zmem la ts then Some b else case_of la l end.
Fixpoint alt_of (a : Z) (cases : list (Z * list code)) : option (list code) :=
  match cases with [] => None | (i, b) :: l => if a =? i then Some b else alt_of a l end.

Section Run.
Variable A : atn.
Variable funs : list (Z * list code).
Variable P : predictor.

(** [exec fuel k p c s]: the statements [c] in a context with surroundings [k] and precedence [p] (only fn_arg_expr asks for
    its precedence; the other rules have 0). *)
Fixpoint exec (fuel : nat) (k : stack) (p : Z) (c : list code) (s : pst) : result :=
  match fuel, c with
  | O, _ => Unfinished
  | S _, [] => Done s
  | S f, x :: c' =>
    andthen
      match x with
      | Match _ t => if la s =? t then Done (consume s) else Failed
      | MatchSet _ c => if holds c (la s) then Done (consume s) else Failed
      | Call n r j =>
          match nth_error funs (Z.to_nat r) with
          | Some (_, body) => andthen (exec f ((n, p) :: k) j body (St (rest s) []))
              (fun s' => Done (St (rest s') (kids s ++ [Tree.Node (rule_at r) (kids s')])))
          | None => Failed
          end
      | Sync n => if sync_ok A n (la s) then Done s else Failed
      | If c b => if holds c (la s) then exec f k p b s else Done s
      | For c b => if holds c (la s) then andthen (exec f k p b s) (exec f k p [For c b]) else Done s
      | Do c b => andthen (exec f k p b s) (fun s' => if holds c (la s') then exec f k p [Do c b] s' else Done s')
      | Switch cases err => match case_of (la s) cases with Some b => exec f k p b s | None => if err then Failed else Done s end
      | Choose d cases =>
          match P d k p (input_of s) with
          | Some a => match alt_of a cases with Some b => exec f k p b s | None => Done s end
          | None => Failed
          end
      | Loop d e b r =>
          match P d k p (input_of s) with
          | Some a => if a =? e then Done s
              else andthen (if a =? 1 then exec f k p b s else Done s) (fun s' => andthen (exec f k p r s') (exec f k p [Loop d e b r]))
          | None => Failed
          end
      | Prec _ j => if j >=? p then Done (St (rest s) [Tree.Node fn_arg_expr (kids s)]) else Failed
      end
      (exec f k p c')
  end.

(** p.Source_unit() (parser.go 62): the tree, if nothing is reported. *)
Definition source_unit_fun (fuel : nat) (ts : list tok) : option (option tree) :=
  match exec fuel [] 0 (match funs with (_, b) :: _ => b | [] => [] end) (St ts []) with
  | Done s => Some (Some (Tree.Node (rule_at 0) (kids s)))
  | Failed => Some None
  | Unfinished => None
  end.
End Run.
