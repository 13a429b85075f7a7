(** The rule functions of kfgrammar/kuneiform_parser.go as computations that ask AdaptivePredict and go on with the reply: the
    statements run exactly as in GoParser.v (the tree) and Recovery.v (with error recovery), but the replies come from outside,
    where other parsers use the same DFAs (ParseCache.v). *)
From Coq Require Import ZArith.
From Verif Require Import Str Grammar Tree AtnData Atn AtnParser AtnParserTable AtnTree GoParser ParserCode Predict Recovery ParseCache.
Local Open Scope Z_scope.

Fixpoint bind {X Y} (m : asking X) (f : X -> asking Y) : asking Y :=
  match m with Ret x => f x | Ask d p input k => Ask d p input (fun r => bind (k r) f) end.

Section Run.
Variable A : atn.
Variable funs : list (Z * list code).

(** GoParser.exec *)
Definition athen (m : asking result) (k : pst -> asking result) : asking result := bind m (fun r => match r with Done s => k s | r => Ret r end).
Fixpoint aexec (fuel : nat) (p : Z) (c : list code) (s : pst) : asking result :=
  match fuel, c with
  | O, _ => Ret Unfinished
  | S _, [] => Ret (Done s)
  | S f, x :: c' =>
    athen
      match x with
      | Match _ t => Ret (if la s =? t then Done (consume s) else Failed)
      | MatchSet _ c => Ret (if holds c (la s) then Done (consume s) else Failed)
      | Call n r j =>
          match nth_error funs (Z.to_nat r) with
          | Some (_, body) => athen (aexec f j body (St (rest s) []))
              (fun s' => Ret (Done (St (rest s') (kids s ++ [Tree.Node (rule_at r) (kids s')]))))
          | None => Ret Failed
          end
      | Sync n => Ret (if sync_ok A n (la s) then Done s else Failed)
      | If c b => if holds c (la s) then aexec f p b s else Ret (Done s)
      | For c b => if holds c (la s) then athen (aexec f p b s) (aexec f p [For c b]) else Ret (Done s)
      | Do c b => athen (aexec f p b s) (fun s' => if holds c (la s') then aexec f p [Do c b] s' else Ret (Done s'))
      | Switch cases err => match case_of (la s) cases with Some b => aexec f p b s | None => Ret (if err then Failed else Done s) end
      | Choose d cases =>
          Ask d p (input_of s) (fun r => match r with
            | Chosen a => match alt_of a cases with Some b => aexec f p b s | None => Ret (Done s) end
            | NotViable _ => Ret Failed
            end)
      | Loop d e b r =>
          Ask d p (input_of s) (fun rep => match rep with
            | Chosen a => if a =? e then Ret (Done s)
                else athen (if a =? 1 then aexec f p b s else Ret (Done s)) (fun s' => athen (aexec f p r s') (aexec f p [Loop d e b r]))
            | NotViable _ => Ret Failed
            end)
      | Prec _ j => Ret (if j >=? p then Done (St (rest s) [Tree.Node fn_arg_expr (kids s)]) else Failed)
      end
      (aexec f p c')
  end.
Definition tree_program (fuel : nat) (ts : list tok) : asking (option (option tree)) :=
  bind (aexec fuel 0 (match funs with (_, b) :: _ => b | [] => [] end) (St ts [])) (fun r => Ret match r with
  | Done s => Some (Some (Tree.Node (rule_at 0) (kids s)))
  | Failed => Some None
  | Unfinished => None
  end).

(** Recovery.rexec *)
Variable S : strategy.
Definition aseq (m : asking outcome) (k : rst -> asking outcome) : asking outcome := bind m (fun r => match r with Next s => k s | r => Ret r end).
Definition aleave (k : stack) (m : asking outcome) (cont : rst -> outcome) : asking outcome := bind m (fun r => Ret (leave S k r cont)).
Fixpoint arexec (fuel : nat) (k : stack) (p : Z) (c : list code) (s : rst) : asking outcome :=
  match fuel, c with
  | O, _ => Ret More
  | Datatypes.S _, [] => Ret (Next s)
  | Datatypes.S f, x :: c' =>
    aseq
      match x with
      | Match n t =>
          let s := set_state n s in
          Ret (seq_out (if la1 s =? t then Next (advance (report_match s)) else recover_inline S k s) check)
      | MatchSet n c =>
          let s := set_state n s in
          Ret (if holds c (la1 s) then Next (advance (report_match s)) else recover_inline S k s)
      | Call n r j =>
          match nth_error funs (Z.to_nat r) with
          | Some (start, body) => aleave ((n, p) :: k) (arexec f ((n, p) :: k) j body (set_state start (set_state n s)))
              (fun s' => Next (if r =? 50 then s' else set_state n s'))
          | None => Ret Panic
          end
      | Sync n => Ret (seq_out (sync A S k (set_state n s)) check)
      | If c b => if holds c (la1 s) then arexec f k p b s else Ret (Next s)
      | For c b => if holds c (la1 s) then aseq (arexec f k p b s) (arexec f k p [For c b]) else Ret (Next s)
      | Do c b => aseq (arexec f k p b s) (fun s' => if holds c (la1 s') then arexec f k p [Do c b] s' else Ret (Next s'))
      | Switch cases e =>
          match case_of (la1 s) cases with
          | Some b => arexec f k p b s
          | None => Ret (if e then Exit (set_err (Some (Report NoViableAlt (here s) (Since (here s)))) s) else Next s)
          end
      | Choose d cases =>
          Ask d p (rinput s) (fun rep => match rep with
            | Chosen a => let s := set_err None s in match alt_of a cases with Some b => arexec f k p b s | None => Ret (Next s) end
            | NotViable n => Ret (Exit (set_err (Some (Report NoViableAlt (here s - n) (Since (here s)))) s))
            end)
      | Loop d e b r =>
          Ask d p (rinput s) (fun rep => match rep with
            | Chosen a => let s := set_err None s in
                if a =? e then Ret (Next s)
                else aseq (if a =? 1 then arexec f k p b s else Ret (Next s)) (fun s' => aseq (arexec f k p r s') (arexec f k p [Loop d e b r]))
            | NotViable n => Ret (Exit (set_err (Some (Report NoViableAlt (here s - n) (Since (here s)))) s))
            end)
      | Prec n j =>
          let s := set_state n s in
          Ret (if j >=? p then Next s else Exit (set_err (Some (Report FailedPredicate (here s) (Level j))) s))
      end
      (arexec f k p c')
  end.
Definition report_program (fuel : nat) (ts : list tok) : asking whole :=
  match funs with
  | (start, body) :: _ =>
      bind (aleave [] (arexec fuel [] 0 body (start_state start ts)) Next) (fun r => Ret
      match r with
      | Next s | Exit s => Ended (reports s)
      | Panic => Panicked
      | More => Unended
      end)
  | [] => Ret Unended
  end.
End Run.
