(** How deeply the rule functions of kfgrammar/kuneiform_parser.go call each other: Recovery.v's [rexec] with the greatest number of
    calls under way at the same time (each is a frame on the goroutine's stack). *)
From Coq Require Import ZArith.
From Verif Require Import Str Tokens Grammar Tree AtnData Atn AtnParser AtnParserTable GoParser ParserCode Predict Recovery.
Local Open Scope Z_scope.

Section Run.
Variable A : atn.
Variable funs : list (Z * list code).
Variable P : predictor.
Variable P_at : forall (d p : Z) (input : list Z), nat.
Variable S : strategy.

Definition measured := (outcome * nat)%type.
Definition dseq (r : measured) (k : rst -> measured) : measured := match fst r with Next s => let q := k s in (fst q, Nat.max (snd r) (snd q)) | _ => r end.
(** The context chain [k] holds the calls under way, source_unit's own one not counted. *)
Fixpoint dexec (fuel : nat) (k : stack) (p : Z) (c : list code) (s : rst) : measured :=
  let at_ r := (r, length k) in
  match fuel, c with
  | O, _ => at_ More
  | Datatypes.S _, [] => at_ (Next s)
  | Datatypes.S f, x :: c' =>
    dseq
      match x with
      | Match n t =>
          let s := set_state n s in
          at_ (seq_out (if la1 s =? t then Next (advance (report_match s)) else recover_inline S k s) check)
      | MatchSet n c =>
          let s := set_state n s in
          at_ (if holds c (la1 s) then Next (advance (report_match s)) else recover_inline S k s)
      | Call n r j =>
          match nth_error funs (Z.to_nat r) with
          | Some (start, body) =>
              let b := dexec f ((n, p) :: k) j body (set_state start (set_state n s)) in
              (leave S ((n, p) :: k) (fst b) (fun s' => Next (if r =? 50 then s' else set_state n s')), snd b)
          | None => at_ Panic
          end
      | Sync n => at_ (seq_out (sync A S k (set_state n s)) check)
      | If c b => if holds c (la1 s) then dexec f k p b s else at_ (Next s)
      | For c b => if holds c (la1 s) then dseq (dexec f k p b s) (dexec f k p [For c b]) else at_ (Next s)
      | Do c b => dseq (dexec f k p b s) (fun s' => if holds c (la1 s') then dexec f k p [Do c b] s' else at_ (Next s'))
      | Switch cases e =>
          match case_of (la1 s) cases with
          | Some b => dexec f k p b s
          | None => at_ (if e then Exit (set_err (Some (Report NoViableAlt (here s) (Since (here s)))) s) else Next s)
          end
      | Choose d cases =>
          match P d k p (rinput s) with
          | Some a => let s := set_err None s in match alt_of a cases with Some b => dexec f k p b s | None => at_ (Next s) end
          | None => at_ (Exit (no_viable P_at d p s))
          end
      | Loop d e b r =>
          match P d k p (rinput s) with
          | Some a => let s := set_err None s in
              if a =? e then at_ (Next s)
              else dseq (if a =? 1 then dexec f k p b s else at_ (Next s)) (fun s' => dseq (dexec f k p r s') (dexec f k p [Loop d e b r]))
          | None => at_ (Exit (no_viable P_at d p s))
          end
      | Prec n j =>
          let s := set_state n s in
          at_ (if j >=? p then Next s else Exit (set_err (Some (Report FailedPredicate (here s) (Level j))) s))
      end
      (dexec f k p c')
  end.
(** p.Source_unit(): the reports, as in [recovering_run], and how many calls of rule functions were under way at most (its own one counted) *)
Definition measuring_run (fuel : nat) (ts : list tok) : option (list report * nat) :=
  match funs with
  | (start, body) :: _ =>
      let r := dexec fuel [] 0 body (start_state start ts) in
      match leave S [] (fst r) Next with Next s | Exit s => Some (reports s, Datatypes.S (snd r)) | _ => None end
  | [] => None
  end.
End Run.
