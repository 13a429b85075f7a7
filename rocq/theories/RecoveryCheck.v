(** More computed checks on the rule functions, for runs with error recovery. *)
From Coq Require Import ZArith.
From Verif Require Import Str AtnData Atn AtnParser AtnParserTable GoParser ParserCode PredictSpec GoParserTable Predict PredictTable Recovery.
Local Open Scope Z_scope.
Section Check.
Variable simple : code -> bool.
Variable synced_too : bool.
Definition is_sync (x : code) : bool := match x with Sync _ => true | _ => false end.
(** [simple] holds of the statements without blocks; with [synced_too], AdaptivePredict is only asked right after a Sync. *)
Fixpoint every (f : nat) (synced : bool) (c : list code) : bool :=
  match f, c with
  | O, _ => false
  | S _, [] => true
  | S f, x :: c' =>
      match x with
      | If _ b | For _ b | Do _ b => every f false b
      | Switch cases _ => forallb (fun x => every f false (snd x)) cases
      | Choose _ cases => (negb synced_too || synced) && forallb (fun x => every f false (snd x)) cases
      | Loop _ _ b r => (negb synced_too || synced) && every f false b && every f false r
          && (negb synced_too || match r with [Sync _] => true | _ => false end)
      | x => simple x
      end && every f (is_sync x) c'
  end.
End Check.
(** AdaptivePredict comes after Sync; calls are made in call states of the right rule, tokens are matched in states that have
    a transition, no rule function but Source_unit matches the end of file or asks for it. *)
Definition call_ok (A : atn) (x : code) : bool :=
  match x with
  | Call n r _ => match n_trans (node_at A n) with TRule _ r' _ _ :: _ => r =? r' | _ => false end && (0 <? r) && (r <? 51)
  | Match n _ | MatchSet n _ => match n_trans (node_at A n) with [] => false | _ => true end
  | _ => true
  end.
Definition no_end_ok (A : atn) (x : code) : bool :=
  match x with
  | Match n t => negb (t =? -1) && negb (zmem (-1) (next_tokens A n)) && negb (zmem (-2) (next_tokens A n))
  | MatchSet n c => negb (holds c (-1)) && negb (zmem (-1) (next_tokens A n)) && negb (zmem (-2) (next_tokens A n))
  | Call n r _ => 0 <? r
  | _ => true
  end.
Lemma synced_ok : forallb (fun e => every (call_ok parser_atn) true 40 false (snd e)) rule_functions = true.
Proof. vm_compute. reflexivity. Qed.
Lemma ends_not_asked : forallb (fun e => every (no_end_ok parser_atn) false 40 false (snd e)) ((0, main_code) :: tl rule_functions) = true.
Proof. vm_compute. reflexivity. Qed.
