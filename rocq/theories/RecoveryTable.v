(** Why runs with error recovery end: a check, computed for every statement of the rule functions and every next token. *)
From Coq Require Import ZArith.
From Verif Require Import Str AtnData Atn AtnParser AtnParserTable GoParser ParserCode PredictSpec GoParserTable Predict PredictTable Recovery.
Local Open Scope Z_scope.

(** *** The answers AdaptivePredict can give with next token [t]; None: no viable alternative *)
Definition answer_of (a : answer + list config) : option Z := match a with inl (Alt i) => Some i | _ => None end.
Definition o_eqb (a b : option Z) : bool := match a, b with Some x, Some y => x =? y | None, None => true | _, _ => false end.
Fixpoint nub (l : list (option Z)) : list (option Z) := match l with [] => [] | x :: r => if existsb (o_eqb x) r then nub r else x :: nub r end.
Definition answers_with (d p : Z) (cs : list config) (t : Z) : list (option Z) :=
  match astep d p cs t with
  | inl a => [answer_of (inl a)]
  | inr cs' => map (fun t2 => answer_of (astep d p cs' t2)) tokens
  end.
Definition answers_at (d t : Z) (tab : list (Z * option (list config))) : list (option Z) :=
  nub (flat_map (fun e => match snd e with Some cs => answers_with d (fst e) cs t | None => [None] end) tab).
Definition answer_row (d : Z) : list (Z * list (option Z)) :=
  let tab := map (fun p => (p, starts d p)) precs in map (fun t => (t, answers_at d t tab)) tokens.
Definition answer_table : list (Z * list (Z * list (option Z))) := Eval vm_compute in map (fun d => (d, answer_row d)) asked.
Lemma answer_table_is : answer_table = map (fun d => (d, answer_row d)) asked. Proof. vm_compute. reflexivity. Qed.
Fixpoint assoc {T} (x : Z) (l : list (Z * T)) : option T := match l with [] => None | (y, v) :: r => if x =? y then Some v else assoc x r end.
Definition answers (d t : Z) : option (list (option Z)) := match assoc d answer_table with Some row => assoc t row | None => None end.

(** *** [pass f c t]: the statements [c] with next token [t].  Some true: they may come to their end with nothing gained (no
    token consumed, no state added to lastErrorStates); Some false: they never do; None: not known. *)
Definition join (a b : option bool) : option bool := match a, b with Some x, Some y => Some (x || y) | _, _ => None end.
Section Pass.
Variable funs : list (Z * list code).
Fixpoint pass (f : nat) (c : list code) (t : Z) : option bool :=
  match f, c with
  | O, _ => None
  | S _, [] => Some true
  | S f, x :: c' =>
    match
      match x with
      | Match _ u => Some (negb ((t =? u) && negb (t =? -1)))
      | MatchSet _ c => Some (negb (holds c t && negb (t =? -1)))
      | Call _ r _ =>
          match nth_error funs (Z.to_nat r) with
          | Some (_, body) => match pass f body t with Some b => Some (if t =? -1 then true else b) | None => None end
          | None => None
          end
      | Sync _ | Prec _ _ => Some true
      | If c b => if holds c t then pass f b t else Some true
      | For c b => if holds c t then match pass f b t with Some false => Some false | _ => None end else Some true
      | Do c b => match pass f b t with Some false => Some false | Some true => if holds c t then None else Some true | None => None end
      | Switch cases e => match case_of t cases with Some b => pass f b t | None => Some (negb e) end
      | Choose d cases =>
          match answers d t with
          | None => None
          | Some l => fold_right (fun a m => join match a with Some i => match alt_of i cases with Some b => pass f b t | None => Some true end | None => Some false end m) (Some false) l
          end
      | Loop d e b r =>
          match answers d t with
          | None => None
          | Some l => fold_right (fun a m => join match a with
              | Some i => if i =? e then Some true else
                  match (if i =? 1 then pass f b t else Some true) with
                  | Some false => Some false
                  | Some true => match pass f r t with Some false => Some false | _ => None end
                  | None => None
                  end
              | None => Some false end m) (Some false) l
          end
      end
    with
    | Some true => pass f c' t
    | r => r
    end
  end.
Definition deep : nat := 60.
Definition passes (c : list code) : bool := forallb (fun t => match pass deep c t with Some _ => true | None => false end) tokens.

(** Every statement with what follows it, and every block in it; state numbers and arguments in range. *)
Definition in_states (n : Z) : bool := (0 <=? n) && (n <? 500).
Fixpoint good (f : nat) (c : list code) : bool :=
  match f with
  | O => false
  | S f =>
    passes c &&
    match c with
    | [] => true
    | x :: c' =>
      match x with
      | Match n _ | MatchSet n _ | Sync n | Prec n _ => in_states n
      | Call n r j => in_states n && (0 <=? j) && (j <=? 11) && match nth_error funs (Z.to_nat r) with Some _ => true | None => false end
      | If _ b => good f b
      | For c b => good f b && passes [For c b]
      | Do c b => good f b && passes [Do c b]
      | Switch cases _ => forallb (fun x => good f (snd x)) cases
      | Choose d cases => zmem d asked && forallb (fun x => good f (snd x)) cases
      | Loop d e b r => zmem d asked && good f b && good f r && passes [Loop d e b r]
      end && good f c'
    end
  end.
End Pass.
Lemma all_good : forallb (fun e => in_states (fst e) && good rule_functions 60 (snd e)) rule_functions = true.
Proof. vm_compute. reflexivity. Qed.
