(** Why the parser's work is linear: a check, computed for every statement of the rule functions and every next token. *)
From Coq Require Import ZArith.
From Verif Require Import Str Tokens Grammar AtnData Atn AtnParser AtnParserTable GoParser ParserCode PredictSpec GoParserTable Predict PredictTable Recovery RecoveryTable.
Local Open Scope nat_scope.

Definition maxl (l : list nat) : nat := fold_right Nat.max 0 l.
Section Quiet.
Variable funs : list (Z * list code).
(** [quiet f c t]: how many statements at most are executed from [c] with next token [t] before something is gained
    (RecoveryTable.pass). *)
Fixpoint quiet (f : nat) (c : list code) (t : Z) : nat :=
  match f, c with
  | O, _ => 0
  | S _, [] => 0
  | S f, x :: c' =>
    S (match x with
      | Call _ r _ => match nth_error funs (Z.to_nat r) with Some (_, body) => quiet f body t | None => 0 end
      | If c b => if holds c t then quiet f b t else 0
      | For c b => if holds c t then quiet f b t else 0
      | Do c b => quiet f b t
      | Switch cases e => match case_of t cases with Some b => quiet f b t | None => 0 end
      | Choose d cases => match answers d t with Some l => maxl (map (fun a => match a with Some i => match alt_of i cases with Some b => quiet f b t | None => 0 end | None => 0 end) l) | None => 0 end
      | Loop d e b r => match answers d t with Some l => maxl (map (fun a => match a with Some i => if Z.eqb i e then 0 else (if Z.eqb i 1 then quiet f b t else 0) + quiet f r t | None => 0 end) l) | None => 0 end
      | _ => 0
      end + match pass funs (S f) [x] t with Some false => 0 | _ => quiet f c' t end)
  end.
Definition shallow : nat := 20.
Definition most : nat := 26.
Definition quick (c : list code) : bool := forallb (fun t => match pass funs shallow c t with Some _ => true | None => false end && (quiet shallow c t <=? most)) tokens.
(** Every statement with what follows it, and every block in it. *)
Fixpoint light (f : nat) (c : list code) : bool :=
  match f with
  | O => false
  | S f =>
    quick c &&
    match c with
    | [] => true
    | x :: c' =>
      match x with
      | If _ b => light f b
      | For c b => light f b && quick [For c b]
      | Do c b => light f b && quick [Do c b]
      | Switch cases _ => forallb (fun x => light f (snd x)) cases
      | Choose d cases => forallb (fun x => light f (snd x)) cases
      | Loop d e b r => light f b && light f r && quick [Loop d e b r]
      | _ => true
      end && good funs 60 [x] && light f c'
    end
  end.
End Quiet.
Lemma all_light : forallb (fun e => light rule_functions 60 (snd e)) rule_functions = true.
Proof. vm_compute. reflexivity. Qed.
