(** Computed checks for the place of the first error: from (nearly) every state of the ATN the rule can be finished. *)
From Coq Require Import ZArith NArith.
From Verif Require Import Str Atn AtnParser AtnParserTable GoParser ParserCode PredictSpec GoParserTable Predict PredictTable Recovery.
Local Open Scope Z_scope.
Local Notation A := parser_atn.
Local Notation tr := (tr A).
Local Notation nrm := (nrm A).
Definition words : list Z := map Z.of_nat (seq 1 84).

(** *** Heights: of the words that finish the rule without a precedence test (for rule 0: that lead to state 118, before the
    end of file); 0: none. *)
Section Heights.
Variable H : list nat.
Definition height (q : Z) : nat := nth (Z.to_nat q) H 0%nat.
Definition ends_here (q : Z) : bool := (q =? 118) || ((n_type (node_at A q) =? 7) && negb (n_rule (node_at A q) =? 0)).
(** The transition can be taken, towards states below [m]. *)
Definition below (m : nat) (t : trans) : bool :=
  let low q := Nat.ltb 0 (height q) && Nat.ltb (height q) m in
  match t with
  | TEps to | TAction _ _ to => low to
  | TSet neg l to => negb neg && existsb (in_ranges l) words && low to
  | TRule s _ to _ => low s && low to
  | TPrec _ _ => false
  end.
Definition climb (i : nat) : nat :=
  let q := Z.of_nat i in
  if Nat.ltb 0 (height q) then height q else if ends_here q then 1%nat
  else if existsb (below 1000) (tr q) then S (fold_right (fun t m => if below 1000 t then Nat.max m (match t with TEps to | TAction _ _ to | TSet _ _ to => height to | TRule s _ to _ => Nat.max (height s) (height to) | TPrec _ _ => O end) else m) O (tr q)) else O.
Definition height_ok (i : nat) : bool :=
  let q := Z.of_nat i in Nat.eqb (height q) 0 || ends_here q || existsb (below (height q)) (tr q).
End Heights.
Fixpoint height_rounds (i : nat) (H : list nat) : list nat := match i with O => H | S j => height_rounds j (map (climb H) (seq 0 (length (a_nodes A)))) end.
Definition heights : list nat := Eval vm_compute in height_rounds 60 (map (fun _ => 0%nat) (a_nodes A)).
Lemma heights_ok : forallb (height_ok heights) (seq 0 (length (a_nodes A))) = true. Proof. vm_compute. reflexivity. Qed.
Definition alive (q : Z) : bool := Nat.ltb 0 (height heights q).
(** Every step leads to such a state, but for the operators of fn_arg_expr (451, 453) and the end of file. *)
Definition step_alive (q : Z) (t : trans) : bool :=
  match t with
  | TEps to => alive (nrm to) && alive to || (q =? 451) || ((q =? 453) && (to =? 451)) || (q =? 119)
  | TAction _ _ to | TPrec _ to => alive (nrm to) && alive to
  | TSet _ l to => alive (nrm to) && alive to || negb (existsb (in_ranges l) words)
  | TRule s r to _ => alive s && alive (nrm s) && alive to && alive (nrm to) && negb (r =? 0) && (n_rule (node_at A s) =? r)
  end.
Lemma steps_alive : forallb (fun i => forallb (step_alive (Z.of_nat i)) (tr (Z.of_nat i))) (seq 0 (length (a_nodes A))) = true. Proof. vm_compute. reflexivity. Qed.

(** *** [takes f q t]: from [q], also out of its rule into wherever that is called, [t] can come next. *)
Fixpoint takes (f : nat) (q t : Z) : bool :=
  match f with
  | O => false
  | S f =>
      if n_type (node_at A q) =? 7 then negb (n_rule (node_at A q) =? 0) && forallb (fun e => takes f (fst e) t) (returns A [] (n_rule (node_at A q)))
      else existsb (fun e => match e with
        | TEps to | TAction _ _ to => takes f to t
        | TSet neg l to => negb neg && in_ranges l t && alive to
        | TRule s _ _ _ => takes f s t
        | TPrec _ _ => false end) (tr q)
  end.
(** Decisions that need a second token: every alternative takes the first.  If none is viable, the second one is the reason. *)
Definition first_taken (d : Z) : bool :=
  forallb (fun p => match starts d p with None => false | Some cs =>
    forallb (fun t => match astep d p cs t with
      | inl _ => true
      | inr cs' => takes 30 (decision_state d) t && forallb (fun e => match e with TEps to => takes 30 to t | _ => false end) (alternatives A d)
          && forallb (fun t2 => match astep d p cs' t2 with
               | inl (Alt _) => true
               | inl NoViable => match reach A prec_states (decision_rule (decision_state d)) cs' t2 with Some [] => true | _ => false end
               | _ => false end) tokens
      end) tokens end) precs.
Lemma all_taken : forallb first_taken asked = true. Proof. vm_compute. reflexivity. Qed.
(** The operators: an alternative is answered only if its level is high enough. *)
Definition level_high : bool :=
  forallb (fun p =>
    match starts 31 p with None => false | Some cs =>
      forallb (fun t => match astep 31 p cs t with inl (Alt 1) => match op_level t with Some L => L >=? p | None => false end | inl _ => true | inr _ => false end) tokens end
    && match starts 30 p with None => false | Some cs =>
      forallb (fun t => match astep 30 p cs t with
        | inl (Alt i) => match nth_error (tr 451) (Z.to_nat (i - 1)) with Some e => match op_alt e with Some (L, _) => L >=? p | None => false end | None => false end
        | inl _ => true | inr _ => false end) tokens end) precs.
Lemma level_high_ok : level_high = true. Proof. vm_compute. reflexivity. Qed.
(** Some token can follow on both ways out of 453. *)
Definition both : bool := existsb (fun t => N.testbit (ahead A firsts follows 451) (bit t) && N.testbit (ahead A firsts follows 454) (bit t)) tokens.
Lemma both_ok : both = true. Proof. vm_compute. reflexivity. Qed.
Lemma operators_many : length (tr 451) = 8%nat. Proof. vm_compute. reflexivity. Qed.
Lemma alive_100 : alive 100 = true /\ alive 453 = true /\ alive 454 = true /\ n_rule (node_at A 453) = 50 /\ n_rule (node_at A 451) = 50 /\ n_rule (node_at A 100) = 50. Proof. vm_compute. repeat split. Qed.
(** The alternatives of the other decisions. *)
Definition alts_alive (d : Z) : bool := forallb (fun e => match e with TEps to => alive (nrm to) && alive to | _ => false end) (alternatives A d).
Lemma alts_alive_ok : forallb alts_alive [7; 10; 24] = true. Proof. vm_compute. reflexivity. Qed.

(** *** The tokens named in a message: from the state, each can come next. *)
Fixpoint some (f : trans -> bool) (l : list trans) : bool := match l with [] => false | x :: l => if f x then true else some f l end.
Fixpoint takes_end (f : nat) (q : Z) : bool :=
  match f with O => false | S f => if q =? 118 then true else some (fun e => match e with TEps to | TAction _ _ to => takes_end f to | _ => false end) (tr q) end.
Fixpoint takes_in (f : nat) (q t : Z) : bool :=
  match f with
  | O => false
  | S f => some (fun e => match e with
      | TEps to | TAction _ _ to => takes_in f to t
      | TSet neg l to => negb neg && in_ranges l t && alive to
      | TRule s _ _ _ => takes_in f s t
      | TPrec _ _ => false end) (tr q)
  end.
Definition named (q t : Z) : bool := if t =? -1 then takes_end 30 q else (1 <=? t) && (t <=? 84) && takes_in 30 q t.
Definition names_well (q : Z) : bool := let l := next_tokens A q in zmem (-2) l || forallb (named q) l && match l with [] => false | _ => true end.
Definition one_set (q : Z) : bool := match tr q with [TSet false _ _] => negb (zmem (-2) (next_tokens A q)) | _ => false end.
(** So it is wherever an error can be: not in 451, but there a Sync comes only after the prediction has seen an operator. *)
Fixpoint naming (f : nat) (b : bool) (c : list code) : bool :=
  match f, c with
  | O, _ => false
  | S _, [] => true
  | S f, x :: c' =>
      match x with
      | Match n _ | MatchSet n _ => names_well n && one_set n
      | Sync n => names_well n || b && (n =? 451)
      | If _ b | For _ b | Do _ b => naming f false b
      | Switch cases _ => forallb (fun x => naming f false (snd x)) cases
      | Choose _ cases => forallb (fun x => naming f false (snd x)) cases
      | Loop d _ b r => naming f (d =? 31) b && naming f false r
      | _ => true
      end && naming f false c'
  end.
Lemma all_naming : forallb (fun e => naming 40 false (snd e)) rule_functions = true. Proof. vm_compute. reflexivity. Qed.
Lemma operators_awaited : forallb (fun t => match op_level t with Some _ => sync_ok A 451 t | None => true end) tokens = true. Proof. vm_compute. reflexivity. Qed.
