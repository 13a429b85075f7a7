(** The statements of a rule function against the states of the ATN, by a check that is computed: every SetState is where the
    walk is, every Match, call and precedence test is the transition there, and the conditions on the next token part the
    alternatives as their FIRST and FOLLOW sets do. *)
From Coq Require Import ZArith NArith.
From Verif Require Import Str Atn AtnParser AtnParserTable GoParser ParserCode PredictSpec.
Local Open Scope Z_scope.

(** *** FIRST and FOLLOW, as bit sets: bit t+1 for the token type t, bit 100 for: the rule can end first. *)
Definition bit (t : Z) : N := Z.to_N (t + 1).
Definition no_end (m : N) : N := N.clearbit m 100.
Definition may_end (m : N) : bool := N.testbit m 100.
Definition set_bits (l : list (Z * Z)) : N := fold_right (fun t m => if in_ranges l t then N.setbit m (bit t) else m) 0%N tokens.
Definition sub (a b : N) : bool := N.eqb (N.lor a b) b.
Section Tables.
Variable A : atn.
Variables (F W : list N).       (* by state; by rule *)
Definition first (q : Z) : N := nth (Z.to_nat q) F 0%N.
Definition follow (r : Z) : N := nth (Z.to_nat r) W 0%N.
Definition first_of (t : trans) : N :=
  match t with
  | TEps to | TAction _ _ to | TPrec _ to => first to
  | TSet _ l _ => set_bits l
  | TRule s _ to _ => N.lor (no_end (first s)) (if may_end (first s) then first to else 0%N)
  end.
Definition first_step (n : node) : N :=
  fold_right (fun t m => N.lor (first_of t) m) (if n_type n =? 7 then N.setbit 0 100 else 0%N) (n_trans n).
Definition follow_of (n : node) (r : Z) : N :=
  fold_right (fun t m => match t with
    | TRule _ r' to _ => if r' =? r then N.lor (N.lor (no_end (first to)) (if may_end (first to) then follow (n_rule n) else 0%N)) m else m
    | _ => m end) 0%N (n_trans n).
End Tables.
Fixpoint first_rounds (A : atn) (i : nat) (F : list N) : list N :=
  match i with O => F | S j => first_rounds A j (map (fun n => first_step F n) (a_nodes A)) end.
Definition firsts : list N := Eval vm_compute in first_rounds parser_atn 60 (map (fun _ => 0%N) (a_nodes parser_atn)).
Fixpoint follow_rounds (A : atn) (F : list N) (i : nat) (W : list N) : list N :=
  match i with O => W | S j => follow_rounds A F j (map (fun r => fold_right (fun n m => N.lor (follow_of F W n (Z.of_nat r)) m) 0%N (a_nodes A)) (seq 0 51)) end.
Definition follows : list N := Eval vm_compute in follow_rounds parser_atn firsts 12 (map (fun _ => 0%N) (seq 0 51)).

(** Both tables are closed. *)
Definition same_rule (A : atn) (n : node) (t : trans) : bool :=
  match t with TEps to | TAction _ _ to | TPrec _ to | TSet _ _ to | TRule _ _ to _ => n_rule (node_at A to) =? n_rule n end.
Definition node_closed (A : atn) (F W : list N) (i : nat) : bool :=
  let n := node_at A (Z.of_nat i) in
  sub (first_step F n) (first F (Z.of_nat i)) && forallb (same_rule A n) (n_trans n)
  && forallb (fun t => match t with TRule s r _ _ => sub (follow_of F W n r) (follow W r) && (n_rule (node_at A s) =? r) | _ => true end) (n_trans n)
  && (negb (n_type n =? 7) || match n_trans n with [] => true | _ => false end).
Lemma tables_closed : forallb (node_closed parser_atn firsts follows) (seq 0 (length (a_nodes parser_atn))) = true.
Proof. vm_compute. reflexivity. Qed.

(** *** The check *)
Section Check.
Variable A : atn.
Variables (F W : list N).
Definition tr (q : Z) : list trans := n_trans (node_at A q).
(** Past the states whose only way on is an epsilon or action transition (Action does nothing in the parser). *)
Fixpoint nrm_fuel (f : nat) (q : Z) : Z := match f, tr q with S f, [TEps to] | S f, [TAction _ _ to] => nrm_fuel f to | _, _ => q end.
Definition nrm : Z -> Z := nrm_fuel 20.
(** The tokens that can come next when the walk goes on from [q]. *)
Definition ahead (q : Z) : N := N.lor (first F q) (if may_end (first F q) then follow W (n_rule (node_at A q)) else 0%N).
Definition all_ahead (q : Z) (b : Z -> bool) : bool := forallb (fun t => negb (N.testbit (ahead q) (bit t)) || b t) tokens.
Definition option_eqb (a b : option Z) : bool := match a, b with Some x, Some y => x =? y | _, _ => false end.

(** The cases of a switch against the alternatives: each has the tokens its alternative can begin with and no other's. *)
Fixpoint sw (ck : list code -> Z -> option Z) (alts : list trans) (cases : list (list Z * list code)) : option Z :=
  match alts, cases with
  | TEps a :: alts', (ts, b) :: cases' =>
      if all_ahead a (fun t => zmem t ts)
         && forallb (fun t => match t with TEps a' => all_ahead a' (fun t => negb (zmem t ts)) | _ => false end) alts'
      then match ck b (nrm a) with
           | Some q1 => match alts', cases' with [], [] => Some q1 | _, _ => if option_eqb (sw ck alts' cases') (Some q1) then Some q1 else None end
           | None => None end
      else None
  | _, _ => None
  end.
Fixpoint ch (ck : list code -> Z -> option Z) (i : Z) (alts : list trans) (cases : list (Z * list code)) : option Z :=
  match alts, cases with
  | TEps a :: alts', (j, b) :: cases' =>
      if i =? j
      then match ck b (nrm a) with
           | Some q1 => match alts', cases' with [], [] => Some q1 | _, _ => if option_eqb (ch ck (i + 1) alts' cases') (Some q1) then Some q1 else None end
           | None => None end
      else None
  | _, _ => None
  end.
(** [chk f synced c q]: the statements [c] from state [q]; the state they lead to.  451 and 453, where the operators of
    fn_arg_expr are chosen, are no place for a switch. *)
Fixpoint chk (f : nat) (synced : option Z) (c : list code) (q : Z) : option Z :=
  match f, c with
  | O, _ => None
  | S _, [] => Some q
  | S f, x :: c' =>
    let next (b : bool) (q' : Z) := if b then chk f None c' q' else None in
    match x with
    | Match n t => match tr q with
        | [TSet false l to] => next ((nrm n =? q) && (0 <=? t) && forallb (fun u => Bool.eqb (in_ranges l u) (u =? t)) tokens) (nrm to)
        | _ => None end
    | MatchSet n c => match tr q with
        | [TSet false l to] => next ((nrm n =? q) && negb (holds c (-1)) && forallb (fun u => Bool.eqb (in_ranges l u) (holds c u)) tokens) (nrm to)
        | _ => None end
    | Call n r k => match tr q with
        | [TRule s r' to k'] => next ((n =? q) && (r =? r') && (k =? k') && (0 <? r) && (r <? 51) && (0 <=? k) && (k <=? 11)) (nrm to)
        | _ => None end
    | Sync n => if (nrm n =? q) && all_ahead q (sync_ok A n) then chk f (Some n) c' q else None
    | If c b => match tr q with
        | [TEps a; TEps e] => next (option_eqb (chk f None b (nrm a)) (Some (nrm e)) && all_ahead a (holds c) && all_ahead e (fun t => negb (holds c t))) (nrm e)
        | _ => None end
    | For c b => match tr q with
        | [TEps a; TEps e] => next (option_eqb (chk f None b (nrm a)) (Some q) && all_ahead a (holds c) && all_ahead e (fun t => negb (holds c t))) (nrm e)
        | _ => None end
    | Do c b => match chk f None b q with
        | Some h => match tr h with
          | [TEps a; TEps e] => next ((nrm a =? q) && all_ahead a (holds c) && all_ahead e (fun t => negb (holds c t))) (nrm e)
          | _ => None end
        | None => None end
    | Switch cases err =>
        match sw (chk f None) (tr q) cases with
        | Some q' => next (negb (zmem q [451; 453]) && (err || match synced with
              | Some n => forallb (fun t => negb (sync_ok A n t) || match case_of t cases with Some _ => true | None => false end) tokens
              | None => false end)) q'
        | None => None end
    | Choose d cases =>
        match ch (chk f None) 1 (tr q) cases with Some q' => next ((decision_state d =? q) && zmem d asked) q' | None => None end
    | Loop d e b r => match tr q with
        | [TEps a; TEps x] => next ((decision_state d =? q) && zmem d asked && (e =? 2) && match chk f None b (nrm a) with Some h => option_eqb (chk f None r h) (Some q) | None => false end) (nrm x)
        | _ => None end
    | Prec n k => match tr q with
        | [TPrec k' to] => next ((nrm n =? q) && (k =? k') && (n_rule (node_at A q) =? 50)) (nrm to)
        | _ => None end
    end
  end.

(** A rule function: it enters with its start state, and its statements end in its stop state. *)
Definition fun_ok (r : Z) (f : Z * list code) : bool :=
  (fst f =? start_of A r) && match chk 40 None (snd f) (nrm (start_of A r)) with
    | Some q => (n_type (node_at A q) =? 7) && (n_rule (node_at A q) =? r)
    | None => false end.
End Check.

(** Source_unit matches the end of file last. *)
Definition main_code : list code := Eval vm_compute in match rule_functions with (_, b) :: _ => removelast b | [] => [] end.
Definition code_checked : bool :=
  forallb (fun i => match nth_error rule_functions i with Some f => fun_ok parser_atn firsts follows (Z.of_nat i) f | None => false end) (seq 1 50)
  && Nat.eqb (length rule_functions) 51.
Lemma code_ok : code_checked = true. Proof. vm_compute. reflexivity. Qed.

(** *** No endless run: which functions always consume a token, and a rank that goes down along calls made before one is. *)
Section Ends.
Variable A : atn.
Variables (E : list bool) (rk : list nat).
Definition rank (r : Z) : nat := nth (Z.to_nat r) rk 0%nat.
Fixpoint eats (f : nat) (c : list code) : bool :=
  match f, c with
  | S f, x :: c' =>
      match x with
      | Match _ t => 0 <=? t
      | MatchSet _ c => negb (holds c (-1))
      | Call _ r _ => nth (Z.to_nat r) E false
      | Do _ b => eats f b
      | Switch cases err => err && forallb (fun x => eats f (snd x)) cases
      | Choose d cases => forallb (fun x => eats f (snd x)) cases
          && forallb (fun i => match alt_of (Z.of_nat i) cases with Some _ => true | None => false end)
               (seq 1 (length (n_trans (node_at A (decision_state d)))))
      | _ => false
      end || eats f c'
  | _, _ => false
  end.
Fixpoint ends_ok (f R : nat) (eaten : bool) (c : list code) : bool :=
  match f, c with
  | O, _ => false
  | S _, [] => true
  | S f, x :: c' =>
      match x with
      | Call _ r _ => (eaten || Nat.ltb (rank r) R) && (0 <? r) && (r <? 51)
      | If _ b => ends_ok f R eaten b
      | For _ b | Do _ b => ends_ok f R eaten b && eats f b
      | Switch cases _ => forallb (fun x => ends_ok f R eaten (snd x)) cases
      | Choose _ cases => forallb (fun x => ends_ok f R eaten (snd x)) cases
      | Loop d e b r => ends_ok f R eaten b && ends_ok f R true r && eats f b && (e =? 2) && Nat.eqb (length (n_trans (node_at A (decision_state d)))) 2
      | _ => true
      end && ends_ok f R (eaten || eats f [x]) c'
  end.
(** The callees of [c] before a token is consumed. *)
Fixpoint early (f : nat) (eaten : bool) (c : list code) : list Z :=
  match f, c with
  | S f, x :: c' =>
      match x with
      | Call _ r _ => if eaten then [] else [r]
      | If _ b | For _ b | Do _ b | Loop _ _ b _ => early f eaten b
      | Switch cases _ => flat_map (fun x => early f eaten (snd x)) cases
      | Choose _ cases => flat_map (fun x => early f eaten (snd x)) cases
      | _ => []
      end ++ early f (eaten || eats f [x]) c'
  | _, _ => []
  end.
Definition fun_ends (depth : nat) (r : Z) (body : list code) : bool := ends_ok depth (rank r) false body && (negb (nth (Z.to_nat r) E false) || eats depth body).
End Ends.
Fixpoint eats_rounds (i : nat) (E : list bool) : list bool :=
  match i with O => E | S j => eats_rounds j (map (fun f => eats parser_atn E 40 (snd f)) rule_functions) end.
Definition eaters : list bool := Eval vm_compute in false :: tl (eats_rounds 12 (map (fun _ => true) rule_functions)).     (* rule 0 is never called *)
Fixpoint rank_rounds (i : nat) (rk : list nat) : list nat :=
  match i with O => rk | S j => rank_rounds j (map (fun f => fold_right (fun r m => Nat.max (S (rank rk r)) m) 0%nat (early parser_atn eaters 40 false (snd f))) rule_functions) end.
Definition ranks : list nat := Eval vm_compute in rank_rounds 20 (map (fun _ => 0%nat) rule_functions).
Lemma functions_end : forallb (fun i => match nth_error rule_functions i with Some f => fun_ends parser_atn eaters ranks 40 (Z.of_nat i) (snd f) | None => false end) (seq 1 50) = true.
Proof. vm_compute. reflexivity. Qed.
Lemma main_ends : ends_ok parser_atn eaters ranks 40 (rank ranks 0) false (main_code ++ [Match 118 (-1)]) = true. Proof. vm_compute. reflexivity. Qed.
Lemma main_code_is : nth_error rule_functions 0 = Some (0, main_code ++ [Match 118 (-1)]). Proof. reflexivity. Qed.
Lemma main_checked : chk parser_atn firsts follows 40 None main_code (nrm parser_atn (start_of parser_atn 0)) = Some 118. Proof. vm_compute. reflexivity. Qed.
Lemma main_last : n_trans (node_at parser_atn 118) = [TSet false [(-1, -1)] 119] /\ nrm parser_atn 119 = 1 /\ n_type (node_at parser_atn 1) = 7 /\ n_rule (node_at parser_atn 1) = 0.
Proof. vm_compute. auto. Qed.
