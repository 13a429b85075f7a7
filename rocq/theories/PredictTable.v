(** What AdaptivePredict computes at the decisions the rule functions ask about, against the ATN: computed checks.
    The input ends with the end of file, so every decision sees a token, and a second one unless the first is the end of file. *)
From Coq Require Import ZArith NArith.
From Verif Require Import Str Atn AtnParser AtnParserTable GoParser PredictSpec GoParserTable Predict.
Local Open Scope Z_scope.
Local Notation A := parser_atn.
Local Notation tr := (tr A).
Local Notation nrm := (nrm A).
Local Notation ahead := (ahead A firsts follows).

(** *** The states reached before the next token *)
Definition eps_next (q : Z) : list Z :=
  flat_map (fun t => match t with TEps to | TAction _ _ to | TPrec _ to => [to] | TRule s _ _ _ => [s] | TSet _ _ _ => [] end) (tr q)
  ++ (if is_stop A q then map fst (returns A [] (n_rule (node_at A q))) else []).
Fixpoint grow (f : nat) (todo seen : list Z) : list Z :=
  match f, todo with
  | S f, q :: r => if zmem q seen then grow f r seen else grow f (eps_next q ++ r) (q :: seen)
  | _, _ => seen
  end.
Definition closed_set (R : list Z) : bool := forallb (fun q => forallb (fun to => zmem to R) (eps_next q)) R.
Definition calls_alone : bool :=
  forallb (fun n => match n_trans n with [] | [_] => true | l => forallb (fun t => match t with TRule _ _ _ _ => false | _ => true end) l end) (a_nodes A).
Lemma calls_alone_ok : calls_alone = true. Proof. vm_compute. reflexivity. Qed.

(** *** Two tokens *)
Definition precs : list Z := map Z.of_nat (seq 0 12).
Definition starts (d p : Z) : option (list config) := start_set A prec_states (decision_rule (decision_state d)) p (decision_state d).
Definition astep (d p : Z) : list config -> Z -> answer + list config := step A prec_states (decision_rule (decision_state d)) p.
(** The tokens that can come after [t] from the states [R]. *)
Definition second (R : list Z) (t : Z) : N :=
  fold_right (fun q m => fold_right (fun e m => match e with TSet false l to => if in_ranges l t then N.lor (ahead to) m else m | _ => m end) m (tr q)) 0%N R.
Definition answer_is (i : Z) (a : answer) : bool := match a with Alt j => i =? j | _ => false end.
Fixpoint alts_ok (f : Z -> Z -> bool) (i : Z) (l : list trans) : bool :=
  match l with [] => true | TEps to :: r => f i to && alts_ok f (i + 1) r | _ => false end.
Definition two_ok (d : Z) : bool :=
  forallb (fun p => match starts d p with None => false | Some cs =>
    alts_ok (fun i a => let R := grow 1000 [a] [] in
      closed_set R && zmem a R &&
      forallb (fun t => let m := second R t in
        if N.eqb m 0 then true else negb (t =? -1) &&
        match astep d p cs t with
        | inl x => answer_is i x
        | inr cs' => forallb (fun t2 => negb (N.testbit m (bit t2)) || match astep d p cs' t2 with inl x => answer_is i x | inr _ => false end) tokens
        end) tokens
      && negb (N.testbit (ahead a) (bit (-1)))) 1 (alternatives A d) end) precs.
Lemma two_ok_7 : two_ok 7 = true. Proof. vm_compute. reflexivity. Qed.
Lemma two_ok_10 : two_ok 10 = true. Proof. vm_compute. reflexivity. Qed.
Lemma two_ok_24 : two_ok 24 = true. Proof. vm_compute. reflexivity. Qed.

(** *** The operators *)
(** An alternative of state 451: precpred L, the operator, fn_arg_expr with L+1, back to the loop. *)
Definition op_alt (t : trans) : option (Z * list (Z * Z)) :=
  match t with
  | TEps a => match tr a with
    | [TPrec L b] => match tr b with
      | [TSet false l c] => match tr c with
        | [TRule s r e j] => if (s =? 100) && (r =? 50) && (j =? L + 1) && (nrm e =? 453) then Some (L, l) else None
        | _ => None end
      | _ => None end
    | _ => None end
  | _ => None
  end.
Fixpoint op_level_in (l : list trans) (t : Z) : option Z :=
  match l with [] => None | e :: r => match op_alt e with Some (L, ts) => if in_ranges ts t then Some L else op_level_in r t | None => None end end.
Definition op_level (t : Z) : option Z := op_level_in (tr 451) t.
Definition ops_ok : bool :=
  forallb (fun e => match op_alt e with Some (L, l) => forallb (fun t => negb (in_ranges l t) || option_eqb (op_level t) (Some L)) tokens | None => false end) (tr 451).
Lemma ops_ok_ok : ops_ok = true. Proof. vm_compute. reflexivity. Qed.
(** Where fn_arg_expr is called from: an operand, or something that no operator follows. *)
Definition callers_ok : bool :=
  forallb (fun n => forallb (fun e => match e with
    | TRule _ r to _ => negb (r =? 50) || (nrm to =? 453) || forallb (fun t => match op_level t with Some _ => negb (N.testbit (ahead to) (bit t)) | None => true end) tokens
    | _ => true end) (n_trans n)) (a_nodes A).
Lemma callers_ok_ok : callers_ok = true. Proof. vm_compute. reflexivity. Qed.
Definition loop_ok : bool :=
  forallb (fun p => match starts 31 p with None => false | Some cs =>
    forallb (fun t => match op_level t with
      | Some L => if L >=? p then match astep 31 p cs t with inl x => answer_is 1 x | inr _ => false end
                  else negb (N.testbit (ahead 454) (bit t)) || match astep 31 p cs t with inl x => answer_is 2 x | inr _ => false end
      | None => negb (N.testbit (ahead 454) (bit t)) || match astep 31 p cs t with inl x => answer_is 2 x | inr _ => false end
      end) tokens end) precs.
Lemma loop_ok_ok : loop_ok = true. Proof. vm_compute. reflexivity. Qed.
Definition operator_ok : bool :=
  forallb (fun p => match starts 30 p with None => false | Some cs =>
    alts_ok (fun i a => match op_alt (TEps a) with
      | Some (L, l) => negb (L >=? p) || forallb (fun t => negb (in_ranges l t) || match astep 30 p cs t with inl x => answer_is i x | inr _ => false end) tokens
      | None => false end) 1 (tr 451) end) precs.
Lemma operator_ok_ok : operator_ok = true. Proof. vm_compute. reflexivity. Qed.

(** *** Always answered by the part that is modelled, within two tokens *)
Definition decided (d : Z) : bool :=
  forallb (fun p => match starts d p with None => false | Some cs =>
    forallb (fun t => match astep d p cs t with
      | inl Unmodelled => false
      | inl _ => true
      | inr cs' => negb (t =? -1) && forallb (fun t2 => match astep d p cs' t2 with inl Unmodelled | inr _ => false | inl _ => true end) tokens
      end) tokens end) precs.
Lemma all_decided : forallb decided asked = true. Proof. vm_compute. reflexivity. Qed.

(** The loop of fn_arg_expr at an operator: on or out, by its level. *)
Definition level_ok : bool :=
  forallb (fun p => match starts 31 p with None => false | Some cs =>
    forallb (fun t => match op_level t with
      | Some L => match astep 31 p cs t with inl x => answer_is (if p <=? L then 1 else 2) x | inr _ => false end
      | None => true end) tokens end) precs.
Lemma level_ok_ok : level_ok = true. Proof. vm_compute. reflexivity. Qed.
