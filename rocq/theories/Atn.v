(** The serialized ATNs and their deserialization: antlr4-go v4.13.0 atn_deserializer.go, called by
    kfgrammar/kuneiform_lexer.go 363-364 and kuneiform_parser.go 275-276.  The ANTLR runtime is not in /repo; the format is the
    documented one (version 4).  Left out: fields used by neither the lexer simulator nor a rule's language (block ends, loop
    backs, decisions). *)
From Coq Require Import ZArith List Bool.
From Verif Require Import AtnData.
Import ListNotations.
Local Open Scope Z_scope.

(** Transitions.  A rule transition has its target rule's start state, the state to go on in, and the precedence. *)
Inductive trans :=
| TEps (to : Z)
| TSet (neg : bool) (l : list (Z * Z)) (to : Z)     (* ATOM, RANGE, SET: neg = false; NOT_SET, WILDCARD: neg = true *)
| TRule (start rule : Z) (to : Z) (prec : Z)
| TAction (rule act : Z) (to : Z)
| TPrec (prec : Z) (to : Z).
Record node := Node { n_type : Z; n_rule : Z; n_nongreedy : bool; n_trans : list trans }.
Record atn := Atn { a_lexer : bool; a_nodes : list node; a_rules : list (Z * Z); a_modes : list Z; a_actions : list (Z * Z * Z) }.

(** Reading. *)
Definition reader (A : Type) := list Z -> option (A * list Z).
Definition item : reader Z := fun l => match l with [] => None | x :: r => Some (x, r) end.
Definition ret {A} (a : A) : reader A := fun l => Some (a, l).
Definition bind {A B} (p : reader A) (f : A -> reader B) : reader B := fun l => match p l with Some (a, r) => f a r | None => None end.
Definition fail {A} : reader A := fun _ => None.
Notation "'READ' x <- p ; q" := (bind p (fun x => q)) (at level 200, x pattern, p at level 100, q at level 200).
Fixpoint times {A} (n : nat) (p : reader A) : reader (list A) :=
  match n with O => ret [] | S n' => READ a <- p; READ l <- times n' p; ret (a :: l) end.
Definition counted {A} (p : reader A) : reader (list A) := READ n <- item; times (Z.to_nat n) p.

(** readStates: LOOP_END and the block starts have one more number *)
Definition read_state : reader (Z * Z) :=
  READ t <- item;
  if t =? 0 then ret (0, -1)
  else READ r <- item;
       if (t =? 12) || (t =? 3) || (t =? 4) || (t =? 5) then READ _ <- item; ret (t, r) else ret (t, r).
Definition read_rule (lexer : bool) : reader (Z * Z) := READ s <- item; if lexer then READ k <- item; ret (s, k) else ret (s, 0).
(** readSets: the end of file would be the element -1; no set here has it *)
Definition read_set : reader (list (Z * Z)) :=
  READ n <- item; READ eof <- item; if negb (eof =? 0) then fail else times (Z.to_nat n) (READ a <- item; READ b <- item; ret (a, b)).
Definition read_edge (sets : list (list (Z * Z))) : reader (Z * trans) :=
  READ src <- item; READ trg <- item; READ t <- item; READ a <- item; READ b <- item; READ c <- item;
  if t =? 1 then ret (src, TEps trg)
  else if t =? 2 then (if c =? 0 then ret (src, TSet false [(a, b)] trg) else fail)
  else if t =? 3 then ret (src, TRule a b trg c)
  else if t =? 5 then ret (src, TSet false (if c =? 0 then [(a, a)] else [(-1, -1)]) trg)
  else if t =? 6 then ret (src, TAction a b trg)
  else if t =? 7 then ret (src, TSet false (nth (Z.to_nat a) sets []) trg)
  else if t =? 8 then ret (src, TSet true (nth (Z.to_nat a) sets []) trg)
  else if t =? 9 then ret (src, TSet true [] trg)
  else if t =? 10 then ret (src, TPrec a trg)
  else fail.
(** srcState.AddTransition *)
Fixpoint add_trans (i : nat) (t : trans) (l : list node) : list node :=
  match l, i with
  | [], _ => []
  | n :: r, O => Node (n_type n) (n_rule n) (n_nongreedy n) (n_trans n ++ [t]) :: r
  | n :: r, S i' => n :: add_trans i' t r
  end.
Fixpoint nodes_of (i : Z) (sts : list (Z * Z)) (ng : list Z) : list node :=
  match sts with [] => [] | (t, r) :: l => Node t r (existsb (Z.eqb i) ng) [] :: nodes_of (i + 1) l ng end.
Definition read_atn : reader atn :=
  READ version <- item; if negb (version =? 4) then fail else
  READ kind <- item; READ _ <- item;                       (* grammar type, largest token type *)
  let lexer := kind =? 0 in
  READ sts <- counted read_state;
  READ ng <- counted item; READ _ <- counted item;         (* non-greedy states, precedence states *)
  READ rules <- counted (read_rule lexer);
  READ modes <- counted item;
  READ sets <- counted read_set;
  READ edges <- counted (read_edge sets);
  READ _ <- counted item;                                  (* decisions *)
  READ acts <- (if lexer then counted (READ a <- item; READ b <- item; READ c <- item; ret (a, b, c)) else ret []);
  ret (Atn lexer (fold_left (fun l e => add_trans (Z.to_nat (fst e)) (snd e) l) edges (nodes_of 0 sts ng)) rules modes acts).
Definition deserialize (l : list Z) : option atn := match read_atn l with Some (a, []) => Some a | _ => None end.

Definition no_atn : atn := Atn true [] [] [] [].
Definition lexer_atn : atn := Eval vm_compute in match deserialize lexer_atn_data with Some a => a | None => no_atn end.
Definition parser_atn : atn := Eval vm_compute in match deserialize parser_atn_data with Some a => a | None => no_atn end.
Lemma lexer_atn_is : deserialize lexer_atn_data = Some lexer_atn. Proof. vm_compute. reflexivity. Qed.
Lemma parser_atn_is : deserialize parser_atn_data = Some parser_atn. Proof. vm_compute. reflexivity. Qed.

Definition node_at (a : atn) (q : Z) : node := nth (Z.to_nat q) (a_nodes a) (Node 0 (-1) false []).
