(** Writing annotations (specification of C66). *)
From Verif Require Import Tokens LexSpec Schema AnnotSpec.
Local Open Scope N_scope.

(** target(name=value,...) *)
Fixpoint attr_list (l : list (str * str)) : str :=
  match l with [] => [] | [(n, v)] => n ++ lit "=" ++ v | (n, v) :: l => n ++ lit "=" ++ v ++ lit "," ++ attr_list l end.
Definition annotation_text (target : str) (l : list (str * str)) : str := target ++ lit "(" ++ attr_list l ++ lit ")".

(** With white space and commas before, between (at least one) and behind the attributes, and white space around the '='. *)
Definition between (s : str) : Prop := Forall (fun c => In c [32; 9; 10; 12; 13; 44]) s.
Inductive spread : list (str * str) -> str -> Prop :=
| spread_nil g : between g -> spread [] g
| spread_cons g n s1 s2 v l rest : between g -> spaces s1 -> spaces s2 -> spread l rest -> (rest = [] \/ exists c r, rest = c :: r /\ between [c]) ->
    spread ((n, v) :: l) (g ++ n ++ s1 ++ lit "=" ++ s2 ++ v ++ rest).
(** An attribute that can be written: the name a word, the value a number or a text in quotes. *)
Definition writable (nv : str * str) : Prop := word (fst nv) /\ simple_value (snd nv).
