(** Regular expressions over code points, their languages and Brzozowski derivatives.
    Used to express the lexical rules of kfgrammar/kuneiform_lexer.go (serializedATN, lines 91-362). *)
From Verif Require Export Str.
Local Open Scope N_scope.

(** A character set of the ATN: SET/RANGE/ATOM transitions are [CIn], NOT_SET and WILDCARD are [CNot]
    (a wildcard is [CNot []]). *)
Inductive cset := CIn (rs : list (N * N)) | CNot (rs : list (N * N)).

Definition in_range (c : N) (r : N * N) : bool := (fst r <=? c) && (c <=? snd r).
Definition cmem (c : N) (cs : cset) : bool :=
  match cs with
  | CIn rs => existsb (in_range c) rs
  | CNot rs => negb (existsb (in_range c) rs)
  end.

Inductive re :=
| Emp | Eps
| Chr (cs : cset)
| Cat (a b : re)
| Alt (a b : re)
| Star (a : re).

(** Language of an expression. *)
Inductive matches : re -> str -> Prop :=
| m_eps : matches Eps []
| m_chr cs c : cmem c cs = true -> matches (Chr cs) [c]
| m_cat a b u v : matches a u -> matches b v -> matches (Cat a b) (u ++ v)
| m_altl a b u : matches a u -> matches (Alt a b) u
| m_altr a b u : matches b u -> matches (Alt a b) u
| m_star0 a : matches (Star a) []
| m_star1 a u v : matches a u -> matches (Star a) v -> matches (Star a) (u ++ v).

Fixpoint nullable (r : re) : bool :=
  match r with
  | Emp => false | Eps => true | Chr _ => false
  | Cat a b => nullable a && nullable b
  | Alt a b => nullable a || nullable b
  | Star _ => true
  end.

Definition is_emp (r : re) : bool := match r with Emp => true | _ => false end.

Definition cat (a b : re) : re :=
  match a, b with
  | Emp, _ => Emp
  | _, Emp => Emp
  | Eps, b => b
  | a, b => Cat a b
  end.

Definition alt (a b : re) : re :=
  match a, b with
  | Emp, b => b
  | a, Emp => a
  | a, b => Alt a b
  end.

Fixpoint deriv (c : N) (r : re) : re :=
  match r with
  | Emp => Emp | Eps => Emp
  | Chr cs => if cmem c cs then Eps else Emp
  | Cat a b =>
      let d := cat (deriv c a) b in
      if nullable a then alt d (deriv c b) else d
  | Alt a b => alt (deriv c a) (deriv c b)
  | Star a => cat (deriv c a) (Star a)
  end.

(** Abbreviations for writing rules. *)
Definition ch (c : N) : re := Chr (CIn [(c, c)]).
Fixpoint word (s : str) : re := match s with [] => Eps | c :: s' => cat (ch c) (word s') end.
Definition plus (r : re) : re := Cat r (Star r).
