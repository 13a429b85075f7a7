(** path/filepath on Unix (Go standard library), as used by cmd/root.go 54-55, 78.  Paths are byte strings. *)
From Verif Require Import Str.
Local Open Scope N_scope.

Definition slash : N := 47.
Definition dot : N := 46.
(** The parts between slashes. *)
Fixpoint split_slash (s : list N) : list (list N) :=
  match s with
  | [] => [[]]
  | c :: r => if c =? slash then [] :: split_slash r
              else match split_slash r with p :: ps => (c :: p) :: ps | [] => [[c]] end
  end.
Fixpoint join_slash (l : list (list N)) : list N :=
  match l with [] => [] | [p] => p | p :: l' => p ++ slash :: join_slash l' end.

(** filepath.Clean, element by element: the stack is innermost first. *)
Definition clean_step (rooted : bool) (stack : list (list N)) (p : list N) : list (list N) :=
  if str_eqb p [] || str_eqb p [dot] then stack
  else if str_eqb p [dot; dot] then
    match stack with
    | q :: stack' => if str_eqb q [dot; dot] then p :: stack else stack'
    | [] => if rooted then [] else [p]
    end
  else p :: stack.
Definition is_rooted (s : list N) : bool := match s with c :: _ => c =? slash | [] => false end.
Definition elements (s : list N) : list (list N) := rev (fold_left (clean_step (is_rooted s)) (split_slash s) []).
Definition clean (s : list N) : list N :=
  if is_rooted s then slash :: join_slash (elements s)
  else match elements s with [] => [dot] | l => join_slash l end.
(** filepath.Join of two elements, the second not empty *)
Definition join (dir name : list N) : list N := clean (match dir with [] => name | _ => dir ++ slash :: name end).

(** filepath.Base *)
Fixpoint strip_slashes (s : list N) : list N :=   (* of the reversed path *)
  match s with c :: r => if c =? slash then strip_slashes r else s | [] => [] end.
Fixpoint until_slash (s : list N) : list N :=
  match s with c :: r => if c =? slash then [] else c :: until_slash r | [] => [] end.
Definition base (s : list N) : list N :=
  match s with
  | [] => [dot]
  | _ => match rev (until_slash (strip_slashes (rev s))) with [] => [slash] | b => b end
  end.
(** filepath.Ext: from the last dot of the last element *)
Fixpoint ext_rev (s acc : list N) : list N :=
  match s with
  | c :: r => if c =? slash then [] else if c =? dot then c :: acc else ext_rev r (c :: acc)
  | [] => []
  end.
Definition ext (s : list N) : list N := ext_rev (rev s) [].
