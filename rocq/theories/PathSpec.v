(** Where a path leads, and what its last element is called. *)
From Verif Require Import Str.
Local Open Scope N_scope.

(** The elements between the slashes. *)
Inductive parts : list N -> list (list N) -> Prop :=
| pa_one p : ~ In 47 p -> parts p [p]
| pa_more p q l : ~ In 47 p -> parts q l -> parts (p ++ lit "/" ++ q) (p :: l).
Definition rooted (p : list N) : Prop := exists r, p = lit "/" ++ r.

(** Walking through the elements, [u] directories up and then down the names [l] (symbolic links aside). *)
Inductive walk (from_root : Prop) : nat -> list (list N) -> list (list N) -> nat -> list (list N) -> Prop :=
| wk_end u l : walk from_root u l [] u l
| wk_stay p u l r u' l' : p = [] \/ p = lit "." -> walk from_root u l r u' l' -> walk from_root u l (p :: r) u' l'
| wk_up x u l r u' l' : walk from_root u l r u' l' -> walk from_root u (l ++ [x]) (lit ".." :: r) u' l'
| wk_top u r u' l' : from_root -> walk from_root u [] r u' l' -> walk from_root u [] (lit ".." :: r) u' l'
| wk_above u r u' l' : ~ from_root -> walk from_root (S u) [] r u' l' -> walk from_root u [] (lit ".." :: r) u' l'
| wk_down p u l r u' l' : p <> [] -> p <> lit "." -> p <> lit ".." -> walk from_root u (l ++ [p]) r u' l' -> walk from_root u l (p :: r) u' l'.
Definition leads (p : list N) (from_root : Prop) (u : nat) (l : list (list N)) : Prop :=
  (from_root <-> rooted p) /\ exists ps, parts p ps /\ walk (rooted p) 0 [] ps u l.

(** The last element of a path, slashes at the end aside. *)
Definition last_element (p b : list N) : Prop :=
  b <> [] /\ ~ In 47 b /\ exists d sl, p = d ++ b ++ sl /\ Forall (fun c => c = 47) sl /\ (d = [] \/ exists d', d = d' ++ lit "/").
(** Its name without extension: all before the last dot. *)
Definition stem (b n : list N) : Prop := (~ In 46 b /\ n = b) \/ exists e, b = n ++ lit "." ++ e /\ ~ In 46 e.
