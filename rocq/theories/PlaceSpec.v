(** Places in a text (specification of C49). *)
From Verif Require Import Str.
Local Open Scope N_scope.

(** [stands before l c]: what stands behind the text [before] is on line [l] (counted from 1) in column [c] (counted from 0):
    [l - 1] line feeds come before it, and [c] characters after the last of them. *)
Definition stands (before : str) (l c : nat) : Prop :=
  exists lines last, before = concat (map (fun x => x ++ [10]) lines) ++ last /\ Forall (fun x => ~ In 10 x) lines /\ ~ In 10 last /\ l = S (length lines) /\ c = length last.
