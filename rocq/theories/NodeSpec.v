(** Several schemas taken as one, for the properties of a validator that is used more than once. *)
From Verif Require Import Schema.

Definition together (h : list schema) : schema :=
  Schema [] [] (Some (flat_map (fun s => elems (sc_tables s)) h)) (Some (flat_map (fun s => elems (sc_actions s)) h))
    (Some (flat_map (fun s => elems (sc_exts s)) h)).
(** No name is declared by both. *)
Definition disjoint (a b : list str) : Prop := forall n, In n a -> In n b -> False.
