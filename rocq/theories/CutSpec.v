(** A schema with whole declarations missing at the end. *)
From Verif Require Import Schema.
Definition begins {A} (a b : list A) : Prop := exists c, b = a ++ c.
(** [s'] is [s] without some of the last tables, actions and extensions; what is there is unchanged.  The init block counts as the last action wherever it stands. *)
Definition lacks_the_end (s' s : schema) : Prop :=
  sc_owner s' = sc_owner s /\ sc_name s' = sc_name s /\
  begins (elems (sc_tables s')) (elems (sc_tables s)) /\ begins (elems (sc_exts s')) (elems (sc_exts s)) /\
  (exists a b i j, elems (sc_actions s') = a ++ i /\ elems (sc_actions s) = a ++ b ++ i ++ j /\ (length (i ++ j) <= 1)%nat) /\
  (sc_exts s' = sc_exts s \/ (elems (sc_tables s') = [] /\ elems (sc_actions s') = [])).
