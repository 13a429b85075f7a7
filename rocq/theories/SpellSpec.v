(** Words that may be written in more than one way (specification of C68). *)
From Verif Require Import Tokens Schema Denote.

(** The ways to write what the token [x] says: foreign_key is fk and references is ref.  If [d], "do" may stand after on_update
    and on_delete or not, otherwise it stays as it is.  Every other token is written in one way only. *)
Definition spelled (d : bool) (x : tok) (ys : list tok) : Prop :=
  match ty x with
  | FOREIGN_KEY_ | FOREIGN_KEY_ABBR_ => ys = [fixed FOREIGN_KEY_] \/ ys = [fixed FOREIGN_KEY_ABBR_]
  | REFERENCES_ | REFERENCES_ABBR_ => ys = [fixed REFERENCES_] \/ ys = [fixed REFERENCES_ABBR_]
  | ACTION_ON_UPDATE_ | ACTION_ON_DELETE_ => ys = [x] \/ (d = true /\ ys = [x; fixed ACTION_DO_])
  | ACTION_DO_ => ys = if d then [] else [x]
  | _ => ys = [x]
  end.
(** The tokens [us], each of the tokens [ts] being written in any of its ways. *)
Inductive respelled (d : bool) : list tok -> list tok -> Prop :=
| rs_nil : respelled d [] []
| rs_cons x ys ts us : spelled d x ys -> respelled d ts us -> respelled d (x :: ts) (ys ++ us).
