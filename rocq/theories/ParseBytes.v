(** ParseKF on the byte strings Go programs pass (parser.go 15-24): the input stream converts to runes, GetText and the
    schema's strings convert back. *)
From Verif Require Import Utf8 JsonSpec GoJson ParseKF.

Definition parse_bytes (w : world) (input : list N) (l : listener) (m : mode) : outcome :=
  let o := parse_kf w (runes input) l m in
  Outcome (option_map (map_schema bytes_of) (o_result o)) (o_listener o).
