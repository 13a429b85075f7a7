(** Commenting out (specification of C65). *)
From Verif Require Import Tokens LexSpec.
Local Open Scope N_scope.

(** In one block comment. *)
Definition blocked (d : str) : str := lit "/*" ++ d ++ lit "*/".
(** Two slashes in front of every line. *)
Fixpoint later_lines (d : str) : str :=
  match d with [] => [] | c :: r => if c =? 10 then c :: lit "//" ++ later_lines r else c :: later_lines r end.
Definition slashed (d : str) : str := lit "//" ++ later_lines d.
(** Every line ends with LF or CR LF: a CR stands in front of an LF or at the very end. *)
Definition whole_lines (d : str) : Prop := forall x y, d = x ++ 13 :: y -> y = [] \/ exists z, y = 10 :: z.
