(** UTF-16 (RFC 2781): the code units of a character and how any JavaScript string is read. *)
From Verif Require Import Str Utf8Spec.
Local Open Scope N_scope.

Definition unit16 (c : N) : Prop := c < 65536.
Definition utf16 (r : N) : list N := if r <? 65536 then [r] else [55296 + (r - 65536) / 1024; 56320 + (r - 65536) mod 1024].
(** A complete encoding gives its character; a unit that starts none (an unpaired surrogate) gives U+FFFD. *)
Inductive reads16 : list N -> str -> Prop :=
| rj_nil : reads16 [] []
| rj_char r u t : scalar r -> reads16 u t -> reads16 (utf16 r ++ u) (r :: t)
| rj_bad c u t : (forall r v, scalar r -> c :: u <> utf16 r ++ v) -> reads16 u t -> reads16 (c :: u) (65533 :: t).
