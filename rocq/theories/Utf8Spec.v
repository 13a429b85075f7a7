(** UTF-8 (RFC 3629): the bytes of a character and how any byte string is read. *)
From Verif Require Import Str.
Local Open Scope N_scope.

(** Unicode scalar values: code points that are not surrogates. *)
Definition scalar (r : N) : Prop := r < 55296 \/ 57344 <= r <= 1114111.
Definition byte (b : N) : Prop := b < 256.

(** The encoding of one scalar value. *)
Definition utf8 (r : N) : list N :=
  if r <? 128 then [r]
  else if r <? 2048 then [192 + r / 64; 128 + r mod 64]
  else if r <? 65536 then [224 + r / 4096; 128 + r / 64 mod 64; 128 + r mod 64]
  else [240 + r / 262144; 128 + r / 4096 mod 64; 128 + r / 64 mod 64; 128 + r mod 64].

(** Valid UTF-8: the encoding of some scalar values. *)
Definition valid_utf8 (bs : list N) : Prop := exists rs, Forall scalar rs /\ bs = concat (map utf8 rs).

(** How bytes are read: a complete encoding gives its character; a byte that starts none gives U+FFFD. *)
Inductive reads : list N -> str -> Prop :=
| rd_nil : reads [] []
| rd_char r bs rs : scalar r -> reads bs rs -> reads (utf8 r ++ bs) (r :: rs)
| rd_bad b bs rs : (forall r t, scalar r -> b :: bs <> utf8 r ++ t) -> reads bs rs -> reads (b :: bs) (65533 :: rs).
