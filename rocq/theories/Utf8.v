(** Go's conversion []rune(s) and string(runes) (unicode/utf8, standard library): antlr.NewInputStream (antlr4-go v4.13.0
    input_stream.go) turns the input of parser.go line 24 into runes with it, and GetText turns runes back. *)
From Verif Require Import Str Utf8Spec.
Local Open Scope N_scope.

Definition cont (lo hi b : N) : bool := (lo <=? b) && (b <=? hi).

(** utf8.DecodeRune: first-byte table and accept ranges; None is (RuneError, 1). *)
Definition decode1 (bs : list N) : option (N * list N) :=
  match bs with
  | [] => None
  | b0 :: r0 =>
    if b0 <? 128 then Some (b0, r0)
    else if cont 194 223 b0 then
      match r0 with
      | b1 :: r1 => if cont 128 191 b1 then Some (b0 mod 32 * 64 + b1 mod 64, r1) else None
      | _ => None
      end
    else if cont 224 239 b0 then
      let lo := if b0 =? 224 then 160 else 128 in
      let hi := if b0 =? 237 then 159 else 191 in
      match r0 with
      | b1 :: b2 :: r2 => if cont lo hi b1 && cont 128 191 b2 then Some (b0 mod 16 * 4096 + b1 mod 64 * 64 + b2 mod 64, r2) else None
      | _ => None
      end
    else if cont 240 244 b0 then
      let lo := if b0 =? 240 then 144 else 128 in
      let hi := if b0 =? 244 then 143 else 191 in
      match r0 with
      | b1 :: b2 :: b3 :: r3 =>
        if cont lo hi b1 && cont 128 191 b2 && cont 128 191 b3
        then Some (b0 mod 8 * 262144 + b1 mod 64 * 4096 + b2 mod 64 * 64 + b3 mod 64, r3) else None
      | _ => None
      end
    else None
  end.

(** []rune(s): an ill-formed byte becomes U+FFFD and one byte is skipped. *)
Fixpoint runes_fuel (fuel : nat) (bs : list N) : str :=
  match fuel, bs with
  | S f, b :: r => match decode1 bs with Some (c, r') => c :: runes_fuel f r' | None => 65533 :: runes_fuel f r end
  | _, _ => []
  end.
Definition runes (bs : list N) : str := runes_fuel (length bs) bs.

(** utf8.EncodeRune: surrogates and too large values are written as U+FFFD. *)
Definition encode1 (r : N) : list N :=
  if r <? 128 then [r]
  else if r <? 2048 then [192 + r / 64; 128 + r mod 64]
  else if (1114111 <? r) || ((55296 <=? r) && (r <=? 57343)) then [239; 191; 189]
  else if r <? 65536 then [224 + r / 4096; 128 + r / 64 mod 64; 128 + r mod 64]
  else [240 + r / 262144; 128 + r / 4096 mod 64; 128 + r / 64 mod 64; 128 + r mod 64].
(** string(runes) *)
Definition bytes_of (rs : str) : list N := concat (map encode1 rs).
