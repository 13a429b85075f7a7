(** What JavaScript sees of the WebAssembly entry point: wasm/wasm.go with the conversions of Go's package syscall/js and its
    wasm_exec.js (not part of /repo; modelled from their documentation). *)
From Verif Require Import Str Schema Utf8 JsonSpec GoJson ParseKF ParseBytes Wasm.
Local Open Scope N_scope.

(** A JavaScript value given as argument.  A string is its UTF-16 code units; of a number, the characters of its decimal form. *)
Inductive js_arg := JString (u : list N) | JUndefined | JNull | JBoolean (b : bool) | JNumber (t : list N) | JSymbol | JObject | JFunction.

Definition high (c : N) : bool := (55296 <=? c) && (c <? 56320).
Definition low (c : N) : bool := (56320 <=? c) && (c <? 57344).
(** TextEncoder reads a string as a USVString: unpaired surrogates become U+FFFD. *)
Fixpoint decode16 (u : list N) : str :=
  match u with
  | [] => []
  | a :: r =>
    if high a then
      match r with
      | b :: r' => if low b then (65536 + (a - 55296) * 1024 + (b - 56320)) :: decode16 r' else 65533 :: decode16 r
      | [] => [65533]
      end
    else (if low a then 65533 else a) :: decode16 r
  end.
(** TextDecoder makes a string of valid UTF-8 (a byte order mark at the beginning, which none of the texts returned has, would go). *)
Definition encode16 (t : str) : list N :=
  concat (map (fun r => if r <? 65536 then [r] else [55296 + (r - 65536) / 1024; 56320 + (r - 65536) mod 1024]) t).
Definition units (bs : list N) : list N := encode16 (runes bs).

(** wasm.go 35: args[0].String() *)
Definition value_string (a : js_arg) : list N :=
  match a with
  | JString u => bytes_of (decode16 u)
  | JUndefined => lit "<undefined>"
  | JNull => lit "<null>"
  | JBoolean b => lit "<boolean: " ++ (if b then lit "true" else lit "false") ++ lit ">"
  | JNumber t => lit "<number: " ++ t ++ lit ">"
  | JSymbol => lit "<symbol>"
  | JObject => lit "<object>"
  | JFunction => lit "<function>"
  end.

(** The value returned: a string, or an object with "error" (perhaps undefined) and "json" (wasm.go 30-47). *)
Inductive js_out := OString (u : list N) | OObject (error : option (list N)) (json : list N).
Definition parse_kuneiform (bf : bool) (w : world) (args : list js_arg) : js_out :=
  match parse_wrapper bf w (map value_string args) with
  | JsText s => OString (units s)
  | JsResult e j => OObject (option_map units e) (units j)
  end.
