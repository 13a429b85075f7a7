(** The WebAssembly entry point: wasm/wasm.go.  A JavaScript argument is the byte string args[0].String() gives. *)
From Verif Require Import Str Schema Utf8 JsonSpec GoJson ParseKF ParseBytes.
Local Open Scope N_scope.

(** wasm.go 13-26, parse: the JSON, or the text of the error (then "" is returned with it).  ToJSON cannot fail; a nil schema is null. *)
Definition wasm_parse (bf : bool) (w : world) (input : list N) : sum (list N) (list N) :=
  let r := parse_bytes w input [] Default in
  if negb (no_error r) then inr (bytes_of (list_text (o_listener r)))
  else inl (match o_result r with Some s => to_json bf (NSchema s) | None => lit "null" end).

(** The value returned to JavaScript: a string, or an object with the entries "error" (perhaps absent) and "json". *)
Inductive js_value := JsText (s : list N) | JsResult (error : option (list N)) (json : list N).
(** wasm.go 30-47, parseWrapper *)
Definition parse_wrapper (bf : bool) (w : world) (args : list (list N)) : js_value :=
  match args with
  | [input] =>
    match wasm_parse bf w input with
    | inr e => JsResult (Some (lit "parsing failed: " ++ e ++ [10])) []
    | inl json => JsResult None json
    end
  | _ => JsText (lit "Invalid no of arguments passed")
  end.
