(** ParseKF once more (kfparser/parser.go 19-81), statement by statement, around the generic parse tree: [pt] is what p.Source_unit()
    gave, [None] if it or the lexer reported errors to the listener.  [mode] is the Mode value (visitor.go 14-20:
    Trace is the bit 1); the first component is what is printed. *)
From Verif Require Import Schema Validator ParseKF Tree TreeVisitor.
From Coq Require Import NArith.

Definition tracing (mode : N) : bool := N.testbit mode 1.
(** fmt.Println("E ", err), 57-59 *)
Definition final_line (l : listener) : str := lit "E  " ++ match l with [] => lit "<nil>" | l => list_text l end.
(** The deferred function 37-60, after the error [e] is known: it is added if not nil. *)
Definition deferred (mode : N) (lines : list str) (result : option schema) (l : listener) (e : option gerr) : list str * outcome :=
  let l := l ++ match e with Some e => [e] | None => [] end in
  (lines ++ (if tracing mode then [final_line l] else []), Outcome result l).
Definition parse_run (w : world) (input : str) (pt : option tree) (l : listener) (mode : N) : list str * outcome :=
  let l := match pt with None => l ++ map syntax_error (messages w input) | Some _ => l end in   (* 62, errors of lexer and parser *)
  match l, pt with
  | [], Some t =>
      match visit (tracing mode) source_unit (visit_source_unit (tracing mode)) (Some t) with    (* 69-72 *)
      | (lines, Panic p) => deferred mode lines None l (Some (panic_error p))
      | (lines, Err e) => deferred mode lines None l (Some e)
      | (lines, Ok s) =>
          match validate (w_ext w) s with                                                        (* 74-78 *)
          | Ok _ => deferred mode lines (Some s) l None
          | Err e => deferred mode lines (Some s) l (Some e)
          | Panic p => deferred mode lines (Some s) l (Some (panic_error p))
          end
      end
  | l, _ => deferred mode [] None l (Some ESelf)                                                 (* 64-67 *)
  end.
