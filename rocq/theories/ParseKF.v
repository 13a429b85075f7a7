(** kfparser/parser.go 15-81 and utils/error_listener.go: ParseKF, the error listener, and the errors it returns. *)
From Verif Require Export Lexer Parser Visitor Validator.

(** The text to a parse tree: lexer and p.Source_unit() (parser.go 24-35, 64).  [None]: at least one syntax error was
    reported to the listener. *)
Definition parse_tree (input : str) : option cunit :=
  match tokenize input with
  | Some ts => p_unit ts
  | None => None
  end.

(** What is outside this repository: the imported statement parsers, and the messages ("line 1:0 ...") the ANTLR
    runtime gives the listener for an invalid text: one or more. *)
Record world := World { w_ext : externals; w_msgs : str -> str * list str }.
Definition messages (w : world) (input : str) : list str := let (m, l) := w_msgs w input in m :: l.

(** error_listener.go 58-64: SyntaxError *)
Definition syntax_error (info : str) : gerr := wrap InvalidSyntax info.

(** The listener (error_listener.go 12-56; NewErrorListener 52-56 makes an empty one) is the list of its errors; ESelf is its own
    *ErrorList.  ReportAmbiguity, ReportAttemptingFullContext and ReportContextSensitivity (66-79) are empty.
    Err() is nil iff the list is empty, otherwise the list itself. *)
Definition listener := list gerr.

(** parser.go 38-48: the panic value becomes an error *)
Definition panic_error (p : panic) : gerr :=
  match p with PStr s => ENew s | PErr e => e | POther s => ENew (lit "unknown panic : " ++ s) end.

Inductive mode := Default | Trace.
Record outcome := Outcome { o_result : option schema; o_listener : listener }.

(** parser.go 19-81.  The deferred function (37-60) adds a non-nil error to the listener; the error returned is the
    listener's list, if not empty.  [errorListener = nil] is the empty fresh listener.  [m] only prints. *)
Definition parse_kf (w : world) (input : str) (l : listener) (m : mode) : outcome :=
  match parse_tree input with
  | None => Outcome None (l ++ map syntax_error (messages w input) ++ [ESelf])   (* 64-67 then 50-54 *)
  | Some u =>
    match l with
    | _ :: _ => Outcome None (l ++ [ESelf])                                       (* 65-67 then 50-54 *)
    | [] =>
      match v_unit u with                                                        (* 69-72 *)
      | Panic p => Outcome None [panic_error p]
      | Err e => Outcome None [e]
      | Ok s =>
        match validate (w_ext w) s with                                          (* 74-78 *)
        | Ok _ => Outcome (Some s) []
        | Err e => Outcome (Some s) [e]
        | Panic p => Outcome (Some s) [panic_error p]
        end
      end
    end
  end.
(** The returned error is nil. *)
Definition no_error (o : outcome) : bool := match o_listener o with [] => true | _ => false end.

(** Parse, parser.go 15-17 *)
Definition parse (w : world) (input : str) : outcome := parse_kf w input [] Default.

(** Go's %d of a length. *)
Fixpoint digits (fuel : nat) (n : nat) (acc : str) : str :=
  match fuel with
  | O => acc
  | S f => let acc := N.of_nat (48 + n mod 10) :: acc in if Nat.ltb n 10 then acc else digits f (n / 10) acc
  end.
Definition decimal (n : nat) : str := digits (S n) n [].

(** Error texts.  fmt.Errorf("%w: %s", e, d) is the text of e, ": " and d.  The text of the list itself inside the list
    is never asked for (error_listener.go 18-28 looks at the first element only); it is left empty here. *)
Fixpoint error_text (e : gerr) : str :=
  match e with
  | ESent s => sentinel_text s
  | EWrap e d => error_text e ++ lit ": " ++ d
  | ENew t => t
  | ESelf => []
  end.
(** error_listener.go 18-28: ErrorList.Error *)
Definition list_text (l : listener) : str :=
  match l with
  | [] => lit "no errors"
  | [e] => error_text e
  | e :: r => error_text e ++ lit " (with " ++ decimal (length r) ++ lit "+ errors)"
  end.

(** errors.Is(err, sentinel): err is the list; it is not the sentinel; Unwrap (error_listener.go 39-44) gives its first
    element; a wrapped error is followed (the standard library's errors.Is loop). *)
Fixpoint chain_is (e : gerr) (s : sentinel) : bool :=
  match e with
  | ESent s' => sentinel_eqb s' s
  | EWrap e' _ => chain_is e' s
  | ENew _ => false
  | ESelf => false
  end.
Definition err_is (l : listener) (s : sentinel) : bool := match l with [] => false | e :: _ => chain_is e s end.

(** A history of calls with one listener. *)
Fixpoint run (w : world) (calls : list (str * mode)) (l : listener) : listener :=
  match calls with
  | [] => l
  | (input, m) :: r => run w r (o_listener (parse_kf w input l m))
  end.
