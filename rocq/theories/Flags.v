(** The command line: cmd/root.go 25-29, 91-102 and the parts of spf13/cobra v1.7.0 (Execute of a command without subcommands)
    and spf13/pflag v1.0.5 (FlagSet.parseArgs) it calls.  The two libraries are not in /repo; their documented behaviour is
    modelled.  Not modelled: a first argument __complete or __completeNoDesc (shell completion). *)
From Verif Require Import Str.
Local Open Scope N_scope.

(** root.go 25-29: the variables; and the storage of the flags "trace" (line 99: BoolP keeps its own) and "help" (cobra's). *)
Record vars := Vars { v_version : bool; v_trace : bool; v_output : list N; v_flag_trace : bool; v_flag_help : bool }.
Definition init_vars : vars := Vars false false (lit "./build") false false.

(** strconv.ParseBool *)
Definition parse_bool (s : list N) : option bool :=
  if mem_str s [lit "1"; lit "t"; lit "T"; lit "TRUE"; lit "true"; lit "True"] then Some true
  else if mem_str s [lit "0"; lit "f"; lit "F"; lit "FALSE"; lit "false"; lit "False"] then Some false
  else None.

(** The flags: root.go 99-101 and cobra's help. *)
Inductive flag := FTrace | FVersion | FOutput | FHelp.
Definition long_flag (n : list N) : option flag :=
  if str_eqb n (lit "trace") then Some FTrace else if str_eqb n (lit "version") then Some FVersion
  else if str_eqb n (lit "output") then Some FOutput else if str_eqb n (lit "help") then Some FHelp else None.
Definition short_flag (c : N) : option flag :=
  if c =? 116 then Some FTrace else if c =? 118 then Some FVersion
  else if c =? 111 then Some FOutput else if c =? 104 then Some FHelp else None.
(** NoOptDefVal: "true" for the boolean flags *)
Definition is_bool (f : flag) : bool := match f with FOutput => false | _ => true end.
(** FlagSet.Set; None: invalid argument *)
Definition set_flag (f : flag) (value : list N) (v : vars) : option vars :=
  match f with
  | FOutput => Some (Vars (v_version v) (v_trace v) value (v_flag_trace v) (v_flag_help v))
  | _ => match parse_bool value with
         | None => None
         | Some b => Some match f with
                          | FTrace => Vars (v_version v) (v_trace v) (v_output v) b (v_flag_help v)
                          | FVersion => Vars b (v_trace v) (v_output v) (v_flag_trace v) (v_flag_help v)
                          | _ => Vars (v_version v) (v_trace v) (v_output v) (v_flag_trace v) b
                          end
         end
  end.

(** SplitN(name, "=", 2) *)
Fixpoint split_eq (s : list N) : list N * option (list N) :=
  match s with
  | [] => ([], None)
  | c :: r => if c =? 61 then ([], Some r) else let (a, b) := split_eq r in (c :: a, b)
  end.
(** parseLongArg on --name: new variables and remaining arguments; None: an error *)
Definition long_arg (name : list N) (args : list (list N)) (v : vars) : option (vars * list (list N)) :=
  match name with
  | [] => None
  | c :: _ =>
    if (c =? 45) || (c =? 61) then None
    else let (n, val) := split_eq name in
         match long_flag n with
         | None => None
         | Some f =>
           match val with
           | Some x => option_map (fun v' => (v', args)) (set_flag f x v)
           | None => if is_bool f then option_map (fun v' => (v', args)) (set_flag f (lit "true") v)
                     else match args with [] => None | x :: args' => option_map (fun v' => (v', args')) (set_flag f x v) end
           end
         end
  end.
(** parseShortArg, parseSingleShortArg on the letters after "-" *)
Fixpoint short_args (fuel : nat) (s : list N) (args : list (list N)) (v : vars) : option (vars * list (list N)) :=
  match fuel, s with
  | O, _ | _, [] => Some (v, args)
  | S fuel', c :: r =>
    if str_eqb (firstn 5 s) (lit "test.") then Some (v, args)
    else match short_flag c with
         | None => None
         | Some f =>
           match r with
           | 61 :: x :: r' => option_map (fun v' => (v', args)) (set_flag f (x :: r') v)
           | _ =>
             if is_bool f then match set_flag f (lit "true") v with Some v' => short_args fuel' r args v' | None => None end
             else match r with
                  | _ :: _ => option_map (fun v' => (v', args)) (set_flag f r v)
                  | [] => match args with [] => None | x :: args' => option_map (fun v' => (v', args')) (set_flag f x v) end
                  end
           end
         end
  end.
(** parseArgs, flags and arguments mixed: variables and arguments; None: an error *)
Fixpoint parse_args (fuel : nat) (args : list (list N)) (v : vars) : option (vars * list (list N)) :=
  match fuel, args with
  | O, _ | _, [] => Some (v, [])
  | S fuel', s :: args' =>
    match s with
    | 45 :: 45 :: [] => Some (v, args')
    | 45 :: 45 :: name =>
      match long_arg name args' v with Some (v', args'') => parse_args fuel' args'' v' | None => None end
    | 45 :: c :: r =>
      match short_args (length s) (c :: r) args' v with Some (v', args'') => parse_args fuel' args'' v' | None => None end
    | _ => match parse_args fuel' args' v with Some (v', rest) => Some (v', s :: rest) | None => None end
    end
  end.
(** cobra: Execute.  A flag error is returned; help is shown; otherwise Run is called with the arguments. *)
Inductive command := FlagError | ShowHelp | Run (v : vars) (args : list (list N)).
Definition command_line (args : list (list N)) : command :=
  match parse_args (length args) args init_vars with
  | None => FlagError
  | Some (v, rest) => if v_flag_help v then ShowHelp else Run v rest
  end.
