(** The command line program as a process among others on the same files, and what may be left when it is stopped: cmd/root.go. *)
From Verif Require Import Str Schema Utf8 JsonSpec GoJson ParseKF ParseBytes Path Flags Cli.
Local Open Scope N_scope.

(** Where a run is.  Reading the whole input counts as one moment (56), as does opening the output (105); the bytes of the JSON are
    written one by one (117). *)
Inductive place := Begun | Opening (out json : list N) | Writing (out json : list N) (n : nat) | Ended (code : N).
Record process := Process { p_os : os; p_args : list (list N); p_at : place }.

(** root.go 37-78, 91-96: up to the call of writeToFile *)
Definition before_write (bf : bool) (w : world) (o : os) (fs : files) (args : list (list N)) : place :=
  match command_line args with
  | FlagError => Ended CodeFail
  | ShowHelp => Ended CodeOk
  | Run v rest =>
    if v_version v then Ended CodeOk                                                                         (* 38-41 *)
    else match rest with
    | [p] =>
      match os_mkdir o (v_output v) with                                                                     (* 48-51 *)
      | Some _ => Ended CodeErrMakeOutputDir
      | None =>
        match read_file o fs p with                                                                          (* 56-60 *)
        | inr _ => Ended CodeErrReadFile
        | inl data =>
          let r := parse_bytes w data [] (if v_trace v then Trace else Default) in                           (* 62-66 *)
          if negb (no_error r) then Ended CodeErrParseFile                                                   (* 67-70 *)
          else Opening (output_path v p) match o_result r with Some s => to_json bf (NSchema s) | None => lit "null" end  (* 72-78 *)
        end
      end
    | _ => Ended CodeNoInputFile                                                                             (* 43-46 *)
    end
  end.

(** Byte number [n] of a file replaced, or added if the file ends there (117) *)
Definition put (c : list N) (n : nat) (b : N) : list N := firstn n c ++ b :: skipn (S n) c.
Definition content (fs : files) (k : list N) : list N := match fs k with Some c => c | None => [] end.
(** How many bytes the system lets the run write *)
Definition limit (o : os) (json : list N) : nat := match os_write o with Some (n, _) => Nat.min n (length json) | None => length json end.

(** One step of a run: it may change the files and moves on, or it has ended. *)
Definition step (bf : bool) (w : world) (fs : files) (p : process) : option (files * process) :=
  let o := p_os p in
  match p_at p with
  | Begun => Some (fs, Process o (p_args p) (before_write bf w o fs (p_args p)))
  | Opening out json =>                                                                                      (* 105-108; the file is not truncated *)
    match os_open o out with
    | Some _ => Some (fs, Process o (p_args p) (Ended CodeErrWriteFile))
    | None => Some (set_file fs (resolve o out) (content fs (resolve o out)), Process o (p_args p) (Writing out json 0))
    end
  | Writing out json n =>
    if (n <? limit o json)%nat
    then Some (set_file fs (resolve o out) (put (content fs (resolve o out)) n (nth n json 0)), Process o (p_args p) (Writing out json (S n)))  (* 117 *)
    else Some (fs, Process o (p_args p) (Ended match os_close o with Some _ => CodeFail | None => CodeOk end))                                 (* 110-115, 118-121 *)
  | Ended _ => None
  end.
