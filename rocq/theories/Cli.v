(** The command line program: cmd/root.go, main.go. *)
From Verif Require Import Str Schema Utf8 JsonSpec GoJson ParseKF ParseBytes Path Flags.
Local Open Scope N_scope.

(** root.go 14-23 *)
Definition CodeOk := 0. Definition CodeFail := 1. Definition CodeNoInputFile := 2. Definition CodeErrMakeOutputDir := 3.
Definition CodeErrReadFile := 4. Definition CodeErrParseFile := 5. Definition CodeErrSerialize := 6. Definition CodeErrWriteFile := 7.

(** Contents of the regular files; which file a path names; and how the operating system answers in this run.  An error is its text.
    A failing write has written that many bytes. *)
Definition files := list N -> option (list N).
Record os := Os { resolve : list N -> list N;
                  os_mkdir : list N -> option (list N);
                  os_read : list N -> option (list N);
                  os_open : list N -> option (list N);
                  os_write : option (nat * list N);
                  os_close : option (list N) }.
Definition no_such_file : list N := lit "no such file or directory".
(** os.ReadFile *)
Definition read_file (o : os) (fs : files) (p : list N) : sum (list N) (list N) :=
  match os_read o p with
  | Some e => inr e
  | None => match fs (resolve o p) with Some c => inl c | None => inr no_such_file end
  end.
Definition set_file (fs : files) (k c : list N) : files := fun k' => if str_eqb k' k then Some c else fs k'.

(** root.go 104-122, writeToFile.  The file is created if missing and not truncated (105); writing starts at its beginning.  The
    deferred function replaces the returned error by that of Close (110-115); log.Fatal ends the program with code 1. *)
Inductive written := WOk | WErr (e : list N) | WFatal (e : list N).
Definition write_to_file (o : os) (fs : files) (data path : list N) : files * written :=
  match os_open o path with
  | Some e => (fs, WErr e)
  | None =>
    let old := match fs (resolve o path) with Some c => c | None => [] end in
    let n := match os_write o with Some (n, _) => Nat.min n (length data) | None => length data end in
    let fs' := set_file fs (resolve o path) (firstn n data ++ skipn n old) in
    match os_close o with
    | Some e => (fs', WFatal e)
    | None => (fs', WOk)
    end
  end.

(** root.go 54-55: the file name without its extension *)
Definition file_name (p : list N) : list N := let b := base p in firstn (length b - length (ext b)) b.
(** root.go 78 *)
Definition output_path (v : vars) (p : list N) : list N := join (v_output v) (file_name p ++ lit ".json").

(** What a run leaves: exit code, files, text printed (cobra's own help and usage texts left out), and the mode the parser ran in. *)
Record run := RunOf { r_code : N; r_files : files; r_out : list N; r_mode : option mode }.
Definition line (s : list N) : list N := s ++ [10].
(** root.go 37-87, the Run function *)
Definition run_command (version : list N) (bf : bool) (w : world) (o : os) (fs : files) (v : vars) (args : list (list N)) : run :=
  if v_version v then RunOf CodeOk fs (line version) None                                                    (* 38-41 *)
  else match args with
  | [p] =>
    match os_mkdir o (v_output v) with                                                                      (* 48-51 *)
    | Some e => RunOf CodeErrMakeOutputDir fs (line e) None
    | None =>
      match read_file o fs p with                                                                           (* 56-60 *)
      | inr e => RunOf CodeErrReadFile fs (line e) None
      | inl data =>
        let m := if v_trace v then Trace else Default in                                                    (* 62-65 *)
        let r := parse_bytes w data [] m in                                                                 (* 66 *)
        if negb (no_error r) then RunOf CodeErrParseFile fs (line (bytes_of (list_text (o_listener r)))) (Some m)
        else
          let json := match o_result r with Some s => to_json bf (NSchema s) | None => lit "null" end in    (* 72; cannot fail, a nil schema is null *)
          let out := output_path v p in
          match write_to_file o fs json out with                                                            (* 79-83 *)
          | (fs', WErr e) => RunOf CodeErrWriteFile fs' (line e) (Some m)
          | (fs', WFatal e) => RunOf CodeFail fs' (line e) (Some m)
          | (fs', WOk) => RunOf CodeOk fs' (line (lit "Successfully parsed " ++ p ++ lit " to " ++ out)) (Some m)
          end
      end
    end
  | _ => RunOf CodeNoInputFile fs (line (lit "Please provide a file to parse")) None                         (* 43-46 *)
  end.
(** root.go 91-96, main.go *)
Definition main (version : list N) (bf : bool) (w : world) (o : os) (fs : files) (args : list (list N)) : run :=
  match command_line args with
  | FlagError => RunOf CodeFail fs [] None
  | ShowHelp => RunOf CodeOk fs [] None
  | Run v rest => run_command version bf w o fs v rest
  end.
