(** A run of the command line program, step by step. *)
From Verif Require Import Str Schema Utf8 JsonSpec GoJson ParseKF ParseSpec Path FlagSpec Cli.
Local Open Scope N_scope.

(** The command line asks for the file [p] to be translated into directory [d]. *)
Definition asks (args : list (list N)) (p d : list N) : Prop :=
  exists ss, says args ss [p] /\ help_asked ss = false /\ version_asked ss = false /\ output_dir ss = d.
(** The input can be read. *)
Definition readable (o : os) (fs : files) (p data : list N) : Prop := os_read o p = None /\ fs (resolve o p) = Some data.
(** The JSON of the schema the input writes. *)
Definition translates (bf : bool) (w : world) (data json : list N) : Prop :=
  exists s, accepted w (runes data) s /\ json = to_json bf (NSchema (map_schema bytes_of s)).
(** The output file. *)
Definition out_file (p d : list N) : list N := join d (file_name p ++ lit ".json").
(** The steps up to the JSON. *)
Definition ready (bf : bool) (w : world) (o : os) (fs : files) (args : list (list N)) (p d json : list N) : Prop :=
  asks args p d /\ os_mkdir o d = None /\ exists data, readable o fs p data /\ translates bf w data json.

(** The exit code, by the first step that fails. *)
Inductive exits (bf : bool) (w : world) (o : os) (fs : files) (args : list (list N)) : N -> Prop :=
| ex_bad_flags : (forall ss rest, ~ says args ss rest) -> exits bf w o fs args 1
| ex_help ss rest : says args ss rest -> help_asked ss = true -> exits bf w o fs args 0
| ex_version ss rest : says args ss rest -> help_asked ss = false -> version_asked ss = true -> exits bf w o fs args 0
| ex_no_file ss rest : says args ss rest -> help_asked ss = false -> version_asked ss = false -> length rest <> 1%nat -> exits bf w o fs args 2
| ex_mkdir p d : asks args p d -> os_mkdir o d <> None -> exits bf w o fs args 3
| ex_read p d : asks args p d -> os_mkdir o d = None -> (forall data, ~ readable o fs p data) -> exits bf w o fs args 4
| ex_parse p d data : asks args p d -> os_mkdir o d = None -> readable o fs p data -> (forall json, ~ translates bf w data json) -> exits bf w o fs args 5
| ex_open p d json : ready bf w o fs args p d json -> os_open o (out_file p d) <> None -> exits bf w o fs args 7
| ex_close p d json : ready bf w o fs args p d json -> os_open o (out_file p d) = None -> os_close o <> None -> exits bf w o fs args 1
| ex_ok p d json : ready bf w o fs args p d json -> os_open o (out_file p d) = None -> os_close o = None -> exits bf w o fs args 0.

(** What is printed, without the end of line, when neither the flags are wrong nor help is asked (those texts are cobra's). *)
Inductive prints (version : list N) (bf : bool) (w : world) (o : os) (fs : files) (args : list (list N)) : list N -> Prop :=
| pr_version ss rest : says args ss rest -> help_asked ss = false -> version_asked ss = true -> prints version bf w o fs args version
| pr_no_file ss rest : says args ss rest -> help_asked ss = false -> version_asked ss = false -> length rest <> 1%nat ->
    prints version bf w o fs args (lit "Please provide a file to parse")
| pr_mkdir p d e : asks args p d -> os_mkdir o d = Some e -> prints version bf w o fs args e
| pr_read p d e : asks args p d -> os_mkdir o d = None -> os_read o p = Some e -> prints version bf w o fs args e
| pr_missing p d : asks args p d -> os_mkdir o d = None -> os_read o p = None -> fs (resolve o p) = None ->
    prints version bf w o fs args (lit "no such file or directory")
| pr_parse p d data : asks args p d -> os_mkdir o d = None -> readable o fs p data -> (forall json, ~ translates bf w data json) ->
    prints version bf w o fs args (bytes_of (list_text (o_listener (parse_kf w (runes data) [] Default))))
| pr_open p d json e : ready bf w o fs args p d json -> os_open o (out_file p d) = Some e -> prints version bf w o fs args e
| pr_close p d json e : ready bf w o fs args p d json -> os_open o (out_file p d) = None -> os_close o = Some e -> prints version bf w o fs args e
| pr_ok p d json : ready bf w o fs args p d json -> os_open o (out_file p d) = None -> os_close o = None ->
    prints version bf w o fs args (lit "Successfully parsed " ++ p ++ lit " to " ++ out_file p d).
