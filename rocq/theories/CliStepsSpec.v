(** Any number of runs of the command line program on the same files, in any order, one after the other or at the same time, each of
    which may be stopped at any moment. *)
From Verif Require Import Str Schema Utf8 JsonSpec GoJson ParseKF ParseSpec Path FlagSpec Cli CliSpec CliSteps.
Local Open Scope N_scope.

Definition system : Type := files * list process.
(** One of the runs makes a step. *)
Inductive moves (bf : bool) (w : world) : system -> system -> Prop :=
| moves_one fs fs' before p p' after : step bf w fs p = Some (fs', p') -> moves bf w (fs, before ++ p :: after) (fs', before ++ p' :: after).
(** Some steps later.  A run that makes no step has not begun, waits, or was killed. *)
Inductive later (bf : bool) (w : world) : system -> system -> Prop :=
| later_now s : later bf w s s
| later_step s s' s'' : later bf w s s' -> moves bf w s' s'' -> later bf w s s''.

(** Runs about to begin, with these command lines and these answers of the operating system;
    each run resolves paths from its own working directory. *)
Definition start (runs : list (os * list (list N))) : list process := map (fun r => Process (fst r) (snd r) Begun) runs.
(** File [k] is read, or written, by one of the runs. *)
Definition an_input (runs : list (os * list (list N))) (k : list N) : Prop := exists r p d, In r runs /\ asks (snd r) p d /\ k = resolve (fst r) p.
Definition an_output (runs : list (os * list (list N))) (k : list N) : Prop := exists r p d, In r runs /\ asks (snd r) p d /\ k = resolve (fst r) (out_file p d).
(** No run writes a file another, or it itself, reads. *)
Definition apart (runs : list (os * list (list N))) : Prop := forall k, an_input runs k -> ~ an_output runs k.
(** The runs that may write file [k] write this JSON. *)
Definition only_this_json (bf : bool) (w : world) (fs : files) (runs : list (os * list (list N))) (k json : list N) : Prop :=
  forall r p d j, In r runs -> ready bf w (fst r) fs (snd r) p d j -> resolve (fst r) (out_file p d) = k -> j = json.
(** The first [n] bytes of the JSON written over the file. *)
Definition written_over (n : nat) (json old : list N) : list N := firstn n json ++ skipn n old.
