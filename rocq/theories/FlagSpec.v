(** What a command line says: the settings it makes, in order, and its other arguments. *)
From Verif Require Import Str.
Local Open Scope N_scope.

Inductive setting := SetTrace (b : bool) | SetVersion (b : bool) | SetHelp (b : bool) | SetOutput (dir : list N).
Inductive truth : list N -> bool -> Prop :=
| tr_yes s : In s [lit "1"; lit "t"; lit "T"; lit "TRUE"; lit "true"; lit "True"] -> truth s true
| tr_no s : In s [lit "0"; lit "f"; lit "F"; lit "FALSE"; lit "false"; lit "False"] -> truth s false.
(** The switches, by name and by letter. *)
Inductive switch : list N -> N -> (bool -> setting) -> Prop :=
| sw_trace : switch (lit "trace") 116 SetTrace
| sw_version : switch (lit "version") 118 SetVersion
| sw_help : switch (lit "help") 104 SetHelp.

(** The letters of a short argument: text, arguments after it, settings, arguments left. *)
Definition valued (r : list N) : Prop := exists x v, r = lit "=" ++ x :: v.
Definition test_flag (r : list N) : Prop := exists s, r = lit "test." ++ s.
Inductive letters : list N -> list (list N) -> list setting -> list (list N) -> Prop :=
| le_end l : letters [] l [] l
| le_test s l : test_flag s -> letters s l [] l
| le_on n c f r l ss l' : switch n c f -> ~ test_flag (c :: r) -> ~ valued r -> letters r l ss l' -> letters (c :: r) l (f true :: ss) l'
| le_value n c f v b l : switch n c f -> truth v b -> letters (c :: lit "=" ++ v) l [f b] l
| le_output_eq x v l : letters (lit "o=" ++ x :: v) l [SetOutput (x :: v)] l
| le_output v l : v <> [] -> ~ valued v -> letters (lit "o" ++ v) l [SetOutput v] l
| le_output_next d l : letters (lit "o") (d :: l) [SetOutput d] l.

Definition not_a_flag (a : list N) : Prop := a = lit "-" \/ forall r, a <> lit "-" ++ r.
Inductive says : list (list N) -> list setting -> list (list N) -> Prop :=
| sy_end : says [] [] []
| sy_argument a l ss rest : not_a_flag a -> says l ss rest -> says (a :: l) ss (a :: rest)
| sy_stop l : says (lit "--" :: l) [] l
| sy_on n c f l ss rest : switch n c f -> says l ss rest -> says ((lit "--" ++ n) :: l) (f true :: ss) rest
| sy_value n c f v b l ss rest : switch n c f -> truth v b -> says l ss rest -> says ((lit "--" ++ n ++ lit "=" ++ v) :: l) (f b :: ss) rest
| sy_output_eq d l ss rest : says l ss rest -> says ((lit "--output=" ++ d) :: l) (SetOutput d :: ss) rest
| sy_output d l ss rest : says l ss rest -> says (lit "--output" :: d :: l) (SetOutput d :: ss) rest
| sy_letters c r l ss1 l' ss2 rest : c <> 45 -> letters (c :: r) l ss1 l' -> says l' ss2 rest -> says ((lit "-" ++ c :: r) :: l) (ss1 ++ ss2) rest.

(** The last setting counts. *)
Definition help_asked (ss : list setting) : bool := fold_left (fun b s => match s with SetHelp b' => b' | _ => b end) ss false.
Definition version_asked (ss : list setting) : bool := fold_left (fun b s => match s with SetVersion b' => b' | _ => b end) ss false.
Definition trace_asked (ss : list setting) : bool := fold_left (fun b s => match s with SetTrace b' => b' | _ => b end) ss false.
Definition output_dir (ss : list setting) : list N := fold_left (fun d s => match s with SetOutput d' => d' | _ => d end) ss (lit "./build").
